(** Types and documents of the theorems on schemas and reading. *)
From Coq Require Import List ZArith String Bool.
From Verif Require Import Base Float Json Types SchemaSpec.
Import ListNotations.

(** No times and no dates. *)
Fixpoint timeless (t : ty) : bool :=
  match t with
  | TTime | TDate => false
  | TVector u | TArray _ u | TSet u | TMap _ u | TUnique u | TShared u | TPtr u => timeless u
  | TPair a b => timeless a && timeless b
  | TTuple ts | TVariant ts => forallb timeless ts
  | _ => true
  end.

Definition timeless_classes (e : env) : Prop := forall c m, In m (c_members (class_of e c)) -> timeless (m_ty m) = true.

(** Whole numbers are written without fraction and exponent: 1, not 1.0. *)
Fixpoint whole_as_integers (j : json) : bool :=
  match j with
  | JDbl f => match number (JDbl f) with Some a => negb (integral a) | None => true end
  | JArr l => forallb whole_as_integers l
  | JObj l => forallb (fun p => whole_as_integers (snd p)) l
  | _ => true
  end.
