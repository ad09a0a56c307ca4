(** Types that fit on a machine of 64 bits. *)
From Coq Require Import List Arith ZArith String.
From Verif Require Import NumericModel NumericSpec Types SchemaGenSpec.
Import ListNotations.

(** Integers have at most 64 bits; lengths are of type std::size_t. *)
Definition machine_size (t : ty) : Prop :=
  match t with
  | TInt k => (1 <= width k <= 64)%Z
  | TArray n _ => (Z.of_nat n < 2 ^ 64)%Z
  | TTuple ts => (Z.of_nat (List.length ts) < 2 ^ 64)%Z
  | _ => True
  end.

Definition machine_type (e : env) (t : ty) : Prop := forall u, reachable e u t -> machine_size u.

(** Variables of the types that schemas are made of have contents that such variables can have:
    numbers are in the range of their type, variants hold one of their alternatives. *)
Inductive fits (e : env) : ty -> val -> Prop :=
| fits_bool : forall b, fits e TBool (VBool b)
| fits_text : forall s, fits e TString (VStr s)
| fits_number : forall k z, in_range k z -> fits e (TInt k) (VInt z)
| fits_vector : forall u l, Forall (fits e u) l -> fits e (TVector u) (VList l)
| fits_dictionary : forall o u l, Forall (fun p => fits e u (snd p)) l -> fits e (TMap o u) (VMap l)
| fits_pair : forall a b x y, fits e a x -> fits e b y -> fits e (TPair a b) (VList [x; y])
| fits_owned : forall u x, fits e u x -> fits e (TUnique u) (VPtr x)
| fits_alternative : forall ts i u x, nth_error ts i = Some u -> fits e u x -> fits e (TVariant ts) (VVariant i x)
| fits_object : forall c l, Forall2 (fun m x =>
      (m_kind m <> MOptional -> fits e (m_ty m) x) /\
      (m_kind m = MOptional -> x = VNone \/ exists y, x = VSome y /\ fits e (m_ty m) y)) (c_members (class_of e c)) l ->
    fits e (TClass c) (VObj l).
