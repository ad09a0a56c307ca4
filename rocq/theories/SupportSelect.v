(** Selection of specializations computed by cases. *)
From Coq Require Import List Bool Arith String.
From Verif Require Import SupportModel.
Import ListNotations.
Local Open Scope list_scope.

Definition outputs (o : operation) : bool := match o with Serialize | Write => true | _ => false end.

(** What the specialization for a type asks for, without selection. *)
Definition pick (p : program) (o : operation) (t : cxx) : option (list need) :=
  match t with
  | Ty NullptrT [] | Ty StringT [] | Ty TimeT [] | Ty DateT [] => Some []
  | Ty (Arith a) [] =>
    match a, o with
    | (AWChar | AChar16 | AChar32 | ALongDouble), Schema => Some []
    | (AWChar | AChar16 | AChar32 | ALongDouble), _ => None
    | _, _ => Some []
    end
  | Ty ViewT [] => if outputs o then Some [] else None
  | Ty Bracket [Ty (Arith AChar) []; _] => if outputs o then Some [] else None
  | Ty ByteT [] | Ty (EnumT _) [] =>
    Some match o with
         | Serialize | Write => enum_output p t
         | Deserialize => enum_input p t
         | Parse => enum_parse p t
         | Schema => []
         end
  | Ty VectorT [Ty ByteT []] => Some []
  | Ty VectorT [Ty PairT [Ty (ViewT | StringT) []; u] as v] =>
    Some match o with
         | Serialize | Write => [Use u]
         | Deserialize | Parse => [Defaults v; Use v]
         | Schema => [Use v]
         end
  | Ty (VectorT | SetT) [u] =>
    Some match o with Deserialize | Parse => [Defaults u; Use u] | _ => [Use u] end
  | Ty ArrayT [u; _] =>
    Some match o with Deserialize => array_input p t | Parse => array_parse p t | _ => [Use u] end
  | Ty PairT [a; b] => Some [Use a; Use b]
  | Ty TupleT us => Some (map Use us)
  | Ty VariantT us =>
    match o with Parse => None | Deserialize => Some (variant_input p t) | _ => Some (map Use us) end
  | Ty (MapT | UMapT) [Ty StringT []; u] =>
    Some match o with Deserialize | Parse => [Defaults u; Use u] | _ => [Use u] end
  | Ty (MapT | UMapT) [Ty ViewT []; u] => if outputs o then Some [Use u] else None
  | Ty PtrT [u] => if outputs o then Some [Use u] else Some [Never]
  | Ty (UniqueT | SharedT) [u] =>
    Some match o with
         | Deserialize | Parse => [Defaults u; Use u]
         | Schema => [Use u; Contextual u]
         | _ => [Use u]
         end
  | Ty OptionalT [u] => match o with Parse => Some [Defaults u; Use u] | _ => None end
  | Ty (ClassT n) [] =>
    if persists (classes p n) then
      Some match o with
           | Serialize | Write => class_output p t
           | Deserialize => class_input p t
           | Parse => class_parse p t
           | Schema => class_schema p t
           end
    else None
  | _ => None
  end.

Definition asked (p : program) (o : operation) (t : cxx) : option (list need) :=
  match select p o t with Selected s => Some (body s p t) | _ => None end.

Ltac settle o := destruct o; unfold asked; lazy; (split; [reflexivity|discriminate]).
Ltac heads h := destruct h as [[]| | | | | | | | | | | | | | | | | | | | | | |].

Lemma asked_pick : forall p o t, asked p o t = pick p o t /\ select p o t <> Ambiguous.
Proof.
  intros p o [g us].
  destruct g as [a| | | | | | | | | | | | | | | | | | | | | | |]; try (destruct a).
  all: destruct us as [|[h1 l1] us]; [|destruct us as [|[h2 l2] us]; [|destruct us as [|[h3 l3] us]]].
  all: try settle o.
  - destruct p as [es cs]. destruct o; unfold asked; lazy; destruct (cs n) as [[] ms d c] eqn:E; (split; [lazy; rewrite ?E; reflexivity|discriminate]).
  - heads h1; destruct l1; settle o.
  - heads h1; destruct l1; settle o.
  - heads h1; destruct l1; settle o.
  - heads h1; try (destruct l1; settle o).
    destruct l1 as [|[k m] l1]; [settle o|]. destruct l1 as [|? l1]; [heads k; destruct m; settle o|].
    destruct l1; heads k; destruct m; settle o.
  - heads h1; try (destruct l1; settle o).
    destruct l1 as [|[k m] l1]; [settle o|]. destruct l1 as [|? l1]; [heads k; destruct m; settle o|].
    destruct l1; heads k; destruct m; settle o.
  - heads h1; try (destruct l1; settle o).
    destruct l1 as [|[k m] l1]; [settle o|]. destruct l1 as [|? l1]; [heads k; destruct m; settle o|].
    destruct l1; heads k; destruct m; settle o.
  - heads h1; destruct l1; settle o.
  - heads h1; destruct l1; settle o.
  - heads h1; destruct l1; settle o.
  - heads h1; destruct l1; settle o.
  - heads h1; destruct l1; settle o.
  - heads h1; destruct l1; settle o.
Qed.

(** The specialization takes a context. *)
Definition pick_context (p : program) (t : cxx) : bool :=
  match t with
  | Ty VectorT [Ty ByteT []] => false
  | Ty (VectorT | SetT | UniqueT | SharedT | PtrT) [_] => true
  | Ty (ArrayT | PairT) [_; _] => true
  | Ty (TupleT | VariantT) _ => true
  | Ty (MapT | UMapT) [Ty StringT []; _] => true
  | Ty (ClassT n) [] => persists (classes p n)
  | _ => false
  end.

Ltac settle_context := lazy; reflexivity.

Lemma met_context : forall p t, met p Schema (Contextual t) = pick_context p t.
Proof.
  intros p [g us].
  destruct g as [a| | | | | | | | | | | | | | | | | | | | | | |]; try (destruct a).
  all: destruct us as [|[h1 l1] us]; [|destruct us as [|[h2 l2] us]; [|destruct us as [|[h3 l3] us]]].
  all: try settle_context.
  - destruct p as [es cs]. lazy. destruct (cs n) as [[] ms d c]; reflexivity.
  - heads h1; destruct l1; settle_context.
  - heads h1; destruct l1; settle_context.
  - heads h1; destruct l1; settle_context.
  - heads h1; destruct l1; settle_context.
  - heads h1; destruct l1; settle_context.
  - heads h1; destruct l1; settle_context.
  - heads h1; destruct l1; settle_context.
  - heads h1; destruct l1; settle_context.
  - heads h1; destruct l1; settle_context.
Qed.
