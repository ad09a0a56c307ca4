(** References that are written in another form, and the values they lead to. *)
From Coq Require Import List ZArith NArith Ascii String Relations.
From Verif Require Import Json Types SchemaGenSpec TextSpec FragmentSpec.
Import ListNotations.

(** ** Documents with references in another form *)

(** The second document has the same references as the first, perhaps in another form; [name]
    is the name of the member that the value is. *)
Inductive respelled : string -> json -> json -> Prop :=
| respelled_same : forall name j, respelled name j j
| respelled_ref : forall s s' ns, refers (list_ascii_of_string s) ns -> refers (list_ascii_of_string s') ns -> respelled "$ref" (JStr s) (JStr s')
| respelled_array : forall name l l', Forall2 (respelled "") l l' -> respelled name (JArr l) (JArr l')
| respelled_object : forall name l l', Forall2 (fun p q => fst p = fst q /\ respelled (fst p) (snd p) (snd q)) l l' -> respelled name (JObj l) (JObj l').

(** Types that take strings. *)
Fixpoint textual (t : ty) : bool :=
  match t with
  | TString | TBytes | TTime | TDate | TEnumStr _ => true
  | TUnique u | TShared u => textual u
  | TVariant ts => existsb textual ts
  | _ => false
  end.

(** No member that is called $ref is read as a string. *)
Definition refs_only (e : env) (t : ty) : Prop :=
  (forall o u, reachable e (TMap o u) t -> textual u = false) /\
  (forall c m, reachable e (TClass c) t -> In m (c_members (class_of e c)) -> m_name m = "$ref"%string -> textual (m_ty m) = false).

(** ** Where a reference leads *)

(** The names of a reference, one after the other, from a value to another one at a place: an
    element of an array has its position in decimal for a name, and the first of the members
    of that name is taken. *)
Inductive arrives : json -> list (list ascii) -> list nat -> json -> Prop :=
| arrives_here : forall j, arrives j [] [] j
| arrives_element : forall l k x n ns place y, nth_error l k = Some x -> integer_part n -> digits_value 0 n = Z.of_nat k -> arrives x ns place y ->
    arrives (JArr l) (n :: ns) (k :: place) y
| arrives_member : forall before name x after ns place y, ~ In name (map fst before) -> arrives x ns place y ->
    arrives (JObj (before ++ (name, x) :: after)) (list_ascii_of_string name :: ns) (List.length before :: place) y.

(** No array has more than 429496729 elements. *)
Inductive handy : json -> Prop :=
| handy_array : forall l, (Z.of_nat (List.length l) <= 429496729)%Z -> Forall handy l -> handy (JArr l)
| handy_object : forall l, Forall (fun p => handy (snd p)) l -> handy (JObj l)
| handy_leaf : forall j, (forall l, j <> JArr l) -> (forall l, j <> JObj l) -> handy j.

(** ** References as RFC 6901 has them (section 6) *)

(** Without percent signs: every encoded byte by itself. *)
Inductive decoded : list ascii -> list ascii -> Prop :=
| decoded_end : decoded [] []
| decoded_byte : forall p c s d, percent p c -> decoded s d -> decoded (p ++ s) (c :: d)
| decoded_char : forall c s d, c <> "%"%char -> decoded s d -> decoded (c :: s) (c :: d).

(** First the percent signs, then the names. *)
Definition rfc_refers (s : list ascii) (ns : list (list ascii)) : Prop :=
  exists f d, s = "#"%char :: f /\ decoded f d /\ steps plain d ns.
