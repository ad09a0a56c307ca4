(** Reading a document when the object that it was made from has changed or is gone. *)
From Coq Require Import List ZArith NArith Ascii String Bool.
From Verif Require Import Base Float Json PathModel StorageModel.
Import ListNotations.

(** [reads now d j]: reading [d] gives [j] if the memory outside that held the text [s] holds
    [now s] meanwhile, of the same length. Local variables are gone: nothing is read then. *)
Inductive reads_text (now : string -> string) : storage * string -> string -> Prop :=
| reads_pool : forall s, reads_text now (Pool, s) s
| reads_constant : forall s, reads_text now (Constant, s) s
| reads_outside : forall s, reads_text now (Outside, s) (now s).

Inductive reads (now : string -> string) : stored -> json -> Prop :=
| reads_null : reads now SNull JNull
| reads_bool : forall b, reads now (SBool b) (JBool b)
| reads_int : forall z, reads now (SInt z) (JInt z)
| reads_dbl : forall f, reads now (SDbl f) (JDbl f)
| reads_str : forall at_ s s', reads_text now (at_, s) s' -> reads now (SStr at_ s) (JStr s')
| reads_arr : forall l l', Forall2 (reads now) l l' -> reads now (SArr l) (JArr l')
| reads_obj : forall l l', Forall2 (fun p q => reads_text now (fst p) (fst q) /\ reads now (snd p) (snd q)) l l' -> reads now (SObj l) (JObj l').

(** The same documents except for the texts of string values at certain places. [there ctx] says
    whether [ctx] is such a place, where [ctx] is the path that the library keeps, from the
    innermost segment: elements of a set have the path of the set. *)
Inductive but_texts (there : list segment -> Prop) : list segment -> json -> json -> Prop :=
| but_null : forall ctx, but_texts there ctx JNull JNull
| but_bool : forall ctx b, but_texts there ctx (JBool b) (JBool b)
| but_int : forall ctx z, but_texts there ctx (JInt z) (JInt z)
| but_dbl : forall ctx f, but_texts there ctx (JDbl f) (JDbl f)
| but_str : forall ctx s s', s = s' \/ there ctx -> but_texts there ctx (JStr s) (JStr s')
| but_arr : forall ctx l l', but_elements there ctx 0 l l' -> but_texts there ctx (JArr l) (JArr l')
| but_set : forall ctx l l', but_members there ctx l l' -> but_texts there ctx (JArr l) (JArr l')
| but_obj : forall ctx l l', but_entries there ctx l l' -> but_texts there ctx (JObj l) (JObj l')
with but_elements (there : list segment -> Prop) : list segment -> N -> list json -> list json -> Prop :=
| but_no_elements : forall ctx k, but_elements there ctx k [] []
| but_element : forall ctx k j j' l l', but_texts there (index_segment k :: ctx) j j' -> but_elements there ctx (k + 1) l l' -> but_elements there ctx k (j :: l) (j' :: l')
with but_members (there : list segment -> Prop) : list segment -> list json -> list json -> Prop :=
| but_no_members : forall ctx, but_members there ctx [] []
| but_member : forall ctx j j' l l', but_texts there ctx j j' -> but_members there ctx l l' -> but_members there ctx (j :: l) (j' :: l')
with but_entries (there : list segment -> Prop) : list segment -> list (string * json) -> list (string * json) -> Prop :=
| but_no_entries : forall ctx, but_entries there ctx [] []
| but_entry : forall ctx n j j' l l', but_texts there (name_segment (list_ascii_of_string n) :: ctx) j j' -> but_entries there ctx l l' ->
    but_entries there ctx ((n, j) :: l) ((n, j') :: l').
