(** What in an untrusted document can make reading it undefined. *)
From Coq Require Import List ZArith Ascii String Relations.
From Verif Require Import Json Types DatetimeSpec DenoteSpec SchemaGenSpec FragmentSpec.
Import ListNotations.

(** A value of a document: the document, an element or a member, or somewhere in those. *)
Inductive inside (j : json) : json -> Prop :=
| inside_here : inside j j
| inside_element : forall x l, In x l -> inside j x -> inside j (JArr l)
| inside_member : forall k x l, In (k, x) l -> inside j x -> inside j (JObj l).

(** A number of seconds that the system clock does not reach. *)
Definition off_clock (e : env) (sec : Z) : Prop := ~ (- 2 ^ 63 <= sec * tick e < 2 ^ 63)%Z.

(** Correct date-times and dates that the system clock does not reach. *)
Definition late_time (e : env) (s : string) : Prop :=
  exists sep y m d hh mi ss sec, (sep = "T"%char \/ sep = " "%char) /\ year_ok y /\
    text s = iso_text sep y m d hh mi ss /\ instant y m d hh mi ss sec /\ off_clock e sec.

Definition late_date (e : env) (s : string) : Prop :=
  exists y m d sec, year_ok y /\ text s = date_text y m d /\ instant y m d 0 0 0 sec /\ off_clock e sec.

(** A document of type [t] with such a text, if there are times or dates in [t]. *)
Definition late (e : env) (t : ty) (j : json) : Prop :=
  exists s, inside (JStr s) j /\ (reachable e TTime t /\ late_time e s \/ reachable e TDate t /\ late_date e s).

(** The target of a reference in a document is the text of a JSON pointer, plain or in the form
    for URIs, which starts with a number sign. *)
Definition good_target (x : json) : Prop := exists s ns, x = JStr s /\ refers (text s) ns.

(** Objects of different types are shared. *)
Definition mixed (e : env) (t : ty) : Prop :=
  exists u u', u <> u' /\ reachable e (TShared u) t /\ reachable e (TShared u') t.

(** There is a reference in the document, where [t] may share objects, that has no good
    target; or objects of different types may be shared. *)
Definition astray (e : env) (t : ty) (j : json) : Prop :=
  (exists u, reachable e (TShared u) t) /\
  exists l x, inside (JObj l) j /\ find_member l "$ref" = Some x /\ (~ good_target x \/ mixed e t).

(** Every second of the years 0000 to 9999 is on the clock. *)
Definition roomy_clock (e : env) : Prop := (0 < tick e <= 36000000)%Z.

(** The classes in [t] have members: the parser of a class without members does not compile. *)
Definition peopled (e : env) (t : ty) : Prop := forall c, reachable e (TClass c) t -> c_members (class_of e c) <> [].

(** No date and no time of a document of type [t] is late. *)
Definition timely (e : env) (t : ty) : Prop := roomy_clock e \/ ~ reachable e TTime t /\ ~ reachable e TDate t.

(** Types for which the functions compile, for the parts that are modelled. *)
Definition no_pointer (e : env) (t : ty) : Prop := forall u, ~ reachable e (TPtr u) t.
Definition no_variant (e : env) (t : ty) : Prop := forall ts, ~ reachable e (TVariant ts) t.
