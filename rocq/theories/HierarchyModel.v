(** Model of the persist functions of class hierarchies, and of the archives that they are called
    with: object_members.hpp, serialize_object.hpp, write_object.hpp, deserialize_object.hpp. *)
From Coq Require Import List Arith ZArith NArith Ascii String Bool.
From Verif Require Import Base Json PathModel Types SerializeModel Events WriteModel DeserializeModel SchemaModel.
Import ListNotations.

(** The rest of the body of a persist function that returns [auto], so a copy of an archive. The
    body works with one archive at a time, to begin with the parameter [ar].
    [Done]: return it;
    [Visit]: it & m, which gives the same archive;
    [Copy]: auto r = it;  (schema.hpp:611-616)
    [Base]: this->Base::persist(it), and go on with the archive returned;  (README.md:187-204)
    [Aside]: this->Base::persist(it); as a statement: the archive returned is discarded.
    [A] is what there is for each member. *)
Inductive persist (A : Type) : Type :=
| Done
| Visit (a : A) (rest : persist A)
| Copy (rest : persist A)
| Base (base rest : persist A)
| Aside (base rest : persist A).
Arguments Done {A}.
Arguments Visit {A} a rest.
Arguments Copy {A} rest.
Arguments Base {A} base rest.
Arguments Aside {A} base rest.

Fixpoint pmap {A B} (f : A -> B) (p : persist A) : persist B :=
  match p with
  | Done => Done
  | Visit a p => Visit (f a) (pmap f p)
  | Copy p => Copy (pmap f p)
  | Base b p => Base (pmap f b) (pmap f p)
  | Aside b p => Aside (pmap f b) (pmap f p)
  end.

(** return ar & m1 & ... & mn; *)
Definition Own {A} (ms : list A) : persist A := fold_right Visit Done ms.
(** return this->Base::persist(ar) & m1 & ... & mn; *)
Definition After {A} (base : persist A) (ms : list A) : persist A := Base base (Own ms).
(** auto r = ar & m1 & ... & mn; return this->Base::persist(r); *)
Definition Before {A} (ms : list A) (base : persist A) : persist A := fold_right Visit (Copy (Base base Done)) ms.

(** * Archives with a result flag

    Archives refer to the object, to the document and to the context, together [W], and have a
    result flag each. [archives] are the flags of the archives made so far; [step] is operator&
    for one member; [X] are the ways not to return. *)
Section Archives.
Context {A W X : Type}.
Variable step : A -> bool -> W -> (bool * W) + X.

Definition flag_of (archives : list bool) (ar : nat) : bool := nth ar archives true.

Fixpoint set_flag (archives : list bool) (ar : nat) (flag : bool) : list bool :=
  match archives, ar with
  | [], _ => []
  | _ :: l, O => flag :: l
  | x :: l, S n => x :: set_flag l n flag
  end.

(** A copy of the archive, which is a new one. *)
Definition copied (ar : nat) (archives : list bool) : nat * list bool := (List.length archives, archives ++ [flag_of archives ar]).

(** Calling the persist function with the archive [ar]; the first component is the archive
    returned. *)
Fixpoint persist_call (p : persist A) (ar : nat) (archives : list bool) (w : W) : (nat * list bool * W) + X :=
  match p with
  | Done => inl (copied ar archives, w)
  | Visit a p =>
    match step a (flag_of archives ar) w with
    | inl (flag, w) => persist_call p ar (set_flag archives ar flag) w
    | inr x => inr x
    end
  | Copy p => let (r, archives) := copied ar archives in persist_call p r archives w
  | Base b p =>
    match persist_call b ar archives w with
    | inl (r, archives, w) => persist_call p r archives w
    | inr x => inr x
    end
  | Aside b p =>
    match persist_call b ar archives w with
    | inl (_, archives, w) => persist_call p ar archives w
    | inr x => inr x
    end
  end.

(** The flag of the archive that the caller made, afterwards. *)
Definition persist_object (p : persist A) (w : W) : (bool * W) + X :=
  match persist_call p 0 [true] w with
  | inl (_, archives, w) => inl (flag_of archives 0, w)
  | inr x => inr x
  end.
End Archives.

(** * The archives of the library *)

(** serialize_object.hpp:20-72: the member with its value. *)
Definition serialize_step (ctx : list segment) (p : member * mfun json) (flag : bool) (w : wtable * list (string * json))
  : (bool * (wtable * list (string * json))) + unit :=
  let '(tab, l) := w in
  match to_write (fst p) (snd p) with
  | None => inr tt
  | Some None => inl (flag, w)
  | Some (Some g) =>
    if flag then
      match g (name_segment (list_ascii_of_string (m_name (fst p))) :: ctx) tab with
      | SUndef => inr tt
      | SFail tab => inl (flag, (tab, l))
      | SOk tab j => inl (flag, (tab, l ++ [(m_name (fst p), j)]))
      end
    else inl (flag, w)
  end.

(** serialize_object.hpp:106-113 *)
Definition serialize_object (p : persist (member * mfun json)) (ctx : list segment) (tab : wtable) : sres json :=
  match persist_object (serialize_step ctx) p (tab, []) with
  | inl (true, (tab, l)) => SOk tab (JObj l)
  | inl (false, (tab, _)) => SFail tab
  | inr _ => SUndef
  end.

(** write_object.hpp:20-69 *)
Definition write_step (ctx : list segment) (p : member * wmfun) (flag : bool) (w : wtable * list event)
  : (bool * (wtable * list event)) + unit :=
  let '(tab, evs) := w in
  match wr_to_write (fst p) (snd p) with
  | None => inr tt
  | Some None => inl (flag, w)
  | Some (Some g) =>
    if flag then
      match g (name_segment (list_ascii_of_string (m_name (fst p))) :: ctx) tab with
      | WUndef => inr tt
      | WRet ok tab evs' => inl (ok, (tab, evs ++ EKey (m_name (fst p)) :: evs'))
      end
    else inl (flag, w)
  end.

(** write_object.hpp:103-114 *)
Definition write_object (p : persist (member * wmfun)) (ctx : list segment) (tab : wtable) : wres :=
  match persist_object (write_step ctx) p (tab, [EStartObject]) with
  | inl (true, (tab, evs)) => WRet true tab (evs ++ [EEndObject])
  | inl (false, (tab, evs)) => WRet false tab evs
  | inr _ => WUndef
  end.

(** deserialize_object.hpp:31-82: the member with its old value; the new values are collected. *)
Definition deserialize_step (e : env) (exc : bool) (fs : list (string * (bool -> ty -> reader))) (ctx : list segment) (loc : list nat)
  (p : member * val) (flag : bool) (w : dstate * list val) : (bool * (dstate * list val)) + dres :=
  match read_member e exc fs (fst p) flag (snd p) ctx loc (fst w) with
  | DRet ok st x => inl (ok, (st, snd w ++ [x]))
  | r => inr r
  end.

(** deserialize_object.hpp:122-131, for an object in the document. *)
Definition deserialize_object (e : env) (exc : bool) (fs : list (string * (bool -> ty -> reader))) (p : persist (member * val))
  (ctx : list segment) (loc : list nat) (st : dstate) : dres :=
  match persist_object (deserialize_step e exc fs ctx loc) p (st, []) with
  | inl (ok, (st, l)) => DRet ok st (VObj l)
  | inr r => r
  end.

(** * Archives at compile time: object_members.hpp:13-34 and 42-60. operator& returns a new
    archive, whose type has one member more. *)
Fixpoint builder_call {A} (p : persist A) (ar : list A) : list A :=
  match p with
  | Done => ar
  | Visit a p => builder_call p (ar ++ [a])
  | Copy p => builder_call p ar
  | Base b p => builder_call p (builder_call b ar)
  | Aside b p => builder_call p ar
  end.

Fixpoint counter_call {A} (p : persist A) (ar : nat) : nat :=
  match p with
  | Done => ar
  | Visit a p => counter_call p (ar + 1)
  | Copy p => counter_call p ar
  | Base b p => counter_call p (counter_call b ar)
  | Aside b p => counter_call p ar
  end.

(** object_members.hpp:67-79: class_traits *)
Definition member_types {A} (p : persist A) : list A := builder_call p [].
Definition member_count {A} (p : persist A) : nat := counter_call p 0.

(** * The archive that makes a schema: schema.hpp:418-451. There is no flag; the lists of
    properties and of required names are those of the schema. *)
Definition schema_step (f : ty -> definitions -> gres jschema) (m : member) (w : (list (string * jschema) * list string) * definitions)
  : gres (list (string * jschema) * list string) :=
  let '((properties, required), d) := w in
  match m_kind m with
  | MDefault => GInvalid
  | k => gbind (f (m_ty m) d) (fun s d => GOk (properties ++ [(m_name m, s)], match k with MOptional => required | _ => required ++ [m_name m] end) d)
  end.

Definition flagless {A W X} (step : A -> W -> W + X) (a : A) (flag : bool) (w : W) : (bool * W) + X :=
  match step a w with inl w => inl (flag, w) | inr x => inr x end.

Definition schema_object_step (f : ty -> definitions -> gres jschema) (m : member) (w : (list (string * jschema) * list string) * definitions)
  : ((list (string * jschema) * list string) * definitions) + bool :=
  match schema_step f m w with
  | GOk l d => inl (l, d)
  | GDeep => inr true
  | GInvalid => inr false
  end.

(** schema.hpp:453-466: the lists after the call. *)
Definition schema_visit (f : ty -> definitions -> gres jschema) (p : persist member) (d : definitions) : gres (list (string * jschema) * list string) :=
  match persist_object (flagless (schema_object_step f)) p (([], []), d) with
  | inl (_, (l, d)) => GOk l d
  | inr true => GDeep
  | inr false => GInvalid
  end.
