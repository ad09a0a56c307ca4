(** References as JSON pointers (RFC 6901), plain or in a URI fragment. *)
From Coq Require Import List ZArith Ascii String.
From Verif Require Import TextSpec.
Import ListNotations.
Local Open Scope char_scope.

(** A name in a plain pointer: a tilde is ~0, a slash is ~1. *)
Inductive plain : list ascii -> list ascii -> Prop :=
| plain_end : plain [] []
| plain_tilde : forall s n, plain s n -> plain ("~" :: "0" :: s) ("~" :: n)
| plain_slash : forall s n, plain s n -> plain ("~" :: "1" :: s) ("/" :: n)
| plain_char : forall c s n, c <> "~" -> c <> "/" -> plain s n -> plain (c :: s) (c :: n).

(** A byte as a percent sign and two hexadecimal digits; several. *)
Definition percent (s : list ascii) (c : ascii) : Prop := exists h l a b, hex_value h a /\ hex_value l b /\ s = ["%"; h; l] /\ c = byte (16 * a + b).

Inductive percents : list ascii -> list ascii -> Prop :=
| percents_end : percents [] []
| percents_more : forall p c s b, percent p c -> percents s b -> percents (p ++ s) (c :: b).

(** The characters that need no percent sign: letters, digits, and four more. *)
Definition unreserved (c : ascii) : Prop :=
  (48 <= code c <= 57 \/ 65 <= code c <= 90 \/ 97 <= code c <= 122)%Z \/ In c ["-"; "."; "_"; "~"].

(** A character of Unicode. *)
Definition unicode (cp : Z) : Prop := (0 <= cp < 1114112 /\ ~ 55296 <= cp < 57344)%Z.

Definition tilde (s : list ascii) : Prop := s = ["~"] \/ percent s "~".

(** A name in a URI fragment: a tilde, also an encoded one, is followed by 0 or 1; other
    characters are encoded as the bytes of their UTF-8, or need not be. *)
Inductive encoded : list ascii -> list ascii -> Prop :=
| encoded_end : encoded [] []
| encoded_tilde : forall p s n, tilde p -> encoded s n -> encoded (p ++ "0" :: s) ("~" :: n)
| encoded_slash : forall p s n, tilde p -> encoded s n -> encoded (p ++ "1" :: s) ("/" :: n)
| encoded_plain : forall c s n, unreserved c -> c <> "~" -> encoded s n -> encoded (c :: s) (c :: n)
| encoded_percent : forall cp p s n, unicode cp -> utf8 cp <> ["~"] -> percents p (utf8 cp) -> encoded s n -> encoded (p ++ s) (utf8 cp ++ n).

(** Names after slashes. *)
Inductive steps (name : list ascii -> list ascii -> Prop) : list ascii -> list (list ascii) -> Prop :=
| steps_end : steps name [] []
| steps_more : forall s n r ns, name s n -> steps name r ns -> steps name ("/" :: s ++ r) (n :: ns).

(** The text of a reference and the names it has. *)
Inductive refers : list ascii -> list (list ascii) -> Prop :=
| refers_plain : forall s ns, steps plain s ns -> refers s ns
| refers_fragment : forall s ns, steps encoded s ns -> refers ("#" :: s) ns.
