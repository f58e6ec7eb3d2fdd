(** * Independent specification: where a string stops being a template (C27).  The string is a template
    as far as [T], and the next thing is wrong in one of these ways.  Locations are byte positions. *)
From Verif Require Import Base Chars Rfc3986 Utf8 PctSpec EncodeSpec MTemplate TemplateSpec.

Inductive defect := BadCharacter | BadTriplet | NotClosed | BadExpression | FutureOperator.

(** A "%" that is not followed by two hexadecimal digits: [m] is 0 if fewer than two bytes follow, else it
    leads to the character that is no digit.  (Where the two bytes end inside a character, there is a panic
    instead.) *)
Definition bad_hex (r : str) (m : nat) : Prop :=
  ((blen r < 2)%nat /\ m = 0%nat) \/
  ((2 <= blen r)%nat /\ exists c t, r = c :: t /\ ~ cut r /\
    (HEXDIG c = false /\ m = 1%nat \/ HEXDIG c = true /\ exists d t', t = d :: t' /\ HEXDIG d = false /\ m = 2%nat)).

(** A varspec [v]: the name [a] ends at the first ":" or "*".  A bad max-length is located one byte after
    its place. *)
Definition bad_spec (v : str) (m : nat) : Prop :=
  exists a t, v = a ++ t /\ ~ In 58 a /\ ~ In 42 a /\ (t = [] \/ exists t', t = 58 :: t' \/ t = 42 :: t') /\
  (~ crate_varname a /\ m = 0%nat \/
   crate_varname a /\
   ((exists ds, t = 58 :: ds /\ (blen ds = 0 \/ 5 < blen ds)%nat /\ m = (blen a + 2)%nat) \/
    (exists x c y, t = 58 :: x ++ c :: y /\ (blen (x ++ c :: y) <= 5)%nat /\ forallb DIGIT x = true /\ DIGIT c = false /\
       m = (blen a + 2 + blen x)%nat) \/
    (exists t', t = 42 :: t' /\ t' <> [] /\ m = (blen a + 1)%nat))).

(** What is between the braces. *)
Definition ops := lit "+#./;?&".
Definition future_ops := lit "=,!@|".
Definition before (l : list rspec) : str := flat_map (fun r => rspec_text r ++ lit ",") l.
Definition bad_body (b : str) (k : defect) (m : nat) : Prop :=
  (b = [] /\ k = BadExpression /\ m = 0%nat) \/
  (exists c r, b = c :: r /\ In c future_ops /\ k = FutureOperator /\ m = 0%nat) \/
  (exists o l v t j, b = rop_text o ++ before l ++ v ++ t /\
     (o = Simple -> forall c r, b = c :: r -> ~ In c (ops ++ future_ops)) /\
     Forall crate_spec l /\ ~ In 44 v /\ (t = [] \/ exists t', t = 44 :: t') /\ bad_spec v j /\
     k = BadExpression /\ m = (blen (rop_text o ++ before l) + j)%nat).

Definition fault (e : str) (k : defect) (m : nat) : Prop :=
  (exists c r, e = c :: r /\ literal_ascii c = false /\ c <> 37 /\ c <> 123 /\ k = BadCharacter /\ m = 0%nat) \/
  (exists r, e = 37 :: r /\ bad_hex r m /\ k = BadTriplet) \/
  (exists r, e = 123 :: r /\ ~ In 125 r /\ k = NotClosed /\ m = 0%nat) \/
  (exists b r j, e = 123 :: b ++ 125 :: r /\ ~ In 125 b /\ bad_body b k j /\ m = (1 + j)%nat).

Definition template_fault (s : str) (k : defect) (n : nat) : Prop :=
  exists T e m, Forall crate_part T /\ s = template_text T ++ e /\ fault e k m /\ n = (blen (template_text T) + m)%nat.

(** The error kinds of the crate. *)
Definition kind (k : defect) : TErrorKind :=
  match k with
  | BadCharacter => InvalidCharacter | BadTriplet => InvalidPercentEncoding | NotClosed => ExpressionNotClosed
  | BadExpression => InvalidExpression | FutureOperator => UnsupportedOperator
  end.
