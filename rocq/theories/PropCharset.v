(** * C70: characters that never occur in strings of the crate's types. *)
From Verif Require Import Base Chars Rfc3986 CompSpec RfcResolve NormSpec CharsetSpec MValidate MTrusted PNorm8 PCharset.
Open Scope string_scope. Open Scope N_scope. Open Scope list_scope.

(** No control character, white space, quotation mark, angle bracket, brace, backslash, ... occurs. *)
Theorem C70_never : forall S t i c, new S t i = Ok i -> never S c -> ~ In c i.
Proof. exact c70_never. Qed.
Print Assumptions C70_never.
(** The list is complete: any other character occurs in some string. *)
Theorem C70_complete : forall S c, ~ never S c -> exists t i, new S t i = Ok i /\ In c i.
Proof. exact c70_complete. Qed.
Print Assumptions C70_complete.
(** Every "%" begins a triplet. *)
Theorem C70_percent : forall S t i a b, new S t i = Ok i -> i = a ++ lit "%" ++ b -> exists u l r, b = u :: l :: r /\ HEXDIG u = true /\ HEXDIG l = true.
Proof. exact c70_percent. Qed.
Print Assumptions C70_percent.
(** There is at most one "#". *)
Theorem C70_hash : forall S t i a b, new S t i = Ok i -> i = a ++ lit "#" ++ b -> ~ In 35 a /\ ~ In 35 b.
Proof. exact c70_hash. Qed.
Print Assumptions C70_hash.
(** Brackets occur only around a host. *)
Theorem C70_brackets : forall S i C c, reads S i C -> c = 91 \/ c = 93 ->
  ~ In c (match c_s C with Some x => x | None => [] end) /\ ~ In c (c_p C) /\ ~ In c (match c_q C with Some x => x | None => [] end) /\ ~ In c (match c_f C with Some x => x | None => [] end) /\
  (forall u h o, c_a C = Some (authority_string u h o) -> opt_in (userinfo S) u -> host S h -> opt_in port o ->
     ~ In c (match u with Some x => x | None => [] end) /\ ~ In c (match o with Some x => x | None => [] end) /\ (In c h -> exists m, h = lit "[" ++ m ++ lit "]" /\ ~ In 91 m /\ ~ In 93 m)).
Proof. exact c70_brackets. Qed.
Print Assumptions C70_brackets.
(** Hence strings joined with such a character (such as a newline or a space, but not a comma) can be separated again. *)
Theorem C70_joined : forall S d l l' s, never S d -> Forall (fun x => exists t, new S t x = Ok x) l -> Forall (fun x => exists t, new S t x = Ok x) l' -> joined d l s -> joined d l' s -> l = l'.
Proof. exact c70_joined. Qed.
Print Assumptions C70_joined.

Example C70_never_applies : new IriSpec TIri (lit "http://[::1]/%41#f") = Ok (lit "http://[::1]/%41#f") /\ never IriSpec 62 /\ never IriSpec 10 /\ never UriSpec 160 /\ ~ never IriSpec 160 /\ ~ never UriSpec 44.
Proof.
  split; [vm_compute; reflexivity|]. unfold never, outside_ascii_rules, outside_unicode_rules. split; [left; right; left; vm_compute; tauto|]. split; [left; left; discriminate|]. split; [right; discriminate|].
  split; intros H; vm_compute in H; intuition discriminate.
Qed.
Example C70_joined_applies : joined 10 [lit "a:b"; []; lit "#c"] (lit "a:b" ++ 10 :: [] ++ 10 :: lit "#c") /\ Forall (fun x => exists t, new UriSpec t x = Ok x) [lit "a:b"; []; lit "#c"].
Proof.
  split; [repeat constructor|]. repeat (apply Forall_cons; [exists TReference; vm_compute; reflexivity|]). constructor.
Qed.
