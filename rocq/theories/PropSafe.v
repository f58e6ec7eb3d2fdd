(** * Property C42: what an expanded template contains, and [TryFrom<Expanded>].
    Specification: SafeSpec.v, Rfc3986.v.  Model: MTemplate.v, MExpand.v. *)
From Verif Require Import Base Chars Rfc3986 Utf8 EncodeSpec MValidate MTrusted MFormat MTemplate MExpand TemplateSpec ExpandSpec SafeSpec PTmpl6.
Open Scope string_scope. Open Scope N_scope. Open Scope list_scope.

(** Whatever the values, everything that the expansion of an accepted template writes consists of characters
    of URIs (of IRIs for [IriSpec]) and well-formed triplets.  Also for what has been written when a value
    fails to be displayed or the expansion panics. *)
Theorem C42_characters : forall S debug ctx, (forall name, scalar_val (ctx name)) ->
  forall t, template_new t = Ok t -> toks (character_char S) (concat (fst (expanded_fmt S debug ctx t))).
Proof. exact expansion_safe. Qed.
Print Assumptions C42_characters.
(** The values of an expression without "+" and "#" cannot bring in any delimiter: only the separators of
    the operator, "," and "=" appear. *)
Theorem C42_expression : forall S debug ctx, (forall name, scalar_val (ctx name)) ->
  forall o rs t, t = template_text [Expr o rs] -> rs <> [] -> Forall crate_spec rs ->
  toks (may_contain S o) (concat (fst (expanded_fmt S debug ctx t))).
Proof. exact expression_safe. Qed.
Print Assumptions C42_expression.
(** Converting an expansion to a string type validates its text: it gives exactly the expanded text if the
    type accepts it, an error otherwise. *)
Theorem C42_try_from : forall S debug t ctx tmpl s, expand_to_string S debug ctx tmpl = Ok s ->
  (forall r, try_from_expanded S debug t ctx tmpl = Ok r <-> r = s /\ new S t s = Ok s) /\
  try_from_expanded S debug t ctx tmpl <> Panic.
Proof. exact try_from_ok. Qed.
Print Assumptions C42_try_from.

(** A value with delimiters, a control character and non-ASCII text, in two chunks, the second of which
    begins in the middle of a triplet; then the display fails.  (For "+" the truncated triplet is lost.) *)
Definition hostile : Value := VString ([lit "a/?#&%4"; [10; 233; 49]], Fail).
Example C42_hypotheses : (forall name : str, scalar_val ((fun _ => hostile) name)) /\ template_new (lit "{x}") = Ok (lit "{x}") /\
  concat (fst (expanded_fmt UriSpec true (fun _ => hostile) (lit "{x}"))) = lit "a%2F%3F%23%26%254%0A%C3%A91" /\
  concat (fst (expanded_fmt UriSpec true (fun _ => hostile) (lit "{+x}"))) = lit "a/?#&%0A%C3%A91".
Proof. split; [intros n; reflexivity|]. repeat split; vm_compute; reflexivity. Qed.
Example C42_expression_hypotheses : lit "{/x}" = template_text [Expr Slash [mkR (lit "x") NoMod]] /\ Forall crate_spec [mkR (lit "x") NoMod] /\
  may_contain UriSpec Slash 35 = false /\ may_contain UriSpec Slash 47 = true.
Proof.
  split; [reflexivity|]. split; [|split; vm_compute; reflexivity]. repeat constructor. cbn [r_name]. change (lit "x") with ([120] ++ []). exists [120], []. repeat split; [|constructor].
  left. exists 120. split; reflexivity.
Qed.
Example C42_try_from_example : let ctx := fun _ : str => VString (display (lit "a b")) in
  try_from_expanded UriSpec true TIri ctx (lit "x:{y}") = Ok (lit "x:a%20b") /\
  (exists e, try_from_expanded UriSpec true TIri ctx (lit "{y}") = Err e) /\ try_from_expanded UriSpec true TRelative ctx (lit "{y}") = Ok (lit "a%20b").
Proof. vm_compute. repeat split. eexists. reflexivity. Qed.
