(** * Property C54: the values of the variables cannot change the components of the IRI with which a template
    begins.  Specification: ShapeSpec.v, CompSpec.v.  Model: MTemplate.v, MExpand.v. *)
From Verif Require Import Base Chars Rfc3986 Utf8 CompSpec RfcResolve NormSpec EncodeSpec MValidate MTrusted MFormat MTemplate MExpand TemplateSpec ExpandSpec SafeSpec ShapeSpec PShape.
Open Scope string_scope. Open Scope N_scope. Open Scope list_scope.

(** A template that begins with an IRI that has a fragment, a query, a path after its authority or a path of at
    least two characters, followed by literals and expressions without "+" and "#".  Whatever the values, the
    expansion is an IRI; scheme and authority are those of the literal, and what the values add stays in the
    last component (or, if that is the path, a query begins with the "?" of the template, and only there). *)
Theorem C54_values : forall S debug ctx base C T out,
  (forall name, scalar_val (ctx name)) -> reads S base C -> RfcResolve.defined (c_s C) = true ->
  c_f C <> None \/ c_q C <> None \/ (c_a C <> None /\ c_p C <> []) \/ (2 <= length (c_p C))%nat ->
  Forall crate_part (Lit base :: T) -> Forall (inner S) T ->
  expand_to_string S debug ctx (template_text (Lit base :: T)) = Ok out ->
  exists t, expand_to_string S debug ctx (template_text T) = Ok t /\ out = base ++ t /\ new S TIri out = Ok out /\ reads S out (extend C t) /\
    (Forall no_question T -> c_q (extend C t) = c_q C \/ c_f C = None /\ c_q C <> None).
Proof. exact values_confined. Qed.
Print Assumptions C54_values.
(** For all other IRIs the condition is on the text that follows, and is exact. *)
Theorem C54_exact : forall S debug ctx, (forall name, scalar_val (ctx name)) -> forall base C T out,
  reads S base C -> RfcResolve.defined (c_s C) = true -> Forall crate_part (Lit base :: T) -> Forall (inner S) T ->
  expand_to_string S debug ctx (template_text (Lit base :: T)) = Ok out ->
  exists t, expand_to_string S debug ctx (template_text T) = Ok t /\ out = base ++ t /\
    (reads S out (extend C t) <-> attaches C t) /\ (attaches C t -> new S TIri out = Ok out) /\ (Forall no_question T -> ~ In 63 t).
Proof. exact shape. Qed.
Print Assumptions C54_exact.

(** "http://h/{x}{?y}" with hostile values: *)
Definition hostile_ctx : Ctx := fun n =>
  if seqb n (lit "x") then VString (display (lit "//evil@h?q#f/../")) else VString (display (lit "a&b=#" ++ [233])).
Example C54_ex :
  let base := lit "http://h/" in let T := [Expr Simple [mkR (lit "x") NoMod]; Expr Ques [mkR (lit "y") NoMod]] in
  Forall crate_part (Lit base :: T) /\ Forall (inner UriSpec) T /\ (forall name, scalar_val (hostile_ctx name)) /\
  new UriSpec TIri base = Ok base /\
  expand_to_string UriSpec true hostile_ctx (template_text (Lit base :: T)) =
    Ok (lit "http://h/%2F%2Fevil%40h%3Fq%23f%2F..%2F?y=a%26b%3D%23%C3%A9") /\
  extend (mkC (Some (lit "http")) (Some (lit "h")) (lit "/") None None) (lit "%2F%2Fevil?y=a") =
    mkC (Some (lit "http")) (Some (lit "h")) (lit "/%2F%2Fevil") (Some (lit "y=a")) None.
Proof.
  cbn zeta. split; [|split; [|split; [|vm_compute; auto]]].
  - assert (S1 : forall c, In c (lit "http:/") -> crate_literals [c]).
    { intros c H. left. exists c. split; [reflexivity|]. cbn in H. repeat destruct H as [<-|H]; try reflexivity. contradiction. }
    assert (V : forall c, In c (lit "xy") -> crate_varname [c]).
    { intros c H. exists [c], []. split; [reflexivity|]. split; [|constructor]. left. exists c. split; [reflexivity|].
      cbn in H. repeat destruct H as [<-|H]; try reflexivity. contradiction. }
    constructor; [|constructor; [|constructor; [|constructor]]]; cbn [crate_part].
    + change (lit "http://h/") with ([104] ++ [116] ++ [116] ++ [112] ++ [58] ++ [47] ++ [47] ++ [104] ++ [47] ++ []).
      repeat (apply star_cons; [apply S1; cbn; tauto|]). constructor.
    + split; [discriminate|]. constructor; [|constructor]. split; [apply V; cbn; tauto|exact I].
    + split; [discriminate|]. constructor; [|constructor]. split; [apply V; cbn; tauto|exact I].
  - constructor; [|constructor; [|constructor]]; cbn [inner]; split; discriminate.
  - intros name. unfold hostile_ctx. destruct (seqb name (lit "x")); vm_compute; reflexivity.
Qed.
(** With "http://h{x}" a value could change the host, with "urn:{/x}" an empty one could begin an authority. *)
Example C54_attaches :
  attaches (mkC (Some (lit "http")) (Some (lit "h")) [] None None) (lit "/a") /\
  ~ attaches (mkC (Some (lit "http")) (Some (lit "h")) [] None None) (lit ".evil") /\
  ~ attaches (mkC (Some (lit "urn")) None [] None None) (lit "//evil") /\
  attaches (mkC (Some (lit "urn")) None (lit "a:") None None) (lit "//evil").
Proof.
  unfold attaches; cbn [c_f c_q c_a c_p]. split; [intros _ _; right; left; reflexivity|]. split.
  - intros H. destruct (H eq_refl eq_refl) as [K|[K|K]]; discriminate K.
  - split; [|intros _ _; reflexivity]. intros H. specialize (H eq_refl eq_refl). discriminate H.
Qed.
