(** * Proofs for C30, continued: the iterator of variables, one call at a time. *)
From Verif Require Import Base Chars Rfc3986 MTrusted MTemplate TemplateSpec IterSpec PTmpl1 PTmpl3 MExpand PExp7.

Lemma calls_answers debug n : forall it todo, upcoming it todo ->
  (Forall small_spec (firstn n todo) -> exists it', variable_calls n debug it =
     Ok (map Some (map r_name (firstn n todo)) ++ repeat None (n - length todo), it')) /\
  (~ Forall small_spec (firstn n todo) -> variable_calls n debug it = Panic).
Proof.
  induction n as [|n IH]; intros it todo U.
  - split; [intros _; exists it; reflexivity|]. intros H. exfalso. apply H. constructor.
  - pose proof (next_ok debug it todo U) as A. destruct todo as [|r todo]; cbn [answers] in A.
    + destruct A as (it' & E & U'). split; [|intros H; exfalso; apply H; constructor]. intros _.
      destruct (IH it' [] U') as [G _]. rewrite firstn_nil in G. destruct (G (Forall_nil _)) as (it2 & E2).
      exists it2. cbn [variable_calls]. rewrite E. cbn [bind]. rewrite E2. cbn [bind length]. rewrite !Nat.sub_0_r, firstn_nil. reflexivity.
    + cbn [firstn]. destruct (small_b r) eqn:Es.
      * destruct A as (it' & E & U'). apply small_b_iff in Es. destruct (IH it' todo U') as [G1 G2]. cbn [variable_calls]. rewrite E. cbn [bind]. split.
        -- intros H. inversion H; subst. destruct (G1 ltac:(assumption)) as (it2 & E2). exists it2. rewrite E2. reflexivity.
        -- intros H. rewrite G2; [reflexivity|]. intros G. apply H. now constructor.
      * cbn [variable_calls]. rewrite A. split; [|reflexivity]. intros H. inversion H; subst.
        assert (X : small_b r = true) by now apply small_b_iff. congruence.
Qed.
Lemma variable_history debug T n : Forall crate_part T ->
  (Forall small_spec (firstn n (flat_map varspecs T)) -> exists it, variable_calls n debug (variables (template_text T)) =
     Ok (map Some (firstn n (template_names T)) ++ repeat None (n - length (template_names T)), it)) /\
  (~ Forall small_spec (firstn n (flat_map varspecs T)) -> variable_calls n debug (variables (template_text T)) = Panic).
Proof.
  intros HT. assert (U : upcoming (variables (template_text T)) (template_specs T)).
  { exists T, []. repeat split; auto. }
  destruct (calls_answers debug n _ _ U) as [G1 G2]. rewrite names_specs, firstn_map, map_length. split; [exact G1|exact G2].
Qed.
Definition big_template : list part := [Lit (lit "a"); Expr Ques [mkR (lit "x") NoMod; mkR (lit "y") (Prefix (lit "70000"))]].
Lemma big_parts : Forall crate_part big_template.
Proof.
  constructor; [|constructor; [|constructor]].
  - change (lit "a") with ([97] ++ []). apply star_cons; [|apply star_nil]. left. exists 97. now split.
  - split; [discriminate|]. constructor; [split; [apply name_new; reflexivity|exact I]|].
    constructor; [split; [apply name_new; reflexivity|apply reps_digits; split; [cbn; lia|reflexivity]]|constructor].
Qed.
