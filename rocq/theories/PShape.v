(** Proofs for C54: the values of a template cannot change the components of the IRI it begins with. *)
From Verif Require Import Base Chars Rfc3986 Utf8 CompSpec PctSpec RfcResolve NormSpec EncodeSpec MValidate MTrusted MFormat MTemplate MExpand TemplateSpec ExpandSpec SafeSpec ShapeSpec.
From Verif Require Import PBase PScan PTrusted PTypes PTmpl1 PTmpl2 PTmpl3 PTmpl5 PTmpl6 PPath2 PComps PAscii PNorm2 PNorm7.

Lemma open_row o : o <> Plus /\ o <> Hash <-> w_reserved (op_row o) = false.
Proof. destruct o; cbn; split; intuition congruence. Qed.
Lemma f_frag37 S : f_fragment S 37 = false. Proof. now destruct S. Qed.
Lemma toks_scan f s : f 37 = false -> toks f s -> scan f s = true.
Proof. intros H. apply (star_scan (cls f <|> pct_encoded)); [|exact H]. intros x. unfold alt, cls. tauto. Qed.
Lemma unres_fragment S c : unreserved S c = true -> f_fragment S c = true.
Proof. intros H. unfold f_fragment, f_pchar. now rewrite H. Qed.
Lemma may_fragment S o c : w_reserved (op_row o) = false -> may_contain S o c = true -> f_fragment S c = true.
Proof.
  intros W. unfold may_contain. rewrite W. intros H. apply orb_prop in H as [H|H]; [now apply unres_fragment|].
  apply existsb_exists in H as (x & Hx & E). apply N.eqb_eq in E as <-.
  assert (F : forallb (f_fragment S) (w_first (op_row o) ++ w_sep (op_row o) ++ lit ",=") = true) by (destruct S, o; try discriminate W; reflexivity).
  rewrite forallb_forall in F. now apply F.
Qed.
Lemma may_question S o : o <> Plus /\ o <> Hash -> o <> Ques -> may_contain S o 63 = false.
Proof. intros [H1 H2] H3. destruct S, o; try contradiction; reflexivity. Qed.
Definition not63 (f : N -> bool) (c : N) : bool := f c && negb (c =? 63).

Section Sh.
Variables (S : Spec) (debug : bool) (ctx : Ctx).
Hypothesis Hctx : forall name, scalar_val (ctx name).
Lemma part_scan p out : crate_part p -> inner S p -> part_out S debug ctx p = Ok out ->
  scan (f_fragment S) out = true /\ (no_question p -> scan (not63 (f_fragment S)) out = true).
Proof using Hctx.
  destruct p as [s|o rs]; cbn [inner part_out no_question].
  - intros _ H [= <-]. apply fragment_scan in H. split; [exact H|]. intros N. revert s H N.
    apply (scan_ind (fun s => scan (f_fragment S) s = true -> ~ In 63 s -> scan (not63 (f_fragment S)) s = true)).
    + reflexivity.
    + intros c s Hc IH H N. rewrite scan_cons in * by exact Hc. apply andb_prop in H as [H1 H2]. rewrite IH by (auto; intros X; apply N; now right).
      unfold not63. rewrite H1. destruct (N.eqb_spec c 63) as [->|]; [exfalso; apply N; now left|reflexivity].
    + intros u l s IH H N. rewrite scan_pct in *. apply andb_prop in H as [H1 H2]. rewrite H1. cbn [andb]. apply IH; [exact H2|]. intros X. apply N. now do 3 right.
    + discriminate.
    + intros u H. rewrite scan_pct1 in H. discriminate.
  - intros [Hn F] O T. pose proof (expr_em S debug ctx Hctx o rs Hn F) as E. apply emits_text in E.
    unfold text in T. destruct (snd (expand_expr S debug ctx (body_text o rs))); try discriminate. injection T as <-.
    pose proof (proj1 (open_row o) O) as W. split.
    + apply toks_scan; [apply f_frag37|]. eapply toks_mono; [|exact E]. intros c. now apply may_fragment.
    + intros N. apply toks_scan; [unfold not63; now rewrite f_frag37|]. eapply toks_mono; [|exact E]. intros c Hc. unfold not63.
      rewrite (may_fragment S o c W Hc). destruct (N.eqb_spec c 63) as [->|]; [|reflexivity]. rewrite (may_question S o O N) in Hc. discriminate.
Qed.
Lemma parts_scan T : Forall crate_part T -> Forall (inner S) T -> forall out, parts_out S debug ctx T = Ok out ->
  scan (f_fragment S) out = true /\ (Forall no_question T -> scan (not63 (f_fragment S)) out = true).
Proof using Hctx.
  induction 1 as [|p T Hp HT IH]; intros I out E; cbn [parts_out] in E; [injection E as <-; auto|].
  destruct (part_out S debug ctx p) as [a|[]|] eqn:Ea; cbn [bind] in E; [|discriminate].
  destruct (parts_out S debug ctx T) as [b|[]|] eqn:Eb; cbn [bind] in E; [|discriminate]. injection E as <-.
  inversion_clear I as [|? ? Ip IT]. destruct (part_scan p a Hp Ip Ea) as [A1 A2]. destruct (IH IT b eq_refl) as [B1 B2].
  split; [now apply scan_app_true|]. intros N. inversion_clear N. apply scan_app_true; auto.
Qed.
End Sh.

Lemma at_question_ok s : match at_question s with (a, None) => s = a /\ ~ In 63 s | (a, Some b) => s = a ++ 63 :: b /\ ~ In 63 a end.
Proof.
  induction s as [|c s IH]; cbn [at_question]; [auto|]. destruct (N.eqb_spec c 63) as [->|N]; [auto|].
  destruct (at_question s) as [a [b|]]; destruct IH as [-> H]; (split; [reflexivity|]); intros [X|X]; auto.
Qed.
Lemma tail_split S t : scan (f_fragment S) t = true -> scan (f_pchar_slash S) (fst (at_question t)) = true /\ opt_in (query S) (snd (at_question t)).
Proof.
  intros H. pose proof (at_question_ok t) as Q. destruct (at_question t) as [a q]. cbn [fst snd].
  assert (K : scan (f_fragment S) a = true /\ match q with Some b => scan (f_fragment S) b = true | None => True end).
  { destruct q as [b|]; destruct Q as [-> _]; [|auto]. rewrite scan_delim in H by (reflexivity || discriminate). apply andb_prop in H as [H1 H2]. apply andb_prop in H1 as [H1 _]. split; auto. }
  assert (N : ~ In 63 a) by (destruct q; destruct Q as [-> N]; exact N). destruct K as [K1 K2]. split.
  - clear Q H. revert a K1 N.
    apply (scan_ind (fun s => scan (f_fragment S) s = true -> ~ In 63 s -> scan (f_pchar_slash S) s = true)).
    + reflexivity.
    + intros c s Hc IH H N. rewrite scan_cons in * by exact Hc. apply andb_prop in H as [H1 H2]. rewrite IH by (auto; intros X; apply N; now right).
      unfold f_fragment in H1. unfold f_pchar_slash. rewrite Bool.andb_true_r. apply orb_prop in H1 as [H1|H1]; [exact H1|].
      apply N.eqb_eq in H1 as ->. exfalso. apply N. now left.
    + intros u l s IH H N. rewrite scan_pct in *. apply andb_prop in H as [H1 H2]. rewrite H1. cbn [andb]. apply IH; [exact H2|]. intros X. apply N. now do 3 right.
    + discriminate.
    + intros u H. rewrite scan_pct1 in H. discriminate.
  - destruct q as [b|]; [|exact I]. apply query_scan. eapply scan_mono; [|exact K2]. intros c. unfold f_fragment, f_query. destruct (f_pchar S c), (c =? SLASH), (c =? QMARK), (iri_only S iprivate c); auto.
Qed.

Lemma starts1 c x r : starts_with [c] (x :: r) = true -> x = c.
Proof. unfold starts_with. cbn. destruct (N.eqb_spec c x); [auto|discriminate]. Qed.
Lemma extend_ok S base C t : reads S base C -> RfcResolve.defined (c_s C) = true -> scan (f_fragment S) t = true ->
  (reads S (base ++ t) (extend C t) <-> attaches C t) /\ base ++ t = recompose (c_s (extend C t)) (c_a (extend C t)) (c_p (extend C t)) (c_q (extend C t)) (c_f (extend C t)).
Proof.
  intros [Ok ->] D H. assert (Q : query S t).
  { apply query_scan. eapply scan_mono; [|exact H]. intros c. unfold f_fragment, f_query. destruct (f_pchar S c), (c =? SLASH), (c =? QMARK), (iri_only S iprivate c); auto. }
  pose proof (tail_split S t H) as [P1 P2]. pose proof (at_question_ok t) as AQ.
  destruct C as [s a p q f]. unfold comps_ok in Ok. cbn [c_s c_a c_p c_q c_f] in *. destruct Ok as (Os & Oa & Oq & Of & Op).
  unfold extend, attaches, reads, comps_ok. cbn [c_s c_a c_p c_q c_f].
  destruct f as [f|]; [|destruct q as [q|]].
  - cbn [c_s c_a c_p c_q c_f]. assert (E : recompose s a p q (Some f) ++ t = recompose s a p q (Some (f ++ t))) by (unfold recompose; rewrite <- !app_assoc; reflexivity).
    split; [|exact E]. split; [discriminate|]. intros _. split; [|exact E]. unfold components_ok. do 3 (split; [assumption|]). split; [|assumption].
    cbn [opt_in] in *. apply fragment_scan. apply fragment_scan in Of. now apply scan_app_true.
  - cbn [c_s c_a c_p c_q c_f]. assert (E : recompose s a p (Some q) None ++ t = recompose s a p (Some (q ++ t)) None) by (unfold recompose; rewrite <- !app_assoc, app_nil_r; reflexivity).
    split; [|exact E]. split; [discriminate|]. intros _. split; [|exact E]. unfold components_ok. do 2 (split; [assumption|]). split; [|split; assumption].
    cbn [opt_in] in *. apply query_scan. apply query_scan in Oq, Q. now apply scan_app_true.
  - destruct (at_question t) as [p' q'] eqn:Eq. cbn [fst snd] in P1, P2. cbn [c_s c_a c_p c_q c_f].
    assert (E : recompose s a p None None ++ t = recompose s a (p ++ p') q' None).
    { unfold recompose. rewrite !app_nil_r. rewrite <- !app_assoc. do 3 f_equal. destruct q' as [b|]; destruct AQ as [-> _]; [reflexivity|now rewrite app_nil_r]. }
    split; [|exact E]. destruct (path_ok_class S s a p Op) as [Cp Sp]. destruct s as [s|]; [|discriminate].
    assert (Cl : path_class S (p ++ p')) by (now apply scan_app_true).
    assert (T : t = p' ++ match q' with Some b => 63 :: b | None => [] end) by (destruct q'; destruct AQ as [-> _]; [reflexivity|now rewrite app_nil_r]).
    assert (N : ~ In 63 p') by (destruct q'; destruct AQ as [X Y]; subst; exact Y).
    unfold components_ok. destruct a as [a|].
    + split.
      * intros [(_ & _ & _ & _ & K) _] _ _. apply path_abempty_scan in K. rewrite T, app_assoc.
        destruct K as [->|(r & -> & _)]; [|right; left; reflexivity]. destruct q'; [right; right; reflexivity|left; reflexivity].
      * intros K. specialize (K eq_refl eq_refl). split; [|exact E]. do 4 (split; [assumption || exact I|]). apply abempty_intro; [exact Cl|].
        rewrite T, app_assoc in K. destruct (p ++ p') as [|c r] eqn:Epp; [now left|]. right. exists r. 
        destruct K as [K|[K|K]]; [discriminate|apply starts1 in K; subst c; reflexivity|].
        exfalso. apply starts1 in K. subst c. unfold path_class in Cl. rewrite scan_cons in Cl by discriminate. destruct S; discriminate.
    + assert (X : starts_with (lit "//") (p ++ t) = starts_with [SLASH; SLASH] (p ++ p')).
      { rewrite T, app_assoc. change (lit "//") with [SLASH; SLASH]. unfold starts_with.
        destruct (p ++ p') as [|c [|d r]]; destruct q'; cbn [app strip_prefix]; try reflexivity; destruct (_ =? c); try reflexivity; destruct (_ =? d); reflexivity. }
      rewrite X. split.
      * intros [(_ & _ & _ & _ & K) _] _ _. now apply path_noauth_abs in K.
      * intros K. specialize (K eq_refl eq_refl). split; [|exact E]. do 4 (split; [assumption || exact I|]). apply path_noauth_abs. now split.
Qed.
Section Main.
Variables (S : Spec) (debug : bool) (ctx : Ctx).
Hypothesis Hctx : forall name, scalar_val (ctx name).
Lemma base_expand base T out : Forall crate_part (Lit base :: T) -> 
  expand_to_string S debug ctx (template_text (Lit base :: T)) = Ok out ->
  exists t, expand_to_string S debug ctx (template_text T) = Ok t /\ out = base ++ t.
Proof.
  intros F E. inversion_clear F as [|? ? Fb FT]. change (template_text (Lit base :: T)) with (base ++ template_text T) in E.
  apply append_expand in E; [|apply accepts; exists [Lit base]; split; [now repeat constructor|cbn; now rewrite app_nil_r]|apply accepts; exists T; split; [exact FT|reflexivity]].
  destruct E as (x & y & Ex & Ey & ->). exists y. split; [exact Ey|]. f_equal. 
  assert (A : template_text [Lit base] = base) by (cbn; apply app_nil_r). rewrite <- A in Ex at 1.
  unfold expand_to_string in Ex. destruct (expand_new _ _ _); [|discriminate|discriminate]. cbn [bind] in Ex.
  rewrite expanded_fmt_parts in Ex by (now repeat constructor). cbn [parts_out part_out bind] in Ex. rewrite app_nil_r in Ex. cbn [tlift] in Ex. congruence.
Qed.
Lemma tail_scan T t : Forall crate_part T -> Forall (inner S) T -> expand_to_string S debug ctx (template_text T) = Ok t ->
  scan (f_fragment S) t = true /\ (Forall no_question T -> ~ In 63 t).
Proof using Hctx.
  intros F I E. unfold expand_to_string in E. destruct (expand_new _ _ _); [|discriminate|discriminate]. cbn [bind] in E.
  rewrite expanded_fmt_parts in E by assumption. destruct (parts_out S debug ctx T) as [x|[]|] eqn:Ep; [|discriminate]. cbn [tlift] in E. injection E as <-.
  destruct (parts_scan S debug ctx Hctx T F I x Ep) as [A B]. split; [exact A|]. intros N. specialize (B N).
  intros X. apply in_split in X as (u & v & ->). rewrite scan_delim in B by (reflexivity || discriminate).
  unfold not63 in B at 2. rewrite N.eqb_refl in B. cbn [negb] in B. rewrite !Bool.andb_false_r in B. discriminate.
Qed.
Lemma shape base C T out : reads S base C -> RfcResolve.defined (c_s C) = true -> Forall crate_part (Lit base :: T) -> Forall (inner S) T ->
  expand_to_string S debug ctx (template_text (Lit base :: T)) = Ok out ->
  exists t, expand_to_string S debug ctx (template_text T) = Ok t /\ out = base ++ t /\
    (reads S out (extend C t) <-> attaches C t) /\ (attaches C t -> new S TIri out = Ok out) /\ (Forall no_question T -> ~ In 63 t).
Proof using Hctx.
  intros R D F I E. apply base_expand in E as (t & Et & ->); [|exact F]. inversion_clear F as [|? ? Fb FT].
  destruct (tail_scan T t FT I Et) as [Sc Nq]. destruct (extend_ok S base C t R D Sc) as [X _].
  exists t. split; [exact Et|]. split; [reflexivity|]. split; [exact X|]. split; [|exact Nq].
  intros A. apply X in A. apply new_ok. cbn [ty_lang]. eapply reads_iri; [exact A|].
  unfold extend. destruct (c_f C), (c_q C); try exact D. now destruct (at_question t).
Qed.
End Main.
Lemma attach_simple S base C t : reads S base C -> RfcResolve.defined (c_s C) = true ->
  c_f C <> None \/ c_q C <> None \/ (c_a C <> None /\ c_p C <> []) \/ (2 <= length (c_p C))%nat -> attaches C t.
Proof.
  intros [Ok _] D H Ef Eq. destruct Ok as (_ & _ & _ & _ & Op). destruct H as [H|[H|H]]; [congruence|congruence|].
  destruct (c_s C) as [s|]; [|discriminate]. destruct (c_a C) as [a|].
  - right. left. apply path_abempty_scan in Op as [E|(r & E & _)]; [|now rewrite E].
    exfalso. destruct H as [[_ H]|H]; [contradiction|]. rewrite E in H. cbn in H. lia.
  - destruct H as [[H _]|H]; [contradiction|]. apply path_noauth_abs in Op as [_ Op]. destruct (c_p C) as [|x [|y r]]; [cbn in H; lia|cbn in H; lia|].
    change (lit "//") with [SLASH; SLASH]. revert Op. unfold starts_with. cbn [app strip_prefix]. destruct (_ =? x); [|reflexivity]. now destruct (_ =? y).
Qed.
Lemma values_confined S debug ctx base C T out : (forall name, scalar_val (ctx name)) -> reads S base C -> RfcResolve.defined (c_s C) = true ->
  c_f C <> None \/ c_q C <> None \/ (c_a C <> None /\ c_p C <> []) \/ (2 <= length (c_p C))%nat ->
  Forall crate_part (Lit base :: T) -> Forall (inner S) T ->
  expand_to_string S debug ctx (template_text (Lit base :: T)) = Ok out ->
  exists t, expand_to_string S debug ctx (template_text T) = Ok t /\ out = base ++ t /\ new S TIri out = Ok out /\ reads S out (extend C t) /\
    (Forall no_question T -> c_q (extend C t) = c_q C \/ c_f C = None /\ c_q C <> None).
Proof.
  intros Hctx R D H F I E. destruct (shape S debug ctx Hctx base C T out R D F I E) as (t & Et & -> & X & Y & Z).
  pose proof (attach_simple S base C t R D H) as A. exists t. split; [exact Et|]. split; [reflexivity|]. split; [auto|]. split; [now apply X|].
  intros N. specialize (Z N). unfold extend. destruct (c_f C) as [f|]; [now left|]. destruct (c_q C) as [q|]; [right; split; congruence|].
  pose proof (at_question_ok t) as Q. destruct (at_question t) as [p' [b|]]; [|now left]. exfalso. apply Z. destruct Q as [-> _]. apply in_or_app. right. now left.
Qed.
