(** * Normalization (proofs only), part 5: [is_normalized] decides the fixpoints of normalization. *)
From Verif Require Import Base Chars Rfc3986 Utf8 CompSpec RfcResolve PctSpec NormSpec MValidate MTrusted MFormat MPct MPath MNormalize
  PBase PScan PHost PAuth PValidate PTrusted PComps PAscii PTypes PPath PPath2 PPath3 PPath4 PPct PPct2 PPct3 PPct4 PPath5 PResolve PRds PNorm PNorm2 PNorm3 PNorm4.

Lemma split_slash_cons r : split_slash (SLASH :: r) = [] :: split_slash r.
Proof. exact (split_slash_app [] r eq_refl). Qed.
Definition clean (x : str) : Prop := existsb dot_name (split_slash x) = false.
Lemma clean_cons r : clean (SLASH :: r) <-> clean r.
Proof. unfold clean. now rewrite split_slash_cons. Qed.
Lemma guard_not_clean r : ~ clean (lit "/.//" ++ r).
Proof.
  unfold clean. change (lit "/.//" ++ r) with (SLASH :: [DOT] ++ SLASH :: SLASH :: r). rewrite split_slash_cons, split_slash_app by reflexivity. discriminate.
Qed.
Lemma strip_guard_cases p : (exists r, p = lit "/.//" ++ r /\ strip_guard p = r) \/ ((forall r, p <> lit "/.//" ++ r) /\ strip_guard p = p).
Proof.
  unfold strip_guard. destruct (strip_prefix (lit "/.//") p) as [r|] eqn:E.
  - left. exists r. apply strip_prefix_inv in E. auto.
  - right. split; auto. intros r ->. rewrite strip_prefix_app in E. discriminate.
Qed.
Lemma pn_guard_inv S r : pct_normal S (lit "/.//" ++ r) (lit "/.//" ++ r) -> pct_normal S (lit "//" ++ r) (lit "//" ++ r).
Proof.
  intros P. change (lit "/.//" ++ r) with (47 :: 46 :: lit "//" ++ r) in P. apply pn_raw_inv in P; [|discriminate]. destruct P as (t & E & P). injection E as <-. apply pn_raw_inv in P; [|discriminate]. destruct P as (t & E & P). injection E as <-. exact P.
Qed.
Lemma normal_iff S h p t : path_normal S false h p t -> (t = p <-> clean p /\ pct_normal S p p).
Proof.
  intros N. split.
  - intros ->. destruct (path_normal_is _ _ _ _ N) as [D P]. split; auto. now apply (dots_iff S).
  - intros [C P]. eapply path_normal_fun; [exact N|]. apply is_normal_path. split; auto. now apply (dots_iff S).
Qed.
Definition span_clean (o : option str) : Prop := match o with Some x => clean x | None => True end.
Lemma path_fixed_default S (a : option str) p t : path_normal S false (defined a) p t -> (a = None -> starts_with (lit "//") p = false) ->
  (safe_path a t = p <-> span_clean (dot_span CkDefault a p) /\ pct_normal S p p).
Proof.
  intros N Hd. unfold dot_span. destruct a as [a|]; cbn [is_some span_clean safe_path]; [now apply (normal_iff S true)|].
  specialize (Hd eq_refl). destruct (path_normal_is _ _ _ _ N) as [D P].
  destruct (starts_with (lit "//") t) eqn:E.
  - apply starts_slash_iff in E. destruct E as (r & ->). split.
    + intros <-. change (lit "/." ++ 47 :: 47 :: r) with (lit "/.//" ++ r). split; [|exact (pn_guard _ _ P)].
      destruct (strip_guard_cases (lit "/.//" ++ r)) as [(r' & Er & ->)|[X _]]; [|now destruct (X r)]. apply app_inv_head in Er. subst r'.
      apply (proj1 (clean_cons r)), (proj1 (clean_cons (SLASH :: r))). now apply (dots_iff S).
    + intros [C Pp]. destruct (strip_guard_cases p) as [(r' & -> & G)|[X G]]; rewrite G in C.
      * apply pn_guard_inv in Pp. assert (C2 : clean (lit "//" ++ r')) by (apply (proj2 (clean_cons (SLASH :: r'))), (proj2 (clean_cons r')); exact C).
        assert (X : path_is_normal S (lit "//" ++ r')) by (split; auto; now apply (dots_iff S)). apply (safe_normal S None) in X.
        change (safe_path None (lit "//" ++ r')) with (lit "/.//" ++ r') in X. rewrite (path_normal_fun _ _ _ _ _ _ N X). reflexivity.
      * exfalso. assert (T : 47 :: 47 :: r = p) by (apply (normal_iff S false p); auto). rewrite <- T in Hd. discriminate.
  - split.
    + intros ->. split; auto. apply (dots_iff S) in D; auto. destruct (strip_guard_cases p) as [(r & -> & _)|[_ ->]]; auto. now destruct (guard_not_clean r).
    + intros [C Pp]. destruct (strip_guard_cases p) as [(r' & -> & G)|[X G]]; rewrite G in C.
      * apply pn_guard_inv in Pp. assert (C2 : clean (lit "//" ++ r')) by (apply (proj2 (clean_cons (SLASH :: r'))), (proj2 (clean_cons r')); exact C).
        assert (X : path_is_normal S (lit "//" ++ r')) by (split; auto; now apply (dots_iff S)). apply (safe_normal S None) in X.
        change (safe_path None (lit "//" ++ r')) with (lit "/.//" ++ r') in X. rewrite (path_normal_fun _ _ _ _ _ _ N X) in E. discriminate.
      * apply (normal_iff S false p); auto.
Qed.
Lemma path_fixed_preserve S (a : option str) p t : path_normal S true (defined a) p t -> (a = None -> starts_with (lit "//") p = false) ->
  (safe_path a t = p <-> span_clean (dot_span CkPreserve a p) /\ pct_normal S p p).
Proof.
  intros N Hd. destruct a as [a|].
  { apply path_fixed_default; auto. }
  destruct (starts_with (lit "/") p) eqn:E.
  - assert (N2 : path_normal S false (defined None) p t). { unfold path_normal in N |- *. rewrite E in N. exact N. }
    rewrite (path_fixed_default S None p t N2 Hd). unfold dot_span. cbn [is_some]. change (starts_with [SLASH] p) with (starts_with (lit "/") p). rewrite E. tauto.
  - unfold path_normal in N. rewrite E in N. cbn [defined negb andb] in N. unfold dot_span. cbn [is_some]. change (starts_with [SLASH] p) with (starts_with (lit "/") p). rewrite E. cbn [span_clean].
    unfold safe_path. rewrite <- (pn_starts _ _ _ N), (Hd eq_refl). split; [intros ->; auto|]. intros [_ P]. eapply pn_fun; eauto.
Qed.
Lemma path_fixed_rfc S (a : option str) p t : path_normal S false (defined a) p t -> (a = None -> starts_with (lit "//") p = false) ->
  (safe_path a t = p /\ ~ (a = None /\ starts_with (lit "//") t = true) <-> span_clean (dot_span CkRfc3986 a p) /\ pct_normal S p p).
Proof.
  intros N Hd. assert (E : dot_span CkRfc3986 a p = Some p) by (unfold dot_span; now destruct a). rewrite E. cbn [span_clean]. rewrite <- (normal_iff S _ _ _ N).
  unfold safe_path. destruct a as [a|].
  - split; [tauto|]. intros ->. split; auto. now intros [X _].
  - specialize (Hd eq_refl). split.
    + intros [A B]. destruct (starts_with (lit "//") t); auto. tauto.
    + intros ->. rewrite Hd. split; auto. now intros [_ X].
Qed.
(** ** Authority *)
Lemma userinfo_normal_ok S u u' : opt_rel (pct_normal S) u u' -> opt_in (userinfo S) u -> opt_in (userinfo S) u'.
Proof.
  destruct u as [u|], u' as [u'|]; try contradiction; auto. cbn. intros Ru Hu. apply userinfo_scan in Hu. apply userinfo_scan. eapply pn_scan; [|exact Ru|exact Hu]. unfold f_userinfo. now intros c ->.
Qed.
Lemma auth_fixed_iff S a a' : opt_rel (authority_normal S) a a' -> (forall x, a <> Some (x ++ lit ":")) -> (a' = a <-> auth_fixed S a).
Proof.
  destruct a as [a|], a' as [a'|]; try contradiction; cbn [opt_rel auth_fixed]; [|tauto].
  intros (u & h & p & u' & h' & -> & Hu & Hh & Hp & Ru & Rh & ->) NC.
  assert (Dp : drop_empty_port p = p).
  { destruct p as [[|c p]|]; auto. exfalso. apply (NC (oui u ++ h)). unfold authority_string. rewrite app_nil_r, app_assoc. reflexivity. }
  rewrite Dp. split.
  - intros X. injection X as X. apply (authority_unique S) in X; auto; [|eapply userinfo_normal_ok; eauto|eapply host_normal_ok; eauto]. injection X as -> -> . exists u, h, p. repeat split; auto.
  - intros (v & k & r & E & Hv & Hk & Hr & Rv & Rk). apply (authority_unique S) in E; auto. injection E as <- <- <-. rewrite (host_normal_fun _ _ _ _ Rh Rk). repeat f_equal.
    destruct u as [u|], u' as [u'|]; try contradiction; auto. f_equal. cbn in *. eapply pn_fun; eauto.
Qed.
(** ** Putting it together *)
Definition ck_keep (m : NormalizednessCheckMode) : bool := match m with CkPreserve => true | _ => false end.
Lemma is_normalized_fixpoint S s a p q f mode : components_ok S (Some s) a p q f -> (forall x, a <> Some (x ++ lit ":")) ->
  exists b T, is_normalized S (recompose (Some s) a p q f) mode = Ok b /\ comps_normal S (ck_keep mode) (mkC (Some s) a p q f) T /\
    (b = true <-> unparse T = recompose (Some s) a p q f /\ (mode = CkRfc3986 -> ~ fell_back T)).
Proof.
  intros H NC. destruct (is_normalized_rec S s a p q f mode H) as (b & Eb & Hb).
  destruct (normalize_ok S (ck_keep mode) s a p q f H) as (n & T & _ & N & _). exists b, T. split; auto. split; auto.
  assert (W := components_weak _ _ _ _ _ _ H).
  destruct (comps_normal_ok S _ (mkC (Some s) a p q f) _ H eq_refl N) as [OT DT].
  rewrite Hb. clear Hb Eb b n. unfold fell_back. destruct T as [s' a' p' q' f']. unfold comps_normal in N. unfold comps_ok, reread in OT. cbn [c_s c_a c_p c_q c_f] in *. destruct N as (Ns & Na & Np & Nq & Nf).
  destruct s' as [s'|]; [|discriminate]. cbn in Ns. subst s'.
  assert (WT := components_weak _ _ _ _ _ _ OT). unfold unparse. cbn [c_s c_a c_p c_q c_f].
  assert (Hd : a = None -> starts_with (lit "//") p = false).
  { intros ->. destruct (starts_with (lit "//") p) eqn:E; auto. exfalso. apply starts_slash_iff in E. destruct E as (r & ->). destruct W as (_ & X & _). cbn in X. tauto || discriminate. }
  assert (Da : a = None <-> a' = None) by (destruct a, a'; try contradiction; split; congruence).
  assert (Ea : defined a = defined a') by (destruct a, a'; try contradiction; reflexivity).
  assert (Sa : forall x, safe_path a x = safe_path a' x) by (destruct a, a'; try contradiction; reflexivity).
  assert (Oq : forall x y, opt_rel (pct_normal S) x y -> (y = x <-> opt_rel (pct_normal S) x x)).
  { intros [x|] [y|]; try contradiction; cbn; [|tauto]. intros P. split; [intros E; now injection E as ->|]. intros P2. f_equal. eapply pn_fun; eauto. }
  assert (Auth := auth_fixed_iff S a a' Na NC).
  assert (Path : (safe_path a' p' = p /\ (mode = CkRfc3986 -> ~ (a' = None /\ starts_with (lit "//") p' = true))) <-> span_clean (dot_span mode a p) /\ pct_normal S p p).
  { destruct mode; cbn [ck_keep] in Np.
    - rewrite <- path_fixed_default by eauto. rewrite Sa. split; [tauto|]. intros X; split; auto. discriminate.
    - rewrite <- path_fixed_rfc by eauto. rewrite Sa, Da. tauto.
    - rewrite <- path_fixed_preserve by eauto. rewrite Sa. split; [tauto|]. intros X; split; auto. discriminate. }
  change (match dot_span mode a p with Some x => existsb dot_name (split_slash x) = false | None => True end) with (span_clean (dot_span mode a p)).
  assert (R : recompose (Some (map lower s)) a' (safe_path a' p') q' f' = recompose (Some s) a p q f <-> map lower s = s /\ a' = a /\ safe_path a' p' = p /\ q' = q /\ f' = f).
  { split; [|intros (-> & -> & -> & -> & ->); reflexivity]. intros E. apply recompose_inj in E; auto. destruct E as (E1 & E2 & E3 & E4 & E5). injection E1 as E1. auto. }
  rewrite R, Auth, (Oq _ _ Nq), (Oq _ _ Nf). tauto.
Qed.
