(** What the builder accepts, for arbitrary path characters (proofs only). *)
From Verif Require Import Base Chars Rfc3986 Utf8 CompSpec RfcResolve PctSpec NormSpec EditSpec MValidate MTrusted MFormat MPct MPath MNormalize MSearch
  MEdit MBuild BuildSpec PBase PScan PHost PAuth PValidate PTrusted PComps PAscii PTypes PSearch PPath PPath2 PPath3 PPath4 PPct PPct2 PPct3 PPct4 PPath5 PRds PNorm PNorm2 PNorm3 PNorm6 PNorm7
  PEdit PBuild PBuild2 PBuild3 PBuild4.
From Coq Require Import Lia.
Open Scope N_scope.

Lemma first_colon_iff p : first_is_colon p = true <-> exists seg r, p = seg ++ lit ":" ++ r /\ no_slash seg.
Proof.
  unfold first_is_colon, find_split2_hole. split.
  - destruct (split_first _ p) as [[[a c] b]|] eqn:E; [|discriminate]. intros H.
    apply split_first_some in E as (-> & Hn & Hc). destruct (c =? SLASH) eqn:F; [discriminate|]. cbn [orb] in Hc. apply N.eqb_eq in Hc as ->.
    exists a, b. split; [reflexivity|]. intros Hi.
    unfold none in Hn. rewrite forallb_forall in Hn. specialize (Hn _ Hi). vm_compute in Hn. discriminate.
  - intros (seg & r & -> & Hs). revert Hs. unfold no_slash. induction seg as [|c seg IH]; intros Hs.
    + reflexivity.
    + cbn [app split_first]. destruct ((c =? SLASH) || (c =? COLON)) eqn:E.
      * destruct (c =? SLASH) eqn:F; [exfalso; apply Hs; left; now apply N.eqb_eq|reflexivity].
      * assert (K : ~ In 47 seg) by (intros ?; apply Hs; now right). specialize (IH K).
        destruct (split_first _ (seg ++ lit ":" ++ r)) as [[[a d] b]|]; [exact IH|discriminate].
Qed.
Lemma check_shape S b : b_normalize b = false ->
  (check_path S b = Ok (true, starts_with [SLASH] (b_path b)) <-> path_shape b) /\
  exists acc, check_path S b = Ok (acc, starts_with [SLASH] (b_path b)).
Proof.
  intros N. unfold check_path, path_shape. cbv zeta. rewrite N. split; [|eauto].
  assert (X : forall a c : bool, @Ok Empty_set _ (a, c) = Ok (true, c) <-> a = true) by (intros; split; [now intros [= ->]|now intros ->]).
  rewrite X. clear X.
  assert (Sl : starts_with [SLASH; SLASH] (b_path b) = true <-> exists r, b_path b = lit "//" ++ r) by apply starts_slash_iff.
  assert (Sw : starts_with [SLASH] (b_path b) = true -> first_is_colon (b_path b) = false).
  { intros E. apply sw_slash in E. destruct E as (r & ->). reflexivity. }
  assert (Ns : starts_with [SLASH] (b_path b) = false -> starts_with [SLASH; SLASH] (b_path b) = false).
  { intros E. destruct (starts_with [SLASH; SLASH] (b_path b)) eqn:D; auto. apply starts_slash_iff in D. destruct D as (r & D). rewrite D in E. discriminate. }
  destruct (b_authority b) as [a|]; cbn [is_some defined option_map].
  - rewrite slashy_b. unfold slashy. reflexivity.
  - rewrite <- Sl, <- first_colon_iff. destruct (b_scheme b) as [s|]; cbn [is_some orb].
    + rewrite negb_true_iff, <- not_true_iff_false. split; [intros K; split; auto; discriminate|tauto].
    + rewrite <- !not_true_iff_false in *. destruct (starts_with [SLASH] (b_path b)) eqn:E; rewrite negb_true_iff, <- not_true_iff_false.
      * specialize (Sw eq_refl). tauto.
      * rewrite colon_first_eq. assert (Q : false <> true) by discriminate. specialize (Ns Q). tauto.
Qed.
Lemma build_exact debug S t b : editable t = true -> values_ok b -> b_normalize b = false ->
  let i := recompose (b_scheme b) (option_map authority_text (b_authority b)) (b_path b) (b_query b) (b_fragment b) in
  ((exists x, build S t b = Ok x) <-> parts_ok S b /\ path_shape b /\ fits t (requested b)) /\
  (forall x, build S t b = Ok x -> text (built_display S x) = Ok i /\
     (new S t i = Ok i -> built_to_dedicated_string S debug t x = Ok i) /\
     (new S t i <> Ok i -> built_to_dedicated_string S debug t x = if debug then Panic else Ok i)).
Proof.
  intros Ht V N i. destruct (check_shape S b N) as [Hc (acc & Ec)]. split.
  - split.
    + intros (x & H). apply (build_iff _ _ _ _ Ht V) in H. destruct H as (_ & F & P & E). split; [exact P|]. split; [|exact F].
      apply Hc. rewrite Ec in E. injection E as -> _. exact Ec.
    + intros (P & Sh & F). exists (b, starts_with [SLASH] (b_path b)). apply (build_iff _ _ _ _ Ht V). cbn [snd]. split; [reflexivity|]. split; [exact F|]. split; [exact P|]. now apply Hc.
  - intros x H. apply (build_iff _ _ _ _ Ht V) in H. destruct H as (-> & _).
    assert (T : text (built_display S (b, snd x)) = Ok i) by (apply outs_text with (a := tt), fmt_builder_raw, N).
    split; [exact T|]. unfold built_to_dedicated_string. rewrite T. cbn [bind]. unfold new_unchecked_justified, new.
    destruct (validate S t i) as [[]|e|]; cbn; (split; [intros K|intros K]); try reflexivity; try congruence; destruct debug; reflexivity || congruence.
Qed.

(** With normalization *)
Lemma auth_shape S b : b_normalize b = true -> (exists abs, check_path S b = Ok (true, abs)) -> b_authority b <> None -> slashy (b_path b).
Proof.
  intros N (abs & E) Na. unfold check_path in E. cbv zeta in E. rewrite N in E. destruct (b_authority b) as [a|]; [|congruence]. cbn [is_some] in E. rewrite orb_true_r in E. cbn [orb] in E.
  destruct (from_path_to_display _ _ _ _) as [pc|[]|]; cbn [bind] in E; [|discriminate]. injection E as E _. apply andb_prop in E. destruct E as [E _]. rewrite orb_comm in E. now apply slashy_b.
Qed.
Lemma norm_shape_iff b : norm_shape b <-> (b_authority b <> None -> slashy (b_path b)) /\
  (b_scheme b <> None \/ b_authority b <> None \/ starts_with (lit "/") (b_path b) = true \/ first_is_colon (b_path b) = false).
Proof.
  unfold norm_shape. rewrite <- first_colon_iff. unfold slashy. 
  destruct (b_authority b) as [a|]; cbn [option_map defined].
  - split.
    + intros [A _]. split; [intros _; now apply A|]. right. left. discriminate.
    + intros [A _]. split; [intros _; apply A; discriminate|discriminate].
  - destruct (b_scheme b) as [s|].
    + split; [intros _; split; [congruence|left; discriminate]|intros _; split; discriminate].
    + split.
      * intros [_ B]. split; [congruence|]. do 3 right. apply not_true_iff_false. auto.
      * intros [_ [X|[X|[X|X]]]]; try congruence; split; try discriminate; intros _ _.
        -- apply sw_slash in X. destruct X as (r & ->). discriminate.
        -- rewrite X. discriminate.
Qed.
Lemma build_norm_exact S t b : editable t = true -> values_ok b -> b_normalize b = true -> pct_wf (b_path b) ->
  ((exists x, build S t b = Ok x) <-> parts_ok S b /\ norm_shape b /\ fits t (requested b)) /\
  (forall x, build S t b = Ok x -> exists T, comps_normal S (negb (defined (b_scheme b))) (requested b) T /\
    (~ collapses S b -> text (built_display S x) = Ok (unparse T)) /\
    (collapses S b -> exists w, pct_normal S (b_path b) w /\ text (built_display S x) = Ok (recompose None None w (c_q T) (c_f T)))).
Proof.
  intros Ht V N Wf. split.
  - split.
    + intros (x & H). apply (build_iff _ _ _ _ Ht V) in H. destruct H as (_ & F & P & E). split; [exact P|]. split; [|exact F].
      assert (Sl : b_authority b <> None -> slashy (b_path b)) by (apply (auth_shape S); eauto).
      apply norm_shape_iff. split; [exact Sl|].
      destruct (build_path_wf S b N Wf Sl) as (acc & abs & p & w & Ec & Hacc & _). rewrite Ec in E. injection E as -> ->. tauto.
    + intros (P & Sh & F). apply norm_shape_iff in Sh. destruct Sh as [Sl Sh].
      destruct (build_path_wf S b N Wf Sl) as (acc & abs & p & w & Ec & Hacc & _). apply Hacc in Sh. subst acc.
      exists (b, abs). apply (build_iff _ _ _ _ Ht V). auto.
  - intros x H. apply (build_iff _ _ _ _ Ht V) in H. destruct H as (-> & F & Ho & E).
    assert (Sl : b_authority b <> None -> slashy (b_path b)) by (apply (auth_shape S); eauto).
    destruct (build_path_wf S b N Wf Sl) as (acc & abs & p & w & Ec & Hacc & Np & Ew & Hw). rewrite Ec in E. injection E as -> ->.
    destruct (fmt_builder_norm S b _ _ N V Ho Ew) as (s' & a' & q' & f' & Rs & Ra & Rq & Rf & Eo).
    exists (mkC s' a' p q' f'). split; [repeat split; auto|]. split.
    + intros Nc. destruct Hw as [[_ ->]|[X _]]; [|contradiction]. unfold unparse. cbn [c_s c_a c_p c_q c_f].
      replace (safe_path a' p) with (safe_path (oauth_text b) p) by (destruct (oauth_text b), a'; try contradiction; reflexivity).
      eapply outs_text. exact Eo.
    + intros Cl. destruct Hw as [[X _]|[_ Hw]]; [contradiction|]. exists w. split; [exact Hw|].
      destruct Cl as (Es & Ea & _). unfold oauth_text in Ra. rewrite Es in Rs. rewrite Ea in Ra. destruct s', a'; try contradiction. eapply outs_text. exact Eo.
Qed.
