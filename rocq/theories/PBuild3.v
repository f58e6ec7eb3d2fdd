(** * Builder (proofs only), part 3: building with normalization. *)
From Verif Require Import Base Chars Rfc3986 Utf8 CompSpec RfcResolve PctSpec NormSpec EditSpec MValidate MTrusted MFormat MPct MPath MNormalize MSearch
  MEdit MBuild BuildSpec PBase PScan PHost PAuth PValidate PTrusted PComps PAscii PTypes PSearch PPath PPath2 PPath3 PPath4 PPct PPct2 PPct3 PPct4 PPath5 PResolve PRds PNorm PNorm2 PNorm3 PNorm6 PNorm7
  PEdit PBuild PBuild2.

Lemma rds_abs p t : rds p t -> starts_with (lit "/") p = true -> exists r, t = 47 :: r.
Proof.
  intros R Hp. apply starts_slash1 in Hp. destruct Hp as (r & ->). assert (Sl : slashy t) by (eapply rds_slashy; [exact R|right; eauto]).
  destruct Sl as [->|]; auto. exfalso.
  cut ((exists r, [] = 47 :: r) \/ ([] : str) = [] /\ ([] : str) <> []); [intros [(? & ?)|[_ ?]]; [discriminate|congruence]|].
  apply (steps_inv single_dot double_dot (fun i o => (exists r, i = 47 :: r) \/ i = [] /\ o <> [])) with (x := (47 :: r, [])) (y := ([], [])); [|exact R|left; exists r; reflexivity].
  clear r R. intros i o i' o' St Hi.
  assert (OK : forall d, single_dot d \/ double_dot d -> d <> [] /\ no_slash d) by (intros d [?|?]; [now apply a_dot_ok|now apply double_dot_ok]).
  assert (SL : forall x, exists r, lit "/" ++ x = 47 :: r) by (intros; eexists; reflexivity).
  assert (NS : forall d x, d <> [] -> no_slash d -> ~ ((exists r, d ++ x = 47 :: r) \/ d ++ x = [] /\ o <> [])).
  { intros [|c d] x Hn Hd [(r & E)|[E _]]; try easy. cbn in E. injection E as -> _. apply Hd. now left. }
  remember (i, o) as x eqn:Ex. remember (i', o') as y eqn:Ey.
  destruct St as [d i0 o0 Hd|d i0 o0 Hd|d o0 Hd|d i0 o0 o1 Hd Hr|d o0 o1 Hd Hr|d o0 Hd|lead seg i0 o0 Hl Hs Hne Hd Hdd Hii]; apply pair_equal_spec in Ex; destruct Ex as [<- <-]; apply pair_equal_spec in Ey; destruct Ey as [<- <-].
  - destruct (OK _ Hd). exfalso. eapply NS; eauto.
  - left. apply SL.
  - left. exact (SL []).
  - left. apply SL.
  - left. exact (SL []).
  - destruct (OK _ Hd). exfalso. apply (NS d []); auto. now rewrite app_nil_r.
  - destruct Hii as [->|(r & ->)]; [|left; apply SL]. right. split; auto. intros X. apply app_eq_nil in X. now destruct X.
Qed.
Lemma path_normal_abs S h p t : path_normal S false h p t -> starts_with (lit "/") p = true -> exists r, t = 47 :: r.
Proof. intros N Hp. apply path_normal_alt in N. destruct N as (q & R & P & _). destruct (rds_abs _ _ R Hp) as (r & ->). apply pn_raw_inv in P; [|discriminate]. destruct P as (t' & -> & _). eauto. Qed.

(** What normalization makes of the path: [t]; what is written: [w]. *)
Lemma build_path_wf S b : b_normalize b = true -> pct_wf (b_path b) -> (b_authority b <> None -> slashy (b_path b)) ->
  exists acc abs t w,
    check_path S b = Ok (acc, abs) /\
    (acc = true <-> (b_scheme b <> None \/ b_authority b <> None \/ starts_with (lit "/") (b_path b) = true \/ first_is_colon (b_path b) = false)) /\
    path_normal S (negb (defined (b_scheme b))) (defined (oauth_text b)) (b_path b) t /\
    outs (if is_some (b_scheme b) || is_some (b_authority b) || abs then fmt_write_normalize S MDefault (is_some (b_authority b)) (from_single_path (b_path b)) else PctCaseNormalized S (b_path b)) = Some (w, tt) /\
    ((~ collapses S b /\ w = safe_path (oauth_text b) t) \/ (collapses S b /\ pct_normal S (b_path b) w)).
Proof.
  intros N Wf Sl.
  destruct (path_out_norm S MDefault (oauth_text b) (PNeeds (from_single_path (b_path b)))) as (t & Nt & E); [discriminate|exact I|cbn [path_flat]; now rewrite flat_single|cbn [path_flat]; rewrite flat_single; unfold oauth_text; intros X; apply Sl; destruct (b_authority b); [discriminate|now elim X]|].
  unfold path_out in E. cbn [path_flat keep_of] in *. rewrite flat_single in Nt. rewrite <- some_map in E.
  destruct (pc_ok _ _ _ _ _ E) as (pc & Epc & Hpc).
  unfold check_path. cbv zeta. rewrite N.
  destruct (b_scheme b) as [s|] eqn:Es; [|destruct (b_authority b) as [a|] eqn:Ea].
  - cbn [is_some orb]. rewrite Epc. cbn [bind]. eexists _, _, t, _. split; [reflexivity|]. split; [|split; [exact Nt|]; split; [exact E|]].
    + split; [intros _; left; discriminate|intros _]. apply andb_true_intro. split; [|destruct pc; reflexivity]. destruct (b_authority b); auto. rewrite orb_comm. apply slashy_b. apply Sl. discriminate.
    + left. split; auto. intros (X & _). congruence.
  - assert (F : forall k, path_normal S k (defined (oauth_text b)) (b_path b) t). { intros k. unfold oauth_text in *. rewrite Ea in *. cbn in *. unfold path_normal in *. rewrite andb_false_r. exact Nt. }
    cbn [is_some orb]. cbn [is_some] in Epc. rewrite Epc. cbn [bind]. eexists _, _, t, _. split; [reflexivity|]. split; [|split; [apply F|]; split; [exact E|]].
    + split; [intros _; right; left; discriminate|intros _]. apply andb_true_intro. split; [|destruct pc; reflexivity]. rewrite orb_comm. apply slashy_b. apply Sl. discriminate.
    + left. split; auto. intros (_ & X & _). congruence.
  - cbn [is_some orb]. unfold oauth_text in *. rewrite Ea in *. cbn [option_map defined is_some] in *. destruct (starts_with [SLASH] (b_path b)) eqn:Eb.
    + rewrite Epc. cbn [bind]. destruct (path_normal_abs _ _ _ _ Nt Eb) as (r & ->).
      assert (NotD : starts_with (lit "//") (safe_path None (47 :: r)) = false) by apply safe_no_double.
      assert (X1 : exists r', safe_path None (47 :: r) = 47 :: r' /\ (r' = [] <-> r = [])).
      { unfold safe_path. destruct (starts_with (lit "//") (47 :: r)) eqn:D; [|exists r; tauto]. eexists. split; [reflexivity|]. apply starts_slash_iff in D. destruct D as (r2 & [= ->]). split; discriminate. }
      destruct X1 as (r' & X1 & X2). rewrite X1 in *. change (47 =? SLASH) with true in Hpc. cbn iota in Hpc.
      assert (Hpc2 : pc = match r' with [] => CommonRelative | _ => CommonAbsolute end).
      { rewrite Hpc. destruct r' as [|c r']; auto. destruct (starts_with [SLASH] (c :: r')) eqn:D; auto. apply sw_slash in D. destruct D as (r2 & [= -> ->]). discriminate. }
      clear Hpc. assert (Acc : true = true <-> (None : option str) <> None \/ (None : option AuthorityBuilder) <> None \/ starts_with (lit "/") (b_path b) = true \/ first_is_colon (b_path b) = false) by (split; auto).
      assert (K : path_normal S (negb false) false (b_path b) (47 :: r)). { unfold path_normal. change (starts_with (lit "/") (b_path b)) with (starts_with [SLASH] (b_path b)). rewrite Eb. cbn [negb andb]. exact Nt. }
      destruct r' as [|c r'].
      * assert (r = []) by now apply X2. subst r pc. cbn [pc_is_absolute andb].
        destruct (pn_out S (b_path b) Wf) as (w & Pw & Ew). exists true, false, (lit "/"), w. split; [reflexivity|]. split; [exact Acc|]. split; [exact K|]. split; [exact Ew|].
        destruct (list_eq_dec N.eq_dec (b_path b) (lit "/")) as [Ep|Ep].
        -- left. split; [intros (_ & _ & _ & X & _); congruence|]. rewrite Ep in Pw. apply pn_raw_inv in Pw; [|discriminate]. destruct Pw as (w' & -> & Pw). apply pn_nil_inv in Pw. now subst.
        -- right. split; [|exact Pw]. repeat split; auto.
      * subst pc. cbn [pc_is_absolute andb]. eexists true, true, _, _. split; [reflexivity|]. split; [exact Acc|]. split; [exact K|]. split; [exact E|]. left. split; [|symmetry; exact X1].
        intros (_ & _ & _ & _ & X). assert (X3 := path_normal_fun _ _ _ _ _ _ X Nt). injection X3 as <-. destruct X2 as [_ X2]. specialize (X2 eq_refl). discriminate.
    + destruct (pn_out S (b_path b) Wf) as (w & Pw & Ew). exists (negb (colon_first (b_path b))), false, w, w. split; [reflexivity|]. split; [|split; [|split; [exact Ew|]]].
      * rewrite colon_first_eq, negb_true_iff. split; [auto|]. intros [X|[X|[X|X]]]; try congruence. change (starts_with [SLASH] (b_path b) = true) in X. congruence.
      * unfold path_normal. change (starts_with (lit "/") (b_path b)) with (starts_with [SLASH] (b_path b)). rewrite Eb. cbn [negb andb]. exact Pw.
      * left. split; [intros (_ & _ & X & _); change (starts_with [SLASH] (b_path b) = true) in X; congruence|]. unfold safe_path. destruct (starts_with (lit "//") w) eqn:X; auto. rewrite <- (pn_starts _ _ _ Pw) in X. apply starts_slash_iff in X. destruct X as (r2 & X). rewrite X in Eb. discriminate.
Qed.

Lemma build_path S b : b_normalize b = true -> path S (b_path b) -> (b_authority b <> None -> slashy (b_path b)) ->
  exists acc abs t w,
    check_path S b = Ok (acc, abs) /\
    (acc = true <-> (b_scheme b <> None \/ b_authority b <> None \/ starts_with (lit "/") (b_path b) = true \/ first_is_colon (b_path b) = false)) /\
    path_normal S (negb (defined (b_scheme b))) (defined (oauth_text b)) (b_path b) t /\
    outs (if is_some (b_scheme b) || is_some (b_authority b) || abs then fmt_write_normalize S MDefault (is_some (b_authority b)) (from_single_path (b_path b)) else PctCaseNormalized S (b_path b)) = Some (w, tt) /\
    ((~ collapses S b /\ w = safe_path (oauth_text b) t) \/ (collapses S b /\ pct_normal S (b_path b) w)).
Proof. intros N P. apply path_scan in P. exact (build_path_wf S b N (class_wf _ _ P)). Qed.

(** Everything else. *)
Lemma fmt_builder_norm S b abs w : b_normalize b = true -> values_ok b -> parts_ok S b ->
  outs (if is_some (b_scheme b) || is_some (b_authority b) || abs then fmt_write_normalize S MDefault (is_some (b_authority b)) (from_single_path (b_path b)) else PctCaseNormalized S (b_path b)) = Some (w, tt) ->
  exists s' a' q' f', opt_rel (fun x y => y = map lower x) (b_scheme b) s' /\ opt_rel (authority_normal S) (oauth_text b) a' /\
    opt_rel (pct_normal S) (b_query b) q' /\ opt_rel (pct_normal S) (b_fragment b) f' /\
    outs (fmt_builder S b abs) = Some (recompose s' a' w q' f', tt).
Proof.
  intros N V (Hs & Ha & Hq & Hf) Ew. apply (proj1 (values_auth b)) in V. unfold fmt_builder, oauth_text. rewrite N. cbn [negb].
  assert (Xs : exists s', opt_rel (fun x y => y = map lower x) (b_scheme b) s' /\ outs (match b_scheme b with Some s => normalize_scheme s >> write [COLON] | None => wret tt end) = Some (osch s', tt)).
  { destruct (b_scheme b) as [s|]; [|exists None; split; [exact I|reflexivity]]. exists (Some (map lower s)). split; [reflexivity|]. eapply outs_bind; [apply outs_lower|apply outs_write]. }
  assert (Xa : exists a', opt_rel (authority_normal S) (option_map authority_text (b_authority b)) a' /\ outs (match b_authority b with Some a => write [SLASH; SLASH] >> fmt_authority S a true | None => wret tt end) = Some (oauth a', tt)).
  { destruct (b_authority b) as [a|]; [|exists None; split; [exact I|reflexivity]]. destruct (fmt_auth_norm S a V Ha) as (a' & Na & E). exists (Some a'). split; auto. eapply outs_bind; [apply outs_write|exact E]. }
  assert (Xq : exists q', opt_rel (pct_normal S) (b_query b) q' /\ outs (match b_query b with Some q => write [QMARK] >> normalize_query S q | None => wret tt end) = Some (oq q', tt)).
  { destruct (b_query b) as [q|]; [|exists None; split; [exact I|reflexivity]]. destruct (pn_out S q (query_wf _ _ Hq)) as (q' & Nq & E). exists (Some q'). split; auto. eapply outs_bind; [apply outs_write|exact E]. }
  assert (Xf : exists f', opt_rel (pct_normal S) (b_fragment b) f' /\ outs (match b_fragment b with Some f => write [HASH] >> normalize_fragment S f | None => wret tt end) = Some (ofr f', tt)).
  { destruct (b_fragment b) as [f|]; [|exists None; split; [exact I|reflexivity]]. destruct (pn_out S f (fragment_wf _ _ Hf)) as (f' & Nf & E). exists (Some f'). split; auto. eapply outs_bind; [apply outs_write|exact E]. }
  destruct Xs as (s' & Rs & Es), Xa as (a' & Ra & Ea), Xq as (q' & Rq & Eq), Xf as (f' & Rf & Ef).
  exists s', a', q', f'. split; auto. split; auto. split; auto. split; auto. rewrite recompose_eq.
  eapply outs_bind; [exact Es|]; cbv beta. eapply outs_bind; [exact Ea|]; cbv beta. eapply outs_bind; [exact Ew|]; cbv beta. eapply outs_bind; [exact Eq|]; cbv beta. exact Ef.
Qed.
Lemma norm_reads S b T : values_ok b -> parts_ok S b -> path S (b_path b) -> (b_authority b <> None -> slashy (b_path b)) ->
  (b_scheme b <> None \/ b_authority b <> None \/ starts_with (lit "/") (b_path b) = true \/ first_is_colon (b_path b) = false) ->
  comps_normal S (negb (defined (b_scheme b))) (requested b) T -> comps_ok S (reread T).
Proof.
  intros V (Hs & Ha & Hq & Hf) P Sl Ok. apply path_scan in P. apply (proj1 (values_auth b)) in V.
  assert (HA : opt_in (authority S) (oauth_text b)). { unfold oauth_text. destruct (b_authority b) as [a|]; cbn; auto. now apply parts_authority. }
  destruct T as [s a p q f]. unfold requested, comps_normal, comps_ok, reread, components_ok. fold (oauth_text b). cbn [c_s c_a c_p c_q c_f]. intros (Rs & Ra & Rp & Rq & Rf).
  assert (Cp : path_class S p) by (eapply path_normal_class; eauto).
  split; [|split; [|split; [|split]]].
  - destruct (b_scheme b) as [x|], s as [y|]; try contradiction; cbn in *; auto. subst y. now apply lower_scheme.
  - destruct (oauth_text b) as [x|], a as [y|]; try contradiction; cbn in *; auto. now apply authority_normal_ok in Ra.
  - destruct (b_query b) as [x|], q as [y|]; try contradiction; cbn in *; auto. apply query_scan. apply query_scan in Hq. eapply pn_scan; [|exact Rq|exact Hq]. unfold f_query, f_pchar. intros c ->. reflexivity.
  - destruct (b_fragment b) as [x|], f as [y|]; try contradiction; cbn in *; auto. apply fragment_scan. apply fragment_scan in Hf. eapply pn_scan; [|exact Rf|exact Hf]. unfold f_fragment, f_pchar. intros c ->. reflexivity.
  - destruct a as [y|].
    + apply abempty_intro; auto. unfold oauth_text in *. destruct (b_authority b) as [x|]; [|contradiction]. cbn [option_map defined] in Rp. eapply path_normal_slashy; [exact Rp|]. apply Sl. discriminate.
    + unfold oauth_text in *. destruct (b_authority b) as [x|]; [contradiction|]. cbn [option_map defined] in *.
      destruct (b_scheme b) as [x|], s as [y|]; try contradiction; cbn [defined negb] in *.
      * apply path_noauth_abs. split; [now apply safe_class|apply safe_no_double].
      * apply path_noauth_rel. split; [now apply safe_class|]. split; [apply safe_no_double|]. unfold path_normal in Rp. destruct (starts_with (lit "/") (b_path b)) eqn:Eb; cbn [negb andb] in Rp.
        -- destruct (path_normal_abs S false (b_path b) p Rp Eb) as (r & ->). unfold safe_path. destruct (starts_with (lit "//") (47 :: r)); reflexivity.
        -- assert (Fc : first_is_colon (b_path b) = false). { destruct Ok as [X|[X|[X|X]]]; congruence. }
           replace (safe_path None p) with p; [eapply pn_colon; eauto|]. unfold safe_path. destruct (starts_with (lit "//") p) eqn:X; auto. rewrite <- (pn_starts _ _ _ Rp) in X. apply starts_slash_iff in X. destruct X as (r2 & X). rewrite X in Eb. discriminate.
Qed.
Lemma normalizable_ok S b : normalizable S b -> parts_ok S b /\ path S (b_path b) /\ (b_authority b <> None -> slashy (b_path b)) /\
  (b_scheme b <> None \/ b_authority b <> None \/ starts_with (lit "/") (b_path b) = true \/ first_is_colon (b_path b) = false).
Proof.
  intros (Hs & Ha & P & Hp & Hq & Hf). split; [repeat split; auto|]. split; auto. split.
  - intros Na. destruct Hp as [Hp|[X _]]; [|congruence]. unfold path_rule, requested in Hp. cbn [c_a c_s] in Hp. destruct (b_authority b) as [a|]; [|congruence]. cbn [option_map] in Hp.
    apply (path_ok_class S None (Some (authority_text a))) in Hp. now apply Hp.
  - destruct Hp as [Hp|[_ [X|X]]].
    + unfold path_rule, requested in Hp. cbn [c_a c_s] in Hp. destruct (b_authority b) as [a|]; [right; left; discriminate|]. cbn [option_map] in Hp. destruct (b_scheme b); [left; discriminate|]. apply path_noauth_rel in Hp. tauto.
    + left. destruct (b_scheme b); discriminate.
    + auto.
Qed.
Lemma ok_normalizable S b : parts_ok S b -> path S (b_path b) -> (b_authority b <> None -> slashy (b_path b)) ->
  (b_scheme b <> None \/ b_authority b <> None \/ starts_with (lit "/") (b_path b) = true \/ first_is_colon (b_path b) = false) -> normalizable S b.
Proof.
  intros (Hs & Ha & Hq & Hf) P Sl Ok. repeat split; auto. unfold path_rule, requested. cbn [c_a c_s]. assert (Pc := P). apply path_scan in Pc. destruct (b_authority b) as [a|]; cbn [option_map].
  - left. apply abempty_intro; auto. apply Sl. discriminate.
  - destruct (b_scheme b) as [s|]; [right; split; auto|]. destruct (starts_with (lit "/") (b_path b)) eqn:E; [right; split; auto|]. left. apply path_noauth_rel. split; auto. split.
    + destruct (starts_with [SLASH; SLASH] (b_path b)) eqn:X; auto. apply starts_slash_iff in X. destruct X as (r & X). rewrite X in E. discriminate.
    + destruct Ok as [X|[X|[X|X]]]; congruence.
Qed.
Lemma normal_fits t S k C T : comps_normal S k C T -> fits t C -> fits t (reread T).
Proof.
  intros (Ns & _ & _ & _ & Nf). unfold reread. destruct t; cbn [fits c_s c_f]; auto; destruct (c_s C), (c_s T); try contradiction; try easy. destruct (c_f C), (c_f T); try contradiction; easy.
Qed.
Lemma build_norm_accepts debug S t b : editable t = true -> values_ok b -> b_normalize b = true -> normalizable S b -> fits t (requested b) -> ~ collapses S b ->
  exists x T, build S t b = Ok x /\ comps_normal S (negb (defined (b_scheme b))) (requested b) T /\
    text (built_display S x) = Ok (unparse T) /\ reads S (unparse T) (reread T) /\ new S t (unparse T) = Ok (unparse T) /\
    built_to_dedicated_string S debug t x = Ok (unparse T).
Proof.
  intros Ht V N NZ F Nc. destruct (normalizable_ok _ _ NZ) as (Ho & P & Sl & HOk).
  destruct (build_path S b N P Sl) as (acc & abs & p & w & Ec & Hacc & Np & Ew & Hw). assert (acc = true) by tauto. subst acc.
  destruct Hw as [[_ ->]|[X _]]; [|contradiction].
  destruct (fmt_builder_norm S b abs _ N V Ho Ew) as (s' & a' & q' & f' & Rs & Ra & Rq & Rf & E).
  set (T := mkC s' a' p q' f'). assert (CN : comps_normal S (negb (defined (b_scheme b))) (requested b) T) by (repeat split; auto).
  assert (U : unparse T = recompose s' a' (safe_path (oauth_text b) p) q' f'). { unfold unparse, T. cbn [c_s c_a c_p c_q c_f]. f_equal. destruct (oauth_text b), a'; try contradiction; reflexivity. }
  assert (R : reads S (unparse T) (reread T)). { split; [|reflexivity]. eapply norm_reads; eauto. }
  assert (Nw : new S t (unparse T) = Ok (unparse T)) by (apply (class_new S t _ _ Ht R), fits_class; auto; eapply normal_fits; eauto).
  assert (Tx : text (built_display S (b, abs)) = Ok (unparse T)). { rewrite U. eapply outs_text. exact E. }
  exists (b, abs), T. split; [apply build_iff; auto|]. split; auto. split; auto. split; auto. split; auto.
  unfold built_to_dedicated_string. rewrite Tx. now apply unchecked_new.
Qed.
Lemma build_norm_collapse S t b : editable t = true -> values_ok b -> b_normalize b = true -> normalizable S b -> fits t (requested b) -> collapses S b ->
  exists x w q' f', build S t b = Ok x /\ pct_normal S (b_path b) w /\ opt_rel (pct_normal S) (b_query b) q' /\ opt_rel (pct_normal S) (b_fragment b) f' /\
    text (built_display S x) = Ok (recompose None None w q' f').
Proof.
  intros Ht V N NZ F Nc. destruct (normalizable_ok _ _ NZ) as (Ho & P & Sl & HOk).
  destruct (build_path S b N P Sl) as (acc & abs & p & w & Ec & Hacc & Np & Ew & Hw). assert (acc = true) by tauto. subst acc.
  destruct Hw as [[X _]|[_ Hw]]; [contradiction|].
  destruct (fmt_builder_norm S b abs _ N V Ho Ew) as (s' & a' & q' & f' & Rs & Ra & Rq & Rf & E).
  exists (b, abs), w, q', f'. split; [apply build_iff; auto|]. split; auto. split; auto. split; auto.
  destruct Nc as (Es & Ea & _). unfold oauth_text in Ra. rewrite Es in Rs. rewrite Ea in Ra. destruct s', a'; try contradiction. eapply outs_text. exact E.
Qed.
Lemma build_norm_only S t b x : editable t = true -> values_ok b -> b_normalize b = true -> path S (b_path b) -> build S t b = Ok x -> normalizable S b /\ fits t (requested b).
Proof.
  intros Ht V N P H. apply build_iff in H; auto. destruct H as (_ & F & Ho & E). split; auto.
  assert (Sl : b_authority b <> None -> slashy (b_path b)).
  { intros Na. unfold check_path in E. cbv zeta in E. rewrite N in E. destruct (b_authority b) as [a|]; [|congruence]. cbn [is_some] in E. rewrite orb_true_r in E. cbn [orb] in E.
    destruct (from_path_to_display _ _ _ _) as [pc|[]|]; cbn [bind] in E; [|discriminate]. injection E as E _. apply andb_prop in E. destruct E as [E _]. rewrite orb_comm in E. now apply slashy_b. }
  apply ok_normalizable; auto.
  destruct (build_path S b N P Sl) as (acc & abs & p & w & Ec & Hacc & _). rewrite Ec in E. injection E as -> ->. tauto.
Qed.
Lemma fmt_total S mode auth p : mode <> MNone -> pwf p -> pct_wf (flat p) -> exists X, outs (fmt_write_normalize S mode auth p) = Some (X, tt).
Proof.
  intros Hm W G. destruct (opaque_path mode auth p) eqn:O; [destruct (fmt_opaque_ok S mode auth p W G O) as (t & _ & E); eauto|].
  assert (HOK : forall s, pct_wf s -> outs (write_seg S mode s) = Some (pnf S s, tt)).
  { intros s Ws. unfold write_seg. destruct mode; [congruence| |]; now apply pnf_ok. }
  destruct (fmt_write_ok S mode auth (pnf S) pct_wf HOK) with (p := p) as [(F & E)|(F & s & l & T & Es & Wl & E)]; eauto.
  all: try exact wf_slash; try constructor; try (intros; now apply pnf_slash); try (apply pnf_eq; constructor); auto.
  eexists. apply E. eapply trim_good; eauto.
Qed.
Lemma build_norm_total S t b : pct_wf (b_path b) -> (exists x, build S t b = Ok x) \/ (exists e, build S t b = Err e).
Proof.
  intros Wf. destruct (b_normalize b) eqn:N; [|now apply build_total].
  assert (H : validate_builder_for_iri_reference S b <> Panic).
  { unfold validate_builder_for_iri_reference.
    assert (C : exists ca, check_path S b = Ok ca).
    { unfold check_path. cbv zeta. rewrite N. destruct (is_some (b_scheme b) || is_some (b_authority b) || starts_with [SLASH] (b_path b)); eauto.
      destruct (fmt_total S MDefault (is_some (b_authority b)) (from_single_path (b_path b))) as (X & E); [discriminate|exact I|now rewrite flat_single|].
      destruct (pc_ok _ _ _ _ _ E) as (pc & -> & _). cbn [bind]. eauto. }
    destruct C as ([acc ab] & ->). cbn [up].
    destruct (b_scheme b) as [s|]; [destruct (validate_scheme s) as [[]| |] eqn:E; cbn [bind]; [|discriminate|now apply validate_scheme_np in E]|cbn [bind]].
    all: destruct (b_authority b) as [a|]; [destruct (validate_authority_builder S a) as [[]| |] eqn:E2; cbn [bind]; [|discriminate|now apply vab_np in E2]|cbn [bind]].
    all: destruct acc; cbn [negb]; [|discriminate].
    all: destruct (b_query b) as [q|]; [destruct (validate_query S q) as [[]| |] eqn:E3; cbn [bind]; [|discriminate|now apply check_np in E3]|cbn [bind]].
    all: destruct (b_fragment b) as [f|]; [destruct (validate_fragment S f) as [[]| |] eqn:E4; cbn [bind]; [discriminate|discriminate|now apply check_np in E4]|cbn [bind]; discriminate]. }
  destruct (build S t b) as [x|e|] eqn:E; eauto. exfalso. unfold build in E.
  destruct (validate_builder_for_iri_reference S b); [| |congruence].
  all: destruct t; cbn [bind] in E; try discriminate; destruct (b_scheme b); cbn [is_some negb bind] in E; try discriminate; destruct (b_fragment b); cbn [is_some bind] in E; discriminate.
Qed.
(** Building with normalization is building, then normalizing. *)
Lemma build_norm_agrees S t b : editable t = true -> values_ok b -> b_scheme b <> None -> representable S b -> fits t (requested b) ->
  exists x y i n o, build S t (b_set_normalize b false) = Ok x /\ build S t (b_set_normalize b true) = Ok y /\
  text (built_display S x) = Ok i /\ normalize i = Ok n /\ display S n = Ok o /\ text (built_display S y) = Ok o.
Proof.
  intros Ht V Hs R F. assert (D : defined (b_scheme b) = true) by (clear - Hs; destruct (b_scheme b); [reflexivity|now elim Hs]).
  destruct (build_accepts false S t (b_set_normalize b false)) as (x & i & Ex & Tx & Rx & _); auto.
  destruct (build_norm_accepts false S t (b_set_normalize b true)) as (y & T & Ey & CN & Ty & _); auto.
  { destruct R as (R1 & R2 & R3 & R4 & R5). repeat split; auto. - eapply rule_path; exact R3. } { intros (X & _). apply Hs. exact X. }
  destruct (norm_spec S false i (requested (b_set_normalize b false)) Rx D) as (n & T' & En & CN' & U & Dn & _).
  exists x, y, i, n, (unparse T'). repeat split; auto. rewrite <- (U T); auto. change (b_scheme (b_set_normalize b true)) with (b_scheme b) in CN. rewrite D in CN. exact CN.
Qed.
Lemma built_ensure_ok S b x y t : pct_wf (b_path b) -> build S t b = Ok x -> path_normal S false (defined (oauth_text b)) (b_path b) y ->
  exists r, built_ensure x = Ok r /\ (r = true <-> ~ (b_authority b = None /\ starts_with (lit "//") y = true)).
Proof.
  intros Wf H Np. assert (Ex : fst x = b).
  { unfold build in H. destruct (match t with TAbsolute => _ | _ => _ end) as [[]| |]; cbn [bind] in H; try discriminate. destruct (validate_builder_for_iri_reference S b); cbn [bind] in H; try discriminate. now injection H as <-. }
  unfold built_ensure. rewrite Ex. apply path_normal_alt in Np. destruct Np as (q & R & P & _).
  destruct (b_authority b) as [a|]; cbn [is_some]; [exists true; split; [reflexivity|]; split; [intros _ [X _]; discriminate|auto]|].
  exists (negb (starts_with (lit "//") q)). split; [apply ensure_path; [exact I|now rewrite flat_single]|]. rewrite (pn_starts _ _ _ P). destruct (starts_with (lit "//") y); cbn [negb].
  - split; [discriminate|]. intros X. now elim X.
  - split; auto. intros _ [_ X]. discriminate.
Qed.
