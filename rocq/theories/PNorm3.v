(** * Normalization (proofs only), part 3: the display of [Normalized] in all modes; resolution. *)
From Verif Require Import Base Chars Rfc3986 Utf8 CompSpec RfcResolve PctSpec NormSpec MValidate MTrusted MFormat MPct MPath MNormalize
  PBase PScan PHost PAuth PValidate PTrusted PComps PAscii PTypes PPath PPath2 PPath3 PPath4 PPct PPct2 PPct3 PPct4 PPath5 PResolve PRds PNorm PNorm2.

Definition path_flat (p : Path) : str := match p with PDone s => s | PNeeds p => flat p end.
Definition path_pwf (p : Path) : Prop := match p with PDone s => True | PNeeds p => pwf p end.
Definition keep_of (m : NormalizationMode) : bool := match m with MPreserve => true | _ => false end.
Lemma class_wf S p : path_class S p -> pct_wf p.
Proof. intros H. apply pct_wf_scan. eapply scan_mono; [|exact H]. reflexivity. Qed.
Lemma path_out_norm S m a pth : m <> MNone -> path_pwf pth -> pct_wf (path_flat pth) -> (a <> None -> slashy (path_flat pth)) ->
  exists t, path_normal S (keep_of m) (defined a) (path_flat pth) t /\ path_out S m a pth = Some (safe_path a t, tt).
Proof.
  intros Hm Wp W Sl.
  assert (G : forall p, pwf p -> pct_wf (flat p) -> (a <> None -> slashy (flat p)) -> exists t, path_normal S (keep_of m) (defined a) (flat p) t /\ outs (fmt_write_normalize S m (is_some a) p) = Some (safe_path a t, tt)).
  { clear pth Wp W Sl. intros p Wp W Sl. destruct (opaque_path m (is_some a) p) eqn:O.
    - destruct (fmt_opaque_ok S m (is_some a) p Wp W O) as (t & P & E). exists t. unfold opaque_path in O. destruct m; try discriminate.
      destruct a; [discriminate|]. unfold path_normal. cbn in O. change (starts_with (lit "/") (flat p)) with (starts_with [SLASH] (flat p)). cbn [keep_of defined negb andb].
      assert (Ns : starts_with [SLASH] (flat p) = false) by (now apply negb_true_iff in O). rewrite Ns. cbn [negb]. split; auto. rewrite E. unfold safe_path.
      destruct (starts_with (lit "//") t) eqn:X; auto. exfalso. rewrite <- (pn_starts _ _ _ P) in X. apply starts_slash_iff in X. destruct X as (r & X). rewrite X in Ns. discriminate.
    - destruct (fmt_norm_ok S m (is_some a) p Hm Wp W) as (q & t & p' & H1 & H2 & H3 & H4 & E); auto.
      { intros X. apply Sl. destruct a; [discriminate|discriminate]. }
      exists t. rewrite E, guard_safe. split; auto. unfold path_normal. unfold opaque_path in O.
      destruct (keep_of m && negb (defined a) && negb (starts_with (lit "/") (flat p))) eqn:B; [|eauto].
      exfalso. destruct m; try discriminate. destruct a; [discriminate|]. change (negb (starts_with [SLASH] (flat p)) = false) in O. change (negb (starts_with [SLASH] (flat p)) = true) in B. congruence. }
  unfold path_out. destruct pth as [s|p].
  - replace (case_pct_normalization m) with true by (destruct m; [congruence|reflexivity|reflexivity]). cbn [path_flat] in *.
    destruct (G (from_single_path s)) as (t & H & E); try exact I; unfold flat in *; cbn in *; rewrite app_nil_r in *; auto. eauto.
  - apply G; auto.
Qed.
Lemma pn_out S s : pct_wf s -> exists t, pct_normal S s t /\ outs (PctCaseNormalized S s) = Some (t, tt).
Proof. intros W. destruct (pnf_ok S s W). eauto. Qed.
Lemma query_wf S q : query S q -> pct_wf q.
Proof. intros H. apply query_scan in H. apply pct_wf_scan. eapply scan_mono; [|exact H]. reflexivity. Qed.
Lemma fragment_wf S q : fragment S q -> pct_wf q.
Proof. intros H. apply fragment_scan in H. apply pct_wf_scan. eapply scan_mono; [|exact H]. reflexivity. Qed.
Lemma fmt_mode S s a pth q f m : m <> MNone -> path_pwf pth -> loose_ok S (mkC (Some s) a (path_flat pth) q f) ->
  exists T, comps_normal S (keep_of m) (mkC (Some s) a (path_flat pth) q f) T /\ outs (fmt_normalized S (mkInput s a pth q f m)) = Some (unparse T, tt).
Proof.
  intros Hm Wp (Hs & Ha & Hq & Hf & Hc & Hl). cbn [c_s c_a c_p c_q c_f] in *.
  destruct (path_out_norm S m a pth Hm Wp (class_wf _ _ Hc) Hl) as (t & Np & Ep).
  assert (Xa : exists a', opt_rel (authority_normal S) a a' /\ outs (match a with Some a => write [SLASH; SLASH] >> normalize_authority S a | None => wret tt end) = Some (oauth a', tt)).
  { destruct a as [a|]; [|exists None; split; [exact I|reflexivity]]. destruct (authority_norm S a Ha) as (a' & N & E). exists (Some a'). split; auto. eapply outs_bind; [apply outs_write|exact E]. }
  assert (Xq : exists q', opt_rel (pct_normal S) q q' /\ outs (match q with Some q => write [QMARK] >> normalize_query S q | None => wret tt end) = Some (oq q', tt)).
  { destruct q as [q|]; [|exists None; split; [exact I|reflexivity]]. destruct (pn_out S q (query_wf _ _ Hq)) as (q' & N & E). exists (Some q'). split; auto. eapply outs_bind; [apply outs_write|exact E]. }
  assert (Xf : exists f', opt_rel (pct_normal S) f f' /\ outs (match f with Some f => write [HASH] >> normalize_fragment S f | None => wret tt end) = Some (ofr f', tt)).
  { destruct f as [f|]; [|exists None; split; [exact I|reflexivity]]. destruct (pn_out S f (fragment_wf _ _ Hf)) as (f' & N & E). exists (Some f'). split; auto. eapply outs_bind; [apply outs_write|exact E]. }
  destruct Xa as (a' & Ra & Ea), Xq as (q' & Rq & Eq), Xf as (f' & Rf & Ef).
  exists (mkC (Some (map lower s)) a' t q' f'). split; [repeat split; cbn [c_s c_a c_p c_q c_f]; auto|].
  unfold fmt_normalized. cbn [n_mode n_scheme n_authority n_path n_query n_fragment]. cbv zeta. unfold unparse. cbn [c_s c_a c_p c_q c_f].
  unfold path_out in Ep. replace (safe_path a' t) with (safe_path a t) by (destruct a, a'; try contradiction; reflexivity).
  rewrite recompose_eq. unfold osch. rewrite <- app_assoc. destruct m; [congruence| |].
  all: cbn [case_pct_normalization] in *.
  all: eapply outs_bind; [apply outs_lower|]; cbv beta.
  all: eapply outs_bind; [apply outs_write|]; cbv beta.
  all: eapply outs_bind; [exact Ea|]; cbv beta.
  all: eapply outs_bind; [exact Ep|]; cbv beta.
  all: eapply outs_bind; [exact Eq|]; cbv beta.
  all: exact Ef.
Qed.

(** ** Normalization of an IRI *)
Lemma input_from_rec s a p q f : weak_ok (Some s) a p q -> input_from (recompose (Some s) a p q f) = Ok (mkInput s a (PNeeds (from_single_path p)) q f MNone).
Proof. intros W. unfold input_from. rewrite to_major_rec by auto. reflexivity. Qed.
Definition norm_input (keep : bool) (i : str) : may NormalizationInput := if keep then normalize_preserve i else normalize i.
Lemma norm_input_rec k s a p q f : weak_ok (Some s) a p q -> norm_input k (recompose (Some s) a p q f) = Ok (mkInput s a (PNeeds (from_single_path p)) q f (if k then MPreserve else MDefault)).
Proof. intros W. unfold norm_input, normalize, normalize_preserve. rewrite input_from_rec by auto. destruct k; reflexivity. Qed.
Lemma flat_single p : flat (from_single_path p) = p.
Proof. unfold flat. cbn. apply app_nil_r. Qed.
Lemma normalize_ok S k s a p q f : components_ok S (Some s) a p q f -> exists n T,
  norm_input k (recompose (Some s) a p q f) = Ok n /\ comps_normal S k (mkC (Some s) a p q f) T /\ outs (fmt_normalized S n) = Some (unparse T, tt).
Proof.
  intros H. assert (W := components_weak _ _ _ _ _ _ H). assert (L : loose_ok S (mkC (Some s) a p q f)) by (apply comps_loose; auto).
  destruct (fmt_mode S s a (PNeeds (from_single_path p)) q f (if k then MPreserve else MDefault)) as (T & N & E).
  { destruct k; discriminate. } { exact I. } { cbn [path_flat]. now rewrite flat_single. }
  cbn [path_flat] in N. rewrite flat_single in N. eexists. exists T. split; [now apply norm_input_rec|]. split; auto. destruct k; exact N.
Qed.
(** ** Resolution, then normalization. *)
Definition mode_keep (k : bool) : NormalizationMode := if k then MPreserve else MDefault.
Lemma merge_class S a b r m : merge a b r m -> path_class S b -> path_class S r -> path_class S m.
Proof.
  unfold path_class. intros M Hb Hr. assert (F47 := f_pchar_slash_char S). destruct M as [_ _|dir last _ -> _|_ _]; auto.
  - now rewrite scan_lead.
  - rewrite scan_slash in * by auto. apply andb_prop in Hb. now rewrite Hr, (proj1 Hb).
Qed.
Lemma resolve_pre S bs ba bp bq bf rs ra rp rq rf : components_ok S (Some bs) ba bp bq bf -> components_ok S rs ra rp rq rf ->
  exists n M, resolve (recompose (Some bs) ba bp bq bf) (recompose rs ra rp rq rf) = Ok n /\
    pre_transform (mkC (Some bs) ba bp bq bf) (mkC rs ra rp rq rf) M /\ loose_ok S M /\ path_pwf (n_path n) /\
    M = mkC (Some (n_scheme n)) (n_authority n) (path_flat (n_path n)) (n_query n) (n_fragment n).
Proof.
  intros Hb Hr. assert (Wb := components_weak _ _ _ _ _ _ Hb). assert (Wr := components_weak _ _ _ _ _ _ Hr).
  assert (Lb : loose_ok S (mkC (Some bs) ba bp bq bf)) by (apply comps_loose; auto). destruct Lb as ((x & Ex & Hbs) & Hba & Hbq & Hbf & Hbc & Hbl). cbn [c_s c_a c_p c_q c_f] in *. injection Ex as <-.
  assert (Hr2 := Hr). destruct Hr2 as (Hrs & Hra & Hrq & Hrf & Hrp). destruct (path_ok_class S rs ra rp Hrp) as [Hrc Hrl].
  eexists. exists (mkC (Some (n_scheme (input_of bs ba bp bq rs ra rp rq rf))) (n_authority (input_of bs ba bp bq rs ra rp rq rf)) (path_flat (n_path (input_of bs ba bp bq rs ra rp rq rf))) (n_query (input_of bs ba bp bq rs ra rp rq rf)) (n_fragment (input_of bs ba bp bq rs ra rp rq rf))).
  split; [now apply resolve_rec|]. cut (pre_transform {| c_s := Some bs; c_a := ba; c_p := bp; c_q := bq; c_f := bf |} {| c_s := rs; c_a := ra; c_p := rp; c_q := rq; c_f := rf |}
  {| c_s := Some (n_scheme (input_of bs ba bp bq rs ra rp rq rf));
    c_a := n_authority (input_of bs ba bp bq rs ra rp rq rf);
    c_p := path_flat (n_path (input_of bs ba bp bq rs ra rp rq rf));
    c_q := n_query (input_of bs ba bp bq rs ra rp rq rf);
    c_f := n_fragment (input_of bs ba bp bq rs ra rp rq rf) |} /\ loose_ok S
  {| c_s := Some (n_scheme (input_of bs ba bp bq rs ra rp rq rf));
    c_a := n_authority (input_of bs ba bp bq rs ra rp rq rf);
    c_p := path_flat (n_path (input_of bs ba bp bq rs ra rp rq rf));
    c_q := n_query (input_of bs ba bp bq rs ra rp rq rf);
    c_f := n_fragment (input_of bs ba bp bq rs ra rp rq rf) |} /\ path_pwf (n_path (input_of bs ba bp bq rs ra rp rq rf))); [tauto|].
  unfold input_of. destruct rs as [s|].
  { cbn [n_scheme n_authority n_path n_query n_fragment path_flat]. rewrite flat_single. split; [apply (pt_scheme _ (mkC (Some s) ra rp rq rf)); reflexivity|]. split; [repeat split; cbn [c_s c_a c_p c_q c_f]; eauto|exact I]. }
  destruct ra as [a|].
  { cbn [n_scheme n_authority n_path n_query n_fragment path_flat]. rewrite flat_single. split; [apply (pt_authority (mkC (Some bs) ba bp bq bf) (mkC None (Some a) rp rq rf)); reflexivity|]. split; [repeat split; cbn [c_s c_a c_p c_q c_f]; eauto|exact I]. }
  destruct (is_empty rp) eqn:Er.
  - apply is_empty_iff in Er. subst rp. cbn [n_scheme n_authority n_path n_query n_fragment path_flat]. split; [|split; [|exact I]].
    + replace (if is_some rq then rq else bq) with (if defined rq then rq else bq) by (destruct rq; reflexivity). apply (pt_empty_path (mkC (Some bs) ba bp bq bf) (mkC None None [] rq rf)); reflexivity.
    + repeat split; cbn [c_s c_a c_p c_q c_f]; eauto. destruct rq; auto.
  - assert (Nr : rp <> []) by (intros ->; discriminate). cbn [n_scheme n_authority n_path n_query n_fragment path_flat]. destruct (starts_with [SLASH] rp) eqn:Es.
    + unfold merged. rewrite Es. rewrite flat_single. destruct (slash_head rp Nr Es) as (r & Er2). split; [apply (pt_abs_path (mkC (Some bs) ba bp bq bf) (mkC None None rp rq rf) r); auto|].
      split; [|exact I]. repeat split; cbn [c_s c_a c_p c_q c_f]; eauto. intros _. right. exists r. exact Er2.
    + destruct (merged_ok ba bp rp Nr Es) as (W & M). split; [|split; [|exact W]].
      * apply (pt_rel_path (mkC (Some bs) ba bp bq bf) (mkC None None rp rq rf)); auto. intros r X. cbn in X. rewrite X in Es. discriminate.
      * repeat split; cbn [c_s c_a c_p c_q c_f]; eauto. { eapply merge_class; eauto. } intros Na. eapply merge_slashy; [| |exact M|exact Es]; [destruct ba; [reflexivity|congruence]|]. now apply Hbl.
Qed.
Lemma resolve_normal S k bs ba bp bq bf rs ra rp rq rf : components_ok S (Some bs) ba bp bq bf -> components_ok S rs ra rp rq rf ->
  exists n M T, resolve (recompose (Some bs) ba bp bq bf) (recompose rs ra rp rq rf) = Ok n /\
    pre_transform (mkC (Some bs) ba bp bq bf) (mkC rs ra rp rq rf) M /\ loose_ok S M /\ comps_normal S k M T /\
    outs (fmt_normalized S (set_mode n (mode_keep k))) = Some (unparse T, tt).
Proof.
  intros Hb Hr. destruct (resolve_pre S bs ba bp bq bf rs ra rp rq rf Hb Hr) as (n & M & E & P & L & W & EM).
  destruct n as [ns na np nq nf nm]. cbn [n_scheme n_authority n_path n_query n_fragment] in *. subst M.
  destruct (fmt_mode S ns na np nq nf (mode_keep k)) as (T & N & O); auto. { destruct k; discriminate. }
  eexists. eexists. exists T. split; [exact E|]. split; [exact P|]. split; auto. split; [destruct k; exact N|]. exact O.
Qed.
(** Default mode: the normal form of the RFC's target. *)
Lemma pre_transform_rds B R M T0 : pre_transform B R M -> transform B R T0 -> c_s T0 = c_s M /\ c_a T0 = c_a M /\ c_q T0 = c_q M /\ c_f T0 = c_f M /\ (rds (c_p M) (c_p T0) \/ c_p T0 = c_p M).
Proof.
  intros P T. destruct P as [P1|P1 P2|P1 P2 P3|r P1 P2 P3|m P1 P2 P3 P4 P5]; destruct T as [p A1 R1|p A1 A2 R1|A1 A2 A3|r' p A1 A2 A3 R1|m' p A1 A2 A3 A4 M1 R1]; cbn [c_s c_a c_p c_q c_f] in *; try congruence; auto 7;
    try (exfalso; rewrite P3 in A3; discriminate); try (exfalso; eapply P4; eauto; fail); try (exfalso; eapply A4; eauto; fail).
  rewrite (merge_fun _ _ _ _ _ M1 P5) in R1. auto 7.
Qed.
Lemma normal_after_rds S h p q t : rds p q -> path_normal S false h p t -> path_normal S false h q t.
Proof.
  intros R N. apply path_normal_alt in N. destruct N as (q' & R' & P & W). rewrite (rds_fun _ _ _ R' R) in P. apply path_normal_alt. exists q. split; [eapply rds_idem; eauto|]. split; auto. eapply pn_wf_l; eauto.
Qed.
Lemma normal_target S B R M T0 T : pre_transform B R M -> transform B R T0 -> comps_normal S false M T -> comps_normal S false T0 T.
Proof.
  intros P Tr N. destruct (pre_transform_rds _ _ _ _ P Tr) as (E1 & E2 & E3 & E4 & E5). destruct M as [s a p q f], T0 as [s0 a0 p0 q0 f0]. cbn [c_s c_a c_p c_q c_f] in *. subst.
  destruct N as (N1 & N2 & N3 & N4 & N5). cbn [c_s c_a c_p c_q c_f] in *. repeat split; cbn [c_s c_a c_p c_q c_f]; auto. destruct E5 as [E5|E5]; [eapply normal_after_rds; eauto|now subst].
Qed.
