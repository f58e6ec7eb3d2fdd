(** * Reference resolution (proofs only). *)
From Verif Require Import Base Chars Rfc3986 Utf8 CompSpec RfcResolve PctSpec MValidate MTrusted MFormat MPct MPath MNormalize
  PBase PScan PAuth PValidate PTrusted PComps PPath PPath2 PPath4 PPath5.

(** ** The [Normalized] value that resolution builds. *)
Definition merged (ba : option str) (bp rp : str) : ptn :=
  if starts_with [SLASH] rp then from_single_path rp
  else from_paths_to_be_resolved (if is_some ba && is_empty bp then [SLASH] else bp) rp.
Definition input_of (bs : str) (ba : option str) (bp : str) (bq : option str) (rs ra : option str) (rp : str) (rq rf : option str) : NormalizationInput :=
  match rs, ra with
  | Some s, _ => mkInput s ra (PNeeds (from_single_path rp)) rq rf MNone
  | None, Some a => mkInput bs ra (PNeeds (from_single_path rp)) rq rf MNone
  | None, None =>
      if is_empty rp then mkInput bs ba (PDone bp) (if is_some rq then rq else bq) rf MNone
      else mkInput bs ba (PNeeds (merged ba bp rp)) rq rf MNone
  end.
Lemma resolve_rec bs ba bp bq bf rs ra rp rq rf : weak_ok (Some bs) ba bp bq -> weak_ok rs ra rp rq ->
  resolve (recompose (Some bs) ba bp bq bf) (recompose rs ra rp rq rf) = Ok (input_of bs ba bp bq rs ra rp rq rf).
Proof.
  intros Hb Hr. unfold resolve. rewrite !decompose_rec by assumption. cbn [bind]. unfold create_normalization_input.
  rewrite sp_has_scheme_rec, !sp_has_authority_rec, sp_path_empty_rec, sp_has_query_rec.
  destruct rs as [s|]; cbn [is_some].
  { rewrite sp_path_rec. cbn [bind]. rewrite sp_scheme_rec. cbn [bind]. unfold choose_then; cbn [rt_rank Nat.leb].
    rewrite sp_authority_rec. cbn [bind]. rewrite sp_query_rec. cbn [bind]. rewrite sp_fragment_rec. reflexivity. }
  destruct ra as [a|]; cbn [is_some].
  { rewrite sp_path_rec. cbn [bind]. rewrite !sp_scheme_rec. cbn [bind]. unfold choose_then; cbn [rt_rank Nat.leb].
    rewrite sp_authority_rec. cbn [bind]. rewrite sp_query_rec. cbn [bind]. rewrite sp_fragment_rec. reflexivity. }
  destruct rp as [|c rp]; cbn [is_empty negb].
  - destruct rq as [q|]; cbn [is_some].
    + rewrite sp_path_rec. cbn [bind]. rewrite !sp_scheme_rec. cbn [bind]. unfold choose_then; cbn [rt_rank Nat.leb].
      rewrite sp_authority_rec. cbn [bind]. rewrite sp_query_rec. cbn [bind]. rewrite sp_fragment_rec. reflexivity.
    + rewrite sp_path_rec. cbn [bind]. rewrite !sp_scheme_rec. cbn [bind]. unfold choose_then; cbn [rt_rank Nat.leb].
      rewrite sp_authority_rec. cbn [bind]. rewrite sp_query_rec. cbn [bind]. rewrite sp_fragment_rec. reflexivity.
  - rewrite !sp_path_rec. cbn [bind]. unfold input_of, merged. cbn [is_empty].
    destruct (starts_with [SLASH] (c :: rp)); cbn [bind]; rewrite !sp_scheme_rec; cbn [bind]; unfold choose_then; cbn [rt_rank Nat.leb];
      rewrite !sp_authority_rec; cbn [bind]; rewrite !sp_query_rec; cbn [bind]; rewrite !sp_fragment_rec; reflexivity.
Qed.

(** ** Display *)
Definition path_out (S : Spec) (m : NormalizationMode) (a : option str) (pth : Path) : option (str * unit) :=
  outs (match pth with
        | PDone s => if case_pct_normalization m then fmt_write_normalize S m (is_some a) (from_single_path s) else write s
        | PNeeds p => fmt_write_normalize S m (is_some a) p end).
Lemma fmt_raw S s a pth q f t : path_out S MNone a pth = Some (t, tt) ->
  outs (fmt_normalized S (mkInput s a pth q f MNone)) = Some (recompose (Some s) a t q f, tt).
Proof.
  intros E. unfold fmt_normalized. cbn [n_mode n_scheme n_authority n_path n_query n_fragment case_pct_normalization].
  rewrite recompose_eq. unfold osch. rewrite <- app_assoc.
  eapply outs_bind; [apply outs_write|]. eapply outs_bind; [apply outs_write|].
  eapply (outs_bind _ _ (oauth a) tt).
  { destruct a; [|reflexivity]. cbn [oauth]. eapply outs_bind; apply outs_write. }
  cbv beta. eapply outs_bind; [exact E|]. cbv beta. 
  eapply (outs_bind _ _ (oq q) tt).
  { destruct q; [|reflexivity]. cbn [oq]. eapply outs_bind; apply outs_write. }
  cbv beta. destruct f; [|reflexivity]. cbn [ofr]. eapply outs_bind; apply outs_write.
Qed.
Lemma merged_ok ba bp rp : rp <> [] -> starts_with [SLASH] rp = false ->
  pwf (merged ba bp rp) /\ merge (defined ba) bp rp (flat (merged ba bp rp)).
Proof.
  intros Hr Hs. unfold merged. rewrite Hs. unfold from_paths_to_be_resolved. rewrite Hs.
  assert (Er : is_empty rp = false) by (destruct rp; easy). rewrite Er.
  assert (Df : defined ba = is_some ba) by (destruct ba; reflexivity). rewrite Df. clear Df.
  destruct (is_some ba && is_empty bp) eqn:C.
  - apply andb_prop in C. destruct C as [C1 C2]. apply is_empty_iff in C2. cbn. split.
    + split; auto. exists []. reflexivity.
    + apply (merge_empty _ bp rp); auto.
  - assert (Nc : ~ (is_some ba = true /\ bp = [])). { intros [X1 X2]. rewrite X1, X2 in C. discriminate. }
    destruct (split_last (N.eqb SLASH) bp) as [[[a c] b]|] eqn:E.
    + apply split_last_some in E. destruct E as (Eb & Hn & Hc). apply N.eqb_eq in Hc. subst c. split.
      * split; auto. exists a. reflexivity.
      * unfold flat. cbn [front back]. rewrite <- app_assoc. apply (merge_last _ _ _ a b); auto. now apply no_slash_none.
    + apply split_last_none in E. split; [exact I|]. unfold flat. cbn [front back]. rewrite app_nil_r. apply merge_noslash; auto. now apply no_slash_none.
Qed.
Lemma slash_head rp : rp <> [] -> starts_with [SLASH] rp = true -> exists r, rp = lit "/" ++ r.
Proof.
  unfold starts_with. destruct rp as [|c r]; [easy|]. cbn. destruct c as [|p]; [discriminate|]. destruct (Pos.eqb_spec 47 p); [|discriminate]. subst. eauto.
Qed.
Lemma guard_safe a t : guard (is_some a) t = safe_path a t.
Proof. destruct a; reflexivity. Qed.
Lemma merge_slashy ba bp rp m : defined ba = true -> abempty_shape bp -> merge (defined ba) bp rp m -> starts_with [SLASH] rp = false -> slashy m.
Proof.
  intros Ha Hb M Hs. rewrite Ha in M. destruct M as [_ _|dir last Hn E Hl|Hn Hl].
  - right. eexists. reflexivity.
  - destruct Hb as [->|(r & ->)]; [destruct dir; discriminate|]. destruct dir as [|c dir]; [right; eexists; reflexivity|].
    cbn in E. injection E as <- _. right. eexists. reflexivity.
  - destruct Hb as [->|(r & ->)]; [destruct Hn; auto|]. destruct Hl. now left.
Qed.

Lemma resolve_transform S bs ba bp bq bf rs ra rp rq rf : weak_ok (Some bs) ba bp bq -> weak_ok rs ra rp rq ->
  exists T, transform (mkC (Some bs) ba bp bq bf) (mkC rs ra rp rq rf) T /\ defined (c_s T) = true /\
    outs (fmt_normalized S (input_of bs ba bp bq rs ra rp rq rf)) = Some (unparse T, tt).
Proof.
  intros Hb Hr. assert (Hr2 := Hr). assert (Hb2 := Hb). destruct Hr2 as (_ & Hra & _). destruct Hb2 as (_ & Hba & _).
  assert (SP : forall a p, match a with Some _ => abempty_shape p | None => True end -> exists t, rds p t /\ path_out S MNone a (PNeeds (from_single_path p)) = Some (safe_path a t, tt)).
  { intros a p Ha. destruct (fmt_none_ok S (is_some a) (from_single_path p)) as (t & R & E).
    - exact I.
    - intros Hs. unfold flat. cbn. rewrite app_nil_r. destruct a; [exact Ha|discriminate].
    - unfold flat in R. cbn in R. rewrite app_nil_r in R. exists t. split; auto. unfold path_out. now rewrite <- guard_safe. }
  unfold input_of. destruct rs as [s|].
  { destruct (SP ra rp) as (t & R & E); [destruct ra; tauto|]. eexists. split; [apply tr_scheme; [reflexivity|exact R]|]. split; [reflexivity|]. now apply fmt_raw. }
  destruct ra as [a|].
  { destruct (SP (Some a) rp) as (t & R & E); [tauto|]. eexists. split; [apply tr_authority; [reflexivity|reflexivity|exact R]|]. split; [reflexivity|]. now apply fmt_raw. }
  destruct (is_empty rp) eqn:Er.
  - apply is_empty_iff in Er. subst rp. eexists. split; [apply tr_empty_path; reflexivity|]. split; [reflexivity|]. unfold unparse. cbn [c_s c_a c_p c_q c_f].
    replace (if defined rq then rq else bq) with (if is_some rq then rq else bq) by (destruct rq; reflexivity).
    apply fmt_raw. unfold path_out. cbn [case_pct_normalization]. rewrite outs_write. f_equal. f_equal.
    destruct ba; [reflexivity|]. unfold safe_path. change (lit "//") with [SLASH; SLASH]. now rewrite Hba.
  - assert (Nr : rp <> []) by (intros ->; discriminate). destruct (starts_with [SLASH] rp) eqn:Es.
    + destruct (slash_head rp Nr Es) as (r & Er2). destruct (SP ba rp) as (t & R & E). { destruct ba; auto. right. exists r. exact Er2. }
      eexists. split; [eapply (tr_abs_path rds _ _ r); [reflexivity|reflexivity|exact Er2|exact R]|]. split; [reflexivity|]. unfold merged. rewrite Es. now apply fmt_raw.
    + destruct (merged_ok ba bp rp Nr Es) as (W & M).
      destruct (fmt_none_ok S (is_some ba) (merged ba bp rp) W) as (t & R & E).
      { intros Hs. eapply merge_slashy; [| |exact M|exact Es]; destruct ba; try discriminate; try reflexivity; tauto. }
      eexists. split; [eapply (tr_rel_path rds _ _ _ t); [reflexivity|reflexivity|exact Nr| |exact M|exact R]|].
      { intros r X. cbn in X. rewrite X in Es. discriminate. }
      split; [reflexivity|]. apply fmt_raw. unfold path_out. now rewrite <- guard_safe.
Qed.

(** The transformation is a function. *)
Lemma merge_fun a b r m1 m2 : merge a b r m1 -> merge a b r m2 -> m1 = m2.
Proof.
  intros H1 H2. destruct H1 as [A1 B1|dir last N1 E1 L1|N1 L1]; destruct H2 as [A2 B2|dir2 last2 N2 E2 L2|N2 L2]; auto; try (exfalso; tauto).
  - f_equal. eapply remove_last_fun; [|apply (rl_slash dir2 last2 L2)]. rewrite <- E2, E1. now apply rl_slash.
  - exfalso. apply L2. rewrite E1. apply in_or_app. right. now left.
  - exfalso. apply L1. rewrite E2. apply in_or_app. right. now left.
Qed.
Lemma transform_fun B R T1 T2 : transform B R T1 -> transform B R T2 -> T1 = T2.
Proof.
  intros H1 H2. destruct H1 as [p A1 R1|p A1 A2 R1|A1 A2 A3|r p A1 A2 A3 R1|m p A1 A2 A3 A4 M1 R1]; destruct H2 as [p' B1 R2|p' B1 B2 R2|B1 B2 B3|r' p' B1 B2 B3 R2|m' p' B1 B2 B3 B4 M2 R2];
    try congruence; try (f_equal; eapply rds_fun; eauto; fail); try (exfalso; eapply B4; eauto; fail); try (exfalso; eapply A4; eauto; fail).
  - exfalso. rewrite A3 in B3. discriminate.
  - exfalso. rewrite B3 in A3. discriminate.
  - rewrite (merge_fun _ _ _ _ _ M1 M2) in R1. f_equal. eapply rds_fun; eauto.
Qed.
