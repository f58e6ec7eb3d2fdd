(** * Normalization (proofs only), part 6: [ensure_rfc3986_normalizable], and the lemmas behind the
    theorems of PropResolve.v and PropNormalize.v. *)
From Verif Require Import Base Chars Rfc3986 Utf8 CompSpec RfcResolve PctSpec NormSpec MValidate MTrusted MFormat MPct MPath MNormalize
  PBase PScan PHost PAuth PValidate PTrusted PComps PAscii PTypes PTypes2 PPath PPath2 PPath3 PPath4 PPct PPct2 PPct3 PPct4 PPath5 PResolve PRds PNorm PNorm2 PNorm3 PNorm4 PNorm5.

Lemma prefix_run chunks : forall buf, (length buf <= 3)%nat -> exists o, (o = OOk \/ o = OErr) /\
  run prefix_write buf chunks OOk = (firstn 3 (buf ++ concat chunks), o).
Proof.
  induction chunks as [|c r IH]; intros buf L; cbn [run concat].
  - exists OOk. split; auto. rewrite app_nil_r, firstn_all2 by lia. reflexivity.
  - unfold prefix_write at 1. destruct (negb (is_empty c) && Nat.leb 3 (length buf)) eqn:E.
    + apply andb_prop in E. destruct E as [_ E]. apply Nat.leb_le in E. exists OErr. split; auto. assert (X : length buf = 3%nat) by lia.
      rewrite firstn_app, <- X, Nat.sub_diag, firstn_O, app_nil_r, firstn_all. reflexivity.
    + destruct (IH (firstn 3 (buf ++ c))) as (o & Ho & ->); [apply firstn_le_length|]. exists o. split; auto. f_equal. rewrite app_assoc. generalize (buf ++ c) (concat r). clear.
      intros x y. rewrite !firstn_app, firstn_firstn. f_equal. rewrite firstn_length. destruct (Nat.le_ge_cases 3 (length x)).
      * rewrite Nat.min_l by lia. replace (3 - length x)%nat with 0%nat by lia. reflexivity.
      * rewrite Nat.min_r by lia. reflexivity.
Qed.
Lemma dotless_no_guard t : dotless t -> firstn 3 t <> lit "/./".
Proof.
  intros D E. destruct t as [|a [|b [|c r]]]; try discriminate. cbn [firstn] in E. injection E as -> -> ->.
  assert (X := dotless_seg (47 :: 46 :: 47 :: r) [SLASH] [DOT] (SLASH :: r) D eq_refl). 
  assert (from_segment [DOT] = Normal); [|discriminate]. apply X; [right; exists []; reflexivity|right; eauto|]. intros [Y|[]]. discriminate.
Qed.
Lemma ensure_path p t : pwf p -> rds (flat p) t -> ensure_rfc3986_normalizable_with_authority_absent p = Ok (negb (starts_with (lit "//") t)).
Proof.
  intros Wp R. destruct (fmt_none_ok UriSpec false p Wp) as (t' & R' & E); [intros X; discriminate|]. rewrite (rds_fun _ _ _ R R'). assert (D := rds_dotless _ _ R'). clear R R' t.
  unfold ensure_rfc3986_normalizable_with_authority_absent, run_display. unfold outs in E. destruct (fmt_write_normalize UriSpec MNone false p) as [cs [u| |]]; cbn [fst snd] in *; try discriminate.
  injection E as E _. cbn [end_of]. destruct (prefix_run cs []) as (o & Ho & ->); [cbn; lia|]. cbn [app]. rewrite E. 
  assert (X : seqb (firstn 3 (guard false t')) (lit "/./") = starts_with (lit "//") t').
  { unfold guard. cbn [negb andb]. destruct (starts_with (lit "//") t') eqn:S2.
    - apply starts_slash_iff in S2. destruct S2 as (r & ->). reflexivity.
    - destruct (seqb (firstn 3 t') (lit "/./")) eqn:E3; auto. apply seqb_eq in E3. now apply dotless_no_guard in E3. }
  rewrite X. destruct Ho as [-> | ->]; reflexivity.
Qed.
Lemma ensure_needs s a p q f m t : pwf p -> rds (flat p) t -> ensure_rfc3986_normalizable (mkInput s a (PNeeds p) q f m) = Ok (negb (match a with None => starts_with (lit "//") t | Some _ => false end)).
Proof. intros Wp R. unfold ensure_rfc3986_normalizable. cbn [n_authority n_path]. destruct a; cbn [is_some]; auto. now apply ensure_path. Qed.
Definition fb (a : option str) (t : str) : bool := match a with None => starts_with (lit "//") t | Some _ => false end.
Lemma fb_iff T : fb (c_a T) (c_p T) = true <-> fell_back T.
Proof. unfold fb, fell_back. destruct (c_a T); split; try tauto; try discriminate. now intros [X _]. Qed.
Lemma fb_false T : negb (fb (c_a T) (c_p T)) = true <-> ~ fell_back T.
Proof. rewrite <- fb_iff. destruct (fb (c_a T) (c_p T)); split; try easy; congruence. Qed.

Lemma pwf_single p : pwf (from_single_path p).
Proof. exact I. Qed.
(** ** ensure for normalization *)
Lemma ensure_normalize S k s a p q f : components_ok S (Some s) a p q f -> exists n b T,
  norm_input k (recompose (Some s) a p q f) = Ok n /\ ensure_rfc3986_normalizable n = Ok b /\ comps_normal S false (mkC (Some s) a p q f) T /\ (b = true <-> ~ fell_back T).
Proof.
  intros H. assert (W := components_weak _ _ _ _ _ _ H). destruct (normalize_ok S false s a p q f H) as (_ & T & _ & N & _).
  rewrite norm_input_rec by auto. eexists. exists (negb (fb (c_a T) (c_p T))), T. split; [reflexivity|]. split; [|split; [auto|apply fb_false]].
  destruct N as (_ & Na & Np & _). cbn [c_a c_p] in *. apply path_normal_alt in Np. destruct Np as (x & R & P & _).
  erewrite ensure_needs; [|apply pwf_single|rewrite flat_single; exact R]. unfold fb. rewrite (pn_starts _ _ _ P). destruct a, (c_a T); try contradiction; reflexivity.
Qed.
Lemma ensure_resolve S bs ba bp bq bf rs ra rp rq rf : components_ok S (Some bs) ba bp bq bf -> components_ok S rs ra rp rq rf -> exists n b T,
  resolve (recompose (Some bs) ba bp bq bf) (recompose rs ra rp rq rf) = Ok n /\ ensure_rfc3986_normalizable n = Ok b /\
  transform (mkC (Some bs) ba bp bq bf) (mkC rs ra rp rq rf) T /\ (b = true <-> ~ fell_back T).
Proof.
  intros HB HR. assert (WB := components_weak _ _ _ _ _ _ HB). assert (WR := components_weak _ _ _ _ _ _ HR).
  destruct (resolve_transform S bs ba bp bq bf rs ra rp rq rf WB WR) as (T & Tr & _ & _).
  rewrite resolve_rec by auto. exists (input_of bs ba bp bq rs ra rp rq rf), (negb (fb (c_a T) (c_p T))), T. split; auto. split; [|split; [auto|apply fb_false]].
  unfold input_of. destruct Tr as [p A1 R1|p A1 A2 R1|A1 A2 A3|r p A1 A2 A3 R1|m p A1 A2 A3 A4 M1 R1]; cbn [c_s c_a c_p c_q c_f] in *.
  - destruct rs; [|discriminate]. erewrite ensure_needs; [reflexivity|apply pwf_single|rewrite flat_single; auto].
  - destruct rs; [discriminate|]. destruct ra; [|discriminate]. erewrite ensure_needs; [reflexivity|apply pwf_single|rewrite flat_single; eauto].
  - destruct rs, ra; try discriminate. subst rp. cbn [is_empty]. unfold ensure_rfc3986_normalizable. cbn [n_authority n_path]. unfold fb. destruct ba; cbn [is_some]; auto.
    destruct WB as (_ & X & _). change (starts_with (lit "//") bp = false) in X. now rewrite X.
  - destruct rs, ra; try discriminate. subst rp. unfold merged. cbn [is_empty lit app starts_with strip_prefix].
    change (starts_with [SLASH] (N_of_ascii "/" :: r)) with true. cbn iota. erewrite ensure_needs; [reflexivity|apply pwf_single|rewrite flat_single; auto].
  - destruct rs, ra; try discriminate. assert (Sl : starts_with [SLASH] rp = false). { destruct (starts_with [SLASH] rp) eqn:E; auto. destruct (slash_head rp A3 E) as (r & ->). now destruct (A4 r). }
    destruct (merged_ok ba bp rp A3 Sl) as [Wp M2]. rewrite (merge_fun _ _ _ _ _ M1 M2) in R1. destruct rp as [|c rp]; [easy|]. cbn [is_empty]. erewrite ensure_needs; [reflexivity|auto|eauto].
Qed.
