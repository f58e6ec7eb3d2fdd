(** * Proofs for C76: the view of a program. *)
From Verif Require Import Base Chars Rfc3986 Utf8 CompSpec RfcResolve PctSpec NormSpec EncodeSpec EditSpec
  MValidate MTrusted MFormat MPct MPath MNormalize MEncode PBase PScan PHost PTypes PPct PPct2 PPct3 PEncode PEncode2 PDecode PPath PPath2 PPath4 PPath5 PRds
  PComps PNorm PNorm2 PNorm7 PNorm8 PEquiv PBaseNorm PCommute PEditNorm PRaw PAscii PView ViewSpec.

(** ** Every IRI with an authority has exactly one view *)
Lemma segments_exist p : slashy p -> exists l, path_segments p l.
Proof.
  intros H. assert (G : forall n p, (length p < n)%nat -> slashy p -> exists l, path_segments p l).
  { clear. induction n as [|n IH]; intros p L H; [lia|]. destruct H as [->|(r & ->)]; [exists []; split; [reflexivity|constructor]|].
    destruct (split_first (N.eqb 47) r) as [[[a c] b]|] eqn:E.
    - apply split_first_some in E. destruct E as (-> & Na & Ec). apply N.eqb_eq in Ec. subst c.
      destruct (IH (47 :: b)) as (l & -> & Hl).
      { cbn [length] in *. rewrite app_length in L. cbn [length] in L. lia. } { right. now exists b. }
      exists (a :: l). split; [reflexivity|]. constructor; [|exact Hl]. now apply no_slash_none.
    - apply split_first_none in E. exists [r]. split; [cbn [flat_map]; now rewrite app_nil_r|]. constructor; [now apply no_slash_none|constructor]. }
  exact (G _ p (Nat.lt_succ_diag_r _) H).
Qed.
Lemma segments_unique p l k : path_segments p l -> path_segments p k -> l = k.
Proof. intros [E1 H1] [E2 H2]. apply slash_each_inj; auto. unfold RawSpec.slash_each. now rewrite <- E1, <- E2. Qed.
Lemma view_exists S i C : reads S i C -> defined (c_s C) = true -> defined (c_a C) = true -> exists V, views S i V.
Proof.
  intros R Ds Da. destruct (c_s C) as [s|] eqn:Es; [|discriminate]. destruct (c_a C) as [a|] eqn:Ea; [|discriminate].
  assert (O := proj1 R). destruct O as (_ & Ha & _ & _ & Hp). rewrite Ea in Ha. cbn in Ha.
  apply authority_comps in Ha. destruct Ha as (u & h & o & -> & Hu & Hh & Ho).
  rewrite Ea in Hp. cbn [defined] in Hp. apply path_abempty_scan in Hp.
  destruct (segments_exist (c_p C)) as (l & Hl). { destruct Hp as [-> | (r & -> & _)]; [now left|right; now exists r]. }
  eexists. eapply views_intro; [|exact Es|exact Hl]. split; [exact R|]. split; [exact Ea|]. auto.
Qed.
Lemma view_unique S i V W : views S i V -> views S i W -> V = W.
Proof.
  intros H K. destruct H as [C s u h o l D Es L], K as [C' s' u' h' o' l' D' Es' L'].
  destruct D as (R & Ea & Hu & Hh & Ho), D' as (R' & Ea' & Hu' & Hh' & Ho'). rewrite (reads_unique _ _ _ _ R' R) in *.
  rewrite Es in Es'. injection Es' as <-. rewrite Ea in Ea'. injection Ea' as Ea'. apply (authority_unique S) in Ea'; auto. injection Ea' as <- <- <-.
  now rewrite (segments_unique _ _ _ L L').
Qed.
(** ** Normalization *)
Lemma lower_bytes c : map lower (utf8 (lower c)) = map lower (utf8 c).
Proof.
  destruct (lower_cases c) as [->|[H ->]]; [reflexivity|]. unfold between in H. unfold utf8.
  replace (c + 32 <? 128) with true by lia. replace (c <? 128) with true by lia. cbn [map]. f_equal. unfold lower, between.
  repeat match goal with |- context [if ?b then _ else _] => destruct b eqn:? end; lia.
Qed.
Lemma lower_ne_pct c : c <> 37 -> lower c <> 37.
Proof. unfold lower, between. intros H. destruct ((65 <=? c) && (c <=? 90)) eqn:E; lia. Qed.
Lemma lower_raw_denotes s b : denotes s b -> exists b', denotes (lower_raw s) b' /\ map lower b' = map lower b.
Proof.
  induction 1 as [|c s b Hc H (b' & D & E)|u l s b Hu Hl H (b' & D & E)].
  - exists []. split; [constructor|reflexivity].
  - exists (utf8 (lower c) ++ b'). cbn [lower_raw]. rewrite (proj2 (N.eqb_neq c 37) Hc). split; [apply dn_raw; [now apply lower_ne_pct|exact D]|].
    rewrite !map_app, E. now rewrite lower_bytes.
  - exists (16 * hex_value u + hex_value l :: b'). cbn [lower_raw]. change (37 =? 37) with true. cbv iota. split; [now apply dn_trip|]. cbn [map]. now rewrite E.
Qed.
Lemma host_view S h h' : host_normal S h h' -> map lower (decoded h') = map lower (decoded h).
Proof.
  intros H. destruct H as [t A P|t A P]; [|now rewrite (decoded_normal _ _ _ P)]. rewrite <- (decoded_normal _ _ _ P).
  destruct (denotes_ex t) as (b & D). { eapply pn_wf_r; exact P. }
  destruct (lower_raw_denotes t b D) as (b' & D' & E). now rewrite (decoded_of _ _ D), (decoded_of _ _ D').
Qed.
Lemma option_view S x y : opt_rel (pct_normal S) x y -> option_map decoded y = option_map decoded x.
Proof. destruct x, y; cbn; try contradiction; [|reflexivity]. intros P. now rewrite (decoded_normal _ _ _ P). Qed.
Lemma lower_twice s : map lower (map lower s) = map lower s.
Proof. rewrite map_map. apply map_ext. intros c. unfold lower, between. repeat match goal with |- context [if ?b then _ else _] => destruct b eqn:? end; lia. Qed.
Lemma normalize_view S (keep : bool) i V : views S i V -> exists n out, (if keep then normalize_preserve i else normalize i) = Ok n /\
  display S n = Ok out /\ views S out (moved_to V (walked (v_path V))).
Proof.
  intros H. destruct H as [C s u h o l D Es L]. destruct D as (R & Ea & Hu & Hh & Ho). unfold moved_to. cbn [v_scheme v_userinfo v_host v_port v_path v_query v_fragment].
  destruct (c15_components S keep i C R) as (n & T & En & CN & _ & Ed). { now rewrite Es. }
  exists n, (unparse T). split; [exact En|]. split; [exact Ed|].
  destruct (comps_normal_ok S keep C T (proj1 R) ltac:(now rewrite Es) CN) as [OT _].
  destruct CN as (Ns & Na & Np & Nq & Nf). rewrite Es in Ns. destruct (c_s T) as [s'|] eqn:EsT; [|contradiction]. cbn in Ns. subst s'.
  rewrite Ea in Na. destruct (c_a T) as [a'|] eqn:EaT; [|contradiction]. cbn [opt_rel] in Na.
  assert (Na' := Na). destruct Na as (u0 & h0 & o0 & u' & h' & Eq & Hu0 & Hh0 & Ho0 & Ru & Rh & ->).
  apply (authority_unique S) in Eq; auto. injection Eq as <- <- <-.
  unfold path_normal in Np. rewrite Ea in Np. cbn [defined negb andb] in Np. rewrite andb_false_r in Np. cbn [andb] in Np. destruct Np as (p' & Pn & Rp).
  assert (Wp : pct_wf (c_p C)) by (eapply comps_path_wf; exact (proj1 R)).
  destruct (normal_walk S _ _ _ _ Pn Rp L Wp) as (k & Lk & Ek).
  rewrite <- Ek, <- (lower_twice s), <- (option_view S _ _ Ru), <- (host_view S _ _ Rh), <- (option_view S _ _ Nq), <- (option_view S _ _ Nf).
  replace (match o with Some x => x | None => [] end) with (match drop_empty_port o with Some x => x | None => [] end) by (destruct o as [[|]|]; reflexivity).
  assert (X := authority_normal_ok _ _ _ Na'). 
  apply (views_intro S (unparse T) (reread T) (map lower s) u' h' (drop_empty_port o) k); [|exact EsT|].
  - split; [split; [exact OT|reflexivity]|]. split; [exact EaT|]. split; [|split; [eapply host_normal_ok; eauto|now apply drop_port]].
    destruct u as [u|], u' as [u'|]; try contradiction; [|exact I]. cbn in *. apply userinfo_scan in Hu. apply userinfo_scan. eapply pn_scan; [|exact Ru|exact Hu]. unfold f_userinfo. now intros c ->.
  - unfold reread. cbn [c_p]. rewrite EaT. exact Lk.
Qed.
(** ** Resolution *)
Lemma merged_segments bp rp lb lr m : path_segments bp lb -> path_segments (lit "/" ++ rp) lr -> merge true bp rp m -> path_segments m (removelast lb ++ lr).
Proof.
  intros [Eb Hb] [Er Hr] M. destruct M as [_ E|dir last N E Hl|N Ns].
  - subst bp. destruct lb; [|discriminate]. cbn [removelast app]. split; assumption.
  - destruct lb as [|g lb _] using rev_ind; [subst bp; destruct dir; discriminate|]. rewrite removelast_snoc.
    apply Forall_app in Hb. destruct Hb as [Hb Hg]. inversion_clear Hg as [|? ? Hg' _].
    assert (X : slashed lb = dir).
    { rewrite slashed_app in Eb. cbn [flat_map] in Eb. rewrite app_nil_r in Eb. rewrite E in Eb. clear - Eb Hl Hg'.
      revert dir Eb. generalize (slashed lb) as x. induction x as [|c x IH]; intros dir Eb.
      - destruct dir as [|d dir]; [reflexivity|]. exfalso. injection Eb as _ Eb. apply Hg'. rewrite <- Eb. apply in_or_app. right. now left.
      - destruct dir as [|d dir]; [exfalso|]. { injection Eb as _ Eb. apply Hl. rewrite Eb. apply in_or_app. right. now left. }
        injection Eb as -> Eb. f_equal. now apply IH. }
    subst dir. split; [rewrite slashed_app, <- Er; reflexivity|]. apply Forall_app. split; assumption.
  - exfalso. destruct lb as [|x lb]; [apply N; split; [reflexivity|exact Eb]|]. apply Ns. rewrite Eb. now left.
Qed.
Lemma target_views S B R T u h o s k : comps_ok S B -> defined (c_s B) = true -> comps_ok S R -> transform B R T ->
  c_s T = Some s -> c_a T = Some (authority_string u h o) -> opt_in (userinfo S) u -> host S h -> opt_in port o -> path_segments (c_p T) k ->
  views S (unparse T) (mkV (map lower s) (option_map decoded u) (map lower (decoded h)) (match o with Some x => x | None => [] end)
                           (map decoded k) (option_map decoded (c_q T)) (option_map decoded (c_f T))).
Proof.
  intros OB DB OR Tr Es Ea Hu Hh Ho L. assert (Lo := target_loose S B R T OB DB OR Tr). destruct (reread_reads S T Lo) as [RT _].
  apply (views_intro S (unparse T) (reread T) s u h o k); [|exact Es|].
  - split; [exact RT|]. split; [exact Ea|]. auto.
  - unfold reread. cbn [c_p]. rewrite Ea. exact L.
Qed.
Lemma resolve_view S base ref V R (rooted : bool) l : views S base V -> reads S ref R -> c_s R = None -> c_a R = None -> c_p R <> [] ->
  path_segments (if rooted then c_p R else lit "/" ++ c_p R) l -> (rooted = false -> forall r, c_p R <> lit "/" ++ r) ->
  exists n out, resolve base ref = Ok n /\ display S n = Ok out /\
    views S out (step_to V rooted (map decoded l) (option_map decoded (c_q R)) (option_map decoded (c_f R))).
Proof.
  intros H RR Rs Ra Rp L NR. destruct H as [B s u h o lb D Es Lb]. destruct D as (RB & Ea & Hu & Hh & Ho). unfold step_to. cbn [v_scheme v_userinfo v_host v_port v_path].
  assert (DB : defined (c_s B) = true) by now rewrite Es.
  destruct (c10_resolution S base ref B R RB DB RR) as (n & T & En & Tr & _ & Ed). exists n, (unparse T). split; [exact En|]. split; [exact Ed|].
  assert (Wr : pct_wf (c_p R)) by (eapply comps_path_wf; exact (proj1 RR)). assert (Wb : pct_wf (c_p B)) by (eapply comps_path_wf; exact (proj1 RB)).
  assert (G : exists k, c_s T = c_s B /\ c_a T = c_a B /\ c_q T = c_q R /\ c_f T = c_f R /\ path_segments (c_p T) k /\
    map decoded k = walked (if rooted then map decoded l else removelast (map decoded lb) ++ map decoded l)).
  { destruct Tr as [p X _|p _ X _|_ _ X|r p _ _ X Rd|m p _ _ _ X M Rd]; rewrite ?Rs, ?Ra in *; try discriminate; [now elim Rp| |].
    - destruct rooted; [|now elim (NR eq_refl r)]. destruct (rds_walk _ _ _ Rd L Wr) as (k & Lk & Ek). exists k. repeat split; auto; apply Lk.
    - destruct rooted; [exfalso; destruct L as [L _]; destruct l as [|x l]; [now apply Rp|]; apply (X (x ++ slashed l)); exact L|].
      rewrite Ea in M. cbn [defined] in M. pose proof (merged_segments _ _ _ _ _ Lb L M) as Lm.
      assert (Wm : pct_wf m).
      { destruct M as [_ _|dir last _ E _|N Ns].
        - constructor; [discriminate|exact Wr].
        - rewrite E in Wb. apply wf_slash_dir. apply wf_slash_dir in Wb. destruct Wb. split; assumption.
        - exact Wr. }
      destruct (rds_walk _ _ _ Rd Lm Wm) as (k & Lk & Ek). exists k. repeat split; auto; try apply Lk. rewrite Ek. f_equal. rewrite map_app. f_equal.
      clear. destruct lb as [|g lb _] using rev_ind; [reflexivity|]. rewrite map_app. cbn [map]. now rewrite !removelast_snoc. }
  destruct G as (k & G1 & G2 & G3 & G4 & G5 & G6). rewrite <- G6, <- G3, <- G4.
  apply (target_views S B R T u h o s k); auto; [exact (proj1 RB)|exact (proj1 RR)|now rewrite G1|now rewrite G2].
Qed.
(** ** Mapping to a URI *)
Lemma decoded_uri s : pct_wf s -> all_scalar s = true -> decoded (to_uri s) = decoded s.
Proof. intros W A. destruct (denotes_ex s W) as (b & D). rewrite (decoded_of _ _ D). apply decoded_of. now apply to_uri_denotes. Qed.
Lemma slashed_uri l : to_uri (slashed l) = slashed (map to_uri l).
Proof. induction l as [|x l IH]; [reflexivity|]. cbn [flat_map map]. rewrite !to_uri_app, IH. reflexivity. Qed.
Lemma uri_view i V : views IriSpec i V -> exists out, text (MappedToUri i) = Ok out /\ views UriSpec out V.
Proof.
  intros H. destruct H as [C s u h o l D Es L]. exists (to_uri i). assert (D' := D). destruct D' as (R & Ea & Hu & Hh & Ho).
  destruct (reads_uri _ _ R) as (Si & _). split; [now apply mapped_text|].
  destruct (dissects_uri _ _ _ _ _ D) as (DU & Su). destruct (reads_scalar i C R) as (Ss & _ & Sp & Sq & Sf).
  assert (O := proj1 R). destruct O as (Hs & _ & Hq & Hf & _).
  assert (Op : forall (L : lang) x, (forall y, L y -> pct_wf y) -> opt_in L x -> oscalar x -> option_map decoded (omap x) = option_map decoded x).
  { intros La [x|] HL Hx Sx; [|reflexivity]. cbn in *. now rewrite decoded_uri by auto. }
  rewrite <- (Op (userinfo IriSpec) u), <- (Op (query IriSpec) (c_q C)), <- (Op (fragment IriSpec) (c_f C)); auto; try (intros y Hy; apply (c18_applies IriSpec); auto 6).
  rewrite <- (decoded_uri h); [|eapply host_wf; exact Hh|destruct (maps_host h Hh); assumption].
  assert (El : map decoded l = map decoded (map to_uri l)).
  { destruct L as [Ep Hn]. assert (W : pct_wf (slashed l)) by (rewrite <- Ep; eapply comps_path_wf; exact (proj1 R)). apply segments_wf in W. rewrite Ep in Sp. clear - W Sp.
    induction W as [|x l Hx W IH]; [reflexivity|]. cbn [flat_map] in Sp. rewrite !all_scalar_app in Sp. bdestr. cbn [map]. rewrite decoded_uri by auto. f_equal. auto. }
  rewrite El.
  assert (Eo : match o with Some x => x | None => [] end = match omap o with Some x => x | None => [] end).
  { destruct o as [o|]; [|reflexivity]. cbn in *. symmetry. apply to_uri_ascii. exact (proj2 (proj1 (asc_star _ _ asc_digit o) Ho)). }
  rewrite Eo. assert (Es' : map lower s = map lower (to_uri s)). { f_equal. symmetry. apply to_uri_ascii. rewrite Es in Hs. now apply asc_scheme. }
  rewrite Es'. apply (views_intro UriSpec (to_uri i) (to_uri_comps C) (to_uri s) (omap u) (to_uri h) (omap o) (map to_uri l)); [exact DU|cbn; now rewrite Es|].
  destruct L as [Ep Hn]. split; [cbn [to_uri_comps c_p]; rewrite Ep; apply slashed_uri|].
  rewrite Ep in Sp. clear - Sp Hn. induction Hn as [|x l Hx Hn IH]; [constructor|]. cbn [flat_map] in Sp. rewrite !all_scalar_app in Sp. bdestr. constructor; [now apply uri_no_slash|auto].
Qed.
