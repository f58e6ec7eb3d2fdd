(** * The mapping to URIs commutes with resolution and normalization. *)
From Verif Require Import Base Chars Rfc3986 Utf8 CompSpec PctSpec RfcResolve NormSpec EncodeSpec MValidate MTrusted MFormat MPct MPath MNormalize
  PBase PScan PHost PAuth PTrusted PComps PAscii PTypes PPct PPct2 PPct3 PNorm7 PNorm8 PEncode PEncode2.
From Coq Require Import Lia.
Open Scope string_scope. Open Scope N_scope. Open Scope list_scope.

(** ** Percent-encoding normalization *)
Definition high (b : N) : Prop := 128 <= b < 256.
Lemma utf8_high c : is_scalar c = true -> 128 <= c -> Forall high (utf8 c).
Proof.
  intros H L. destruct (utf8_cases c H) as [(?&X)|[(?&?&X&?)|[(?&?&?&X&?)|(?&?&?&?&X&?)]]]; [lia| | |]; rewrite X; repeat constructor; unfold high; lia.
Qed.
Lemma unres_low c : unreserved UriSpec c = true -> c < 128 /\ utf8 c = [c] /\ unreserved IriSpec c = true.
Proof.
  intros H. assert (L : c < 128).
  { revert H. unfold unreserved, iri_only, one_of, ALPHA, DIGIT, between. rewrite orb_false_r. intros H. vm_compute lit in H. cbn [existsb] in H. lia. }
  split; [exact L|]. split.
  - unfold utf8. now rewrite (proj2 (N.ltb_lt c 128) L).
  - rewrite unreserved_ascii in * by (unfold is_ascii; lia). exact H.
Qed.
Lemma high_stays ks x s : spelled ks x -> Forall high ks -> no_unreserved_here UriSpec (x ++ s) \/ ks = [].
Proof.
  intros Sp F. destruct Sp as [|u l bs x Hu Hl Sp]; [now right|left]. intros c ys s' E Y. destruct (unreserved UriSpec c) eqn:U; [exfalso|reflexivity].
  destruct (unres_low c U) as (L & X & _). rewrite X in Y. destruct (spelled_inv _ _ _ Y) as (u' & l' & s'' & -> & B & _ & _ & N). apply spelled_nil_inv in N. subst s''.
  injection E as <- <- _. apply Forall_inv in F. unfold high in F. unfold bval in *. lia.
Qed.
Lemma keep_high ks x s t : spelled ks x -> Forall high ks -> pct_normal UriSpec s t -> pct_normal UriSpec (x ++ s) (triplets ks ++ t).
Proof.
  intros Sp. induction Sp as [|u l bs x Hu Hl Sp IH]; intros F P; [exact P|]. assert (F1 := Forall_inv F). assert (F2 := Forall_inv_tail F).
  assert (E : triplet (bval u l) = [37; upper_hex u; upper_hex l]) by (rewrite <- triplet_upper by (unfold bval, high in *; lia); now apply pct_upper_bval).
  unfold bval in E. unfold triplets. cbn [flat_map]. rewrite E. cbn [app]. apply pn_keep; try assumption; [|now apply IH].
  destruct (high_stays _ _ s (spelled_cons u l bs x Hu Hl Sp) F) as [H|H]; [exact H|discriminate].
Qed.
Lemma spelled_triplets bs : bytes bs -> spelled bs (triplets bs).
Proof.
  induction 1 as [|b bs H B IH]; [constructor|]. unfold triplets. cbn [flat_map]. change (flat_map triplet bs) with (triplets bs).
  unfold triplet. cbn [app]. destruct (hex_digit_facts (b / 16) (byte_div b H)) as (_ & X1 & X2 & _). destruct (hex_digit_facts (b mod 16) (byte_mod b)) as (_ & Y1 & Y2 & _).
  assert (E : b = 16 * hex_value (hex_digit (b / 16)) + hex_value (hex_digit (b mod 16))).
  { rewrite (N.div_mod b 16) at 1 by lia. f_equal; [f_equal|]; symmetry; auto. }
  rewrite E at 1. constructor; auto.
Qed.

Lemma spelled_all_ascii bs x : spelled bs x -> all_ascii x = true.
Proof. induction 1 as [|u l bs s Hu Hl H IH]; [reflexivity|]. cbn [all_ascii forallb]. rewrite (hex_ascii u Hu), (hex_ascii l Hl). exact IH. Qed.
Lemma pn_scalar S s t : pct_normal S s t -> all_scalar s = true -> all_scalar t = true.
Proof.
  induction 1 as [|c s t Hc P IH|c bs s t Sp U P IH|u l s t Hu Hl N P IH]; intros A; auto.
  - cbn [all_scalar forallb] in *. bdestr. rewrite H. now apply IH.
  - rewrite all_scalar_app in A. bdestr. cbn [all_scalar forallb]. rewrite (unreserved_scalar _ _ U). now apply IH.
  - cbn [all_scalar forallb] in *. bdestr. destruct (upper_hex_ok u Hu) as (A & _). destruct (upper_hex_ok l Hl) as (B & _). assert (X := hex_ascii _ A). assert (Y := hex_ascii _ B).
    unfold is_ascii in X, Y. unfold is_scalar in *. change (all_scalar t) with (forallb is_scalar t) in IH. unfold is_scalar in IH. rewrite IH by assumption. lia.
Qed.
Lemma pn_uri s t : pct_normal IriSpec s t -> all_scalar s = true -> pct_normal UriSpec (to_uri s) (to_uri t).
Proof.
  induction 1 as [|c s t Hc P IH|c bs s t Sp U P IH|u l s t Hu Hl N P IH]; intros A; [constructor| | |].
  - cbn [all_scalar forallb] in A. bdestr. rewrite !(to_uri_cons c). destruct (N.ltb_spec c 128) as [L|L]; [apply pn_raw; auto|].
    apply keep_high; auto; [apply spelled_triplets; now apply utf8_bytes|now apply utf8_high].
  - rewrite all_scalar_app in A. bdestr. rewrite to_uri_app, (to_uri_ascii bs) by (now apply (spelled_all_ascii _ _ Sp)). rewrite to_uri_cons. assert (Sc := unreserved_scalar _ _ U).
    destruct (N.ltb_spec c 128) as [L|L].
    + apply pn_decode; auto. now apply unreserved_low.
    + apply keep_high; auto. now apply utf8_high.
  - assert (A1 := hex_ascii u Hu). assert (A2 := hex_ascii l Hl). destruct (upper_hex_ok u Hu) as (B1 & _). destruct (upper_hex_ok l Hl) as (B2 & _).
    apply hex_ascii in B1. apply hex_ascii in B2. unfold is_ascii in *. cbn [all_scalar forallb] in A. bdestr.
    rewrite !to_uri_low by lia. apply pn_keep; auto.
    intros c ys s' E Y. destruct (unreserved UriSpec c) eqn:U; [exfalso|reflexivity]. destruct (unres_low c U) as (L & X & UI). rewrite X in Y.
    destruct (spelled_inv _ _ _ Y) as (u' & l' & s'' & -> & B & K1 & K2 & N'). apply spelled_nil_inv in N'. subst s''. injection E as <- <- _.
    specialize (N c [37; u; l] s eq_refl). rewrite UI in N. assert (true = false); [|discriminate]. apply N. rewrite X. exact Y.
Qed.

(** ** Hosts *)
Lemma ascii_only_uri h : pct_wf h -> all_scalar h = true -> (ascii_only (to_uri h) <-> ascii_only h).
Proof.
  intros W A. destruct (denotes_ex h W) as (b & D). assert (D' := to_uri_denotes h b A D). split; intros (b' & D1 & F); exists b; split; auto.
  - now rewrite (denotes_fun _ _ D' _ D1).
  - now rewrite (denotes_fun _ _ D _ D1).
Qed.
Lemma denotes_ascii u b : denotes u b -> all_scalar u = true -> Forall (fun x => x < 128) b -> all_ascii u = true.
Proof.
  induction 1 as [|c s b Hc D IH|x l s b Hu Hl D IH]; intros A F; [reflexivity| |]; cbn [all_scalar forallb] in A; bdestr; cbn [all_ascii forallb].
  - apply Forall_app in F. destruct F as (F1 & F2). change (forallb is_ascii s) with (all_ascii s). rewrite (IH H0 F2), andb_true_r. unfold is_ascii. destruct (N.ltb_spec c 128) as [L|L]; [reflexivity|exfalso].
    assert (G := utf8_high c H L). destruct (utf8_cases c H) as [(?&X)|[(?&?&X&?)|[(?&?&?&X&?)|(?&?&?&?&X&?)]]]; [lia| | |]; rewrite X in *; apply Forall_inv in F1; apply Forall_inv in G; unfold high in G; lia.
  - rewrite (hex_ascii x Hu), (hex_ascii l Hl). cbn. apply IH; auto. now apply Forall_inv_tail in F.
Qed.
Lemma lower_raw_ascii n : forall u, (length u <= n)%nat -> all_ascii u = true -> all_ascii (lower_raw u) = true.
Proof.
  induction n as [|n IH]; intros [|c r] L A; try reflexivity; [cbn in L; lia|]. cbn [lower_raw]. cbn [all_ascii forallb] in A. cbn [length] in L. bdestr. destruct (c =? 37).
  - destruct r as [|x [|y r]]; cbn [all_ascii forallb] in *; bdestr; rewrite ?H, ?H0, ?H1, ?H2; auto. cbn. apply IH; auto. cbn [length] in L. lia.
  - cbn [all_ascii forallb]. change (forallb is_ascii (lower_raw r)) with (all_ascii (lower_raw r)). rewrite IH by (auto; lia). rewrite andb_true_r. unfold is_ascii, lower, between in *. destruct ((65 <=? c) && (c <=? 90)) eqn:E; lia.
Qed.
Lemma host_uri h t : pct_wf h -> all_scalar h = true -> host_normal IriSpec h t -> host_normal UriSpec (to_uri h) (to_uri t).
Proof.
  intros W A [u AO P|u AO P].
  - assert (P' := pn_uri _ _ P A). assert (AU := pn_scalar _ _ _ P A). destruct AO as (b & D & F). assert (D' := pn_denotes _ _ _ _ P D).
    assert (U := denotes_ascii _ _ D' AU F). rewrite (to_uri_ascii u U) in P'. rewrite (to_uri_ascii (lower_raw u)) by (eapply lower_raw_ascii; eauto).
    apply hn_ascii; auto. apply ascii_only_uri; auto. exists b. auto.
  - apply hn_other; [rewrite ascii_only_uri; auto|]. now apply pn_uri.
Qed.

(** ** Dot segments *)
Lemma uri_no_slash s : all_scalar s = true -> no_slash s -> no_slash (to_uri s).
Proof.
  unfold no_slash. induction s as [|c s IH]; intros A H; [auto|]. cbn [all_scalar forallb] in A. bdestr. rewrite to_uri_cons, in_app_iff. intros [I|I].
  - destruct (c <? 128); [destruct I as [->|[]]; apply H; now left|]. assert (B := utf8_bytes c H0). revert I. induction B as [|b bs Hb B IHB]; [auto|]. unfold triplets. cbn [flat_map].
    rewrite in_app_iff. intros [I|I]; [|now apply IHB]. destruct (hex_digit_facts (b / 16) (byte_div b Hb)) as (_ & X & _). destruct (hex_digit_facts (b mod 16) (byte_mod b)) as (_ & Y & _).
    unfold triplet in I. destruct I as [I|[I|[I|[]]]]; [discriminate|rewrite I in X; vm_compute in X; discriminate|rewrite I in Y; vm_compute in Y; discriminate].
  - apply (IH H1); auto. intros K. apply H. now right.
Qed.
Section Dots.
Variables dot dotdot : lang.
Hypothesis dot_ascii : forall d, dot d \/ dotdot d -> all_ascii d = true.
Hypothesis dot_back : forall x, all_scalar x = true -> dot (to_uri x) -> dot x.
Hypothesis dotdot_back : forall x, all_scalar x = true -> dotdot (to_uri x) -> dotdot x.
Lemma remove_last_uri o o' : all_scalar o = true -> remove_last o o' -> remove_last (to_uri o) (to_uri o').
Proof.
  intros A H. revert A. destruct H as [o0 seg Ns|seg Ns]; intros A.
  - rewrite !all_scalar_app in A. bdestr. rewrite !to_uri_app. change (to_uri (lit "/")) with (lit "/"). constructor. now apply uri_no_slash.
  - change (to_uri []) with (@nil N). constructor. now apply uri_no_slash.
Qed.
Lemma remove_last_scalar o o' : all_scalar o = true -> remove_last o o' -> all_scalar o' = true.
Proof. intros A H. revert A. destruct H as [o0 seg Ns|seg Ns]; intros A; [|reflexivity]. rewrite !all_scalar_app in A. bdestr. assumption. Qed.
Lemma uri_nil s : to_uri s = [] -> s = [].
Proof.
  destruct s as [|c s]; [auto|]. rewrite to_uri_cons. destruct (N.ltb_spec c 128) as [L|L]; [discriminate|]. unfold triplets. destruct (uri_head c s L) as (r & E). rewrite to_uri_cons in E.
  rewrite (proj2 (N.ltb_ge c 128) L) in E. unfold triplets in E. intros X. rewrite E in X. discriminate.
Qed.
Lemma step_uri x y : rds_step dot dotdot x y -> all_scalar (fst x) = true -> all_scalar (snd x) = true ->
  rds_step dot dotdot (to_uri (fst x), to_uri (snd x)) (to_uri (fst y), to_uri (snd y)) /\ all_scalar (fst y) = true /\ all_scalar (snd y) = true.
Proof.
  intros H A B. destruct H; cbn [fst snd] in *; rewrite ?all_scalar_app in *; bdestr; rewrite ?to_uri_app; change (to_uri (lit "/")) with (lit "/"); change (to_uri []) with (@nil N);
    try (rewrite (to_uri_ascii d) by (apply dot_ascii; auto)).
  - split; [constructor; auto|auto].
  - split; [constructor; auto|]. split; auto.
  - split; [constructor; auto|auto].
  - split; [constructor; auto using remove_last_uri|]. split; [auto|]. eapply remove_last_scalar; eauto.
  - split; [constructor; auto using remove_last_uri|]. split; [auto|]. eapply remove_last_scalar; eauto.
  - split; [constructor; auto|auto].
  - split; [|split; [auto|rewrite ?all_scalar_app; repeat (apply andb_true_intro; split); auto]].
    assert (E : to_uri lead = lead) by (destruct H as [-> | ->]; reflexivity). rewrite E. constructor; auto using uri_no_slash.
    + intros X. apply app_eq_nil in X. destruct X as (-> & X). apply uri_nil in X. subst. now apply H1.
    + destruct H4 as [->|(r & ->)]; [now left|right]. exists (to_uri r). now rewrite to_uri_app.
Qed.
Lemma rds_uri p t : remove_dot_segments dot dotdot p t -> all_scalar p = true -> remove_dot_segments dot dotdot (to_uri p) (to_uri t) /\ all_scalar t = true.
Proof.
  unfold remove_dot_segments. intros H A. enough (G : forall x y, rds_steps dot dotdot x y -> all_scalar (fst x) = true -> all_scalar (snd x) = true ->
    rds_steps dot dotdot (to_uri (fst x), to_uri (snd x)) (to_uri (fst y), to_uri (snd y)) /\ all_scalar (fst y) = true /\ all_scalar (snd y) = true).
  { destruct (G _ _ H A eq_refl) as (X & _ & Y). auto. }
  clear p t H A. induction 1 as [x|x y z ST H IH]; intros A B; [split; auto; constructor|]. destruct (step_uri _ _ ST A B) as (X & A' & B'). destruct (IH A' B') as (Y & Z). split; auto. econstructor; eauto.
Qed.
End Dots.

(** The first byte of a mapped non-ASCII character is at least 192. *)
Lemma uri_pct_head s u r : all_scalar s = true -> to_uri s = 37 :: u :: r -> u < 67 -> exists s', s = 37 :: s' /\ to_uri s' = u :: r /\ all_scalar s' = true.
Proof.
  intros A E L. destruct s as [|c s]; [discriminate|]. cbn [all_scalar forallb] in A. bdestr. destruct (N.ltb_spec c 128) as [Lc|Lc].
  - rewrite to_uri_low in E by auto. injection E as -> E. eauto.
  - exfalso. rewrite to_uri_cons, (proj2 (N.ltb_ge c 128) Lc) in E.
    assert (X : exists a t, utf8 c = a :: t /\ 194 <= a <= 244).
    { destruct (utf8_cases c H) as [(?&X)|[(a&?&X&?)|[(a&?&?&X&?)|(a&?&?&?&X&?)]]]; [lia| | |]; rewrite X; do 2 eexists; (split; [reflexivity|lia]). }
    destruct X as (a & t & X & Ha). rewrite X in E. unfold triplets in E. cbn [flat_map triplet app] in E. injection E as E _.
    assert (12 <= a / 16 < 16). { split; [apply N.div_le_lower_bound; lia|apply N.div_lt_upper_bound; lia]. }
    assert (D : a / 16 = 12 \/ a / 16 = 13 \/ a / 16 = 14 \/ a / 16 = 15) by lia. destruct D as [D|[D|[D|D]]]; rewrite D in E; vm_compute in E; subst u; vm_compute in L; discriminate.
Qed.
Lemma uri_low_head s c r : all_scalar s = true -> to_uri s = c :: r -> c <> 37 -> exists s', s = c :: s' /\ to_uri s' = r /\ all_scalar s' = true.
Proof.
  intros A E L. destruct s as [|x s]; [discriminate|]. cbn [all_scalar forallb] in A. bdestr. destruct (N.ltb_spec x 128) as [Lc|Lc].
  - rewrite to_uri_low in E by auto. injection E as -> E. eauto.
  - destruct (uri_head x s Lc) as (r' & E'). rewrite E' in E. injection E as E _. now subst c.
Qed.
Lemma uri_a_dot s x r : all_scalar s = true -> to_uri s = x ++ r -> a_dot x -> exists s', s = x ++ s' /\ to_uri s' = r /\ all_scalar s' = true.
Proof.
  intros A E [H|[H|H]]; unfold tok in H; subst x; cbn in E.
  - destruct (uri_low_head _ _ _ A E) as (s' & -> & X); [lia|]. exists s'. auto.
  - destruct (uri_pct_head _ _ _ A E) as (s1 & -> & X & A1); [lia|]. destruct (uri_low_head _ _ _ A1 X) as (s2 & -> & Y & A2); [lia|]. destruct (uri_low_head _ _ _ A2 Y) as (s3 & -> & Z); [lia|]. exists s3. auto.
  - destruct (uri_pct_head _ _ _ A E) as (s1 & -> & X & A1); [lia|]. destruct (uri_low_head _ _ _ A1 X) as (s2 & -> & Y & A2); [lia|]. destruct (uri_low_head _ _ _ A2 Y) as (s3 & -> & Z); [lia|]. exists s3. auto.
Qed.
Lemma single_back x : all_scalar x = true -> single_dot (to_uri x) -> single_dot x.
Proof.
  intros A H. destruct (uri_a_dot x (to_uri x) [] A) as (s' & E & X & _); [now rewrite app_nil_r|exact H|]. apply uri_nil in X. subst s'. rewrite app_nil_r in E. now rewrite E.
Qed.
Lemma double_back x : all_scalar x = true -> double_dot (to_uri x) -> double_dot x.
Proof.
  intros A (u & v & E & H1 & H2). destruct (uri_a_dot x u v A E H1) as (s' & -> & X & A'). exists u, s'. split; [reflexivity|]. split; [exact H1|]. apply single_back; auto. now rewrite X.
Qed.
Lemma dots_ascii d : single_dot d \/ double_dot d -> all_ascii d = true.
Proof.
  assert (G : forall x, a_dot x -> all_ascii x = true) by (intros x [H|[H|H]]; unfold tok in H; subst x; reflexivity).
  intros [H|(u & v & -> & H1 & H2)]; [now apply G|]. now rewrite all_ascii_app, (G u), (G v).
Qed.
Lemma rds_uri_pct p t : rds p t -> all_scalar p = true -> rds (to_uri p) (to_uri t) /\ all_scalar t = true.
Proof. apply rds_uri; [exact dots_ascii|exact single_back|exact double_back]. Qed.
Lemma rds_uri_lit p t : rds_literal p t -> all_scalar p = true -> rds_literal (to_uri p) (to_uri t) /\ all_scalar t = true.
Proof.
  apply rds_uri.
  - intros d [H|H]; unfold tok in H; subst d; reflexivity.
  - unfold tok. intros x A H. cbn in H. destruct (uri_low_head _ _ _ A H) as (s' & -> & X & _); [lia|]. apply uri_nil in X. now subst.
  - unfold tok. intros x A H. cbn in H. destruct (uri_low_head _ _ _ A H) as (s' & -> & X & A'); [lia|]. destruct (uri_low_head _ _ _ A' X) as (s2 & -> & Y & _); [lia|]. apply uri_nil in Y. now subst.
Qed.

(** ** Components *)
Definition oscalar (o : option str) : Prop := match o with Some x => all_scalar x = true | None => True end.
Definition scalar_comps (C : comps) : Prop := oscalar (c_s C) /\ oscalar (c_a C) /\ all_scalar (c_p C) = true /\ oscalar (c_q C) /\ oscalar (c_f C).
Lemma reads_scalar i C : reads IriSpec i C -> scalar_comps C.
Proof.
  intros H. destruct (reads_uri _ _ H) as (A & _). destruct H as (_ & ->). unfold recompose in A. rewrite !all_scalar_app in A. bdestr. unfold scalar_comps, oscalar.
  destruct (c_s C), (c_a C), (c_q C), (c_f C); rewrite ?all_scalar_app in *; bdestr; auto 10.
Qed.
Lemma unparse_uri T : to_uri (unparse T) = unparse (to_uri_comps T).
Proof.
  unfold unparse. rewrite recompose_uri. cbn [to_uri_comps c_s c_a c_p c_q c_f]. f_equal. unfold safe_path. destruct (c_a T); cbn [omap]; [reflexivity|].
  change (lit "//") with [SLASH; SLASH]. rewrite uri_slashes. destruct (starts_with [SLASH; SLASH] (c_p T)); [now rewrite to_uri_app|reflexivity].
Qed.
Lemma defined_omap o : defined (omap o) = defined o.
Proof. now destruct o. Qed.
Lemma merge_uri b p r m : all_scalar p = true -> all_scalar r = true -> merge b p r m -> merge b (to_uri p) (to_uri r) (to_uri m) /\ all_scalar m = true.
Proof.
  intros A B H. revert A. destruct H as [Hb E|dir last Nn E Ns|Nn Ns]; intros A.
  - subst p. split; [|now rewrite all_scalar_app, B]. rewrite to_uri_app. now constructor.
  - subst p. rewrite !all_scalar_app in *. bdestr. rewrite !to_uri_app. split; [|rewrite H, B; reflexivity]. change (to_uri (lit "/")) with (lit "/"). eapply merge_last; [|reflexivity|now apply uri_no_slash].
    intros (X & Y). apply Nn. split; auto. apply app_eq_nil in Y. destruct Y as (_ & Y). discriminate.
  - split; [|exact B]. apply merge_noslash; [|now apply uri_no_slash]. intros (X & Y). apply Nn. split; auto. now apply uri_nil.
Qed.
Lemma transform_uri B R T : scalar_comps B -> scalar_comps R -> transform B R T -> transform (to_uri_comps B) (to_uri_comps R) (to_uri_comps T).
Proof.
  intros (_ & _ & PB & _) (_ & _ & PR & _) H. unfold transform in *.
  destruct H as [p D H|p D D2 H|D D2 E|r p D D2 E H|m p D D2 E E2 M H]; unfold to_uri_comps; cbn [c_s c_a c_p c_q c_f].
  - apply (tr_scheme _ (to_uri_comps B) (to_uri_comps R)); cbn [to_uri_comps c_s c_a c_p c_q c_f]; rewrite ?defined_omap; auto. now apply rds_uri_pct.
  - apply (tr_authority _ (to_uri_comps B) (to_uri_comps R)); cbn [to_uri_comps c_s c_a c_p c_q c_f]; rewrite ?defined_omap; auto. now apply rds_uri_pct.
  - replace (omap (if defined (c_q R) then c_q R else c_q B)) with (if defined (omap (c_q R)) then omap (c_q R) else omap (c_q B)) by (rewrite defined_omap; now destruct (c_q R)).
    apply (tr_empty_path _ (to_uri_comps B) (to_uri_comps R)); cbn [to_uri_comps c_s c_a c_p c_q c_f]; rewrite ?defined_omap; auto. now rewrite E.
  - apply (tr_abs_path _ (to_uri_comps B) (to_uri_comps R) (to_uri r)); cbn [to_uri_comps c_s c_a c_p c_q c_f]; rewrite ?defined_omap; auto; [now rewrite E, to_uri_app|]. now apply rds_uri_pct.
  - destruct (merge_uri _ _ _ _ PB PR M) as (M' & A). apply (tr_rel_path _ (to_uri_comps B) (to_uri_comps R) (to_uri m)); cbn [to_uri_comps c_s c_a c_p c_q c_f]; rewrite ?defined_omap; auto.
    + intros X. apply E. now apply uri_nil.
    + intros r X. destruct (uri_low_head (c_p R) 47 r PR X) as (s' & X' & _); [lia|]. now apply (E2 s').
    + now apply rds_uri_pct.
Qed.
Lemma opt_pn_uri x y : oscalar x -> opt_rel (pct_normal IriSpec) x y -> opt_rel (pct_normal UriSpec) (omap x) (omap y).
Proof. destruct x, y; cbn; auto. intros A P. now apply pn_uri. Qed.
Lemma lower_uri s : scheme s -> to_uri (map lower s) = map lower (to_uri s).
Proof.
  intros H. destruct (maps_scheme s H) as (A & _). assert (B : all_ascii s = true) by (now apply asc_scheme). rewrite !to_uri_ascii; auto. clear A H. induction s as [|c s IH]; [reflexivity|].
  cbn [all_ascii forallb map] in *. bdestr. change (forallb is_ascii (map lower s)) with (all_ascii (map lower s)). rewrite IH by assumption. unfold is_ascii, lower, between in *. destruct ((65 <=? c) && (c <=? 90)) eqn:E; lia.
Qed.
Lemma authority_uri a a' : all_scalar a = true -> authority_normal IriSpec a a' -> authority_normal UriSpec (to_uri a) (to_uri a').
Proof.
  intros A (u & h & p & u' & h' & -> & Hu & Hh & Hp & Pu & Ph & ->). destruct (maps_opt _ _ u maps_userinfo Hu) as (Hu' & Su). destruct (maps_host h Hh) as (Sh & Hh'). destruct (maps_opt _ _ p maps_port Hp) as (Hp' & Sp).
  exists (omap u), (to_uri h), (omap p), (omap u'), (to_uri h'). rewrite !authority_string_uri. repeat (split; [now auto|]).
  split; [now apply opt_pn_uri|]. split; [apply host_uri; auto; eapply c18_applies; eauto 6|]. f_equal. destruct p as [[|c p]|]; auto. cbn [drop_empty_port omap]. destruct (to_uri (c :: p)) eqn:E; [apply uri_nil in E; discriminate|reflexivity].
Qed.
Lemma path_uri keep b p t : all_scalar p = true -> path_normal IriSpec keep b p t -> path_normal UriSpec keep b (to_uri p) (to_uri t).
Proof.
  intros A. unfold path_normal. assert (E : starts_with (lit "/") (to_uri p) = starts_with (lit "/") p).
  { assert (Y : forall a r, starts_with (lit "/") (a :: r) = (SLASH =? a)). { intros a r. unfold starts_with. change (lit "/") with [SLASH]. cbn [strip_prefix]. destruct (SLASH =? a); reflexivity. }
    destruct p as [|c p]; [reflexivity|]. destruct (N.ltb_spec c 128) as [L|L]; [rewrite to_uri_low by exact L; now rewrite !Y|]. destruct (uri_head c p L) as (r & ->). rewrite !Y. unfold SLASH. replace (47 =? c) with false by lia. reflexivity. }
  rewrite E. destruct (keep && negb b && negb (starts_with (lit "/") p)); [intros H; now apply pn_uri|]. intros (p' & P & H). exists (to_uri p'). split; [now apply pn_uri|]. apply rds_uri_lit; auto. eapply pn_scalar; eauto.
Qed.
Lemma comps_uri keep C T : comps_ok IriSpec C -> scalar_comps C -> comps_normal IriSpec keep C T -> comps_normal UriSpec keep (to_uri_comps C) (to_uri_comps T).
Proof.
  intros OK (Ss & Sa & Sp & Sq & Sf) (Hs & Ha & Hp & Hq & Hf). unfold comps_normal, to_uri_comps. cbn [c_s c_a c_p c_q c_f]. rewrite defined_omap.
  split; [|split; [|split; [now apply path_uri|split; now apply opt_pn_uri]]].
  - destruct OK as (OK & _). destruct (c_s C), (c_s T); cbn in *; auto. rewrite Hs. now apply lower_uri.
  - destruct (c_a C), (c_a T); cbn in *; auto. now apply authority_uri.
Qed.

(** ** The code *)
Lemma c45_normalize (keep : bool) i : IRI IriSpec i -> exists n out n',
  (if keep then normalize_preserve i else normalize i) = Ok n /\ display IriSpec n = Ok out /\
  (if keep then normalize_preserve (to_uri i) else normalize (to_uri i)) = Ok n' /\ display UriSpec n' = Ok (to_uri out).
Proof.
  intros H. apply iri_reads in H. destruct H as (C & R & D). assert (Sc := reads_scalar _ _ R). destruct (reads_uri _ _ R) as (_ & RU).
  destruct (c15_components IriSpec keep i C R D) as (n & T & E & N & _ & DI). destruct (c15_components UriSpec keep (to_uri i) _ RU) as (n' & T' & E' & N' & U' & DU); [cbn [to_uri_comps c_s]; now rewrite defined_omap|].
  exists n, (unparse T), n'. repeat split; auto. rewrite DU, unparse_uri. f_equal. f_equal. symmetry. apply U'. apply comps_uri; auto. apply R.
Qed.
Lemma c45_resolve base ref : IRI IriSpec base -> IRI_reference IriSpec ref -> exists n out n',
  resolve base ref = Ok n /\ display IriSpec n = Ok out /\ resolve (to_uri base) (to_uri ref) = Ok n' /\ display UriSpec n' = Ok (to_uri out).
Proof.
  intros HB HR. apply iri_reads in HB. destruct HB as (B & RB & D). apply reference_reads in HR. destruct HR as (R & RR).
  destruct (reads_uri _ _ RB) as (_ & RB'). destruct (reads_uri _ _ RR) as (_ & RR').
  destruct (c10_resolution IriSpec _ _ _ _ RB D RR) as (n & T & E & X & _ & DI).
  destruct (c10_resolution UriSpec _ _ _ _ RB' (eq_trans (defined_omap _) D) RR') as (n' & T' & E' & X' & U' & DU).
  exists n, (unparse T), n'. repeat split; auto. rewrite DU, unparse_uri. f_equal. f_equal. symmetry. apply U'. apply transform_uri; eauto using reads_scalar.
Qed.
Lemma c45_both base ref : IRI IriSpec base -> IRI_reference IriSpec ref -> exists n out n',
  resolve base ref = Ok n /\ display IriSpec (set_mode n MDefault) = Ok out /\
  resolve (to_uri base) (to_uri ref) = Ok n' /\ display UriSpec (set_mode n' MDefault) = Ok (to_uri out).
Proof.
  intros HB HR. destruct (c45_resolve base ref HB HR) as (n & r & n' & E & D & E' & D').
  destruct (resolve_then_normalize IriSpec base ref HB HR) as (n0 & r0 & m & out & A1 & A2 & A3 & A4 & A5). rewrite E in A1. injection A1 as <-. rewrite D in A2. injection A2 as <-.
  assert (HB' : IRI UriSpec (to_uri base)). { apply iri_reads in HB. destruct HB as (B & RB & DB). destruct (reads_uri _ _ RB) as (_ & RB'). eapply reads_iri; eauto. cbn [to_uri_comps c_s]. now rewrite defined_omap. }
  assert (HR' : IRI_reference UriSpec (to_uri ref)). { apply reference_reads in HR. destruct HR as (R & RR). destruct (reads_uri _ _ RR) as (_ & RR'). eapply reads_reference; eauto. }
  destruct (resolve_then_normalize UriSpec _ _ HB' HR') as (n1 & r1 & m' & out' & B1 & B2 & B3 & B4 & B5). rewrite E' in B1. injection B1 as <-. rewrite D' in B2. injection B2 as <-.
  assert (V : IRI IriSpec r).
  { destruct (resolve_valid IriSpec base ref MNone true HB HR) as (k & o & F1 & F2 & F3 & _). rewrite E in F1. injection F1 as <-.
    assert (Z : set_mode n MNone = n).
    { clear - E. revert E. unfold resolve, create_normalization_input. repeat match goal with |- bind ?x _ = _ -> _ => destruct x; cbn [bind]; try discriminate end. now injection 1 as <-. }
    rewrite Z, D in F2. injection F2 as <-. exact F3. }
  destruct (c45_normalize false r V) as (k & o & k' & C1 & C2 & C3 & C4). cbv iota in C1, C3. rewrite A3 in C1. injection C1 as <-. rewrite A4 in C2. injection C2 as <-. rewrite B3 in C3. injection C3 as <-. rewrite B4 in C4. injection C4 as ->.
  exists n, out, n'. auto.
Qed.
