(** * Normalization of components (proofs only). *)
From Verif Require Import Base Chars Rfc3986 Utf8 CompSpec RfcResolve PctSpec NormSpec MValidate MTrusted MFormat MPct MPath MNormalize
  PBase PScan PHost PAuth PValidate PTrusted PComps PTypes PPath PPath2 PPath3 PPath4 PPct PPct2 PPct3 PPct4 PPath5 PResolve PRds.

(** ** Strings without '%' *)
Lemma pn_id Sp s : none (N.eqb 37) s = true -> pct_normal Sp s s.
Proof.
  induction s as [|c s IH]; intros H; [constructor|]. rewrite none_cons in H. apply andb_prop in H. destruct H as [H1 H2].
  apply pn_raw; auto. intros ->. discriminate.
Qed.
Lemma lower_raw_none s : none (N.eqb 37) s = true -> lower_raw s = map lower s.
Proof. intros H. rewrite <- (app_nil_r s) at 1. rewrite lower_raw_app by auto. cbn. apply app_nil_r. Qed.
Lemma wf_none s : none (N.eqb 37) s = true -> pct_wf s.
Proof. intros H. eapply pn_wf_l. apply (pn_id UriSpec). exact H. Qed.
Lemma ascii_only_cat a b : pct_wf a -> ascii_only (a ++ b) <-> ascii_only a /\ ascii_only b.
Proof.
  induction 1 as [|c s Hc W IH|u l s Hu Hl W IH]; cbn [app].
  - split; [intros; split; [apply ascii_only_nil|auto]|tauto].
  - rewrite !ascii_only_raw by auto. tauto.
  - rewrite !ascii_only_trip by auto. tauto.
Qed.
Lemma lower_raw_cat a b : pct_wf a -> lower_raw (a ++ b) = lower_raw a ++ lower_raw b.
Proof.
  induction 1 as [|c s Hc W IH|u l s Hu Hl W IH]; cbn [app]; auto.
  - rewrite !lower_raw_raw by auto. cbn [app]. now rewrite IH.
  - rewrite !lower_raw_trip. cbn [app]. now rewrite IH.
Qed.
Lemma lower_not_pct c : c <> 37 -> lower c <> 37.
Proof. unfold lower. destruct (between 65 90 c) eqn:E; auto. unfold between in E. apply andb_prop in E. destruct E as [E1 E2]. apply N.leb_le in E1, E2. lia. Qed.
Lemma lower_lower c : lower (lower c) = lower c.
Proof.
  unfold lower at 2. destruct (between 65 90 c) eqn:E; [|reflexivity]. unfold lower. rewrite E. unfold between in *. apply andb_prop in E. destruct E as [E1 E2]. apply N.leb_le in E1, E2.
  destruct (65 <=? c + 32) eqn:X; cbn; auto. destruct (c + 32 <=? 90) eqn:Y; auto. apply N.leb_le in Y. lia.
Qed.
Lemma map_lower_idem s : map lower (map lower s) = map lower s.
Proof. rewrite map_map. apply map_ext. apply lower_lower. Qed.
Lemma lower_ascii c : lower c < 128 <-> c < 128.
Proof. unfold lower. destruct (between 65 90 c) eqn:E; [|tauto]. unfold between in E. apply andb_prop in E. destruct E as [E1 E2]. apply N.leb_le in E1, E2. lia. Qed.
Lemma lower_raw_idem s : pct_wf s -> lower_raw (lower_raw s) = lower_raw s.
Proof.
  induction 1 as [|c s Hc W IH|u l s Hu Hl W IH]; auto.
  - rewrite lower_raw_raw by auto. rewrite lower_raw_raw by now apply lower_not_pct. now rewrite lower_lower, IH.
  - rewrite !lower_raw_trip. now rewrite IH.
Qed.
Lemma lower_raw_ascii s : pct_wf s -> ascii_only (lower_raw s) <-> ascii_only s.
Proof.
  induction 1 as [|c s Hc W IH|u l s Hu Hl W IH]; [reflexivity| |].
  - rewrite lower_raw_raw by auto. rewrite !ascii_only_raw by (auto; now apply lower_not_pct). rewrite lower_ascii. tauto.
  - rewrite lower_raw_trip. rewrite !ascii_only_trip by auto. tauto.
Qed.
Lemma lower_raw_scan f s : (forall c, f c = true -> f (lower c) = true) -> scan f s = true -> scan f (lower_raw s) = true.
Proof.
  intros Hf H. assert (W : pct_wf s). { apply pct_wf_scan. eapply scan_mono; [|exact H]. reflexivity. }
  revert H. induction W as [|c s Hc W IH|u l s Hu Hl W IH]; auto.
  - rewrite lower_raw_raw by auto. rewrite !scan_cons by (auto; now apply lower_not_pct). intros X. apply andb_prop in X. destruct X as [X1 X2]. rewrite Hf by auto. auto.
  - rewrite lower_raw_trip. rewrite !scan_pct. intros X. apply andb_prop in X. destruct X as [X1 X2]. rewrite X1. auto.
Qed.
(** An ASCII triplet spells a character by itself. *)
Lemma utf8_low c b r : utf8 c = b :: r -> b < 128 -> r = [].
Proof.
  unfold utf8. intros E H. destruct (c <? 128) eqn:L1; [now injection E as _ <-|]. exfalso.
  destruct (c <? 2048) eqn:L2; [|destruct (c <? 65536) eqn:L3]; apply (f_equal (hd 0)) in E; unfold hd in E; rewrite <- E in H; lia.
Qed.
Lemma no_unres_ascii Sp u l s s' : is_hexdigit u = true -> is_hexdigit l = true -> bval u l < 128 ->
  no_unreserved_here Sp (37 :: u :: l :: s) -> no_unreserved_here Sp (37 :: u :: l :: s').
Proof.
  intros Hu Hl Hb H c bs r E Hs. 
  destruct (utf8 c) as [|b0 bt] eqn:Ec; [destruct (utf8_nonnil c Ec)|].
  apply spelled_inv in Hs. destruct Hs as (u' & l' & x & -> & Eb & Hu' & Hl' & Hx). cbn in E. injection E as -> -> E.
  assert (bt = []). { eapply utf8_low; [exact Ec|]. now rewrite Eb. } subst bt. apply spelled_nil_inv in Hx. subst x.
  apply (H c [37; u'; l'] s); [reflexivity|]. rewrite Ec, Eb. exact (spelled_cons u' l' [] [] Hu' Hl' spelled_nil).
Qed.
Lemma pn_lower_raw Sp s t : pct_normal Sp s t -> ascii_only t -> pct_normal Sp (lower_raw t) (lower_raw t).
Proof.
  induction 1 as [|c s t Hc Hp IH|c bs s t Hs Hu Hp IH|u l s t Hu Hl Hn Hp IH]; intros A.
  - constructor.
  - rewrite lower_raw_raw by auto. apply ascii_only_raw in A; auto. apply pn_raw; [now apply lower_not_pct|]. now apply IH.
  - assert (c <> 37) by (eapply unres_not_pct; eauto). rewrite lower_raw_raw by auto. apply ascii_only_raw in A; auto. apply pn_raw; [now apply lower_not_pct|]. now apply IH.
  - destruct (upper_hex_ok u Hu) as (U & Uv & Ui). destruct (upper_hex_ok l Hl) as (L & Lv & Li). rewrite lower_raw_trip. apply ascii_only_trip in A; auto. destruct A as [A1 A2].
    rewrite <- Ui at 2. rewrite <- Li at 2. apply pn_keep; auto.
    apply (no_unres_ascii Sp _ _ s); auto.
    intros c bs r E Hs. destruct (utf8 c) as [|b0 bt] eqn:Ec; [destruct (utf8_nonnil c Ec)|].
    apply spelled_inv in Hs. destruct Hs as (u' & l' & x & -> & Eb & Hu' & Hl' & Hx). cbn in E. injection E as <- <- E.
    assert (bt = []). { eapply utf8_low; [exact Ec|]. now rewrite Eb. } subst bt. 
    apply (Hn c [37; u; l] s); [reflexivity|]. rewrite Ec, Eb. unfold bval. rewrite Uv, Lv. exact (spelled_cons u l [] [] Hu Hl spelled_nil).
Qed.

(** ** Lower case and the grammar of hosts *)
Definition lcl (L : lang) : Prop := forall s, L s -> L (map lower s).
Lemma lcl_cat A B : lcl A -> lcl B -> lcl (A +++ B).
Proof. intros HA HB s (a & b & -> & Ha & Hb). exists (map lower a), (map lower b). rewrite map_app. auto. Qed.
Lemma lcl_alt A B : lcl A -> lcl B -> lcl (A <|> B).
Proof. intros HA HB s [H|H]; [left|right]; auto. Qed.
Lemma lcl_eps : lcl eps. Proof. intros s ->. reflexivity. Qed.
Lemma lcl_opt A : lcl A -> lcl (opt A). Proof. intros. apply lcl_alt; auto. apply lcl_eps. Qed.
Lemma lcl_tok t : map lower (lit t) = lit t -> lcl (tok t). Proof. intros H s ->. exact H. Qed.
Lemma lcl_cls f : (forall c, f c = true -> f (lower c) = true) -> lcl (cls f).
Proof. intros H s (c & -> & Hc). exists (lower c). auto. Qed.
Lemma lcl_star A : lcl A -> lcl (star A).
Proof. intros H s. induction 1 as [|a b Ha Hb IH]; [constructor|]. rewrite map_app. constructor; auto. Qed.
Lemma lcl_plus A : lcl A -> lcl (plus A). Proof. intros. apply lcl_cat; auto. now apply lcl_star. Qed.
Lemma lcl_rep n A : lcl A -> lcl (rep n A).
Proof. intros H. induction n; [apply lcl_eps|]. apply lcl_cat; auto. Qed.
Lemma lcl_reps a b A : lcl A -> lcl (reps a b A).
Proof. intros H s (n & Hn & Hr). exists n. split; auto. now apply lcl_rep. Qed.
Lemma lower_cases c : lower c = c \/ (between 65 90 c = true /\ lower c = c + 32).
Proof. unfold lower. destruct (between 65 90 c); auto. Qed.
Lemma up_cases (P : N -> bool) c : between 65 90 c = true -> forallb P (map (fun n => N.of_nat n + 65) (seq 0 26)) = true -> P c = true.
Proof.
  intros H A. rewrite forallb_forall in A. apply A. unfold between in H. apply andb_prop in H. destruct H as [H1 H2]. apply N.leb_le in H1, H2.
  apply in_map_iff. exists (N.to_nat (c - 65)). split; [lia|]. apply in_seq. lia.
Qed.
Lemma lower_class (f : N -> bool) c : forallb (fun c => implb (f c) (f (c + 32))) (map (fun n => N.of_nat n + 65) (seq 0 26)) = true -> f c = true -> f (lower c) = true.
Proof.
  intros H Hc. destruct (lower_cases c) as [->|[B ->]]; auto. assert (X := up_cases (fun c => implb (f c) (f (c + 32))) c B H). cbv beta in X. rewrite Hc in X. exact X.
Qed.
Lemma lower_hex c : HEXDIG c = true -> HEXDIG (lower c) = true.
Proof. apply lower_class. vm_compute. reflexivity. Qed.
Lemma lower_digit c : DIGIT c = true -> lower c = c.
Proof. intros H. destruct (lower_cases c) as [|[B E]]; auto. exfalso. unfold DIGIT, between in *. bdestr. repeat match goal with H : (_ <=? _) = true |- _ => apply N.leb_le in H end. lia. Qed.
Lemma lcl_h16 : lcl h16. Proof. apply lcl_reps, lcl_cls, lower_hex. Qed.
Lemma lcl_h16c : lcl h16c. Proof. apply lcl_cat; [apply lcl_h16|now apply lcl_tok]. Qed.
Lemma lower_v4 s : IPv4address s -> map lower s = s.
Proof.
  intros H. apply IPv4_chars in H. destruct H as [H _]. induction s as [|c s IH]; auto. cbn in *. apply andb_prop in H. destruct H as [H1 H2]. rewrite IH by auto. f_equal.
  unfold v4c in H1. apply orb_prop in H1. destruct H1 as [H1|H1]; [now apply lower_digit|]. apply N.eqb_eq in H1. subst. reflexivity.
Qed.
Lemma lcl_v4 : lcl IPv4address. Proof. intros s H. now rewrite lower_v4. Qed.
Lemma lcl_ls32 : lcl ls32.
Proof. apply lcl_alt; [|apply lcl_v4]. apply lcl_cat; [apply lcl_h16|]. apply lcl_cat; [now apply lcl_tok|apply lcl_h16]. Qed.
Ltac lcl_tac := repeat first [apply lcl_eps | apply lcl_star | apply lcl_h16 | apply lcl_h16c | apply lcl_ls32 | apply lcl_opt | apply lcl_alt | apply lcl_cat | apply lcl_plus | (apply lcl_tok; reflexivity) | apply lcl_rep | apply lcl_reps].
Lemma lcl_v6 : lcl IPv6address. Proof. unfold IPv6address. lcl_tac. Qed.
Lemma lcl_vfuture : lcl IPvFuture.
Proof.
  unfold IPvFuture. apply lcl_cat.
  { intros s [->| ->]; left; reflexivity. }
  lcl_tac; apply lcl_cls; intros c; apply lower_class; vm_compute; reflexivity.
Qed.
Lemma lcl_ip_literal : lcl IP_literal.
Proof. unfold IP_literal. apply lcl_cat; [now apply lcl_tok|]. apply lcl_cat; [|now apply lcl_tok]. apply lcl_alt; [apply lcl_v6|apply lcl_vfuture]. Qed.
Lemma ip_literal_no_pct s : IP_literal s -> none (N.eqb 37) s = true.
Proof.
  intros H. apply IP_literal_iff in H. destruct H as (m & -> & [H|H]); rewrite none_cons, none_app; cbn -[none]; rewrite andb_true_r.
  - apply IPv6_chars in H. eapply (forallb_none v6c); eauto. intros c Hc. destruct (37 =? c) eqn:E; auto. apply N.eqb_eq in E. subst c. discriminate.
  - apply IPvFuture_iff in H. destruct H as (v & ver & a & -> & Hv & _ & Hh & _ & Ha). rewrite none_cons, none_app, none_cons.
    assert (N1 : none (N.eqb 37) ver = true) by (eapply (forallb_none is_hexdigit); eauto; intros c Hc; destruct (37 =? c) eqn:E; auto; apply N.eqb_eq in E; subst c; discriminate).
    assert (N2 : none (N.eqb 37) a = true) by (eapply (forallb_none f_ipvf); eauto; intros c Hc; destruct (37 =? c) eqn:E; auto; apply N.eqb_eq in E; subst c; discriminate).
    rewrite N1, N2. destruct Hv as [->| ->]; reflexivity.
Qed.
Lemma lower_regname S c : f_regname S c = true -> f_regname S (lower c) = true.
Proof. apply lower_class. destruct S; vm_compute; reflexivity. Qed.
Lemma unres_regname S c : unreserved S c = true -> f_regname S c = true.
Proof. unfold f_regname. intros ->. reflexivity. Qed.
Lemma host_wf S h : host S h -> pct_wf h.
Proof.
  intros [H|[H|H]].
  - apply wf_none. now apply ip_literal_no_pct.
  - apply (v4_regname UriSpec) in H. apply reg_name_scan in H. apply pct_wf_scan. eapply scan_mono; [|exact H]. reflexivity.
  - apply reg_name_scan in H. apply pct_wf_scan. eapply scan_mono; [|exact H]. reflexivity.
Qed.
Lemma host_normal_ok S h h' : host S h -> host_normal S h h' -> host S h'.
Proof.
  intros H N. assert (G : forall u, pct_normal S h u -> host S u /\ host S (lower_raw u)).
  { intros u P. destruct H as [H|H].
    - assert (Z := ip_literal_no_pct _ H). rewrite (pn_fun _ _ _ P _ (pn_id S h Z)). split; [now left|]. left. rewrite lower_raw_none by auto. now apply lcl_ip_literal.
    - assert (R : reg_name S h) by (destruct H as [H|H]; [now apply v4_regname|auto]). apply reg_name_scan in R.
      assert (Ru : scan (f_regname S) u = true) by (eapply pn_scan; [apply unres_regname|exact P|exact R]). split; right; right; apply reg_name_scan; auto.
      apply lower_raw_scan; auto. apply lower_regname. }
  destruct N as [u A P|u A P]; apply G in P; tauto.
Qed.
Lemma host_normal_fun S h t1 t2 : host_normal S h t1 -> host_normal S h t2 -> t1 = t2.
Proof. intros [u A P|u A P] [u' A' P'|u' A' P']; try contradiction; rewrite (pn_fun _ _ _ P _ P'); auto. Qed.
Lemma ascii_pn S s t : pct_normal S s t -> ascii_only s <-> ascii_only t.
Proof.
  intros P. split.
  - intros (b & D & A). exists b. split; auto. eapply pn_denotes; eauto.
  - intros (b & D & A). destruct (denotes_ex s) as (b' & D'); [eapply pn_wf_l; eauto|]. assert (D2 := pn_denotes _ _ _ _ P D'). rewrite (denotes_fun _ _ D _ D2) in A. exists b'. auto.
Qed.
Lemma host_normal_idem S h t : host_normal S h t -> host_normal S t t.
Proof.
  intros [u A P|u A P].
  - assert (Au : ascii_only u) by exact (proj1 (ascii_pn _ _ _ P) A). assert (Wu := pn_wf_r _ _ _ P).
    rewrite <- (lower_raw_idem u Wu) at 2. apply hn_ascii; [now apply lower_raw_ascii|]. eapply pn_lower_raw; eauto.
  - apply hn_other; [|eapply pn_idem; eauto]. intros X. apply A. exact (proj2 (ascii_pn _ _ _ P) X).
Qed.
