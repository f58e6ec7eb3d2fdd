(** * The URI of an IRI has the same normal form (proofs). *)
From Verif Require Import Base Chars Rfc3986 Utf8 CompSpec PctSpec RfcResolve NormSpec EncodeSpec EquivSpec RoundSpec MValidate MTrusted MFormat MPct MPath MNormalize
  PBase PScan PHost PAuth PTrusted PComps PAscii PTypes PPct PPct2 PPct3 PNorm7 PNorm8 PEncode PEncode2 PCommute PEquiv.
From Coq Require Import ZArith Lia.
From Verif Require Import Base Chars Rfc3986.
Open Scope string_scope. Open Scope N_scope. Open Scope list_scope.

(** ** Which characters the rules allow *)
Definition plain (c : N) : bool := (c <? 128) || ucschar c.
Definition allc (P : N -> bool) (A : lang) : Prop := forall s, A s -> forallb P s = true.
Lemma allc_cat P A B : allc P A -> allc P B -> allc P (A +++ B).
Proof. intros H1 H2 s (a & b & -> & Ha & Hb). rewrite forallb_app. now rewrite (H1 a Ha), (H2 b Hb). Qed.
Lemma allc_alt P A B : allc P A -> allc P B -> allc P (A <|> B).
Proof. intros H1 H2 s [H|H]; auto. Qed.
Lemma allc_eps P : allc P eps.
Proof. now intros s ->. Qed.
Lemma allc_opt P A : allc P A -> allc P (opt A).
Proof. intros H. apply allc_alt; auto. apply allc_eps. Qed.
Lemma allc_star P A : allc P A -> allc P (star A).
Proof. intros H s. induction 1 as [|a b Ha Hb IH]; [reflexivity|]. rewrite forallb_app. now rewrite (H a Ha), IH. Qed.
Lemma allc_plus P A : allc P A -> allc P (plus A).
Proof. intros H. apply allc_cat; auto. now apply allc_star. Qed.
Lemma allc_cls P f : (forall c, f c = true -> P c = true) -> allc P (cls f).
Proof. intros H s (c & -> & Hc). cbn. now rewrite (H c Hc). Qed.
Lemma allc_tok P t : forallb P (lit t) = true -> allc P (tok t).
Proof. now intros H s ->. Qed.
Lemma allc_asc P A : (forall c, c < 128 -> P c = true) -> asc_in A -> allc P A.
Proof. intros H HA s Hs. apply HA in Hs. eapply forallb_impl; [|exact Hs]. intros c Hc. apply H. unfold is_ascii in Hc. lia. Qed.
Lemma unres_plain S c : unreserved S c = true -> plain c = true.
Proof.
  unfold plain. destruct (N.ltb_spec c 128) as [L|L]; [reflexivity|]. unfold unreserved, iri_only, one_of, ALPHA, DIGIT, between. vm_compute lit. cbn [existsb]. intros H. destruct S; cbn [orb]; bdestr; lia.
Qed.
Lemma plain_low c : c < 128 -> plain c = true.
Proof. intros L. unfold plain. now rewrite (proj2 (N.ltb_lt c 128) L). Qed.
Lemma private_not_plain c : iprivate c = true -> plain c = false.
Proof. unfold iprivate, plain, ucschar, between. intros H. zify. Z.to_euclidean_division_equations. lia. Qed.

Ltac allc_tac := repeat first
  [ (apply allc_asc; [exact plain_low|]; first [exact IP_literal_ascii | exact IPv4_ascii | exact (fun s H => proj2 (proj1 (asc_pct s) H))]) | apply allc_star | apply allc_plus | apply allc_opt | apply allc_eps | apply allc_cat | apply allc_alt
  | (apply allc_tok; reflexivity) | (apply allc_cls; intros c Hc; eapply unres_plain; exact Hc)
  | (apply allc_asc; [exact plain_low|]; first [exact (fun s H => proj2 (proj1 (asc_sub_delims s) H)) | exact (fun s H => proj2 (proj1 (asc_pct s) H))
      | exact (fun s H => proj2 (proj1 (asc_digit s) H)) | exact IP_literal_ascii | exact IPv4_ascii | exact (fun s H => proj2 (proj1 (asc_scheme s) H))]) ].
Lemma plain_scheme : allc plain scheme.
Proof. apply allc_asc; [exact plain_low|]. exact (fun s H => proj2 (proj1 (asc_scheme s) H)). Qed.
Lemma plain_authority : allc plain (authority IriSpec). Proof. unfold authority, userinfo, host, reg_name, port. allc_tac. Qed.
Lemma plain_userinfo : allc plain (userinfo IriSpec). Proof. unfold userinfo. allc_tac. Qed.
Lemma plain_host : allc plain (host IriSpec). Proof. unfold host, reg_name. allc_tac. Qed.
Lemma plain_fragment : allc plain (fragment IriSpec). Proof. unfold fragment, pchar. allc_tac. Qed.
Lemma plain_abempty : allc plain (path_abempty IriSpec). Proof. unfold path_abempty, segment, pchar. allc_tac. Qed.
Lemma plain_abs : allc plain (path_absolute IriSpec <|> path_rootless IriSpec <|> path_empty).
Proof. unfold path_absolute, path_rootless, path_empty, segment_nz, segment, pchar. allc_tac. Qed.
Lemma plain_rel : allc plain (path_absolute IriSpec <|> path_noscheme IriSpec <|> path_empty).
Proof. unfold path_absolute, path_noscheme, path_empty, segment_nz, segment_nz_nc, segment, pchar. allc_tac. Qed.
Lemma query_chars : allc (fun c => plain c || iprivate c) (query IriSpec).
Proof.
  unfold query. apply allc_star, allc_alt; [|apply allc_alt; [|apply allc_alt; apply allc_tok; reflexivity]].
  - intros s H. eapply forallb_impl; [|assert (X : allc plain (pchar IriSpec)) by (unfold pchar; allc_tac); exact (X s H)]. intros c ->. reflexivity.
  - apply allc_cls. intros c. cbn. intros ->. apply orb_true_r.
Qed.

(** ** Percent-encoding *)
Lemma triplets_wf bs s : bytes bs -> (pct_wf (triplets bs ++ s) <-> pct_wf s).
Proof. intros B. exact (spelled_wf _ _ s (spelled_triplets _ B)). Qed.
Lemma spell_uri s : pct_wf s -> all_scalar s = true -> forallb plain s = true -> same_spelling IriSpec s (to_uri s).
Proof.
  induction 1 as [|c s Hc W IH|u l s Hu Hl W IH]; intros A P; [apply rst_refl| |].
  - cbn [all_scalar forallb] in A, P. bdestr. rewrite to_uri_cons. destruct (N.ltb_spec c 128) as [L|L].
    + apply (spell_r _ [c]); auto. now apply wf_one.
    + assert (U : unreserved IriSpec c = true). { unfold plain in H. unfold unreserved. cbn [iri_only]. replace (c <? 128) with false in H by lia. cbn [orb] in H. rewrite H. apply orb_true_r. }
      assert (B := utf8_bytes c ltac:(assumption)). assert (Sp := spelled_triplets _ B).
      eapply rst_trans; [apply rst_sym, rst_step, (rs_decode IriSpec [] (triplets (utf8 c)) c s); auto; constructor|]. cbn [app]. apply spell_r; auto.
      rewrite <- (app_nil_r (triplets _)). apply triplets_wf; auto. constructor.
  - cbn [all_scalar forallb] in A, P. bdestr. assert (A1 := hex_ascii u Hu). assert (A2 := hex_ascii l Hl). unfold is_ascii in *. rewrite !to_uri_low by lia. apply (spell_r _ [37; u; l]); auto. now apply wf_three.
Qed.
Lemma pn_plain S s t : pct_normal S s t -> forallb plain t = forallb plain s.
Proof.
  induction 1 as [|c s t Hc P IH|c bs s t Sp U P IH|u l s t Hu Hl N P IH]; [reflexivity| | |].
  - cbn [forallb]. now rewrite IH.
  - cbn [forallb]. rewrite forallb_app, IH, (unres_plain _ _ U). replace (forallb plain bs) with true; [reflexivity|]. symmetry. eapply forallb_impl; [|exact (spelled_all_ascii _ _ Sp)]. intros x Hx. apply plain_low. unfold is_ascii in Hx. lia.
  - destruct (upper_hex_ok u Hu) as (B1 & _). destruct (upper_hex_ok l Hl) as (B2 & _). assert (A1 := hex_ascii u Hu). assert (A2 := hex_ascii l Hl). apply hex_ascii in B1. apply hex_ascii in B2. unfold is_ascii in *.
    cbn [forallb]. rewrite IH, (plain_low u), (plain_low l), (plain_low (upper_hex u)), (plain_low (upper_hex l)) by lia. reflexivity.
Qed.

(** ** Components *)
Lemma spell_host S h h' : same_spelling S h h' -> same_host S h h'.
Proof. induction 1 as [x y H|x|x y H IH|x y z H1 IH1 H2 IH2]; [apply rst_step; now apply hs_respell|apply rst_refl|now apply rst_sym|eapply rst_trans; eauto]. Qed.
Lemma spell_path S o p p' : same_spelling S p p' -> same_path S o p p'.
Proof. induction 1 as [x y H|x|x y H IH|x y z H1 IH1 H2 IH2]; [apply rst_step; now apply ps_respell|apply rst_refl|now apply rst_sym|eapply rst_trans; eauto]. Qed.
Lemma authority_round a : all_scalar a = true -> authority IriSpec a -> same_authority IriSpec a (to_uri a).
Proof.
  intros A H. apply authority_comps in H. destruct H as (u & h & p & -> & Hu & Hh & Hp).
  destruct (maps_opt _ _ u maps_userinfo Hu) as (Hu' & Su). destruct (maps_host h Hh) as (Sh & Hh'). destruct (maps_opt _ _ p maps_port Hp) as (Hp' & Sp).
  exists u, h, p, (omap u), (to_uri h), (omap p). rewrite authority_string_uri.
  assert (X : opt_in (userinfo IriSpec) (omap u)) by (destruct u; cbn in *; auto; now apply asc_userinfo).
  assert (Y : host IriSpec (to_uri h)) by now apply asc_host.
  do 8 (split; [auto|]). split; [|split].
  - destruct u as [u|]; cbn in *; auto. apply spell_uri; auto; [now apply (c18_applies IriSpec); left|now apply plain_userinfo].
  - apply spell_host, spell_uri; auto; [now apply (c18_applies IriSpec); auto 6|now apply plain_host].
  - destruct p as [[|c p]|]; auto. cbn [omap opt_in] in *. rewrite to_uri_ascii; [reflexivity|]. exact (proj2 (proj1 (asc_star _ _ asc_digit _) Hp)).
Qed.
Lemma reads_wider i C : reads UriSpec i C -> defined (c_s C) = true -> reads IriSpec i C.
Proof.
  intros R D. assert (V := reads_iri _ _ _ R D). apply asc_IRI in V. destruct V as (V & _). apply iri_reads in V. destruct V as (C' & R' & _).
  assert (E := reads_major _ _ _ R). rewrite (reads_major _ _ _ R') in E. destruct C as [s1 a1 p1 q1 f1], C' as [s2 a2 p2 q2 f2]. cbn [c_s c_a c_p c_q c_f] in E. now injection E as -> -> -> -> ->.
Qed.
Lemma all_plain C : comps_ok IriSpec C -> (no_private (recompose (c_s C) (c_a C) (c_p C) (c_q C) (c_f C)) <-> match c_q C with Some q => forallb plain q = true | None => True end).
Proof.
  destruct C as [s a p q f]. cbn [c_s c_a c_p c_q c_f]. intros (Hs & Ha & Hq & Hf & Hp). cbn [c_s c_a c_p c_q c_f] in *.
  assert (P : forallb plain p = true) by (destruct a; [|destruct s]; [now apply plain_abempty|now apply plain_abs|now apply plain_rel]).
  assert (G : forall x, forallb plain x = true -> no_private x).
  { intros x Hx c I. rewrite forallb_forall in Hx. apply Hx in I. destruct (iprivate c) eqn:E; [|reflexivity]. apply private_not_plain in E. congruence. }
  assert (A : forall x y, no_private (x ++ y) <-> no_private x /\ no_private y).
  { intros x y. unfold no_private. split; [intros H; split; intros c I; apply H, in_app_iff; auto|]. intros (H1 & H2) c I. apply in_app_iff in I. destruct I; auto. }
  assert (K : match q with Some q => no_private q <-> forallb plain q = true | None => True end).
  { destruct q as [q|]; auto. split; [|apply G]. intros H. assert (X := query_chars q Hq). apply forallb_forall. intros c I. rewrite forallb_forall in X. specialize (X c I). cbv beta in X. now rewrite (H c I), orb_false_r in X. }
  assert (T : forall t, forallb plain (lit t) = true -> no_private (lit t)) by (intros; now apply G).
  unfold recompose. rewrite !A. assert (L : no_private []) by (intros c []).
  assert (Xs : no_private match s with Some x => x ++ lit ":" | None => [] end). { destruct s; auto. apply A. split; [apply G; now apply plain_scheme|now apply T]. }
  assert (Xa : no_private match a with Some x => lit "//" ++ x | None => [] end). { destruct a; auto. apply A. split; [now apply T|apply G; now apply plain_authority]. }
  assert (Xf : no_private match f with Some x => lit "#" ++ x | None => [] end). { destruct f; auto. apply A. split; [now apply T|apply G; now apply plain_fragment]. }
  assert (Xp := G p P). destruct q as [q|]; [|tauto]. rewrite A, K. assert (no_private (lit "?")) by now apply T. tauto.
Qed.
Lemma round_trip (keep : bool) i : IRI IriSpec i -> exists n m out out',
  (if keep then normalize_preserve i else normalize i) = Ok n /\ display IriSpec n = Ok out /\
  (if keep then normalize_preserve (to_uri i) else normalize (to_uri i)) = Ok m /\ display IriSpec m = Ok out' /\
  (out = out' <-> no_private i).
Proof.
  intros H. apply iri_reads in H. destruct H as (C & R & D). assert (Sc := reads_scalar _ _ R). destruct (reads_uri _ _ R) as (_ & RU).
  assert (D' : defined (c_s (to_uri_comps C)) = true) by (cbn [to_uri_comps c_s]; now rewrite defined_omap).
  apply (fun H => reads_wider _ _ H D') in RU. destruct (c46_decides IriSpec keep _ _ _ _ R RU D D') as (n & m & out & out' & E1 & E2 & E3 & E4 & I).
  exists n, m, out, out'. do 4 (split; [assumption|]). rewrite I. destruct R as (OK & ->). rewrite (all_plain C OK).
  destruct (c15_components IriSpec keep _ C (conj OK eq_refl) D) as (n0 & T & _ & (Ns & Na & Np & Nq & Nf) & _). clear - OK Sc Ns Na Np Nq Nf.
  destruct Sc as (Ss & Sa & Sp & Sq & Sf). destruct OK as (Ks & Ka & Kq & Kf & Kp). split.
  - intros (_ & _ & _ & Q & _). cbn [to_uri_comps c_q] in Q. destruct (c_q C) as [q|]; auto. cbn [omap opt_rel opt_in oscalar] in *. destruct (c_q T) as [t|]; cbn in Nq; [|easy].
    rewrite <- (pn_plain _ _ _ Nq). apply (spell_pn _ _ _ t Q) in Nq. rewrite (pn_plain _ _ _ Nq). eapply forallb_impl; [|exact (to_uri_is_ascii q Sq)]. intros c Hc. apply plain_low. unfold is_ascii in Hc. lia.
  - intros Q. unfold equivalent, to_uri_comps. cbn [c_s c_a c_p c_q c_f]. split; [|split; [|split; [|split]]].
    + destruct (c_s C) as [s|]; cbn in *; auto. rewrite to_uri_ascii; auto. now apply asc_scheme.
    + destruct (c_a C) as [a|]; cbn in *; auto. now apply authority_round.
    + apply spell_path, spell_uri; auto.
      * unfold path_normal in Np. destruct (keep && _ && _); [exact (pn_wf_l _ _ _ Np)|]. destruct Np as (p' & P & _). exact (pn_wf_l _ _ _ P).
      * destruct (c_a C); [|destruct (c_s C)]; [now apply plain_abempty|now apply plain_abs|now apply plain_rel].
    + destruct (c_q C) as [q|]; cbn in *; auto. destruct (c_q T); cbn in Nq; [|easy]. apply spell_uri; auto. exact (pn_wf_l _ _ _ Nq).
    + destruct (c_f C) as [f|]; cbn in *; auto. destruct (c_f T); cbn in Nf; [|easy]. apply spell_uri; auto; [exact (pn_wf_l _ _ _ Nf)|now apply plain_fragment].
Qed.
Lemma same_uri (keep : bool) i j : IRI IriSpec i -> IRI IriSpec j -> no_private i -> no_private j -> to_uri i = to_uri j -> exists n m out,
  (if keep then normalize_preserve i else normalize i) = Ok n /\ display IriSpec n = Ok out /\
  (if keep then normalize_preserve j else normalize j) = Ok m /\ display IriSpec m = Ok out.
Proof.
  intros Hi Hj Pi Pj E. destruct (round_trip keep i Hi) as (n & m & o & o' & A1 & A2 & A3 & A4 & A5). destruct (round_trip keep j Hj) as (k & l & r & r' & B1 & B2 & B3 & B4 & B5).
  apply A5 in Pi. apply B5 in Pj. subst. rewrite E, B3 in A3. injection A3 as <-. rewrite B4 in A4. injection A4 as <-. exists n, k, r'. auto.
Qed.
