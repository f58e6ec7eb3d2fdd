(** * Proofs for C75: IP address hosts through the API. *)
From Verif Require Import Base Chars Rfc3986 CompSpec PctSpec RfcResolve NormSpec EditSpec BuildSpec PBase PScan PHost PAuth PComps PTypes PTypes2 MValidate MTrusted MFormat MPct MPath MNormalize MBuild MEdit
  PPct3 PNorm PNorm2 PNorm6 PNorm7 PNorm8 PCalls PBuild PBuild2 PBuild3 IpSpec PIp.

Lemma lower_hex_value c : HEXDIG c = true -> hex_value (lower c) = hex_value c.
Proof. unfold HEXDIG, hex_value, lower, DIGIT, between. intros H. repeat match goal with |- context [if ?b then _ else _] => destruct b eqn:? end; lia. Qed.
Lemma lower_hex_number s : h16 s -> hex_number (map lower s) = hex_number s.
Proof.
  intros H. apply h16_iff in H. destruct H as [_ H]. unfold hex_number. generalize 0. induction s as [|c s IH]; intros v; [reflexivity|].
  cbn [forallb] in H. apply andb_prop in H. destruct H as [Hc H]. cbn [map fold_left]. rewrite lower_hex_value by exact Hc. now apply IH.
Qed.
Lemma lower_v4_denotes s x : v4_denotes s x -> map lower s = s.
Proof. intros H. apply lower_v4, v4_valid. now exists x. Qed.
Lemma lower_words s l : words s l -> words (map lower s) l.
Proof.
  induction 1 as [s H|s t l H W IH].
  - rewrite <- (lower_hex_number s H). constructor. now apply lcl_h16.
  - rewrite !map_app. change (map lower (lit ":")) with (lit ":"). rewrite <- (lower_hex_number s H). apply words_more; [now apply lcl_h16|exact IH].
Qed.
Lemma lower_low s l : low_words s l -> low_words (map lower s) l.
Proof.
  induction 1 as [s H|s a b c d H|s t l H W IH].
  - rewrite <- (lower_hex_number s H). apply low_one. now apply lcl_h16.
  - rewrite (lower_v4_denotes _ _ H). now apply low_v4.
  - rewrite !map_app. change (map lower (lit ":")) with (lit ":"). rewrite <- (lower_hex_number s H). apply low_more; [now apply lcl_h16|exact IH].
Qed.
Lemma lower_v6 s l : v6_denotes s l -> v6_denotes (map lower s) l.
Proof.
  destruct 1 as [s l H L|s t l r k Hs Ht K L].
  - apply v6_full; [now apply lower_low|exact L].
  - rewrite !map_app. change (map lower (lit "::")) with (lit "::"). apply v6_short; [| |exact K|exact L].
    + destruct Hs as [[-> ->]|H]; [now left|right; now apply lower_words].
    + destruct Ht as [[-> ->]|H]; [now left|right; now apply lower_low].
Qed.
Lemma lower_host h a : host_denotes h a -> host_denotes (map lower h) a.
Proof.
  destruct 1 as [s x y z w H|s l H].
  - rewrite (lower_v4_denotes _ _ H). now apply host_v4.
  - rewrite !map_app. change (map lower (lit "[")) with (lit "["). change (map lower (lit "]")) with (lit "]"). apply host_v6. now apply lower_v6.
Qed.
Lemma ip_host S h a : host_denotes h a -> host S h /\ none (N.eqb 37) h = true.
Proof.
  destruct 1 as [s x y z w H|s l H].
  - assert (V : IPv4address s) by (apply v4_valid; exists (x, y, z, w); exact H). split; [right; left; exact V|].
    apply IPv4_chars in V. destruct V as [V _]. eapply (forallb_none v4c); [|exact V]. intros c Hc. destruct (37 =? c) eqn:E; auto. apply N.eqb_eq in E. subst c. discriminate.
  - assert (V : IP_literal (lit "[" ++ s ++ lit "]")).
    { exists (lit "["), (s ++ lit "]"). split; [reflexivity|]. split; [reflexivity|]. exists s, (lit "]"). split; [reflexivity|]. split; [|reflexivity]. left. apply v6_valid. now exists l. }
    split; [now left|now apply ip_literal_no_pct].
Qed.
Lemma normal_host S h h' a : host_normal S h h' -> host_denotes h a -> host_denotes h' a.
Proof.
  intros N D. destruct (ip_host S h a D) as [_ Z]. destruct N as [u A P|u A P]; rewrite (pn_fun _ _ _ P _ (pn_id S h Z)).
  - rewrite lower_raw_none by exact Z. now apply lower_host.
  - exact D.
Qed.
Lemma reports_host S i C u h p : reads S i C -> c_a C = Some (authority_string u h p) -> opt_in (userinfo S) u -> host S h -> opt_in port p -> reports i h.
Proof.
  intros R E Hu Hh Hp. assert (Ha : authority S (authority_string u h p)) by (apply authority_comps; now exists u, h, p).
  exists (decompose_authority (authority_string u h p)). rewrite (authority_components_major S i _ _ _ _ _ (reads_reference _ _ _ R) (major_of S i C R)), E. split; [reflexivity|].
  destruct (authority_components_spec S _ Ha) as (u1 & h1 & p1 & _ & B & _ & _ & _ & F & G1 & G2 & G3).
  apply (authority_unique S) in F; auto. injection F as -> -> ->. exact B.
Qed.
Lemma host_reports S i C h : reads S i C -> reports i h -> exists u p, c_a C = Some (authority_string u h p) /\ opt_in (userinfo S) u /\ host S h /\ opt_in port p.
Proof.
  intros R (A & E & F). rewrite (authority_components_major S i _ _ _ _ _ (reads_reference _ _ _ R) (major_of S i C R)) in E.
  destruct (c_a C) as [a|] eqn:Ea; [|discriminate]. injection E as <-.
  assert (Ha : authority S a) by (destruct R as [(_ & Ha & _) _]; rewrite Ea in Ha; exact Ha).
  destruct (authority_components_spec S a Ha) as (u & h1 & p & _ & B & _ & _ & _ & G & G1 & G2 & G3). rewrite F in B. injection B as <-. exists u, p. rewrite G. auto.
Qed.
Lemma normal_reports S C T h a u p : opt_rel (authority_normal S) (c_a C) (c_a T) -> c_a C = Some (authority_string u h p) -> opt_in (userinfo S) u -> host S h -> opt_in port p -> host_denotes h a ->
  exists u' h' p', c_a T = Some (authority_string u' h' p') /\ opt_in (userinfo S) u' /\ host S h' /\ opt_in port p' /\ host_denotes h' a.
Proof.
  intros N E Hu Hh Hp D. rewrite E in N. destruct (c_a T) as [t|]; [|contradiction]. cbn [opt_rel] in N.
  pose proof (authority_normal_ok _ _ _ N) as [_ Ht]. destruct N as (u0 & h0 & p0 & u' & h' & Eq & Hu0 & Hh0 & Hp0 & Ru & Rh & ->).
  apply (authority_unique S) in Eq; auto. injection Eq as <- <- <-.
  exists u', h', (drop_empty_port p). split; [reflexivity|]. pose proof (normal_host _ _ _ _ Rh D) as D'. split; [|split; [exact (proj1 (ip_host S _ _ D'))|split; [|exact D']]].
  - destruct u as [u|], u' as [u'|]; try contradiction; [|exact I]. cbn in Ru, Hu |- *. apply userinfo_scan in Hu. apply userinfo_scan. eapply pn_scan; [|exact Ru|exact Hu]. unfold f_userinfo. now intros c ->.
  - destruct p as [[|]|]; exact Hp || exact I.
Qed.

(** Normalization keeps the address. *)
Lemma normalize_address S (keep : bool) i h a : IRI S i -> reports i h -> host_denotes h a ->
  exists n out h', (if keep then normalize_preserve i else normalize i) = Ok n /\ display S n = Ok out /\ reports out h' /\ host_denotes h' a.
Proof.
  intros HI Rp D. assert (HR := HI). apply IRI_comps in HR. destruct HR as (s & au & p & q & f & E & O).
  assert (R : reads S i (mkC (Some s) au p q f)) by (split; [exact O|exact E]).
  destruct (c15_components S keep i _ R eq_refl) as (n & T & En & CN & _ & Ed).
  destruct (host_reports _ _ _ _ R Rp) as (u & o & Ea & Hu & Hh & Ho).
  destruct (normal_reports S (mkC (Some s) au p q f) T h a u o (proj1 (proj2 CN)) Ea Hu Hh Ho D) as (u' & h' & o' & Et & Hu' & Hh' & Ho' & D').
  exists n, (unparse T), h'. split; [exact En|]. split; [exact Ed|]. split; [|exact D'].
  destruct (comps_normal_ok S keep _ T (proj1 R) eq_refl CN) as [OT _]. assert (RT : reads S (unparse T) (reread T)) by (split; [exact OT|reflexivity]).
  exact (reports_host S _ (reread T) u' h' o' RT Et Hu' Hh' Ho').
Qed.

(** A builder with an IP address host builds a text whose host denotes the address. *)
Lemma build_address S t b ab a x : editable t = true -> values_ok b -> path S (b_path b) ->
  b_authority b = Some ab -> ab_host ab = HostIp a -> build S t b = Ok x ->
  exists i h, text (built_display S x) = Ok i /\ new S t i = Ok i /\ reports i h /\ host_denotes h a.
Proof.
  intros Ht V P Ea Eh B.
  assert (IA : ip_address a) by (unfold values_ok in V; rewrite Ea, Eh in V; exact (proj2 V)).
  pose proof (ip_text_denotes a IA) as D. rewrite <- Eh in D.
  assert (Va := V). unfold values_ok in Va. rewrite Ea in Va.
  assert (Rq : c_a (requested b) = Some (authority_text ab)) by (unfold requested; cbn [c_a]; now rewrite Ea).
  destruct (b_normalize b) eqn:Nb.
  - destruct (build_norm_only S t b x Ht V Nb P B) as [No F].
    assert (NC : ~ collapses S b) by (intros (_ & X & _); rewrite Ea in X; discriminate).
    destruct (build_norm_accepts false S t b Ht V Nb No F NC) as (x' & T & B' & CN & Tx & RT & NT & _). rewrite B in B'. injection B' as <-.
    assert (Po : authority_parts_ok S ab) by (destruct No as (_ & Y & _); rewrite Ea in Y; exact Y).
    destruct (parts_text S ab Va Po) as (Hu & Hh & Hp).
    destruct (normal_reports S _ T _ a _ _ (proj1 (proj2 CN)) Rq Hu Hh Hp D) as (u' & h' & o' & Et & Hu' & Hh' & Ho' & D').
    exists (unparse T), h'. split; [exact Tx|]. split; [exact NT|]. split; [|exact D']. exact (reports_host S _ (reread T) u' h' o' RT Et Hu' Hh' Ho').
  - destruct (build_only S t b x Ht V Nb P B) as [Rp F].
    destruct (build_accepts false S t b Ht V Nb Rp F) as (x' & i & B' & Tx & Ri & Ni & _). rewrite B in B'. injection B' as <-.
    assert (Po : authority_parts_ok S ab) by (destruct Rp as (_ & Y & _); rewrite Ea in Y; exact Y).
    destruct (parts_text S ab Va Po) as (Hu & Hh & Hp).
    exists i, (host_text (ab_host ab)). split; [exact Tx|]. split; [exact Ni|]. split; [|exact D]. exact (reports_host S _ _ _ _ _ Ri Rq Hu Hh Hp).
Qed.
(** The host that the API reports is an IP address exactly if it is none of the other hosts. *)
Lemma reported_kind S i h : IRI_reference S i -> reports i h -> exists A, authority_components i = Some A /\
  (ac_reg_name A = Ok (Some h) /\ (forall a, ~ host_denotes h a) \/
   ac_reg_name A = Ok None /\ ((exists a, host_denotes h a) \/ exists s, h = lit "[" ++ s ++ lit "]" /\ IPvFuture s)).
Proof.
  intros H Rp. apply reference_comps in H. destruct H as (s & au & p & q & f & E & O).
  assert (R : reads S i (mkC s au p q f)) by (split; [exact O|exact E]). assert (Rp' := Rp). destruct Rp' as (A & EA & EH). exists A. split; [exact EA|].
  rewrite (authority_components_major S i _ _ _ _ _ (reads_reference _ _ _ R) (major_of S i _ R)) in EA. cbn [c_a] in EA.
  destruct au as [au|]; [|discriminate]. injection EA as <-. destruct O as (_ & Ha & _). cbn in Ha.
  destruct (authority_components_spec S au Ha) as (u1 & h1 & p1 & _ & B & _ & [F|F] & G & _ & _ & Hh & _); rewrite EH in B; injection B as <-.
  - left. split; [exact F|]. destruct (proj1 G F) as [N1 N2]. intros a D. destruct D as [s' x y z w D|s' l D].
    + apply N2, v4_valid. now exists (x, y, z, w).
    + apply N1, IP_literal_iff. exists s'. split; [reflexivity|]. left. apply v6_valid. now exists l.
  - right. split; [exact F|]. destruct Hh as [Hh|[Hh|Hh]].
    + apply IP_literal_iff in Hh. destruct Hh as (m & -> & [Hm|Hm]); [|right; exists m; split; [reflexivity|exact Hm]].
      apply v6_valid in Hm. destruct Hm as (l & Hm). left. exists (V6 l). apply (host_v6 m l Hm).
    + apply v4_valid in Hh. destruct Hh as ([[[x y] z] w] & Hh). left. exists (V4 x y z w). now apply host_v4.
    + destruct (validate_ipv4address h) as [[]|e|] eqn:V4h.
      { apply validate_ipv4_iff, v4_valid in V4h. destruct V4h as ([[[x y] z] w] & X). left. exists (V4 x y z w). now apply host_v4. }
      all: exfalso; assert (X : ac_reg_name (decompose_authority au) = Ok (Some h)); [apply G|rewrite F in X; discriminate].
      all: split; [intros Y; apply IP_literal_iff in Y; destruct Y as (m & -> & _); apply reg_name_scan in Hh; rewrite scan_cons in Hh by discriminate; now destruct S|].
      all: intros Y; apply validate_ipv4_iff in Y; rewrite V4h in Y; discriminate.
Qed.
