(** * Hosts and authorities, continued (proofs only). *)
From Verif Require Import Base Chars Rfc3986 MValidate PBase PScan PHost.

Lemma wrapped_some s o c m : get_wrapped_inner s o c = Some m <-> s = o :: m ++ [c].
Proof.
  unfold get_wrapped_inner. destruct s as [|p r]; [split; [easy|discriminate]|].
  destruct (rev r) as [|q ri] eqn:E.
  - split; [easy|]. intros [= -> Hr]. subst r. now rewrite rev_app_distr in E.
  - assert (Er : r = rev ri ++ [q]) by (rewrite <- (rev_involutive r), E; reflexivity). subst r.
    split.
    + destruct (N.eqb_spec p o), (N.eqb_spec q c); cbn; try easy. intros [= <-]. now subst.
    + intros [= -> Hr]. apply app_inj_tail in Hr. destruct Hr as [-> ->].
      now rewrite !N.eqb_refl.
Qed.

Definition v6c (c : N) : bool := is_hexdigit c || (c =? COLON) || (c =? DOT).
Lemma h16_v6c a : h16 a -> forallb v6c a = true.
Proof.
  intros H. apply h16_iff in H. destruct H as [_ H]. eapply forallb_impl; [|exact H].
  unfold v6c. now intros x ->.
Qed.
Lemma v4_v6c a : IPv4address a -> forallb v6c a = true.
Proof.
  intros H. apply IPv4_chars in H. destruct H as [H _]. eapply forallb_impl; [|exact H].
  unfold v4c, v6c, is_hexdigit. intros x Hx. lia.
Qed.
Lemma tail_v6c m a : tail m a -> forallb v6c a = true.
Proof.
  induction 1; auto using h16_v6c, v4_v6c. rewrite forallb_app'. cbn [forallb].
  rewrite h16_v6c by assumption. now rewrite IHtail.
Qed.
Lemma pre_v6c m a : pre m a -> forallb v6c a = true.
Proof.
  induction 1; auto using h16_v6c. rewrite forallb_app'. cbn [forallb].
  rewrite h16_v6c by assumption. now rewrite IHpre.
Qed.
Lemma IPv6_chars i : IPv6address i -> forallb v6c i = true.
Proof.
  intros H. apply v6_desc_RFC in H.
  destruct H as [(m & Ht & _)|[(p & m & a & b & -> & Ha & Hb & _)|(m & b & -> & Hb & _)]].
  - now apply tail_v6c in Ht.
  - rewrite forallb_app'. cbn [forallb]. now rewrite (pre_v6c _ _ Ha), (tail_v6c _ _ Hb).
  - cbn [forallb]. now rewrite (tail_v6c _ _ Hb).
Qed.

(** IPvFuture *)
Definition f_ipvf (c : N) : bool := unreserved UriSpec c || sub_delims c || (c =? COLON).
Lemma ipvf_ok c : is_ascii c && is_ascii_userinfo_ipvfutureaddr c = f_ipvf c.
Proof.
  unfold f_ipvf. destruct (is_ascii c) eqn:Hc; cbn [andb].
  - apply (sweep_eq is_ascii_userinfo_ipvfutureaddr f_ipvf); [vm_compute; reflexivity | assumption].
  - nonascii_side Hc. reflexivity.
Qed.
Lemma plus_cls f s : plus (cls f) s <-> s <> [] /\ forallb f s = true.
Proof.
  unfold plus. rewrite cls_cat. split.
  - intros (c & b & -> & Hc & Hb). apply star_cls in Hb. cbn. rewrite Hc. now split.
  - intros [Hn H]. destruct s as [|c s]; [easy|]. cbn in H. bdestr. exists c, s.
    repeat split; auto. now apply star_cls.
Qed.
Lemma plus_impl (A B : lang) s : (forall x, A x -> B x) -> plus A s -> plus B s.
Proof. intros H. apply cat_impl; auto. intros x. now apply star_impl. Qed.
Lemma ipvf_cls x : (cls (unreserved UriSpec) <|> cls sub_delims <|> tok ":") x <-> cls f_ipvf x.
Proof.
  unfold alt, cls, tok, f_ipvf. split.
  - intros [(c & -> & H)|[(c & -> & H)|H]].
    + exists c. now rewrite H.
    + exists c. rewrite H. now rewrite orb_true_r.
    + exists COLON. split; auto.
  - intros (c & -> & H). apply orb_prop in H. destruct H as [H|H]; [apply orb_prop in H; destruct H|].
    + left; eauto. + right; left; eauto. + apply N.eqb_eq in H. subst. right; right. reflexivity.
Qed.
Lemma IPvFuture_iff m : IPvFuture m <-> exists v ver a,
  m = v :: ver ++ DOT :: a /\ (v = 118 \/ v = 86) /\ ver <> [] /\ forallb is_hexdigit ver = true /\
  a <> [] /\ forallb f_ipvf a = true.
Proof.
  unfold IPvFuture. rewrite alt_cat, !tok_cat.
  assert (Hr : forall r, (plus (cls HEXDIG) +++ tok "." +++
     plus (cls (unreserved UriSpec) <|> cls sub_delims <|> tok ":")) r <->
     exists ver a, r = ver ++ DOT :: a /\ ver <> [] /\ forallb is_hexdigit ver = true /\
     a <> [] /\ forallb f_ipvf a = true).
  { intros r. split.
    - intros (x & y & -> & Hx & Hy). apply tok_cat in Hy. destruct Hy as (a & -> & Ha).
      apply (plus_impl _ (cls f_ipvf)) in Ha; [|intros z Hz; now apply ipvf_cls].
      apply plus_cls in Hx, Ha. exists x, a. repeat split; tauto.
    - intros (ver & a & -> & H1 & H2 & H3 & H4). apply cat_intro; [now apply plus_cls|].
      apply tok_cat. exists a. split; [reflexivity|].
      apply (plus_impl (cls f_ipvf)); [intros z Hz; now apply ipvf_cls | now apply plus_cls]. }
  split.
  - intros [(b & -> & H)|(b & -> & H)]; apply Hr in H; destruct H as (ver & a & -> & H);
      (eexists; exists ver, a; split; [reflexivity|]; split; [auto | exact H]).
  - intros (v & ver & a & -> & [-> | ->] & H); [left|right];
      (eexists; split; [reflexivity|]; apply Hr; exists ver, a; auto).
Qed.

Lemma IP_literal_iff i : IP_literal i <-> exists m, i = LBRACK :: m ++ [RBRACK] /\ (IPv6address m \/ IPvFuture m).
Proof.
  unfold IP_literal. rewrite tok_cat. split.
  - intros (b & -> & (m & x & -> & Hm & ->)). exists m. auto.
  - intros (m & -> & Hm). exists (m ++ [RBRACK]). split; [reflexivity|].
    apply cat_intro; [exact Hm | reflexivity].
Qed.

Lemma digit_regname S c : is_digit c = true -> f_regname S c = true.
Proof.
  intros H. unfold f_regname, unreserved. unfold DIGIT. unfold is_digit in H. rewrite H.
  now rewrite ?orb_true_r.
Qed.
Lemma forallb_scan f s : f PCT = false -> forallb f s = true -> scan f s = true.
Proof.
  intros Hp. induction s as [|c s IH]; cbn [forallb]; [easy|]. intros H. bdestr.
  rewrite scan_cons by congruence. now rewrite IH, H.
Qed.
Lemma v4_regname S i : IPv4address i -> reg_name S i.
Proof.
  intros H. apply IPv4_chars in H. destruct H as [H _]. apply reg_name_scan.
  apply forallb_scan; [apply f_regname_pct|]. eapply forallb_impl; [|exact H].
  intros c Hc. unfold v4c in Hc. apply orb_prop in Hc. destruct Hc as [Hc|Hc].
  - now apply digit_regname.
  - apply N.eqb_eq in Hc. subst. now destruct S.
Qed.

Lemma validate_host_iff S i : validate_host S i = Ok tt <-> host S i.
Proof.
  unfold validate_host, host. destruct (get_wrapped_inner i LBRACK RBRACK) as [m|] eqn:E.
  - apply wrapped_some in E. subst i.
    assert (Hlit : host S (LBRACK :: m ++ [RBRACK]) <-> IPv6address m \/ IPvFuture m).
    { split.
      - intros [H|[H|H]].
        + apply IP_literal_iff in H. destruct H as (m' & [= Em] & H). apply app_inj_tail in Em.
          destruct Em as [-> _]. exact H.
        + apply IPv4_chars in H. destruct H as [H _]. discriminate.
        + apply reg_name_scan in H. rewrite scan_cons in H by discriminate. now destruct S.
      - intros H. left. apply IP_literal_iff. eauto. }
    unfold host in Hlit. rewrite Hlit. clear Hlit.
    set (sp := match strip_ascii_char_prefix m 118 with
               | Some r => Some r | None => strip_ascii_char_prefix m 86 end).
    destruct sp as [r|] eqn:Hsp; subst sp.
    + assert (Hm : exists v, m = v :: r /\ (v = 118 \/ v = 86)).
      { destruct m as [|v m]; [easy|]. cbn in Hsp. destruct (N.eqb_spec v 118).
        - injection Hsp as ->. eauto.
        - destruct (N.eqb_spec v 86); [|easy]. injection Hsp as ->. eauto. }
      destruct Hm as (v & -> & Hv).
      assert (H6 : ~ IPv6address (v :: r)).
      { intros H. apply IPv6_chars in H. cbn in H. destruct Hv; subst v; discriminate. }
      rewrite IPvFuture_iff. split.
      * destruct (find_split_hole r DOT) as [[ver a]|] eqn:Ed; [|easy].
        apply find_split_hole_some in Ed. destruct Ed as [-> Hd].
        destruct (is_empty ver) eqn:Ev; [easy|]. apply is_empty_false in Ev.
        destruct (forallb is_hexdigit ver) eqn:Eh; [|easy]. cbn [orb negb].
        rewrite check_ok. intros Hc. bdestr. right. exists v, ver, a.
        repeat split; auto. { now apply is_empty_false. }
        match goal with H : all_ascii a = true, H' : forallb _ a = true |- _ =>
          revert H H'; clear end. unfold all_ascii.
        induction a as [|c a IH]; cbn [forallb]; [easy|]. intros H1 H2. bdestr.
        rewrite IH by assumption. rewrite <- ipvf_ok.
        repeat match goal with H : _ = true |- _ => rewrite H end. reflexivity.
      * intros [H|H]; [easy|]. destruct H as (v' & ver & a & [= <- ->] & _ & Hne & Hh & Hna & Ha).
        assert (Hd : find_split_hole (ver ++ DOT :: a) DOT = Some (ver, a)).
        { apply find_split_hole_some. split; auto. eapply forallb_none; [|exact Hh].
          intros c Hc. unfold is_hexdigit, is_digit, between, DOT in *. lia. }
        rewrite Hd. apply is_empty_false in Hne, Hna. rewrite Hne, Hh. cbn [orb negb].
        apply check_ok. rewrite Hna. cbn [negb andb]. apply andb_true_intro.
        split; (eapply forallb_impl; [|exact Ha]); intros c Hc; rewrite <- ipvf_ok in Hc; now bdestr.
    + rewrite validate_ipv6_iff. split; [auto|]. intros [H|H]; [auto|].
      apply IPvFuture_iff in H. destruct H as (v & ver & a & -> & Hv & _). exfalso. cbn in Hsp.
      destruct Hv; subst v; discriminate.
  - rewrite check_ok, satisfy_scan, (scan_ext _ _ i (regname_ok S)), <- reg_name_scan. split.
    + intros H. right; right. exact H.
    + intros [H|[H|H]]; [|now apply v4_regname|exact H].
      apply IP_literal_iff in H. destruct H as (m & Hm & _). apply wrapped_some in Hm. congruence.
Qed.

Lemma validate_host_np S i : validate_host S i <> Panic.
Proof.
  unfold validate_host. destruct (get_wrapped_inner i LBRACK RBRACK); [|apply check_np].
  destruct (match strip_ascii_char_prefix s 118 with
            | Some r => Some r | None => strip_ascii_char_prefix s 86 end).
  - destruct (find_split_hole s0 DOT) as [[? ?]|]; [|discriminate].
    destruct (is_empty s1 || negb (forallb is_hexdigit s1)); [discriminate|apply check_np].
  - apply validate_ipv6_np.
Qed.

(** ** Characters of hosts *)
Definition auth_delim (c : N) : bool := (c =? SLASH) || (c =? QMARK) || (c =? HASH) || (c =? AT).

Lemma forallb_none_app (f p : N -> bool) s :
  (forall c, p c = true -> f c = false) -> forallb f s = true -> none p s = true.
Proof.
  intros H. apply forallb_none. intros c Hc. destruct (p c) eqn:E; auto. apply H in E. congruence.
Qed.

Ltac delim_cases H :=
  repeat (apply orb_prop in H; destruct H as [H|H]); apply N.eqb_eq in H; subst.

Lemma host_none S h : host S h -> none auth_delim h = true.
Proof.
  intros [H|[H|H]].
  - apply IP_literal_iff in H. destruct H as (m & -> & H).
    rewrite none_cons, none_app. assert (Hm : none auth_delim m = true).
    { destruct H as [H|H].
      - apply IPv6_chars in H. eapply forallb_none_app; [|exact H]. intros c Hc.
        unfold auth_delim in Hc. delim_cases Hc; reflexivity.
      - apply IPvFuture_iff in H. destruct H as (v & ver & a & -> & Hv & _ & Hh & _ & Ha).
        rewrite none_cons, none_app, none_cons.
        assert (H1 : none auth_delim ver = true).
        { eapply forallb_none_app; [|exact Hh]. intros c Hc. unfold auth_delim in Hc.
          delim_cases Hc; reflexivity. }
        assert (H2 : none auth_delim a = true).
        { eapply forallb_none_app; [|exact Ha]. intros c Hc. unfold auth_delim in Hc.
          delim_cases Hc; reflexivity. }
        rewrite H1, H2. destruct Hv; subst v; reflexivity. }
    rewrite Hm. reflexivity.
  - apply IPv4_chars in H. destruct H as [H _]. eapply forallb_none_app; [|exact H]. intros c Hc.
    unfold auth_delim in Hc. delim_cases Hc; reflexivity.
  - apply reg_name_scan in H. eapply scan_none; [|exact H]. intros c Hc.
    unfold auth_delim in Hc. delim_cases Hc; destruct S; repeat split; try reflexivity; discriminate.
Qed.

Lemma userinfo_none S u : userinfo S u -> none auth_delim u = true.
Proof.
  intros H. apply userinfo_scan in H. eapply scan_none; [|exact H]. intros c Hc.
  unfold auth_delim in Hc. delim_cases Hc; destruct S; repeat split; try reflexivity; discriminate.
Qed.
Lemma none_weaken p q s : (forall c, q c = true -> p c = true) -> none p s = true -> none q s = true.
Proof.
  intros H. apply forallb_impl. intros c Hc. destruct (q c) eqn:E; auto. now rewrite (H c E) in Hc.
Qed.
Lemma digits_none p s : (forall c, p c = true -> is_digit c = false) -> forallb is_digit s = true ->
  none p s = true.
Proof. intros H. now apply forallb_none_app. Qed.

Lemma host_no_at S h : host S h -> none (N.eqb AT) h = true.
Proof.
  intros H. apply host_none in H. eapply none_weaken; [|exact H]. intros c Hc.
  apply N.eqb_eq in Hc. now subst.
Qed.
Lemma userinfo_no_at S h : userinfo S h -> none (N.eqb AT) h = true.
Proof.
  intros H. apply userinfo_none in H. eapply none_weaken; [|exact H]. intros c Hc.
  apply N.eqb_eq in Hc. now subst.
Qed.

Lemma regname_no_colon S h : reg_name S h -> none (N.eqb COLON) h = true.
Proof.
  intros H. apply reg_name_scan in H. eapply scan_none; [|exact H]. intros c Hc.
  apply N.eqb_eq in Hc; subst. destruct S; repeat split; try reflexivity; discriminate.
Qed.

Definition host_port S : lang := host S +++ opt (tok ":" +++ port).
Definition pick_host (i : str) : str :=
  match rfind_split_hole i COLON with
  | Some (h, p) => if forallb is_digit p then h else i
  | None => i
  end.

Lemma port_iff p : port p <-> forallb is_digit p = true.
Proof. apply star_cls. Qed.

Lemma host_colon_tail S h a b : host S h -> rfind_split_hole h COLON = Some (a, b) ->
  forallb is_digit b = false.
Proof.
  intros H E. apply rfind_split_hole_some in E. destruct E as [-> Hb].
  assert (Hn : forall x y, none (N.eqb COLON) (x ++ COLON :: y) = true -> False).
  { intros x y. rewrite none_app, none_cons. rewrite N.eqb_refl, andb_false_r. discriminate. }
  destruct H as [H|[H|H]].
  - apply IP_literal_iff in H. destruct H as (m & E & _).
    destruct (exists_last (l := b)) as (b' & q & ->).
    { intros ->. change (a ++ [COLON] = LBRACK :: m ++ [RBRACK]) in E.
      rewrite app_comm_cons in E. apply app_inj_tail in E. destruct E as [_ E]. discriminate. }
    rewrite app_comm_cons, app_assoc, app_comm_cons in E. apply app_inj_tail in E.
    destruct E as [_ ->]. rewrite forallb_app'. cbn. now rewrite andb_false_r.
  - exfalso. eapply Hn. eapply v4_no_colon, H.
  - exfalso. eapply Hn. eapply regname_no_colon, H.
Qed.

Lemma host_port_iff S i : validate_host S (pick_host i) = Ok tt <-> host_port S i.
Proof.
  rewrite validate_host_iff. unfold pick_host, host_port. split.
  - intros H. destruct (rfind_split_hole i COLON) as [[h p]|] eqn:E.
    + destruct (forallb is_digit p) eqn:Hp.
      * apply rfind_split_hole_some in E. destruct E as [-> _]. apply cat_intro; auto.
        right. apply tok_cat. exists p. split; [reflexivity | now apply port_iff].
      * exists i, []. rewrite app_nil_r. repeat split; auto. now left.
    + exists i, []. rewrite app_nil_r. repeat split; auto. now left.
  - intros (h & q & -> & Hh & [-> | Hq]).
    + rewrite app_nil_r. destruct (rfind_split_hole h COLON) as [[a b]|] eqn:E; auto.
      now rewrite (host_colon_tail _ _ _ _ Hh E).
    + apply tok_cat in Hq. destruct Hq as (p & -> & Hp). apply port_iff in Hp.
      rewrite (proj2 (rfind_split_hole_some _ COLON h p)).
      * now rewrite Hp.
      * split; [reflexivity|]. eapply digits_none; [|exact Hp]. intros c Hc.
        apply N.eqb_eq in Hc. now subst.
Qed.

Lemma host_port_none S i : host_port S i -> none auth_delim i = true.
Proof.
  intros (h & q & -> & Hh & Hq). rewrite none_app, (host_none _ _ Hh). destruct Hq as [-> | Hq]; [easy|].
  apply tok_cat in Hq. destruct Hq as (p & -> & Hp). apply port_iff in Hp. change (lit ":" ++ p) with (COLON :: p).
  rewrite none_cons. cbn [andb]. change (negb (auth_delim COLON)) with true. cbn [andb].
  eapply digits_none; [|exact Hp]. intros c Hc. unfold auth_delim in Hc. delim_cases Hc; reflexivity.
Qed.

Lemma authority_iff S i : authority S i <->
  match find_split_hole i AT with
  | Some (u, r) => userinfo S u /\ host_port S r
  | None => host_port S i
  end.
Proof.
  unfold authority. fold (host_port S). split.
  - intros (x & r & -> & Hx & Hr). assert (Hn := host_port_none _ _ Hr).
    assert (Hn' : none (N.eqb AT) r = true).
    { eapply none_weaken; [|exact Hn]. intros c Hc. apply N.eqb_eq in Hc. now subst. }
    destruct Hx as [-> | (u & y & -> & Hu & ->)].
    + cbn [app]. rewrite (proj2 (find_split_hole_none _ AT)); auto.
    + rewrite <- app_assoc. cbn [lit app].
      rewrite (proj2 (find_split_hole_some _ AT u r)); auto.
      split; [reflexivity|]. now apply userinfo_no_at in Hu.
  - destruct (find_split_hole i AT) as [[u r]|] eqn:E.
    + intros [Hu Hr]. apply find_split_hole_some in E. destruct E as [-> _].
      exists (u ++ [AT]), r. rewrite <- app_assoc. repeat split; auto. right.
      apply cat_intro; [auto | reflexivity].
    + intros H. exists [], i. repeat split; auto. now left.
Qed.

Lemma validate_userinfo_iff S i : validate_userinfo S i = Ok tt <-> userinfo S i.
Proof.
  unfold validate_userinfo.
  now rewrite check_ok, satisfy_scan, (scan_ext _ _ i (userinfo_ok S)), <- userinfo_scan.
Qed.

Theorem validate_authority_iff S i : validate_authority S i = Ok tt <-> authority S i.
Proof.
  rewrite authority_iff. unfold validate_authority.
  destruct (find_split_hole i AT) as [[u r]|].
  - destruct (validate_userinfo S u) as [[]|e|] eqn:E; cbn [bind].
    + change (validate_host S (pick_host r) = Ok tt <-> userinfo S u /\ host_port S r).
      rewrite host_port_iff. apply validate_userinfo_iff in E. tauto.
    + split; [easy|]. intros [Hu _]. apply validate_userinfo_iff in Hu. congruence.
    + split; [easy|]. intros [Hu _]. apply validate_userinfo_iff in Hu. congruence.
  - cbn [bind]. apply host_port_iff.
Qed.

Lemma validate_authority_np S i : validate_authority S i <> Panic.
Proof.
  unfold validate_authority. destruct (find_split_hole i AT) as [[u r]|].
  - unfold validate_userinfo, check. destruct (satisfy_chars_with_pct_encoded _ _ u); cbn [bind];
      [apply validate_host_np | discriminate].
  - cbn [bind]. apply validate_host_np.
Qed.

Lemma authority_none S i : authority S i -> none (fun c => (c =? SLASH) || (c =? QMARK) || (c =? HASH)) i = true.
Proof.
  intros H. apply authority_iff in H.
  assert (Hw : forall s, none auth_delim s = true ->
    none (fun c => (c =? SLASH) || (c =? QMARK) || (c =? HASH)) s = true).
  { intros s. apply none_weaken. intros c. unfold auth_delim. now intros ->. }
  destruct (find_split_hole i AT) as [[u r]|] eqn:E.
  - apply find_split_hole_some in E. destruct E as [-> _]. destruct H as [Hu Hr].
    rewrite none_app, none_cons. rewrite (Hw u) by (now apply userinfo_none in Hu).
    rewrite (Hw r) by (now apply host_port_none in Hr). reflexivity.
  - eapply Hw, host_port_none, H.
Qed.

(** ** is_host_reg_name *)
Lemma v4_blen i : IPv4address i -> blen i = length i.
Proof.
  intros H. apply IPv4_chars in H. destruct H as [H _]. induction i as [|c i IH]; [easy|].
  cbn [forallb blen length] in *. bdestr. rewrite IH by assumption.
  unfold clen. replace (c <? 128) with true; [reflexivity|].
  match goal with H : v4c c = true |- _ => revert H end. unfold v4c, is_digit, between, DOT. lia.
Qed.

Lemma is_host_reg_name_iff S i : host S i ->
  (is_host_reg_name i = true <-> ~ IP_literal i /\ ~ IPv4address i).
Proof.
  intros Hh. unfold is_host_reg_name. destruct (starts_with [LBRACK] i) eqn:Es.
  - apply starts_with_iff in Es. destruct Es as (r & ->). split; [easy|]. intros [Hl H4].
    exfalso. destruct Hh as [H|[H|H]]; [easy|easy|].
    apply reg_name_scan in H. cbn [app] in H. rewrite scan_cons in H by discriminate. now destruct S.
  - assert (Hl : ~ IP_literal i).
    { intros H. apply IP_literal_iff in H. destruct H as (m & -> & _). discriminate. }
    destruct (Nat.leb 7 (blen i) && Nat.leb (blen i) 15) eqn:El; cbn [negb].
    + pose proof (validate_ipv4_iff i) as V. unfold validate_ipv4address in V.
      assert (Hgo : forall b : bool, (b = true <-> ~ IPv4address i) ->
        (b = true <-> ~ IP_literal i /\ ~ IPv4address i)) by (intros; tauto).
      apply Hgo. rewrite <- V. clear - V.
      destruct (find_split_hole i DOT) as [[o0 r]|]; [|split; [intros _ H; easy|easy]].
      destruct (find_split_hole r DOT) as [[o1 r']|];
        [|split; [intros _; destruct (negb (is_dec_octet o0)); easy|easy]].
      destruct (find_split_hole r' DOT) as [[o2 o3]|];
        [|split; [intros _; destruct (negb (is_dec_octet o0)), (negb (is_dec_octet o1)); easy|easy]].
      destruct (is_dec_octet o0), (is_dec_octet o1), (is_dec_octet o2), (is_dec_octet o3); cbn;
        split; intros HH; try easy.
    + split; [|easy]. intros _. split; auto. intros H. rewrite (v4_blen _ H) in El.
      apply IPv4_chars in H. destruct H as [_ H]. lia.
Qed.

Lemma bracketed_host_iff S m :
  validate_host S (lit "[" ++ m ++ lit "]") = Ok tt <-> IPv6address m \/ IPvFuture m.
Proof.
  rewrite validate_host_iff. change (lit "[" ++ m ++ lit "]") with (LBRACK :: m ++ [RBRACK]). split.
  - intros [H|[H|H]].
    + apply IP_literal_iff in H. destruct H as (m' & E & H). injection E as E. apply app_inj_tail in E.
      destruct E as [-> _]. exact H.
    + apply IPv4_chars in H. destruct H as [H _]. discriminate.
    + apply reg_name_scan in H. rewrite scan_cons in H by discriminate. destruct S; discriminate.
  - intros H. left. apply IP_literal_iff. eauto.
Qed.
Lemma dec_octet_value s : dec_octet s <->
  (s = lit "0" \/ exists c r, s = c :: r /\ between 49 57 c = true) /\
  forallb DIGIT s = true /\ fold_left (fun n c => 10 * n + (c - 48)) s 0 < 256.
Proof.
  assert (HD : forall c, DIGIT c = true <-> 48 <= c <= 57) by (intros c; unfold DIGIT, between; lia).
  rewrite <- is_dec_octet_iff. split.
  - intros H. assert (Hd : forallb is_digit s = true) by now apply dec_octet_digits.
    change (forallb DIGIT s = true) in Hd.
    split; [|split; [exact Hd|]].
    + destruct s as [|a [|b [|c [|? ?]]]]; cbn [is_dec_octet] in H; try discriminate.
      * destruct (N.eq_dec a 48) as [->|]; [now left|right]. exists a, []. split; auto. revert H. unfold between. lia.
      * right. exists a, [b]. split; auto. bdestr; auto.
      * right. exists a, [b; c]. split; auto. revert H. unfold between. lia.
    + destruct s as [|a [|b [|c [|? ?]]]]; cbn [is_dec_octet] in H; try discriminate;
        cbn [fold_left]; revert H; unfold between; lia.
  - intros (H1 & H2 & H3). destruct s as [|a [|b [|c [|d r]]]]; cbn [is_dec_octet].
    + destruct H1 as [H1|(c & r & E & _)]; discriminate.
    + cbn in H2. rewrite andb_true_r in H2. exact H2.
    + destruct H1 as [H1|(x & y & E & Hx)]; [discriminate|]. inversion E; subst. cbn in H2. bdestr.
      apply HD in H, H0. rewrite Hx. cbn. unfold between. lia.
    + destruct H1 as [H1|(x & y & E & Hx)]; [discriminate|]. inversion E; subst. cbn [fold_left] in H3.
      cbn [forallb] in H2. bdestr. repeat match goal with H : DIGIT _ = true |- _ => apply HD in H end.
      revert Hx. unfold between. lia.
    + exfalso. destruct H1 as [H1|(x & y & E & Hx)]; [discriminate|]. inversion E; subst.
      assert (Hm : forall l n, n <= fold_left (fun n c => 10 * n + (c - 48)) l n).
      { induction l as [|z l IH]; intros n; cbn [fold_left]; [lia|]. specialize (IH (10 * n + (z - 48))). lia. }
      cbn [fold_left] in H3. specialize (Hm r (10 * (10 * (10 * (10 * 0 + (x - 48)) + (b - 48)) + (c - 48)) + (d - 48))).
      revert Hx. unfold between. lia.
Qed.
