(** * Characters that never occur (proofs). *)
From Verif Require Import Base Chars Rfc3986 Utf8 CompSpec PctSpec RfcResolve NormSpec CharsetSpec MValidate MTrusted MEdit
  PBase PScan PHost PTrusted PComps PAuth PValidate PTypes PSearch PAscii PNorm2 PNorm7 PEdit PDecode PPrefix.
Open Scope string_scope. Open Scope N_scope. Open Scope list_scope.

Definition plain (S : Spec) (c : N) : bool := f_query S c || (c =? 37).
Definition gch (S : Spec) (c : N) : bool := plain S c || (c =? 35) || (c =? 91) || (c =? 93).
Lemma hex_plain S c : is_hexdigit c = true -> plain S c = true.
Proof. intros H. unfold plain, f_query, f_pchar, unreserved, ALPHA, DIGIT, between. unfold is_hexdigit, is_digit, between in H. lia. Qed.
Lemma scan_plain f S s : (forall c, f c = true -> f_query S c = true) -> scan f s = true -> forallb (plain S) s = true.
Proof.
  intros F. revert s. apply (scan_ind (fun s => scan f s = true -> forallb (plain S) s = true)).
  - reflexivity.
  - intros c s Hc IH H. rewrite scan_cons in H by exact Hc. apply andb_prop in H as [H1 H2]. cbn. rewrite IH by exact H2. unfold plain. now rewrite (F _ H1).
  - intros u l s IH H. rewrite scan_pct in H. apply andb_prop in H as [H1 H2]. apply andb_prop in H1 as [Hu Hl]. cbn [forallb]. rewrite (hex_plain S u Hu), (hex_plain S l Hl), IH by exact H2. unfold plain. cbn. now rewrite orb_true_r.
  - discriminate.
  - intros u H. rewrite scan_pct1 in H. discriminate.
Qed.
Lemma query_plain S s : query S s -> forallb (plain S) s = true.
Proof. intros H. apply query_scan in H. eapply scan_plain; [|exact H]. auto. Qed.
Lemma fragment_plain S s : fragment S s -> forallb (plain S) s = true.
Proof. intros H. apply fragment_scan in H. eapply scan_plain; [|exact H]. intros c. unfold f_fragment, f_query. destruct (f_pchar S c); auto. destruct (c =? SLASH); rewrite ?orb_true_r; auto. cbn. intros ->. now rewrite orb_true_r. Qed.
Lemma pchar_plain S s : scan (f_pchar_slash S) s = true -> forallb (plain S) s = true.
Proof. apply scan_plain. intros c. unfold f_pchar_slash, f_query. destruct (f_pchar S c); auto. cbn. intros ->. now rewrite orb_true_r. Qed.
Lemma userinfo_plain S s : userinfo S s -> forallb (plain S) s = true.
Proof. intros H. apply userinfo_scan in H. eapply scan_plain; [|exact H]. intros c. unfold f_userinfo, f_query, f_pchar. intros ->. reflexivity. Qed.
Lemma regname_plain S s : reg_name S s -> forallb (plain S) s = true.
Proof. intros H. apply reg_name_scan in H. eapply scan_plain; [|exact H]. intros c. unfold f_regname, f_query, f_pchar. intros ->. reflexivity. Qed.
Lemma forallb_weak (f g : N -> bool) s : (forall c, f c = true -> g c = true) -> forallb f s = true -> forallb g s = true.
Proof. intros H. rewrite !forallb_forall. auto. Qed.
Lemma scheme_plain S s : scheme s -> forallb (plain S) s = true.
Proof.
  intros (a & b & -> & (c & -> & Hc) & H). apply star_cls in H. cbn [app forallb]. apply andb_true_intro. split; [|eapply forallb_weak; [|exact H]; cbv beta; intros x Hx].
  - unfold plain, f_query, f_pchar, unreserved. now rewrite Hc.
  - unfold plain, f_query, f_pchar, unreserved, sub_delims. destruct (ALPHA x); [reflexivity|]. destruct (DIGIT x); [reflexivity|]. cbn [orb] in *. unfold one_of in *. cbn in Hx |- *. lia.
Qed.
Lemma v6c_plain S c : v6c c = true -> plain S c = true.
Proof. unfold v6c. intros H. apply orb_prop in H as [H|H]; [apply orb_prop in H as [H|H]|]; [now apply hex_plain| |]; apply N.eqb_eq in H; subst c; now destruct S. Qed.
Lemma ipvf_plain S c : f_ipvf c = true -> plain S c = true.
Proof.
  unfold f_ipvf, plain, f_query, f_pchar, unreserved, iri_only. intros H. destruct (ALPHA c); [reflexivity|]. destruct (DIGIT c); [reflexivity|]. destruct (one_of "-._~" c); [reflexivity|]. cbn [orb] in *.
  destruct (sub_delims c); [now rewrite ?orb_true_r|]. cbn [orb] in *. rewrite H. now rewrite ?orb_true_r.
Qed.
Lemma plain_gch S s : forallb (plain S) s = true -> forallb (gch S) s = true.
Proof. apply forallb_weak. intros c H. unfold gch. now rewrite H. Qed.
Lemma IP_literal_gch S s : IP_literal s -> forallb (gch S) s = true.
Proof.
  intros H. apply IP_literal_iff in H. destruct H as (m & -> & H). cbn [forallb]. rewrite forallb_app. apply andb_true_intro. split; [now destruct S|].
  apply andb_true_intro. split; [|now destruct S]. apply plain_gch. destruct H as [H|H].
  - apply IPv6_chars in H. eapply forallb_weak; [apply v6c_plain|exact H].
  - apply IPvFuture_iff in H. destruct H as (v & ver & a & -> & Hv & _ & Hh & _ & Ha). cbn [forallb]. rewrite forallb_app. cbn [forallb].
    rewrite (forallb_weak _ _ _ (hex_plain S) Hh), (forallb_weak _ _ _ (ipvf_plain S) Ha). destruct Hv as [-> | ->]; now destruct S.
Qed.
Lemma host_gch S s : host S s -> forallb (gch S) s = true.
Proof.
  intros [H|[H|H]]; [now apply IP_literal_gch| |apply plain_gch; now apply regname_plain]. apply plain_gch. apply v4_v6c in H. eapply forallb_weak; [apply v6c_plain|exact H].
Qed.
Lemma digit_plain S c : is_digit c = true -> plain S c = true.
Proof. intros H. apply hex_plain. unfold is_hexdigit. now rewrite H. Qed.
Lemma authority_gch S s : authority S s -> forallb (gch S) s = true.
Proof.
  intros H. apply authority_comps in H as (u & h & p & -> & Hu & Hh & Hp). unfold authority_string. rewrite !forallb_app. apply andb_true_intro. split; [|apply andb_true_intro; split].
  - destruct u as [u|]; [|reflexivity]. rewrite forallb_app, (plain_gch S u) by now apply userinfo_plain. now destruct S.
  - now apply host_gch.
  - destruct p as [p|]; [|reflexivity]. rewrite forallb_app. cbn in Hp. apply port_iff in Hp. rewrite (plain_gch S p (forallb_weak _ _ _ (digit_plain S) Hp)). now destruct S.
Qed.
Lemma comps_path_plain S C : comps_ok S C -> forallb (plain S) (c_p C) = true.
Proof.
  intros (_ & _ & _ & _ & Hp). apply pchar_plain. destruct (c_a C); [apply path_abempty_scan in Hp; destruct Hp as [-> |(r & -> & Hr)]; [reflexivity|rewrite scan_cons by discriminate; rewrite Hr; now destruct S]|]. destruct (c_s C); [apply path_noauth_abs in Hp|apply path_noauth_rel in Hp]; apply Hp.
Qed.
Lemma reference_gch S i C : reads S i C -> forallb (gch S) i = true.
Proof.
  intros [O ->]. pose proof (comps_path_plain S C O) as Hp. destruct O as (Os & Oa & Oq & Of & _).
  unfold recompose. rewrite !forallb_app. repeat (apply andb_true_intro; split).
  - destruct (c_s C) as [x|]; [|reflexivity]. rewrite forallb_app, (plain_gch S x) by (apply scheme_plain; exact Os). now destruct S.
  - destruct (c_a C) as [x|]; [|reflexivity]. rewrite forallb_app, (authority_gch S x) by exact Oa. now destruct S.
  - now apply plain_gch.
  - destruct (c_q C) as [x|]; [|reflexivity]. rewrite forallb_app, (plain_gch S x) by (apply query_plain; exact Oq). now destruct S.
  - destruct (c_f C) as [x|]; [|reflexivity]. rewrite forallb_app, (plain_gch S x) by (apply fragment_plain; exact Of). now destruct S.
Qed.
Lemma valid_gch S t i : new S t i = Ok i -> forallb (gch S) i = true.
Proof.
  intros V. destruct (editable t) eqn:E; [destruct (editable_reads _ _ _ E V) as (C & R); eapply reference_gch; exact R|].
  apply new_ok in V. destruct t; try discriminate; cbn in V; apply plain_gch; [now apply query_plain|now apply fragment_plain].
Qed.
Lemma ucschar_out c : ucschar c = true \/ iprivate c = true -> 128 <= c /\ ~ outside_ascii_rules c /\ ~ outside_unicode_rules c.
Proof.
  unfold ucschar, iprivate, between, outside_ascii_rules, outside_unicode_rules. intros H. pose proof (N.div_mod c 65536 ltac:(discriminate)) as E. pose proof (N.mod_lt c 65536 ltac:(discriminate)) as L.
  set (k := c / 65536) in *. set (m := c mod 65536) in *. clearbody k m. cbn [In lit app N_of_ascii]. split; [lia|]. split; [|lia]. cbn. lia.
Qed.
Lemma ascii_out c : ALPHA c || DIGIT c || one_of "-._~" c || sub_delims c || one_of ":@/?%#[]" c = true -> c < 128 /\ ~ outside_ascii_rules c.
Proof. unfold sub_delims, one_of, outside_ascii_rules, ALPHA, DIGIT, between. cbn. lia. Qed.
Lemma gch_never S c : gch S c = true -> ~ never S c.
Proof.
  intros H. assert (K : (ALPHA c || DIGIT c || one_of "-._~" c || sub_delims c || one_of ":@/?%#[]" c = true) \/ (S = IriSpec /\ (ucschar c = true \/ iprivate c = true))).
  { unfold gch, plain, f_query, f_pchar, unreserved, iri_only in H. destruct S; cbn [orb] in *.
    - destruct (ALPHA c); [auto|]. destruct (DIGIT c); [auto|]. destruct (one_of "-._~" c); [auto|]. destruct (sub_delims c); [auto|]. left. cbn [orb] in *. unfold one_of, COLON, AT, SLASH, QMARK in *. cbn in *. lia.
    - destruct (ALPHA c); [auto|]. destruct (DIGIT c); [auto|]. destruct (one_of "-._~" c); [auto|]. destruct (sub_delims c); [auto|]. destruct (ucschar c); [right; split; auto|]. destruct (iprivate c); [right; split; auto|]. left. cbn [orb] in *. unfold one_of, COLON, AT, SLASH, QMARK in *. cbn in *. lia. }
  unfold never. destruct K as [K|(-> & K)].
  - apply ascii_out in K. destruct S; [intros [N|N]; [tauto|]; lia|]. intros [N|N]; [tauto|]. unfold outside_unicode_rules in N. pose proof (N.mod_small c 65536 ltac:(lia)) as M. lia.
  - apply ucschar_out in K. tauto.
Qed.
Lemma c70_never S t i c : new S t i = Ok i -> never S c -> ~ In c i.
Proof. intros V N I. apply valid_gch in V. rewrite forallb_forall in V. exact (gch_never S c (V c I) N). Qed.
Lemma valid_wf S t i : new S t i = Ok i -> pct_wf i.
Proof.
  intros V. destruct (editable t) eqn:E; [destruct (editable_reads _ _ _ E V) as (C & R); eapply reference_wf; eapply reads_reference; exact R|].
  apply new_ok in V. destruct t; try discriminate; cbn in V; apply (PNorm8.c18_applies S); auto.
Qed.
Lemma wf_percent i : pct_wf i -> forall a b, i = a ++ 37 :: b -> exists u l r, b = u :: l :: r /\ HEXDIG u = true /\ HEXDIG l = true.
Proof.
  induction 1 as [|c s Hc H IH|u l s Hu Hl H IH]; intros a b E.
  - destruct a; discriminate.
  - destruct a as [|x a]; cbn in E; injection E as E1 E2; [congruence|]. eapply IH; eauto.
  - destruct a as [|x a]; [injection E as <-; exists u, l, s; auto|]; cbn in E; injection E as E1 E.
    destruct a as [|y a]; cbn in E; injection E as E2 E; [exfalso; subst u; now discriminate Hu|].
    destruct a as [|z a]; cbn in E; injection E as E3 E; [exfalso; subst l; now discriminate Hl|]. eapply IH; eauto.
Qed.
Lemma plain_no S c s : forallb (plain S) s = true -> plain S c = false -> ~ In c s.
Proof. intros H N I. rewrite forallb_forall in H. specialize (H c I). congruence. Qed.
Lemma c70_hash S t i a b : new S t i = Ok i -> i = a ++ lit "#" ++ b -> ~ In 35 a /\ ~ In 35 b.
Proof.
  intros V E. destruct (editable t) eqn:Et.
  - destruct (editable_reads _ _ _ Et V) as (C & R). pose proof R as [O Ei]. pose proof (components_weak _ _ _ _ _ _ O) as W.
    assert (Hb : forall f, c_f C = Some f -> ~ In 35 f) by (intros f Ef; destruct O as (_ & _ & _ & Of & _); rewrite Ef in Of; apply (plain_no S); [now apply fragment_plain|now destruct S]).
    pose proof (front_no_hash _ _ _ _ W) as Hh. rewrite recompose_eq in Ei.
    replace (osch (c_s C) ++ oauth (c_a C) ++ c_p C ++ oq (c_q C) ++ ofr (c_f C)) with ((osch (c_s C) ++ oauth (c_a C) ++ c_p C ++ oq (c_q C)) ++ ofr (c_f C)) in Ei by now rewrite <- !app_assoc.
    set (F := osch (c_s C) ++ oauth (c_a C) ++ c_p C ++ oq (c_q C)) in *. apply in_none in Hh. change HASH with 35 in Hh. rewrite E in Ei.
    destruct (c_f C) as [f|]; cbn [ofr] in Ei.
    + specialize (Hb f eq_refl). apply app_eq_app in Ei. destruct Ei as (l & [(-> & E2)|(-> & E2)]).
      * destruct l as [|c l]; [rewrite app_nil_r in *; cbn in E2; injection E2 as ->; auto|]. cbn in E2. injection E2 as <- E2. exfalso. apply Hb. rewrite E2. apply in_or_app. right. now left.
      * destruct l as [|c l]; [rewrite app_nil_r in *; cbn in E2; injection E2 as ->; auto|]. cbn in E2. injection E2 as <- E2. exfalso. apply Hh. apply in_or_app. right. now left.
    + rewrite app_nil_r in Ei. exfalso. apply Hh. rewrite <- Ei. apply in_or_app. right. now left.
  - exfalso. assert (H : forallb (plain S) i = true) by (apply new_ok in V; destruct t; try discriminate; cbn in V; [now apply query_plain|now apply fragment_plain]).
    apply (plain_no S 35) in H; [|now destruct S]. apply H. rewrite E. apply in_or_app. right. now left.
Qed.
Lemma c70_brackets S i C c : reads S i C -> c = 91 \/ c = 93 ->
  ~ In c (match c_s C with Some x => x | None => [] end) /\ ~ In c (c_p C) /\ ~ In c (match c_q C with Some x => x | None => [] end) /\ ~ In c (match c_f C with Some x => x | None => [] end) /\
  (forall u h o, c_a C = Some (authority_string u h o) -> opt_in (userinfo S) u -> host S h -> opt_in port o ->
     ~ In c (match u with Some x => x | None => [] end) /\ ~ In c (match o with Some x => x | None => [] end) /\ (In c h -> exists m, h = lit "[" ++ m ++ lit "]" /\ ~ In 91 m /\ ~ In 93 m)).
Proof.
  intros [O _] Hc. pose proof (comps_path_plain S C O) as Hp. destruct O as (Os & _ & Oq & Of & _).
  assert (P : plain S c = false) by (destruct Hc as [-> | ->]; now destruct S). assert (Q : forall c', c' = 91 \/ c' = 93 -> plain S c' = false) by (intros c' [-> | ->]; now destruct S).
  split; [destruct (c_s C); [apply (plain_no S); auto; now apply scheme_plain|auto]|]. split; [now apply (plain_no S)|].
  split; [destruct (c_q C); [apply (plain_no S); auto; now apply query_plain|auto]|]. split; [destruct (c_f C); [apply (plain_no S); auto; now apply fragment_plain|auto]|].
  intros u h o _ Hu Hh Ho. split; [destruct u; [apply (plain_no S); auto; now apply userinfo_plain|auto]|]. split; [destruct o as [o|]; [|auto]; cbn in Ho; apply port_iff in Ho; apply (plain_no S); auto; eapply forallb_weak; [apply digit_plain|exact Ho]|].
  intros I. destruct Hh as [H|[H|H]].
  - apply IP_literal_iff in H. destruct H as (m & -> & H). exists m. split; [reflexivity|].
    assert (Pm : forallb (plain S) m = true); [|split; apply (plain_no S); auto].
    destruct H as [H|H].
    + apply IPv6_chars in H. eapply forallb_weak; [apply v6c_plain|exact H].
    + apply IPvFuture_iff in H. destruct H as (v & ver & a & -> & Hv & _ & Hx & _ & Ha). cbn [forallb]. rewrite forallb_app. cbn [forallb].
      rewrite (forallb_weak _ _ _ (hex_plain S) Hx), (forallb_weak _ _ _ (ipvf_plain S) Ha). destruct Hv as [-> | ->]; now destruct S.
  - exfalso. apply v4_v6c in H. revert I. apply (plain_no S); auto. eapply forallb_weak; [apply v6c_plain|exact H].
  - exfalso. revert I. apply (plain_no S); auto. now apply regname_plain.
Qed.
Lemma joined_fun d l s : joined d l s -> forall l', joined d l' s -> (forall x, In x l -> ~ In d x) -> (forall x, In x l' -> ~ In d x) -> l = l'.
Proof.
  induction 1 as [x|x l s H IH]; intros l' H' N N'.
  - inversion H' as [|y l2 s2 H2]; subst; [reflexivity|]. exfalso. apply (N (y ++ d :: s2)); [now left|]. apply in_or_app. right. now left.
  - inversion H' as [y E|y l2 s2 H2 E1 E2].
    + subst. exfalso. apply (N' (x ++ d :: s)); [now left|]. apply in_or_app. right. now left.
    + subst. apply app_eq_app in E2. destruct E2 as (z & [(-> & E)|(-> & E)]).
      * destruct z as [|c z]; [rewrite app_nil_r; cbn in E; injection E as E; subst; f_equal; apply IH; auto; intros k Hk; [apply N|apply N']; now right|].
        cbn in E. injection E as <- _. exfalso. apply (N' (x ++ d :: z)); [now left|]. apply in_or_app. right. now left.
      * destruct z as [|c z]; [rewrite app_nil_r; cbn in E; injection E as E; subst; f_equal; apply IH; auto; intros k Hk; [apply N|apply N']; now right|].
        cbn in E. injection E as <- _. exfalso. apply (N (y ++ d :: z)); [now left|]. apply in_or_app. right. now left.
Qed.
Lemma c70_joined S d l l' s : never S d -> Forall (fun x => exists t, new S t x = Ok x) l -> Forall (fun x => exists t, new S t x = Ok x) l' -> joined d l s -> joined d l' s -> l = l'.
Proof.
  intros N F F' J J'. rewrite Forall_forall in F, F'. eapply joined_fun; eauto; intros x Hx; [destruct (F x Hx) as (t & V)|destruct (F' x Hx) as (t & V)]; eapply c70_never; eauto.
Qed.
Lemma c70_percent S t i a b : new S t i = Ok i -> i = a ++ lit "%" ++ b -> exists u l r, b = u :: l :: r /\ HEXDIG u = true /\ HEXDIG l = true.
Proof. intros V E. eapply wf_percent; [eapply valid_wf; exact V|exact E]. Qed.
(** The list is complete. *)
Lemma ascii_in c : c < 128 -> ALPHA c || DIGIT c || one_of "-._~" c || sub_delims c || one_of ":@/?%#[]" c = false -> outside_ascii_rules c.
Proof. unfold sub_delims, one_of, outside_ascii_rules, ALPHA, DIGIT, between. cbn. lia. Qed.
Lemma unicode_in c : 128 <= c -> ucschar c = false -> iprivate c = false -> outside_unicode_rules c.
Proof.
  unfold ucschar, iprivate, between, outside_unicode_rules. intros H0 H1 H2. pose proof (N.div_mod c 65536 ltac:(discriminate)) as E. pose proof (N.mod_lt c 65536 ltac:(discriminate)) as L.
  set (k := c / 65536) in *. set (m := c mod 65536) in *. clearbody k m. lia.
Qed.
Lemma never_gch S c : ~ never S c -> gch S c = true.
Proof.
  intros N. destruct (gch S c) eqn:G; [reflexivity|]. exfalso. apply N. unfold gch, plain, f_query, f_pchar, unreserved, iri_only in G.
  destruct (N.lt_ge_cases c 128) as [L|L].
  - left. apply ascii_in; [exact L|]. destruct (ALPHA c); [discriminate|]. destruct (DIGIT c); [discriminate|]. destruct (one_of "-._~" c); [discriminate|]. cbn [orb] in *. destruct S; [|destruct (ucschar c); [discriminate|]; destruct (iprivate c); [rewrite ?orb_true_r in G; discriminate|]]; cbn [orb] in *; (destruct (sub_delims c); [discriminate|]); cbn [orb] in *; unfold one_of, COLON, AT, SLASH, QMARK in *; cbn in *; lia.
  - right. destruct S; [exact L|]. apply unicode_in; [exact L| |]; [destruct (ucschar c)|destruct (iprivate c)]; auto; rewrite ?orb_true_r in G; discriminate.
Qed.
Lemma c70_complete S c : ~ never S c -> exists t i, new S t i = Ok i /\ In c i.
Proof.
  intros N. apply never_gch in N. unfold gch, plain in N. destruct (f_query S c) eqn:F.
  - destruct (N.eq_dec c 37) as [-> |P]; [now destruct S|]. exists TQuery, [c]. split; [|now left]. apply new_ok. cbn. apply query_scan. rewrite scan_cons by exact P. now rewrite F.
  - cbn [orb] in N. assert (c = 37 \/ c = 35 \/ c = 91 \/ c = 93) as [-> |[-> |[-> | ->]]] by lia.
    + exists TQuery, (lit "%41"). split; [destruct S; vm_compute; reflexivity|now left].
    + exists TReference, (lit "#"). split; [destruct S; vm_compute; reflexivity|now left].
    + exists TReference, (lit "//[::]"). split; [destruct S; vm_compute; reflexivity|cbn; tauto].
    + exists TReference, (lit "//[::]"). split; [destruct S; vm_compute; reflexivity|cbn; tauto].
Qed.
