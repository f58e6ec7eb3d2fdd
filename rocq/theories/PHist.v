(** * Histories of edits (proofs). *)
From Verif Require Import Base Chars Rfc3986 Utf8 CompSpec PctSpec RfcResolve NormSpec EditSpec HistSpec MValidate MTrusted MFormat MWriters MPct MPath MNormalize MEdit MHist
  PBase PScan PHost PTrusted PComps PAuth PTypes PNorm PNorm2 PNorm3 PNorm4 PNorm5 PNorm7 PNorm8 PEdit PEditNorm.
Open Scope string_scope. Open Scope N_scope. Open Scope list_scope.

Lemma parts_dissects S i C u h o : reads S i C -> parts S C u h o -> dissects S i C u h o.
Proof. intros R (A & B & D & E). repeat split; auto; apply R. Qed.
Lemma edit_step debug S t e i C C' : editable t = true -> new S t i = Ok i -> reads S i C -> allowed debug t C e -> edited S C e C' ->
  exists j, apply_edit debug S t e i = Ok j /\ new S t j = Ok j /\ reads S j C'.
Proof.
  intros Ht V R Al H. destruct H as [f Hf|e user pw h o He P Hc|e He P|user pw h o P Hc|P|u h o g only P Hg Ho|g only P|keep T D N]; cbn [allowed] in Al.
  - destruct (set_fragment_ok debug S t i C f Al V R) as (j & E & Vj & Rj); [destruct f; auto; now apply new_ok|]. exists j. auto.
  - apply (parts_dissects S i) in P; auto. destruct He as [-> | ->]; cbn [apply_edit].
    + destruct (remove_nonempty_ok debug S t i C user pw h o Ht V P Hc) as (j & E & Vj & Dj). exists j. split; [exact E|]. split; [exact Vj|exact (proj1 Dj)].
    + destruct (mask_ok debug S t i C user pw h o Ht V P Hc) as (j & _ & _ & E & Vj & Dj). exists j. rewrite E. split; [reflexivity|]. split; [exact Vj|exact (proj1 Dj)].
  - assert (P' : no_password S i C). { destruct P as [P|[(h & o & P)|(u & h & o & P & Hc)]]; [left; auto|right; left|right; right]; [exists h, o|exists u, h, o]; [|split; auto]; now apply parts_dissects. }
    exists i. split; [|auto]. destruct He as [-> | ->]; cbn [apply_edit]; [exact (remove_nonempty_nocolon debug S t i C P')|].
    destruct (mask_none debug true S t i C V P') as (_ & [M|(M & _)]); [now rewrite M|discriminate].
  - apply (parts_dissects S i) in P; auto. destruct (remove_pw_ok debug S t i C user pw h o Ht V P Hc) as (j & E & Vj & Dj). exists j. split; [exact E|]. split; [exact Vj|exact (proj1 Dj)].
  - exists i. split; [|auto]. apply (remove_pw_none debug S t i C R). destruct P as [P|(h & o & P)]; [now left|right]. exists h, o. now apply parts_dissects.
  - apply (parts_dissects S i) in P; auto. destruct (replace_host_ok debug true S t i C u h o g only Ht V P Hg Ho Al) as (j & Vj & Dj & J & _). destruct (J (or_introl eq_refl)) as (J1 & _).
    exists j. cbn [apply_edit]. rewrite J1. split; [reflexivity|]. split; [exact Vj|exact (proj1 Dj)].
  - exists i. split; [|auto]. cbn [apply_edit]. destruct (replace_host_none debug true S t i C g only Ht V R) as (_ & E); [|exact Al|now rewrite E].
    destruct P as [P|[P|(P & u & h & o & Q & K)]]; [now left|right; now left|right; right]. split; [exact P|]. exists u, h, o. split; [now apply parts_dissects|exact K].
  - assert (L : loose_ok S T) by (eapply normal_loose; [apply comps_loose; [apply R|exact D]|exact N]).
    destruct (c15_components S keep i C R D) as (n & T' & E & _ & U & X). apply U in N. subst T'.
    destruct (reread_reads S T L) as (RT & DT).
    assert (Vj : new S t (unparse T) = Ok (unparse T) /\ to_dedicated_string debug S t n = Ok (unparse T)).
    { destruct Al as [-> | ->].
      - assert (VT := reads_iri _ _ _ RT DT). split; [now apply new_tiri|]. now apply dedicated_ok.
      - destruct (norm_valid_absolute S keep i debug V) as (n2 & out & E2 & X2 & V2 & D2). change (norm_input keep i) with (if keep then normalize_preserve i else normalize i) in E2. rewrite E in E2. injection E2 as <-. rewrite X in X2. injection X2 as <-. auto. }
    exists (unparse T). cbn [apply_edit]. rewrite E. cbn [bind]. split; [apply Vj|]. split; [apply Vj|exact RT].
Qed.
Lemma edit_history debug S t es i C C' : editable t = true -> new S t i = Ok i -> reads S i C -> history debug S t C es C' ->
  exists j, apply_edits debug S t es i = Ok j /\ new S t j = Ok j /\ reads S j C'.
Proof.
  intros Ht V R H. revert i V R. induction H as [C|C e C1 es C2 Al Ed H IH]; intros i V R; [exists i; auto|].
  destruct (edit_step debug S t e i C C1 Ht V R Al Ed) as (j & E & Vj & Rj). cbn [apply_edits]. rewrite E. cbn [bind]. now apply IH.
Qed.
(** Every edit is defined, with the exceptions listed. *)
Lemma ip_dec S h : host S h -> (IP_literal h \/ IPv4address h) \/ (~ IP_literal h /\ ~ IPv4address h).
Proof.
  intros Hh. destruct (is_host_reg_name h) eqn:E; [right; now apply (is_host_reg_name_iff S)|left]. destruct Hh as [H|[H|H]]; auto. right.
  apply validate_ipv4_iff. destruct (validate_ipv4address h) as [[]|e|] eqn:V; auto.
  all: exfalso; assert (E' : is_host_reg_name h = true) by (apply (is_host_reg_name_iff S); [right; right; exact H|split; [intros K; apply IP_literal_iff in K; destruct K as (m & -> & _); apply reg_name_scan in H; cbn [app] in H; rewrite scan_cons in H by discriminate; now destruct S|intros K; apply validate_ipv4_iff in K; congruence]]); congruence.
Qed.
Lemma host_dec S h : host S h \/ ~ host S h.
Proof. destruct (validate_host S h) as [[]|e|] eqn:E; [left; now apply validate_host_iff|right|right]; intros H; apply validate_host_iff in H; congruence. Qed.
Lemma edits_defined S i C e : reads S i C ->
  match e with
  | ESetFragment f => opt_in (fragment S) f
  | ERemovePassword => forall u h o, parts S C (Some u) h o -> In 58 u
  | ENormalize _ => defined (c_s C) = true
  | _ => True
  end -> exists C', edited S C e C'.
Proof.
  intros R H. assert (PC : (c_a C = None \/ (exists h o, parts S C None h o) \/ (exists u h o, parts S C (Some u) h o /\ ~ In 58 u)) \/
    exists user pw h o, parts S C (Some (user_password user pw)) h o /\ ~ In 58 user).
  { destruct (password_cases S i C R) as [P|(user & pw & h & o & (_ & P) & Hc)]; [left|right; exists user, pw, h, o; split; [exact P|exact Hc]].
    destruct P as [(_ & P)|[(h & o & _ & P)|(u & h & o & (_ & P) & Hc)]]; [left; exact P|right; left; exists h, o; exact P|right; right; exists u, h, o; split; [exact P|exact Hc]]. }
  destruct e as [f| | | |g only|keep].
  - eexists. now apply ed_fragment.
  - destruct PC as [P|(user & pw & h & o & P & Hc)]; eexists; [apply ed_clear_none; auto|eapply ed_clear; eauto].
  - destruct PC as [P|(user & pw & h & o & P & Hc)]; eexists; [apply ed_clear_none; auto|eapply ed_clear; eauto].
  - destruct PC as [[P|[P|(u & h & o & P & Hc)]]|(user & pw & h & o & P & Hc)].
    + eexists. apply ed_remove_none. now left.
    + eexists. apply ed_remove_none. now right.
    + exfalso. apply Hc. eapply H; eauto.
    + eexists. eapply ed_remove; eauto.
  - assert (N : forall P : Prop, c_a C = None \/ P -> c_a C = None \/ P) by auto. destruct (c_a C) as [a|] eqn:Ea; [|eexists; apply ed_host_none; auto].
    assert (exists u h o, parts S C u h o) as (u & h & o & P). { pose proof R as [(_ & Ha & _) _]. rewrite Ea in Ha. apply authority_comps in Ha. destruct Ha as (u & h & o & -> & Hu & Hh & Ho). exists u, h, o. repeat split; auto. }
    destruct (host_dec S g) as [G|G]; [|eexists; apply ed_host_none; auto]. pose proof P as (_ & _ & Hh & _).
    destruct only; [|eexists; eapply ed_host; eauto; discriminate]. destruct (ip_dec S h Hh) as [K|K]; [|eexists; eapply ed_host; eauto].
    eexists. apply ed_host_none. right. right. split; [reflexivity|]. exists u, h, o. auto.
  - destruct (c15_components S keep i C R H) as (n & T & _ & N & _). eexists. now apply ed_normalize with (T := T).
Qed.
Lemma edited_fun S i C e C1 C2 : reads S i C -> edited S C e C1 -> edited S C e C2 -> C1 = C2.
Proof.
  intros R H1 H2. assert (exists t, editable t = true /\ new S t i = Ok i /\ allowed false t C e) as (t & Ht & V & Al).
  { assert (V : new S TReference i = Ok i) by (apply new_ok; exact (reads_reference _ _ _ R)). destruct e; try (exists TReference; split; [reflexivity|]; split; [exact V|]; cbn; auto; fail).
    exists TIri. split; [reflexivity|]. split; [|now left]. apply new_tiri. inversion H1; subst; try (match goal with X : ENormalize _ = _ \/ _ |- _ => destruct X; discriminate end). eapply reads_iri; eauto. }
  destruct (edit_step false S t e i C C1 Ht V R Al H1) as (j & E & _ & J). destruct (edit_step false S t e i C C2 Ht V R Al H2) as (k & E' & _ & K). rewrite E in E'. injection E' as <-. exact (reads_unique _ _ _ _ J K).
Qed.
Lemma history_applies : exists C C', reads UriSpec (lit "HTTP://u:p@h/a/../b") C /\
  history true UriSpec TIri C [EClearPassword; ENormalize true; ESetFragment (Some (lit "f"))] C'.
Proof.
  set (C := mkC (Some (lit "HTTP")) (Some (lit "u:p@h")) (lit "/a/../b") None None).
  assert (R : reads UriSpec (lit "HTTP://u:p@h/a/../b") C) by (apply reads_of_major; vm_compute; reflexivity).
  assert (V : new UriSpec TIri (lit "HTTP://u:p@h/a/../b") = Ok (lit "HTTP://u:p@h/a/../b")) by (vm_compute; reflexivity).
  destruct (edits_defined _ _ _ EClearPassword R I) as (C1 & E1). destruct (edit_step true UriSpec TIri EClearPassword _ C C1 eq_refl V R I E1) as (j & _ & V1 & R1).
  assert (V1' := V1). apply new_ok in V1'. apply iri_reads in V1'. destruct V1' as (C1' & R1' & D1). rewrite (reads_unique _ _ _ _ R1' R1) in D1. clear C1' R1'.
  destruct (edits_defined _ _ _ (ENormalize true) R1 D1) as (C2 & E2). exists C. eexists. split; [exact R|].
  eapply h_cons; [exact I|exact E1|]. eapply h_cons; [left; reflexivity|exact E2|]. eapply h_cons; [reflexivity|apply ed_fragment; cbn; apply fragment_scan; reflexivity|apply h_nil].
Qed.
