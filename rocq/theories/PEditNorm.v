(** * Editing commutes with normalization and with the mapping to URIs (proofs). *)
From Verif Require Import Base Chars Rfc3986 Utf8 CompSpec PctSpec RfcResolve NormSpec EncodeSpec EditSpec MValidate MTrusted MFormat MWriters MPct MPath MNormalize MEdit
  PBase PScan PHost PAuth PTrusted PComps PAscii PTypes PPct PPct2 PPct3 PNorm PNorm2 PNorm5 PNorm7 PNorm8 PEncode PEncode2 PEdit PCommute.
From Coq Require Import Lia.
Open Scope string_scope. Open Scope N_scope. Open Scope list_scope.

Definition norm (keep : bool) (i : str) := if keep then normalize_preserve i else normalize i.
Lemma pn_no_colon S s t : pct_normal S s t -> ~ In 58 s -> ~ In 58 t.
Proof.
  induction 1 as [|c s t Hc P IH|c bs s t Sp U P IH|u l s t Hu Hl N P IH]; intros H I; auto.
  - destruct I as [->|I]; [apply H; now left|]. apply IH; auto. intros K. apply H. now right.
  - destruct I as [->|I]; [destruct S; vm_compute in U; discriminate|]. apply IH; auto. intros K. apply H, in_app_iff. now right.
  - destruct (upper_hex_ok u Hu) as (A & _). destruct (upper_hex_ok l Hl) as (B & _). destruct I as [I|[I|[I|I]]]; [discriminate|rewrite I in A; vm_compute in A; discriminate|rewrite I in B; vm_compute in B; discriminate|].
    apply IH; auto. intros K. apply H. right. right. now right.
Qed.
(** Another userinfo. *)
Lemma edit_norm2 S keep i C u h o v v' g g' : dissects S i C u h o -> defined (c_s C) = true ->
  opt_in (userinfo S) v -> opt_rel (pct_normal S) v v' -> host S g -> host_normal S g g' -> exists n T u' h' m,
  norm keep i = Ok n /\ display S n = Ok (render T) /\ dissects S (render T) T u' h' (drop_empty_port o) /\ defined (c_s T) = true /\ opt_rel (pct_normal S) u u' /\ host_normal S h h' /\ opt_rel (pct_normal S) (c_f C) (c_f T) /\
  norm keep (render (with_authority C v g o)) = Ok m /\ display S m = Ok (render (with_authority T v' g' (drop_empty_port o))).
Proof.
  intros Ds D Hv Pv Hg Pg. assert (Ds' := dissects_authority S i C u h o v g o Ds Hv). destruct Ds as (R & Ea & Hu & Hh & Ho). specialize (Ds' Hg Ho).
  destruct (c15_components S keep i C R D) as (n & T & E & (Ns & Na & Np & Nq & Nf) & _ & X). rewrite Ea in Na. destruct (c_a T) as [a'|] eqn:Et; cbn in Na; [|easy].
  destruct Na as (u0 & h0 & p0 & u' & h' & E0 & K1 & K2 & K3 & Pu & Ph & ->). apply (authority_unique S) in E0; auto. injection E0 as <- <- <-.
  destruct (c15_components S keep _ _ (proj1 Ds') D) as (m & T2 & E2 & _ & U2 & X2).
  assert (Tn : comps_normal S keep (with_authority C v g o) (with_authority T v' g' (drop_empty_port o))).
  { unfold comps_normal, with_authority. cbn [c_s c_a c_p c_q c_f]. rewrite Ea in Np. cbn [defined] in *. split; [exact Ns|]. split; [|split; [exact Np|split; [exact Nq|exact Nf]]]. exists v, g, o, v', g'. do 6 (split; [reflexivity || assumption|]). reflexivity. }
  apply U2 in Tn. rewrite <- Tn in X2. assert (L : loose_ok S T).
  { eapply normal_loose; [apply comps_loose; [apply R|exact D]|]. unfold comps_normal. rewrite Ea, Et. rewrite Ea in Np. split; [exact Ns|]. split; [exists u, h, o, u', h'; do 6 (split; [reflexivity || assumption|]); reflexivity|split; [exact Np|split; [exact Nq|exact Nf]]]. }
  destruct (reread_reads S T L) as (RT & DT). assert (ER : reread T = T). { destruct T as [s a p q f]. cbn in Et. subst. reflexivity. }
  assert (EU : unparse T = render T). { unfold unparse, render. now rewrite Et. }
  rewrite ER, EU in RT. exists n, T, u', h', m. split; [exact E|]. split; [now rewrite <- EU|]. split; [|split; [exact DT|split; [exact Pu|split; [exact Ph|split; [exact Nf|split; [exact E2|exact X2]]]]]].
  split; [exact RT|]. split; [exact Et|]. split; [now apply (userinfo_normal_ok S u u')|]. split; [now apply (host_normal_ok S h h')|]. now apply drop_port.
Qed.
Lemma edit_norm S keep i C u h o v v' : dissects S i C u h o -> defined (c_s C) = true ->
  opt_in (userinfo S) v -> opt_rel (pct_normal S) v v' -> exists n T u' h' m,
  norm keep i = Ok n /\ display S n = Ok (render T) /\ dissects S (render T) T u' h' (drop_empty_port o) /\ defined (c_s T) = true /\ opt_rel (pct_normal S) u u' /\
  norm keep (render (with_authority C v h o)) = Ok m /\ display S m = Ok (render (with_authority T v' h' (drop_empty_port o))).
Proof.
  intros Ds D Hv Pv. pose proof (proj1 (proj2 (proj2 (proj2 Ds)))) as Hh. destruct (host_port_norm S h None Hh Logic.I) as (g & Pg & _).
  destruct (edit_norm2 S keep i C u h o v v' h g Ds D Hv Pv Hh Pg) as (n & T & u' & h' & m & E & X & Dt & DT & Pu & Ph & Pf & E2 & X2).
  assert (h' = g) by (exact (PNorm.host_normal_fun S h h' g Ph Pg)). subst g. exists n, T, u', h', m. auto 10.
Qed.
Lemma pn_password S user pw v : ~ In 58 user -> userinfo S (user_password user pw) -> pct_normal S (user_password user pw) v ->
  exists user' pw', v = user_password user' pw' /\ pct_normal S user user' /\ pct_normal S pw pw' /\ ~ In 58 user' /\
    userinfo S user /\ userinfo S (user_password user []).
Proof.
  intros H U P. assert (Uu := U). apply userinfo_scan in U. unfold user_password in *. change (lit ":" ++ pw) with (58 :: pw) in *. assert (X : scan (f_userinfo S) user = true /\ scan (f_userinfo S) pw = true).
  { rewrite scan_delim in U by (reflexivity || discriminate). bdestr. auto. }
  assert (W : pct_wf user). { apply (c18_applies S). left. now apply userinfo_scan. }
  destruct (pn_split S 58 user pw v P ltac:(discriminate) W) as (a & b & -> & Pa & Pb). exists a, b. split; [reflexivity|]. split; [exact Pa|]. split; [exact Pb|]. split; [exact (pn_no_colon _ _ _ Pa H)|].
  split; [now apply userinfo_scan|]. apply userinfo_scan. change (user ++ lit ":" ++ []) with (user ++ [58]). destruct X as (X & _). rewrite scan_app by exact X. destruct S; reflexivity.
Qed.
Lemma norm_no_password S keep i C : no_password S i C -> defined (c_s C) = true -> exists n out T, norm keep i = Ok n /\ display S n = Ok out /\ no_password S out T /\ IRI S out.
Proof.
  intros H D. assert (R : reads S i C) by (destruct H as [(R & _)|[(h & o & R & _)|(u & h & o & (R & _) & _)]]; exact R).
  destruct H as [(_ & Ea)|[(h & o & Ds)|(u & h & o & Ds & Hc)]].
  - destruct (c15_components S keep i C R D) as (n & T & E & Nt & _ & X). assert (L : loose_ok S T) by (eapply normal_loose; [apply comps_loose; [apply R|exact D]|exact Nt]).
    destruct (reread_reads S T L) as (RT & DT). exists n, (unparse T), (reread T). split; [exact E|]. split; [exact X|]. split; [|exact (reads_iri _ _ _ RT DT)]. left. split; auto.
    destruct Nt as (_ & Na & _). rewrite Ea in Na. cbn [reread c_a]. destruct (c_a T); [now cbn in Na|reflexivity].
  - destruct (edit_norm S keep i C None h o None None Ds D I I) as (n & T & u' & h' & m & E & X & Dt & DT & Pu & _). destruct u' as [u'|]; [now cbn in Pu|].
    exists n, (render T), T. split; [exact E|]. split; [exact X|]. split; [right; left; eauto|exact (reads_iri _ _ _ (proj1 Dt) DT)].
  - destruct (edit_norm S keep i C (Some u) h o None None Ds D I I) as (n & T & u' & h' & m & E & X & Dt & DT & Pu & _). destruct u' as [u'|]; [|now cbn in Pu].
    exists n, (render T), T. split; [exact E|]. split; [exact X|]. split; [|exact (reads_iri _ _ _ (proj1 Dt) DT)]. right. right. exists u', h', (drop_empty_port o). split; auto. exact (pn_no_colon _ _ _ Pu Hc).
Qed.
Lemma with_with C u h o u' h' o' : with_authority (with_authority C u h o) u' h' o' = with_authority C u' h' o'.
Proof. reflexivity. Qed.
Lemma new_tiri S i : IRI S i -> new S TIri i = Ok i.
Proof. intros H. apply new_ok. exact H. Qed.
Lemma mask_normalize S keep i : IRI S i -> exists n out j m k, norm keep i = Ok n /\ display S n = Ok out /\
  text (mask_display i) = Ok j /\ norm keep j = Ok m /\ display S m = Ok k /\ text (mask_display out) = Ok k.
Proof.
  intros V. assert (V' := V). apply iri_reads in V'. destruct V' as (C & R & D). destruct (password_cases S i C R) as [H|(user & pw & h & o & Ds & Hc)].
  - destruct (norm_no_password S keep i C H D) as (n & out & T & E & X & HT & VT). destruct (mask_none false true S TIri i C (new_tiri _ _ V) H) as (M & _). destruct (mask_none false true S TIri out T (new_tiri _ _ VT) HT) as (M' & _).
    exists n, out, i, n, out. auto 10.
  - destruct (c15_components S keep i C R D) as (_ & T0 & _ & (_ & Na & _) & _).
    destruct Ds as (R0 & Ea & Hu & Hh & Ho). cbn in Hu. destruct (pn_ex S (user_password user pw)) as (v & Pv). { apply (c18_applies S). now left. }
    destruct (pn_password S user pw v Hc Hu Pv) as (user' & pw' & -> & Pa & Pb & Hc' & U1 & U2).
    destruct (edit_norm S keep i C (Some (user_password user pw)) h o (Some (user_password user [])) (Some (user_password user' []))) as (n & T & u' & h' & m & E & X & Dt & DT & Pu & E2 & X2).
    { repeat split; auto; apply R0. } { exact D. } { exact U2. } { cbn. unfold user_password. apply (pn_app_delim S user user' 58 [] [] Pa ltac:(discriminate)). constructor. }
    destruct u' as [u'|]; [|now cbn in Pu]. cbn in Pu. rewrite (pn_fun _ _ _ Pu _ Pv) in *.
    destruct (mask_ok false S TIri i C user pw h o eq_refl (new_tiri _ _ V)) as (j & M & _ & _ & _ & Dj); auto. { repeat split; auto; apply R0. }
    assert (VT := reads_iri _ _ _ (proj1 Dt) DT). destruct (mask_ok false S TIri _ T user' pw' h' _ eq_refl (new_tiri _ _ VT) Dt Hc') as (k & Mk & _ & _ & _ & Dk).
    apply dissects_render in Dj. apply dissects_render in Dk. rewrite with_with in *. subst j k. exists n, (render T), (render (with_authority C (Some (user_password user [])) h o)), m, (render (with_authority T (Some (user_password user' [])) h' (drop_empty_port o))). auto 10.
Qed.
Lemma replace_normalize S keep i C user pw h o x t : dissects S i C (Some (user_password user pw)) h o -> ~ In 58 user -> defined (c_s C) = true -> userinfo S x -> pct_normal S x t ->
  exists n out j m k, norm keep i = Ok n /\ display S n = Ok out /\
  text (replaced_display i (fun _ => write x)) = Ok j /\ norm keep j = Ok m /\ display S m = Ok k /\ text (replaced_display out (fun _ => write t)) = Ok k.
Proof.
  intros Ds Hc D Ux Px. assert (Ds' := Ds). destruct Ds as (R0 & Ea & Hu & Hh & Ho). cbn in Hu. destruct (pn_ex S (user_password user pw)) as (v & Pv). { apply (c18_applies S). now left. }
  destruct (pn_password S user pw v Hc Hu Pv) as (user' & pw' & -> & Pa & Pb & Hc' & U1 & U2).
  destruct (edit_norm S keep i C (Some (user_password user pw)) h o (Some (user_password user x)) (Some (user_password user' t)) Ds' D) as (n & T & u' & h' & m & E & X & Dt & DT & Pu & E2 & X2).
  { cbn. apply userinfo_scan. unfold user_password in *. change (lit ":" ++ x) with (58 :: x). rewrite scan_delim by (reflexivity || discriminate). apply userinfo_scan in U1, Ux. rewrite U1, Ux. destruct S; reflexivity. }
  { cbn. exact (pn_app_delim S user user' 58 x t Pa ltac:(discriminate) Px). }
  destruct u' as [u'|]; [|now cbn in Pu]. cbn in Pu. rewrite (pn_fun _ _ _ Pu _ Pv) in *.
  assert (M := replaced_ok unit S i C user pw h o (fun _ => write x) tt Ds' Hc eq_refl). assert (M' := replaced_ok unit S _ T user' pw' h' _ (fun _ => write t) tt Dt Hc' eq_refl).
  cbn [write fst concat] in M, M'. rewrite app_nil_r in M, M'. exists n, (render T), (render (with_authority C (Some (user_password user x)) h o)), m, (render (with_authority T (Some (user_password user' t)) h' (drop_empty_port o))). auto 10.
Qed.
Lemma remove_normalize debug S keep i C user pw h o : dissects S i C (Some (user_password user pw)) h o -> ~ In 58 user -> defined (c_s C) = true ->
  exists n out j m k, norm keep i = Ok n /\ display S n = Ok out /\
  remove_password_inline debug S TIri i = Ok j /\ norm keep j = Ok m /\ display S m = Ok k /\ remove_password_inline debug S TIri out = Ok k.
Proof.
  intros Ds Hc D. assert (Ds' := Ds). destruct Ds as (R0 & Ea & Hu & Hh & Ho). cbn in Hu. destruct (pn_ex S (user_password user pw)) as (v & Pv). { apply (c18_applies S). now left. }
  destruct (pn_password S user pw v Hc Hu Pv) as (user' & pw' & -> & Pa & Pb & Hc' & U1 & U2).
  destruct (edit_norm S keep i C (Some (user_password user pw)) h o (Some user) (Some user') Ds' D U1 Pa) as (n & T & u' & h' & m & E & X & Dt & DT & Pu & E2 & X2).
  destruct u' as [u'|]; [|now cbn in Pu]. cbn in Pu. rewrite (pn_fun _ _ _ Pu _ Pv) in *.
  destruct (remove_pw_ok debug S TIri i C user pw h o eq_refl (new_tiri _ _ (reads_iri _ _ _ R0 D)) Ds' Hc) as (j & Ej & _ & Dj).
  destruct (remove_pw_ok debug S TIri _ T user' pw' h' _ eq_refl (new_tiri _ _ (reads_iri _ _ _ (proj1 Dt) DT)) Dt Hc') as (k & Ek & _ & Dk).
  apply dissects_render in Dj. apply dissects_render in Dk. rewrite with_with in *. subst j k. exists n, (render T). eexists. exists m. eexists. repeat (split; [eassumption|]). assumption.
Qed.
Lemma fragment_normalize debug S keep i f t : IRI S i -> opt_in (fragment S) f -> opt_rel (pct_normal S) f t ->
  exists n out j m k, norm keep i = Ok n /\ display S n = Ok out /\
  set_fragment debug S TIri i f = Ok j /\ norm keep j = Ok m /\ display S m = Ok k /\ set_fragment debug S TIri out t = Ok k.
Proof.
  intros V Hf Pf. assert (V' := V). apply iri_reads in V'. destruct V' as (C & R & D).
  destruct (c15_components S keep i C R D) as (n & T & E & Nt & _ & X). assert (L : loose_ok S T) by (eapply normal_loose; [apply comps_loose; [apply R|exact D]|exact Nt]).
  destruct (reread_reads S T L) as (RT & DT). assert (VT := reads_iri _ _ _ RT DT).
  assert (Fr : forall x, opt_in (fragment S) x -> match x with Some y => new S TFragment y = Ok y | None => True end) by (intros [y|] H; auto; now apply new_ok).
  assert (Ft : opt_in (fragment S) t). { destruct f as [f|], t as [t|]; cbn in *; try easy. apply fragment_scan in Hf. apply fragment_scan. eapply pn_scan; [|exact Pf|exact Hf]. unfold f_fragment, f_pchar_slash, f_pchar. intros c ->. reflexivity. }
  destruct (set_fragment_ok debug S TIri i C f eq_refl (new_tiri _ _ V) R (Fr f Hf)) as (j & Ej & Nj & Rj). destruct (set_fragment_ok debug S TIri _ _ t eq_refl (new_tiri _ _ VT) RT (Fr t Ft)) as (k & Ek & Nk & Rk).
  destruct (c15_components S keep j _ Rj D) as (m & T2 & E2 & _ & U2 & X2).
  assert (Tn : comps_normal S keep (with_fragment C f) (with_fragment T t)). { destruct Nt as (N1 & N2 & N3 & N4 & _). do 4 (split; [assumption|]). exact Pf. }
  apply U2 in Tn. subst T2. exists n, (unparse T), j, m, k. do 4 (split; [assumption|]). split; [|assumption]. rewrite X2. f_equal. destruct Rk as (_ & ->). reflexivity.
Qed.

(** ** The mapping to URIs *)
Lemma uri_no_colon s : all_scalar s = true -> ~ In 58 s -> ~ In 58 (to_uri s).
Proof.
  induction s as [|c s IH]; intros A H; [auto|]. cbn [all_scalar forallb] in A. bdestr. rewrite to_uri_cons, in_app_iff. intros [I|I].
  - destruct (c <? 128); [destruct I as [->|[]]; apply H; now left|]. assert (B := utf8_bytes c H0). revert I. induction B as [|b bs Hb B IHB]; [auto|]. unfold triplets. cbn [flat_map].
    rewrite in_app_iff. intros [I|I]; [|now apply IHB]. destruct (hex_digit_facts (b / 16) (byte_div b Hb)) as (_ & X & _). destruct (hex_digit_facts (b mod 16) (byte_mod b)) as (_ & Y & _).
    unfold triplet in I. destruct I as [I|[I|[I|[]]]]; [discriminate|rewrite I in X; vm_compute in X; discriminate|rewrite I in Y; vm_compute in Y; discriminate].
  - apply (IH H1); auto. intros K. apply H. now right.
Qed.
Lemma dissects_uri i C u h o : dissects IriSpec i C u h o -> dissects UriSpec (to_uri i) (to_uri_comps C) (omap u) (to_uri h) (omap o) /\ oscalar u.
Proof.
  intros (R & Ea & Hu & Hh & Ho). destruct (maps_opt _ _ u maps_userinfo Hu) as (Hu' & Su). destruct (maps_host h Hh) as (Sh & Hh'). destruct (maps_opt _ _ o maps_port Ho) as (Ho' & So).
  destruct (reads_uri _ _ R) as (_ & RU). split; [|destruct u; exact Su]. split; [exact RU|]. split; [|auto]. cbn [to_uri_comps c_a]. rewrite Ea. cbn [omap]. now rewrite authority_string_uri.
Qed.
Lemma no_password_uri i C : no_password IriSpec i C -> no_password UriSpec (to_uri i) (to_uri_comps C).
Proof.
  intros [(R & Ea)|[(h & o & Ds)|(u & h & o & Ds & Hc)]].
  - left. destruct (reads_uri _ _ R) as (_ & RU). split; auto. cbn [to_uri_comps c_a]. now rewrite Ea.
  - right. left. destruct (dissects_uri _ _ _ _ _ Ds) as (X & _). eauto.
  - right. right. destruct (dissects_uri _ _ _ _ _ Ds) as (X & Sc). exists (to_uri u), (to_uri h), (omap o). split; [exact X|]. now apply uri_no_colon.
Qed.
Lemma render_uri C : to_uri (render C) = render (to_uri_comps C).
Proof. apply recompose_uri. Qed.
Lemma authority_comps_uri C u h o : to_uri_comps (with_authority C u h o) = with_authority (to_uri_comps C) (omap u) (to_uri h) (omap o).
Proof. unfold to_uri_comps, with_authority. cbn [c_s c_a c_p c_q c_f omap]. now rewrite authority_string_uri. Qed.
Lemma password_uri user pw : to_uri (user_password user pw) = user_password (to_uri user) (to_uri pw).
Proof. unfold user_password. now rewrite !to_uri_app. Qed.
Lemma new_uri t i C : editable t = true -> reads IriSpec i C -> new IriSpec t i = Ok i -> new UriSpec t (to_uri i) = Ok (to_uri i).
Proof.
  intros Ht R H. destruct (reads_uri _ _ R) as (_ & RU). apply (class_new _ _ _ _ Ht RU). apply (class_new _ _ _ _ Ht R) in H.
  destruct t; try discriminate; cbn [ty_class to_uri_comps c_s c_f] in *; rewrite ?defined_omap; auto. destruct H as (H & [-> | ->]); split; auto.
Qed.
Lemma mask_uri t i : editable t = true -> new IriSpec t i = Ok i -> exists j, text (mask_display i) = Ok j /\ text (mask_display (to_uri i)) = Ok (to_uri j).
Proof.
  intros Ht V. destruct (editable_reads IriSpec t i Ht V) as (C & R). assert (V' := new_uri t i C Ht R V). destruct (password_cases _ i C R) as [H|(user & pw & h & o & Ds & Hc)].
  - destruct (mask_none false true _ t i C V H) as (M & _). destruct (mask_none false true _ t _ _ V' (no_password_uri _ _ H)) as (M' & _). eauto.
  - destruct (dissects_uri _ _ _ _ _ Ds) as (X & Sc). cbn [omap oscalar] in *. rewrite password_uri in X. unfold user_password in Sc. rewrite !all_scalar_app in Sc. bdestr.
    destruct (mask_ok false _ t i C user pw h o Ht V Ds Hc) as (j & M & _ & _ & _ & Dj). destruct (mask_ok false _ t _ _ _ _ _ _ Ht V' X (uri_no_colon _ H Hc)) as (k & Mk & _ & _ & _ & Dk).
    exists j. split; auto. rewrite Mk. f_equal. apply dissects_render in Dj. apply dissects_render in Dk. rewrite with_with in *. subst j k. rewrite render_uri, authority_comps_uri. cbn [omap]. now rewrite password_uri.
Qed.
Lemma remove_uri debug t i C user pw h o : editable t = true -> new IriSpec t i = Ok i -> dissects IriSpec i C (Some (user_password user pw)) h o -> ~ In 58 user ->
  exists j, remove_password_inline debug IriSpec t i = Ok j /\ remove_password_inline debug UriSpec t (to_uri i) = Ok (to_uri j).
Proof.
  intros Ht V Ds Hc. assert (R := proj1 Ds). assert (V' := new_uri t i C Ht R V). destruct (dissects_uri _ _ _ _ _ Ds) as (X & Sc). cbn [omap oscalar] in *. rewrite password_uri in X. unfold user_password in Sc. rewrite !all_scalar_app in Sc. bdestr.
  destruct (remove_pw_ok debug _ t i C user pw h o Ht V Ds Hc) as (j & M & _ & Dj). destruct (remove_pw_ok debug _ t _ _ _ _ _ _ Ht V' X (uri_no_colon _ H Hc)) as (k & Mk & _ & Dk).
  exists j. split; auto. rewrite Mk. f_equal. apply dissects_render in Dj. apply dissects_render in Dk. rewrite with_with in *. subst j k. now rewrite render_uri, authority_comps_uri.
Qed.
Lemma fragment_uri debug t i f : fragmentable t = true -> new IriSpec t i = Ok i -> opt_in (fragment IriSpec) f ->
  exists j, set_fragment debug IriSpec t i f = Ok j /\ set_fragment debug UriSpec t (to_uri i) (omap f) = Ok (to_uri j).
Proof.
  intros Ht V Hf. assert (He : editable t = true) by (destruct t; try discriminate; reflexivity). destruct (editable_reads IriSpec t i He V) as (C & R). assert (V' := new_uri t i C He R V). destruct (reads_uri _ _ R) as (_ & RU).
  destruct (set_fragment_ok debug _ t i C f Ht V R) as (j & Ej & _ & (_ & Rj)). { destruct f; auto. now apply new_ok. }
  destruct (set_fragment_ok debug _ t _ _ (omap f) Ht V' RU) as (k & Ek & _ & (_ & Rk)). { destruct f as [f|]; cbn; auto. apply new_ok. cbn. now apply maps_fragment. }
  exists j. split; auto. rewrite Ek. f_equal. subst. symmetry. apply recompose_uri.
Qed.

(** ** Replacing the host *)
Lemma host_normalize debug S keep i C u h o g t : dissects S i C u h o -> defined (c_s C) = true -> host S g -> host_normal S g t ->
  (debug = false \/ c_f C = None \/ c_f C = Some []) ->
  exists n out j m k, norm keep i = Ok n /\ display S n = Ok out /\
  replace_host debug true S TIri i g false = Ok (Some g, j) /\ norm keep j = Ok m /\ display S m = Ok k /\ replace_host debug true S TIri out t false = Ok (Some t, k).
Proof.
  intros Ds D Hg Pg F. assert (Ds' := Ds). destruct Ds as (R0 & Ea & Hu & Hh & Hp).
  assert (exists v, opt_rel (pct_normal S) u v) as (v & Pv).
  { destruct u as [u|]; [|now exists None]. destruct (pn_ex S u) as (v & Pv); [apply (c18_applies S); now left|]. now exists (Some v). }
  destruct (edit_norm2 S keep i C u h o u v g t Ds' D Hu Pv Hg Pg) as (n & T & u' & h' & m & E & X & Dt & DT & Pu & Ph & Pf & E2 & X2).
  assert (u' = v). { destruct u as [u|], u' as [u'|], v as [v|]; cbn in Pu, Pv; try easy. f_equal. exact (pn_fun _ _ _ Pu _ Pv). } subst v.
  destruct (replace_host_ok debug true S TIri i C u h o g false eq_refl (new_tiri _ _ (reads_iri _ _ _ R0 D)) Ds' Hg) as (j & _ & Dj & J & _); [discriminate|tauto|].
  assert (FT : debug = false \/ TIri <> TIri \/ c_f T = None \/ c_f T = Some []).
  { destruct F as [F|F]; [now left|]. right. right. destruct F as [F|F]; rewrite F in Pf; (destruct (c_f T) as [f|]; cbn in Pf; [|now left || contradiction]); [contradiction|]. right. apply pn_nil_inv in Pf. now subst. }
  destruct (replace_host_ok debug true S TIri _ T u' h' _ t false eq_refl (new_tiri _ _ (reads_iri _ _ _ (proj1 Dt) DT)) Dt (PNorm.host_normal_ok S g t Hg Pg)) as (k & _ & Dk & K & _); [discriminate|exact FT|].
  apply dissects_render in Dj. apply dissects_render in Dk. rewrite ?with_with in *. destruct (J (or_introl eq_refl)) as (J1 & _), (K (or_introl eq_refl)) as (K1 & _). subst j k.
  exists n, (render T). eexists. exists m. eexists. repeat (split; [eassumption|]). assumption.
Qed.
Lemma host_uri_edit debug t i C u h o g : editable t = true -> new IriSpec t i = Ok i -> dissects IriSpec i C u h o -> host IriSpec g ->
  (debug = false \/ t <> TIri \/ c_f C = None \/ c_f C = Some []) ->
  exists j, replace_host debug true IriSpec t i g false = Ok (Some g, j) /\ replace_host debug true UriSpec t (to_uri i) (to_uri g) false = Ok (Some (to_uri g), to_uri j).
Proof.
  intros Ht V Ds Hg F. assert (R := proj1 Ds). assert (V' := new_uri t i C Ht R V). destruct (dissects_uri _ _ _ _ _ Ds) as (X & _). destruct (maps_host g Hg) as (_ & Hg').
  assert (F' : debug = false \/ t <> TIri \/ c_f (to_uri_comps C) = None \/ c_f (to_uri_comps C) = Some []).
  { destruct F as [F|[F|[F|F]]]; [now left|right; now left|right; right; left|right; right; right]; unfold to_uri_comps; cbn [c_f]; now rewrite F. }
  destruct (replace_host_ok debug true IriSpec t i C u h o g false Ht V Ds Hg) as (j & _ & Dj & J & _); [discriminate|exact F|].
  destruct (replace_host_ok debug true UriSpec t _ _ _ _ _ (to_uri g) false Ht V' X Hg') as (k & _ & Dk & K & _); [discriminate|exact F'|].
  destruct (J (or_introl eq_refl)) as (J1 & _), (K (or_introl eq_refl)) as (K1 & _). exists j. split; [exact J1|]. rewrite K1. do 2 f_equal.
  apply dissects_render in Dj. apply dissects_render in Dk. subst j k. now rewrite render_uri, authority_comps_uri.
Qed.
