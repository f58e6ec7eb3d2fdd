(** * Proofs for C77: the statements of PropOffset.v. *)
From Verif Require Import Base Chars Rfc3986 Utf8 CompSpec RfcResolve NormSpec EditSpec SearchSpec MValidate MTrusted MFormat MWriters MSearch MPct MPath MNormalize MEdit MOffset
  PBase PSearch PTrusted PComps PTypes PTypes2 PNorm6 PNorm7 PNorm8 PEdit POffset POffset2 POffset3 POffset4 POffset5.

Section M.
Context (m : option memchr_crate) (Hm : sound m).
Lemma offset_accessors S i C : reads S i C ->
  o_to_major m i = Ok (c_s C, c_a C, c_p C, c_q C, c_f C) /\
  o_extract_scheme m i = Ok (c_s C) /\ o_extract_authority m i = Ok (c_a C) /\ o_extract_path m i = Ok (c_p C) /\
  o_extract_query m i = Ok (c_q C) /\ o_extract_fragment m i = Ok (c_f C).
Proof.
  intros H. pose proof (reads_scheme _ _ _ H) as Hs. destruct H as [H ->]. assert (W := components_weak _ _ _ _ _ _ H).
  rewrite (o_major_eq m Hm) by exact Hs. rewrite o_extract_scheme_eq, o_extract_authority_eq, o_extract_path_eq, o_extract_query_eq, o_extract_fragment_eq by exact Hm.
  rewrite extract_scheme_rec, extract_authority_rec, extract_path_rec, extract_query_rec, extract_fragment_rec by exact W. split; [now apply recompose_valid in H|auto].
Qed.
Lemma offset_authority S i C u h p : dissects S i C u h p ->
  exists g, o_authority_view m i = Ok (Some (u, h, g, p)) /\ (g = Some h \/ g = None) /\ (g = Some h <-> ~ IP_literal h /\ ~ IPv4address h).
Proof.
  intros (R & E & Hu & Hh & Hp). destruct (offset_accessors S i C R) as (_ & _ & Ea & _). unfold o_authority_view, o_authority_components. rewrite Ea, E. cbn [bind].
  destruct (auth_accessors m Hm (authority_string u h p)) as (b & Eb & _ & E1 & E2 & E3 & E4). rewrite Eb. cbn [bind]. rewrite E1, E2, E3, E4.
  assert (A : authority S (authority_string u h p)). { destruct R as [(_ & X & _) _]. rewrite E in X. exact X. }
  destruct (authority_components_spec S _ A) as (u' & h' & p' & -> & -> & -> & G & G2 & Es & Hu' & Hh' & Hp').
  assert (X := authority_unique S _ _ _ _ _ _ Hu' Hh' Hp' Hu Hh Hp Es). injection X as -> -> ->. cbn [bind].
  destruct G as [G|G]; rewrite G in *; cbn [bind]; eexists; (split; [reflexivity|]); split; auto; rewrite <- G2; split; congruence.
Qed.
Lemma offset_no_authority S i C : reads S i C -> c_a C = None -> o_authority_view m i = Ok None.
Proof. intros R E. destruct (offset_accessors S i C R) as (_ & _ & Ea & _). unfold o_authority_view, o_authority_components. now rewrite Ea, E. Qed.
Lemma offset_resolve S base ref B R : reads S base B -> defined (c_s B) = true -> reads S ref R ->
  exists n T, o_resolve m base ref = Ok n /\ transform B R T /\ text (o_fmt_normalized m S n) = Ok (unparse T) /\
    exists b, o_ensure_rfc3986_normalizable m n = Ok b /\ (b = true <-> ~ fell_back T).
Proof.
  intros HB D HR. destruct (c14_resolve S base ref B R HB D HR) as (n & T & b & E & Tr & X & Eb & Hb). exists n, T. split; [rewrite (o_resolve_eq m Hm); eauto using reads_scheme|]. split; [exact Tr|].
  rewrite (text_sim _ _ _ (fmt_normalized_sim m Hm S n) X). split; [exact X|]. exists b. split; [|exact Hb]. rewrite o_ensure_eq; [exact Eb|exact Hm|].
  unfold resolve in E. apply bind_ok in E. destruct E as (x & _ & E). apply bind_ok in E. destruct E as (y & _ & E). eapply create_pwf. exact E.
Qed.
Lemma offset_normalize S (keep : bool) i C : reads S i C -> defined (c_s C) = true ->
  exists n T, o_normalize m keep i = Ok n /\ comps_normal S keep C T /\ text (o_fmt_normalized m S n) = Ok (unparse T) /\
    exists T0 b, comps_normal S false C T0 /\ o_ensure_rfc3986_normalizable m n = Ok b /\ (b = true <-> ~ fell_back T0).
Proof.
  intros H D. destruct (c15_components S keep i C H D) as (n & T & E & N & _ & X). exists n, T. split; [rewrite (o_normalize_eq m Hm); eauto using reads_scheme|]. split; [exact N|].
  rewrite (text_sim _ _ _ (fmt_normalized_sim m Hm S n) X). split; [exact X|]. destruct (c14_normalize S keep i C H D) as (n' & T0 & b & E' & N0 & Eb & Hb). assert (n' = n) as -> by congruence.
  exists T0, b. split; [exact N0|]. split; [|exact Hb]. rewrite o_ensure_eq; [exact Eb|exact Hm|].
  assert (E2 : (do n <- input_from i ; Ok (set_mode n (if keep then MPreserve else MDefault))) = Ok n) by (destruct keep; exact E).
  apply bind_ok in E2. destruct E2 as (n0 & E0 & E2). injection E2 as <-. unfold input_from in E0. apply bind_ok in E0. destruct E0 as ([[[[s a] p] q] f] & _ & E0). destruct s; [|discriminate]. injection E0 as <-. apply pwf_single.
Qed.
Lemma offset_absolute debug i : o_extract_scheme_absolute m i = extract_scheme_absolute i /\ o_extract_authority_absolute m i = extract_authority_absolute i /\
  o_extract_path_absolute m i = extract_path_absolute i /\ o_extract_query_absolute_iri m debug i = extract_query_absolute_iri debug i /\
  o_extract_authority_relative m i = Ok (extract_authority_relative i) /\ o_extract_path_relative m i = Ok (extract_path_relative i).
Proof. rewrite o_extract_scheme_absolute_eq, o_extract_authority_absolute_eq, o_extract_path_absolute_eq, o_extract_query_absolute_eq, o_extract_authority_relative_eq, o_extract_path_relative_eq by exact Hm. auto 10. Qed.
Lemma offset_password debug alloc S t i : o_mask_display m i = mask_display i /\ o_mask_to_dedicated_string m debug alloc S t i = mask_to_dedicated_string debug alloc S t i /\
  (forall A (f : str -> W A), o_replaced_display m i f = replaced_display i f) /\
  o_remove_password_inline m debug S t i = remove_password_inline debug S t i /\ o_remove_nonempty_password_inline m debug S t i = remove_nonempty_password_inline debug S t i.
Proof.
  rewrite (o_mask_eq m Hm), (o_mask_dedicated_eq m Hm), (o_remove_password_eq m Hm), (o_remove_nonempty_eq m Hm). repeat split. intros A f. apply (o_replaced_eq m Hm).
Qed.
Lemma offset_host debug alloc S t i h only : o_try_replace_host_impl m debug alloc S t i h only = try_replace_host_impl debug alloc S t i h only.
Proof. exact (o_replace_host_eq m Hm debug alloc S t i h only). Qed.
Lemma offset_fragment debug S i f : o_raw_set_fragment i f = Ok (raw_set_fragment i f) /\ o_split_fragment m i = Ok (split_fragment i) /\
  o_split_fragment_owned m i = split_fragment_owned i /\ o_to_absolute m debug S i = to_absolute debug S i.
Proof. rewrite o_set_fragment_eq, (o_split_fragment_eq m Hm), (o_split_owned_eq m Hm), (o_to_absolute_eq m Hm). auto. Qed.
End M.
