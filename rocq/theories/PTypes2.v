(** * Accessors, continued (proofs only). *)
From Verif Require Import Base Chars Rfc3986 CompSpec MValidate MTrusted PBase PScan PHost PAuth PValidate PTrusted PComps PAscii PTypes.

Lemma recompose_valid S s a p q f : components_ok S s a p q f ->
  new S TReference (recompose s a p q f) = Ok (recompose s a p q f) /\
  to_major (recompose s a p q f) = Ok (s, a, p, q, f).
Proof.
  intros H. split.
  - apply new_ok. apply reference_comps. eauto 10.
  - apply to_major_rec. eapply components_weak; eauto.
Qed.
Lemma accessors_all debug S t i :
  t = TIri \/ t = TReference \/ t = TRelative -> new S t i = Ok i ->
  exists s a p q f, to_major i = Ok (s, a, p, q, f) /\ components_ok S s a p q f /\
    scheme_str t i = Ok s /\ authority_str t i = Ok a /\ path_str t i = Ok p /\
    query_str debug t i = Ok q /\ fragment_str t i = Ok f /\
    query_ri debug S t i = Ok q /\ fragment_ri debug S t i = Ok f.
Proof.
  intros Ht H. destruct (acc_spec debug S t i) as (s & a & p & q & f & A & <- & Hc); auto.
  { destruct Ht as [-> |[-> | ->]]; exact I. }
  exists s, a, p, q, f. split; [apply to_major_rec; eapply components_weak; eauto|]. split; auto.
  destruct (typed_ok _ S _ _ _ _ _ _ _ A) as [E1 E2]; try apply Hc. destruct A as (?&?&?&?&?). repeat split; auto.
Qed.
Lemma accessors_absolute debug S i : absolute_IRI S i ->
  exists s a p q, to_major i = Ok (Some s, a, p, q, None) /\ components_ok S (Some s) a p q None /\
    scheme_str TAbsolute i = Ok (Some s) /\ authority_str TAbsolute i = Ok a /\ path_str TAbsolute i = Ok p /\
    query_str debug TAbsolute i = Ok q /\ query_ri debug S TAbsolute i = Ok q.
Proof.
  intros H. destruct (acc_spec_absolute debug S i H) as (s & a & p & q & A & <- & Hc).
  exists s, a, p, q. split; [apply to_major_rec; eapply components_weak; eauto|]. split; auto.
  destruct (typed_ok _ S _ _ _ _ _ _ _ A) as [E1 E2]; try apply Hc. destruct A as (?&?&?&?&?). repeat split; auto.
Qed.
Lemma absolute_query_refuted :
  (exists i q, new IriSpec TAbsolute i = Ok i /\ query_str true TAbsolute i = Ok (Some q) /\
     ~ query IriSpec q /\ query_str false TIri i <> query_str false TAbsolute i) /\
  (exists i, new IriSpec TAbsolute i = Ok i /\ query_str true TAbsolute i = Panic).
Proof.
  split.
  - exists (lit "foo:?q#"), (lit "q#"). repeat split; try reflexivity.
    + rewrite <- validate_query_iff. vm_compute. discriminate.
    + vm_compute. discriminate.
  - exists (lit "foo:#"). split; reflexivity.
Qed.
Lemma resolver_all S base : new S TAbsolute base = Ok base -> exists s a p q f,
  to_major base = Ok (Some s, a, p, q, f) /\
  resolver_scheme_str base = Ok s /\ resolver_authority_str base = Ok a /\
  resolver_path_str base = Ok p /\ resolver_query_str base = Ok q.
Proof.
  intros H. destruct (resolver_acc S base H) as (s & a & p & q & f & H1 & H2 & H3 & H4 & <- & Hc).
  exists s, a, p, q, f. split; [apply to_major_rec; eapply components_weak; eauto|]. auto.
Qed.
Lemma authority_components_major S i s a p q f : IRI_reference S i -> to_major i = Ok (s, a, p, q, f) ->
  authority_components i = match a with Some x => Some (decompose_authority x) | None => None end.
Proof.
  intros H E. apply reference_comps in H. destruct H as (s' & a' & p' & q' & f' & -> & Hc).
  assert (W := components_weak _ _ _ _ _ _ Hc). rewrite to_major_rec in E by exact W. inversion E; subst.
  unfold authority_components. now rewrite extract_authority_rec.
Qed.
