(** * String types: recognition, classification, accessors (proofs only). *)
From Verif Require Import Base Chars Rfc3986 CompSpec MValidate MTrusted PBase PScan PHost PAuth PValidate PTrusted PComps PAscii.

Lemma recog_gen {A} (f : str -> res ErrorKind A) (out : str -> A) (L : lang) :
  (forall s, L s -> f s = Ok (out s)) -> (forall s a, f s = Ok a -> L s) -> (forall s, f s <> Panic) ->
  recognizes f out L.
Proof.
  intros H1 H2 H3 s. split; [apply H1|]. intros Hn. destruct (f s) as [a|e|] eqn:E.
  - exfalso. eauto. - eauto. - now apply H3 in E.
Qed.
Lemma recog_unit (f : str -> vres) (L : lang) :
  (forall s, f s = Ok tt <-> L s) -> (forall s, f s <> Panic) -> recognizes f (fun _ => tt) L.
Proof.
  intros H1 H2. apply recog_gen; auto.
  - intros s Hs. now apply H1.
  - intros s [] E. now apply H1.
Qed.
Lemma new_recognizes S t : recognizes (new S t) (fun s => s) (ty_lang S t).
Proof.
  apply recog_gen.
  - intros s H. apply validate_iff in H. unfold new. now rewrite H.
  - intros s a H. unfold new in H. destruct (validate S t s) as [[]| |] eqn:E; try discriminate.
    now apply validate_iff.
  - intros s. unfold new. pose proof (validate_np S t s). now destruct (validate S t s).
Qed.
Lemma new_ok S t s : new S t s = Ok s <-> ty_lang S t s.
Proof.
  split; [|apply new_recognizes]. unfold new. destruct (validate S t s) as [[]| |] eqn:E; try discriminate.
  intros _. now apply validate_iff.
Qed.

Lemma absolute_code_split S s : absolute_code S s <->
  absolute_IRI S s \/ exists s', s = s' ++ lit "#" /\ absolute_IRI S s'.
Proof.
  rewrite absolute_code_comps. split.
  - intros (x & a & p & q & f & -> & Hc & [-> | ->]).
    + left. apply absolute_comps. eauto 6.
    + right. exists (recompose (Some x) a p q None). split.
      * rewrite !recompose_eq. cbn [ofr lit app]. rewrite app_nil_r, <- !app_assoc. reflexivity.
      * apply absolute_comps. exists x, a, p, q. split; auto. destruct Hc as (?&?&?&?&?). repeat split; auto.
  - intros [H|(s' & -> & H)]; apply absolute_comps in H; destruct H as (x & a & p & q & -> & Hc).
    + exists x, a, p, q, None. auto.
    + exists x, a, p, q, (Some []). split; [|split; [|now right]].
      * rewrite !recompose_eq. cbn [ofr lit app]. rewrite app_nil_r, <- !app_assoc. reflexivity.
      * destruct Hc as (?&?&?&?&?). repeat split; auto. apply fragment_nil.
Qed.
Lemma absolute_IRI_no_hash S s : absolute_IRI S s -> none (N.eqb HASH) s = true.
Proof.
  intros H. apply absolute_comps in H. destruct H as (x & a & p & q & -> & Hc).
  apply components_weak in Hc. pose proof (front_no_hash (Some x) a p q Hc) as F.
  rewrite recompose_eq. cbn [ofr]. now rewrite app_nil_r.
Qed.
Lemma absolute_new_exact S s : new S TAbsolute s = Ok s <->
  absolute_IRI S s \/ exists s', s = s' ++ lit "#" /\ absolute_IRI S s'.
Proof. rewrite new_ok. cbn [ty_lang]. apply absolute_code_split. Qed.
Lemma absolute_new_np S s : new S TAbsolute s <> Panic.
Proof. unfold new. pose proof (validate_np S TAbsolute s). now destruct (validate S TAbsolute s). Qed.

(** ** Hierarchy *)
Lemma absolute_code_is_IRI S s : absolute_code S s -> IRI S s.
Proof.
  intros H. apply absolute_code_comps in H. destruct H as (x & a & p & q & f & -> & Hc & _).
  apply IRI_comps. eauto 10.
Qed.
Lemma IRI_not_relative S s : IRI S s -> ~ relative_ref S s.
Proof.
  intros H1 H2. apply IRI_comps in H1. destruct H1 as (x & a & p & q & f & -> & Hc).
  apply relative_comps in H2. destruct H2 as (a' & p' & q' & f' & E & Hc').
  apply components_weak in Hc, Hc'. apply recompose_inj in E; auto. destruct E as [E _]. discriminate.
Qed.
Lemma extract_scheme_class S s : IRI_reference S s ->
  (is_some (extract_scheme s) = true <-> IRI S s) /\ (is_some (extract_scheme s) = false <-> relative_ref S s).
Proof.
  intros H. pose proof H as H'. apply reference_comps in H'. destruct H' as (x & a & p & q & f & -> & Hc).
  assert (W := components_weak _ _ _ _ _ _ Hc). rewrite (extract_scheme_rec _ _ _ _ _ W).
  destruct x as [x|]; cbn [is_some].
  - assert (Hi : IRI S (recompose (Some x) a p q f)) by (apply IRI_comps; eauto 10).
    split; split; auto; try discriminate. intros Hr. now apply IRI_not_relative in Hr.
  - assert (Hr : relative_ref S (recompose None a p q f)) by (apply relative_comps; eauto 10).
    split; split; auto; try discriminate. intros Hi. now apply IRI_not_relative in Hr.
Qed.
Lemma to_iri_spec d S s : IRI_reference S s ->
  (IRI S s -> to_iri d S s = Ok (inl s)) /\ (relative_ref S s -> to_iri d S s = Ok (inr s)).
Proof.
  intros H. destruct (extract_scheme_class S s H) as [H1 H2]. unfold to_iri. split; intros Hx.
  - rewrite (proj2 H1 Hx). rewrite unchecked_ok; [reflexivity|]. now apply validate_iff.
  - rewrite (proj2 H2 Hx). rewrite unchecked_ok; [reflexivity|]. now apply validate_iff.
Qed.
Lemma to_relative_iri_spec d S s : IRI_reference S s ->
  (IRI S s -> to_relative_iri d S s = Ok (inr s)) /\ (relative_ref S s -> to_relative_iri d S s = Ok (inl s)).
Proof.
  intros H. destruct (to_iri_spec d S s H) as [H1 H2]. unfold to_relative_iri. split; intros Hx.
  - now rewrite (H1 Hx). - now rewrite (H2 Hx).
Qed.
Lemma class_xor S s : IRI_reference S s -> (IRI S s /\ ~ relative_ref S s) \/ (relative_ref S s /\ ~ IRI S s).
Proof.
  intros [H|H]; [left|right]; split; auto; intros H'; [now apply IRI_not_relative in H'|].
  now apply (IRI_not_relative _ _ H').
Qed.
Lemma ty_lang_hier S s :
  (new S TAbsolute s = Ok s -> new S TIri s = Ok s) /\
  (new S TIri s = Ok s -> new S TReference s = Ok s) /\
  (new S TRelative s = Ok s -> new S TReference s = Ok s).
Proof.
  rewrite !new_ok. cbn [ty_lang]. repeat split.
  - apply absolute_code_is_IRI. - now left. - now right.
Qed.

(** ** URI / IRI *)
Lemma as_iri_ok d t s : new UriSpec t s = Ok s -> as_iri d t s = Ok s /\ new IriSpec t s = Ok s.
Proof.
  rewrite !new_ok. intros H. apply asc_ty in H. destruct H as [H _]. split; auto.
  apply unchecked_ok. now apply validate_iff.
Qed.
Lemma as_uri_ok d t s : new IriSpec t s = Ok s ->
  as_uri d t s = Ok (if all_ascii s then Some s else None) /\
  (all_ascii s = true <-> new UriSpec t s = Ok s).
Proof.
  rewrite !new_ok. intros H. split.
  - unfold as_uri. destruct (all_ascii s) eqn:E; cbn [negb]; [|reflexivity].
    rewrite unchecked_ok; [reflexivity|]. apply validate_iff. apply asc_ty. auto.
  - rewrite (asc_ty t s). tauto.
Qed.

(** ** Decomposition *)
Lemma to_major_spec S i : IRI_reference S i -> exists s a p q f,
  to_major i = Ok (s, a, p, q, f) /\ recompose s a p q f = i /\ components_ok S s a p q f /\
  (forall s' a' p' q' f', components_ok S s' a' p' q' f' -> recompose s' a' p' q' f' = i ->
     (s', a', p', q', f') = (s, a, p, q, f)).
Proof.
  intros H. apply reference_comps in H. destruct H as (s & a & p & q & f & -> & Hc).
  assert (W := components_weak _ _ _ _ _ _ Hc). exists s, a, p, q, f. repeat split; auto; try apply Hc.
  - now apply to_major_rec.
  - intros s' a' p' q' f' Hc' E. apply components_weak in Hc'. apply recompose_inj in E; auto.
    destruct E as (-> & -> & -> & -> & ->). reflexivity.
Qed.

Definition acc_all (d : bool) (t : ty) (i : str) (s a : option str) (p : str) (q f : option str) : Prop :=
  scheme_str t i = Ok s /\ authority_str t i = Ok a /\ path_str t i = Ok p /\
  query_str d t i = Ok q /\ fragment_str t i = Ok f.

Lemma acc_reference d s a p q f : weak_ok s a p q -> acc_all d TReference (recompose s a p q f) s a p q f.
Proof.
  intros W. unfold acc_all, scheme_str, authority_str, path_str, query_str, fragment_str.
  rewrite (extract_scheme_rec _ _ _ _ _ W), (extract_authority_rec _ _ _ _ _ W), (extract_path_rec _ _ _ _ _ W),
    (extract_query_rec _ _ _ _ _ W), (extract_fragment_rec _ _ _ _ _ W). auto.
Qed.
Lemma acc_iri d s a p q f : weak_ok (Some s) a p q -> acc_all d TIri (recompose (Some s) a p q f) (Some s) a p q f.
Proof.
  intros W. unfold acc_all, scheme_str, authority_str, path_str, query_str, fragment_str.
  rewrite (extract_scheme_absolute_rec _ _ _ _ _ W), (extract_authority_absolute_rec _ _ _ _ _ W), (extract_path_absolute_rec _ _ _ _ _ W),
    (extract_query_rec _ _ _ _ _ W), (extract_fragment_rec _ _ _ _ _ W). auto.
Qed.
Lemma acc_relative d a p q f : weak_ok None a p q -> acc_all d TRelative (recompose None a p q f) None a p q f.
Proof.
  intros W. unfold acc_all, scheme_str, authority_str, path_str, query_str, fragment_str.
  rewrite (extract_authority_relative_rec _ _ _ _ W), (extract_path_relative_rec _ _ _ _ W),
    (extract_query_rec _ _ _ _ _ W), (extract_fragment_rec _ _ _ _ _ W). auto.
Qed.
Lemma acc_absolute d s a p q : weak_ok (Some s) a p q ->
  acc_all d TAbsolute (recompose (Some s) a p q None) (Some s) a p q None.
Proof.
  intros W. unfold acc_all, scheme_str, authority_str, path_str, query_str, fragment_str.
  rewrite (extract_scheme_absolute_rec _ _ _ _ _ W), (extract_authority_absolute_rec _ _ _ _ _ W), (extract_path_absolute_rec _ _ _ _ _ W),
    (extract_query_absolute_rec _ _ _ _ _ W). auto.
Qed.

Lemma acc_spec d S t i : match t with TQuery | TFragment | TAbsolute => False | _ => True end ->
  new S t i = Ok i -> exists s a p q f,
  acc_all d t i s a p q f /\ recompose s a p q f = i /\ components_ok S s a p q f.
Proof.
  intros Ht H. apply new_ok in H. destruct t; try easy; cbn [ty_lang] in H.
  - apply IRI_comps in H. destruct H as (s & a & p & q & f & -> & Hc).
    exists (Some s), a, p, q, f. repeat split; try apply Hc; apply (acc_iri d), (components_weak _ _ _ _ _ _ Hc).
  - apply reference_comps in H. destruct H as (s & a & p & q & f & -> & Hc).
    exists s, a, p, q, f. repeat split; try apply Hc; apply (acc_reference d), (components_weak _ _ _ _ _ _ Hc).
  - apply relative_comps in H. destruct H as (a & p & q & f & -> & Hc).
    exists None, a, p, q, f. repeat split; try apply Hc; apply (acc_relative d), (components_weak _ _ _ _ _ _ Hc).
Qed.
Lemma acc_spec_absolute d S i : absolute_IRI S i -> exists s a p q,
  acc_all d TAbsolute i (Some s) a p q None /\ recompose (Some s) a p q None = i /\
  components_ok S (Some s) a p q None.
Proof.
  intros H. apply absolute_comps in H. destruct H as (s & a & p & q & -> & Hc).
  exists s, a, p, q. repeat split; try apply Hc; apply (acc_absolute d), (components_weak _ _ _ _ _ _ Hc).
Qed.
Lemma typed_ok d S t i s a p q f : acc_all d t i s a p q f -> opt_in (query S) q -> opt_in (fragment S) f ->
  query_ri d S t i = Ok q /\ fragment_ri d S t i = Ok f.
Proof.
  intros (_ & _ & _ & Hq & Hf) Q F. unfold query_ri, fragment_ri. rewrite Hq, Hf. cbn [bind]. split.
  - destruct q; [|reflexivity]. rewrite unchecked_ok; [reflexivity|]. now apply validate_query_iff.
  - destruct f; [|reflexivity]. rewrite unchecked_ok; [reflexivity|]. now apply validate_fragment_iff.
Qed.
Lemma resolver_acc S base : new S TAbsolute base = Ok base -> exists s a p q f,
  resolver_scheme_str base = Ok s /\ resolver_authority_str base = Ok a /\ resolver_path_str base = Ok p /\
  resolver_query_str base = Ok q /\ recompose (Some s) a p q f = base /\ components_ok S (Some s) a p q f.
Proof.
  intros H. apply new_ok in H. apply absolute_code_comps in H. destruct H as (s & a & p & q & f & -> & Hc & _).
  exists s, a, p, q, f. assert (W := components_weak _ _ _ _ _ _ Hc).
  unfold resolver_scheme_str, resolver_authority_str, resolver_path_str, resolver_query_str.
  rewrite decompose_rec by exact W. cbn [bind]. rewrite sp_scheme_rec, sp_authority_rec, sp_path_rec, sp_query_rec.
  repeat split; auto; apply Hc.
Qed.

(** ** Authority *)
Lemma authority_components_spec S i : authority S i -> exists u h p,
  let A := decompose_authority i in
  ac_userinfo A = Ok u /\ ac_host A = Ok h /\ ac_port A = Ok p /\
  (ac_reg_name A = Ok (Some h) \/ ac_reg_name A = Ok None) /\
  (ac_reg_name A = Ok (Some h) <-> ~ IP_literal h /\ ~ IPv4address h) /\
  authority_string u h p = i /\ opt_in (userinfo S) u /\ host S h /\ opt_in port p.
Proof.
  intros H. apply authority_comps in H. destruct H as (u & h & p & -> & Hu & Hh & Hp).
  exists u, h, p. cbv zeta. rewrite decompose_authority_rec.
  - destruct (ac_rec u h p) as (E1 & E2 & E3). pose proof (is_host_reg_name_iff S h Hh) as Hr.
    unfold ac_reg_name. rewrite E2. cbn [bind].
    repeat split; auto.
    + destruct (is_host_reg_name h); auto.
    + destruct (is_host_reg_name h); [|discriminate]. now apply Hr.
    + destruct (is_host_reg_name h); [|discriminate]. now apply Hr.
    + intros Hx. now rewrite (proj2 Hr Hx).
  - destruct u; [|easy]. now apply (userinfo_no_at S).
  - now apply (host_has_shape S).
  - destruct p; [|easy]. now apply port_iff.
Qed.
Lemma authority_unique S u h p u' h' p' :
  opt_in (userinfo S) u -> host S h -> opt_in port p ->
  opt_in (userinfo S) u' -> host S h' -> opt_in port p' ->
  authority_string u h p = authority_string u' h' p' -> (u, h, p) = (u', h', p').
Proof.
  intros Hu Hh Hp Hu' Hh' Hp' E.
  assert (D1 : decompose_authority (authority_string u h p) = mkAuth (authority_string u h p) (length (oui u)) (length (oui u) + length h)).
  { apply decompose_authority_rec; [destruct u; [now apply (userinfo_no_at S)|easy]|now apply (host_has_shape S)|destruct p; [now apply port_iff|easy]]. }
  assert (D2 : decompose_authority (authority_string u' h' p') = mkAuth (authority_string u' h' p') (length (oui u')) (length (oui u') + length h')).
  { apply decompose_authority_rec; [destruct u'; [now apply (userinfo_no_at S)|easy]|now apply (host_has_shape S)|destruct p'; [now apply port_iff|easy]]. }
  destruct (ac_rec u h p) as (E1 & E2 & E3). destruct (ac_rec u' h' p') as (F1 & F2 & F3).
  rewrite <- D1 in E1, E2, E3. rewrite <- D2 in F1, F2, F3. rewrite E in E1, E2, E3. congruence.
Qed.
Lemma absolute_refuted S : exists s, new S TAbsolute s = Ok s /\ ~ absolute_IRI S s.
Proof.
  exists (lit "foo:#"). split; [now destruct S|]. intros H. apply absolute_IRI_no_hash in H. discriminate.
Qed.
