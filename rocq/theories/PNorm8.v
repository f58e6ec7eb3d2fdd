(** * Final lemmas for PropResolve.v and PropNormalize.v (proofs only). *)
From Verif Require Import Base Chars Rfc3986 Utf8 CompSpec RfcResolve PctSpec NormSpec MValidate MTrusted MFormat MPct MPath MNormalize
  PBase PScan PHost PAuth PValidate PTrusted PComps PAscii PTypes PTypes2 PPath PPath2 PPath3 PPath4 PPct PPct2 PPct3 PPct4 PPath5 PResolve PRds PNorm PNorm2 PNorm3 PNorm4 PNorm5 PNorm6 PNorm7.

Lemma reads_of_major S i s a p q f : new S TReference i = Ok i -> to_major i = Ok (s, a, p, q, f) -> reads S i (mkC s a p q f).
Proof.
  intros H E. apply new_ok in H. destruct (to_major_spec S i H) as (s' & a' & p' & q' & f' & E' & R & O & _). rewrite E in E'. injection E' as <- <- <- <- <-. split; auto.
Qed.
Lemma iri_b S i : new S TIri i = Ok i -> IRI S i.
Proof. apply (new_ok S TIri). Qed.
Lemma ref_b S i : new S TReference i = Ok i -> IRI_reference S i.
Proof. apply (new_ok S TReference). Qed.
Lemma c10_resolution S base ref B R : reads S base B -> defined (c_s B) = true -> reads S ref R ->
  exists n T, resolve base ref = Ok n /\ transform B R T /\ (forall T', transform B R T' -> T' = T) /\ display S n = Ok (unparse T).
Proof. intros A D C. destruct (resolve_spec S base ref B R A D C) as (n & T & H1 & H2 & H3 & H4 & _). eauto 8. Qed.
Lemma c10_applies S base ref : IRI S base -> IRI_reference S ref ->
  exists B R, reads S base B /\ defined (c_s B) = true /\ reads S ref R /\ (forall B', reads S base B' -> B' = B) /\ (forall R', reads S ref R' -> R' = R).
Proof.
  intros HB HR. apply iri_reads in HB. destruct HB as (B & HB & DB). apply reference_reads in HR. destruct HR as (R & HR). exists B, R. repeat split; try apply HB; try apply HR; auto; intros; eapply reads_unique; eauto.
Qed.
Lemma c10_letter S base ref B R : reads S base B -> defined (c_s B) = true -> reads S ref R -> no_2e (c_p B) -> no_2e (c_p R) ->
  exists n T, resolve base ref = Ok n /\ transform_with rds_literal B R T /\ display S n = Ok (unparse T).
Proof. intros A D C X Y. destruct (resolve_spec S base ref B R A D C) as (n & T & H1 & H2 & H3 & H4 & _). exists n, T. repeat split; auto. now apply rds_with_literal. Qed.
Lemma c11_and_normalize S base ref B R : reads S base B -> defined (c_s B) = true -> reads S ref R ->
  exists n T0 T, resolve base ref = Ok n /\ transform B R T0 /\ comps_normal S false T0 T /\ display S (set_mode n MDefault) = Ok (unparse T).
Proof.
  intros A D C. destruct (resolve_spec S base ref B R A D C) as (n & T0 & H1 & H2 & _). destruct (resolve_norm_spec S false base ref B R A D C) as (n' & M & T & E & P & N & Di & _). rewrite H1 in E. injection E as <-.
  exists n, T0, T. repeat split; auto; eapply normal_target; eauto.
Qed.
Lemma c11_and_normalize_preserving S base ref B R : reads S base B -> defined (c_s B) = true -> reads S ref R ->
  exists n M T, resolve base ref = Ok n /\ pre_transform B R M /\ comps_normal S true M T /\ display S (set_mode n MPreserve) = Ok (unparse T).
Proof. intros A D C. destruct (resolve_norm_spec S true base ref B R A D C) as (n' & M & T & E & P & N & Di & _). exists n', M, T. auto. Qed.
Lemma c12_unique p : exists t, rds p t /\ forall t', rds p t' -> t' = t.
Proof. destruct (rds_total p) as (t & H). exists t. split; auto. intros t' H'. eapply rds_fun; eauto. Qed.
Lemma c12_single S p : exists t, rds p t /\ text (fmt_write_normalize S MNone false (from_single_path p)) = Ok (safe_path None t).
Proof.
  destruct (fmt_none_ok S false (from_single_path p) (pwf_single p)) as (t & R & E); [intros X; discriminate|]. rewrite flat_single in R. exists t. split; auto. eapply outs_text. rewrite E. f_equal. 
Qed.
Lemma c12_single_auth S p (a : str) : p = [] \/ (exists r, p = lit "/" ++ r) -> exists t, rds p t /\ text (fmt_write_normalize S MNone true (from_single_path p)) = Ok (safe_path (Some a) t).
Proof.
  intros Hp. destruct (fmt_none_ok S true (from_single_path p) (pwf_single p)) as (t & R & E); [intros _; rewrite flat_single; exact Hp|]. rewrite flat_single in R. exists t. split; auto. eapply outs_text. rewrite E. reflexivity.
Qed.
Lemma c12_two S b r : r <> [] -> (forall x, r <> lit "/" ++ x) -> exists m t, merge false b r m /\ rds m t /\
    text (fmt_write_normalize S MNone false (from_paths_to_be_resolved b r)) = Ok (safe_path None t).
Proof.
  intros Hr Hx. assert (Sl : starts_with [SLASH] r = false). { destruct (starts_with [SLASH] r) eqn:E; auto. destruct (slash_head r Hr E) as (x & ->). now destruct (Hx x). }
  destruct (merged_ok None b r Hr Sl) as [W M]. unfold merged in W, M. rewrite Sl in W, M. cbn [is_some andb] in W, M.
  destruct (fmt_none_ok S false (from_paths_to_be_resolved b r) W) as (t & R & E); [intros X; discriminate|]. exists (flat (from_paths_to_be_resolved b r)), t. repeat split; auto. eapply outs_text. rewrite E. f_equal.
Qed.
Lemma c12_no_dots p t a seg b : rds p t -> t = a ++ seg ++ b -> a = [] \/ (exists a', a = a' ++ lit "/") -> b = [] \/ (exists b', b = lit "/" ++ b') -> no_slash seg ->
  ~ single_dot seg /\ ~ double_dot seg.
Proof. intros R E Ha Hb Hs. apply from_segment_normal. apply (dotless_seg t a seg b); auto. eapply rds_dotless; eauto. Qed.
Lemma c13_resolve S base ref : IRI S base -> IRI_reference S ref -> exists n T out, resolve base ref = Ok n /\ display S n = Ok out /\
    to_major out = Ok (c_s T, c_a T, safe_path (c_a T) (c_p T), c_q T, c_f T) /\ (forall B R, reads S base B -> reads S ref R -> transform B R T).
Proof.
  intros HB HR. apply iri_reads in HB. destruct HB as (B & HB & DB). apply reference_reads in HR. destruct HR as (R & HR). destruct (resolve_spec S base ref B R HB DB HR) as (n & T & H1 & H2 & H3 & H4 & H5 & _).
  exists n, T, (unparse T). split; auto. split; auto. split; [exact (reads_major _ _ _ H5)|]. intros B' R' HB' HR'. now rewrite (reads_unique _ _ _ _ HB' HB), (reads_unique _ _ _ _ HR' HR).
Qed.
Lemma c13_normalize S (keep : bool) i C : reads S i C -> defined (c_s C) = true -> exists n T out, (if keep then normalize_preserve i else normalize i) = Ok n /\ display S n = Ok out /\
    comps_normal S keep C T /\ to_major out = Ok (c_s T, c_a T, safe_path (c_a T) (c_p T), c_q T, c_f T).
Proof. intros H D. destruct (norm_spec S keep i C H D) as (n & T & H1 & H2 & H3 & H4 & H5 & _). exists n, T, (unparse T). repeat split; auto; try apply H2. exact (reads_major _ _ _ H5). Qed.
Lemma c14_resolve S base ref B R : reads S base B -> defined (c_s B) = true -> reads S ref R ->
  exists n T b, resolve base ref = Ok n /\ transform B R T /\ display S n = Ok (unparse T) /\ ensure_rfc3986_normalizable n = Ok b /\ (b = true <-> ~ fell_back T).
Proof.
  intros A D C. destruct (resolve_spec S base ref B R A D C) as (n & T & H1 & H2 & H3 & H4 & _).
  destruct B as [[bs|] ba bp bq bf]; [|discriminate]. destruct R as [rs ra rp rq rf]. destruct A as [A ->], C as [C ->]. cbn [c_s c_a c_p c_q c_f] in *.
  destruct (ensure_resolve S bs ba bp bq bf rs ra rp rq rf A C) as (n' & b & T' & E1 & E2 & Tr & Hb). rewrite H1 in E1. injection E1 as <-. rewrite (transform_fun _ _ _ _ Tr H2) in Hb. exists n, T, b. auto.
Qed.
Lemma c14_normalize S (keep : bool) i C : reads S i C -> defined (c_s C) = true -> exists n T b, (if keep then normalize_preserve i else normalize i) = Ok n /\ comps_normal S false C T /\
    ensure_rfc3986_normalizable n = Ok b /\ (b = true <-> ~ fell_back T).
Proof. intros [H ->] D. destruct C as [[s|] a p q f]; [|discriminate]. cbn [c_s c_a c_p c_q c_f] in *. destruct (ensure_normalize S keep s a p q f H) as (n & b & T & E & E2 & N & Hb). exists n, T, b. auto. Qed.
Lemma c14_refuted : exists base ref n, IRI UriSpec base /\ IRI_reference UriSpec ref /\ resolve base ref = Ok n /\ ensure_rfc3986_normalizable (set_mode n MDefault) = Ok true /\
  display UriSpec (set_mode n MDefault) = Ok (lit "foo:/.//bar").
Proof. exists (lit "foo:/..//bar"), []. eexists. split; [apply iri_b; vm_compute; reflexivity|]. split; [apply ref_b; vm_compute; reflexivity|]. split; [vm_compute; reflexivity|]. split; vm_compute; reflexivity. Qed.
Lemma c14_and_normalize S base ref B R : reads S base B -> defined (c_s B) = true -> reads S ref R -> defined (c_s R) = true \/ defined (c_a R) = true \/ c_p R <> [] ->
  exists n T0 T b, resolve base ref = Ok n /\ transform B R T0 /\ comps_normal S false T0 T /\ display S (set_mode n MDefault) = Ok (unparse T) /\
    ensure_rfc3986_normalizable (set_mode n MDefault) = Ok b /\ (b = true <-> ~ fell_back T).
Proof.
  intros A D C Ne. destruct (c14_resolve S base ref B R A D C) as (n & T0 & b & H1 & H2 & _ & H4 & H5). destruct (c11_and_normalize S base ref B R A D C) as (n' & T0' & T & E1 & E2 & N & Di).
  rewrite H1 in E1. injection E1 as <-. rewrite (transform_fun _ _ _ _ E2 H2) in N. exists n, T0, T, b. repeat split; auto; try apply N.
  - assert (X : ~ fell_back T0 <-> ~ fell_back T); [|tauto].
    destruct N as (_ & Na & Np & _). assert (Dl : dotless (c_p T0)).
    { destruct H2 as [p A1 R1|p A1 A2 R1|A1 A2 A3|r p A1 A2 A3 R1|m p A1 A2 A3 A4 M1 R1]; cbn [c_p]; try (eapply rds_dotless; eauto; fail). exfalso. destruct Ne as [X|[X|X]]; congruence. }
    apply path_normal_alt in Np. destruct Np as (x & R1 & P & _). rewrite (rds_fun _ _ _ R1 (dotless_rds _ Dl)) in P. unfold fell_back. rewrite (pn_starts _ _ _ P).
    destruct (c_a T0), (c_a T); try contradiction; [|tauto]. split; intros _ [X _]; discriminate.
  - assert (X : ~ fell_back T0 <-> ~ fell_back T); [|tauto].
    destruct N as (_ & Na & Np & _). assert (Dl : dotless (c_p T0)).
    { destruct H2 as [p A1 R1|p A1 A2 R1|A1 A2 A3|r p A1 A2 A3 R1|m p A1 A2 A3 A4 M1 R1]; cbn [c_p]; try (eapply rds_dotless; eauto; fail). exfalso. destruct Ne as [X|[X|X]]; congruence. }
    apply path_normal_alt in Np. destruct Np as (x & R1 & P & _). rewrite (rds_fun _ _ _ R1 (dotless_rds _ Dl)) in P. unfold fell_back. rewrite (pn_starts _ _ _ P).
    destruct (c_a T0), (c_a T); try contradiction; [|tauto]. split; intros _ [X _]; discriminate.
Qed.
Lemma c14_doc :
  (exists n, resolve (lit "foo:/a") (lit "..//bar") = Ok n /\ ensure_rfc3986_normalizable n = Ok false) /\
  (exists n, resolve (lit "foo://host/a") (lit "bar:.///baz") = Ok n /\ ensure_rfc3986_normalizable n = Ok false).
Proof. split; eexists; (split; [vm_compute; reflexivity|vm_compute; reflexivity]). Qed.
Lemma c35_refuted : exists base ref n out n' out', IRI UriSpec base /\ IRI_reference UriSpec ref /\ resolve base ref = Ok n /\ display UriSpec n = Ok out /\
  resolve base out = Ok n' /\ display UriSpec n' = Ok out' /\ out' <> out.
Proof.
  exists (lit "foo:/a/../b"), []. do 4 eexists. split; [apply iri_b; vm_compute; reflexivity|]. split; [apply ref_b; vm_compute; reflexivity|].
  split; [vm_compute; reflexivity|]. split; [vm_compute; reflexivity|]. split; [vm_compute; reflexivity|]. split; [vm_compute; reflexivity|]. vm_compute. discriminate.
Qed.
(** ** Normalization *)
Lemma c15_components S (keep : bool) i C : reads S i C -> defined (c_s C) = true -> exists n T, (if keep then normalize_preserve i else normalize i) = Ok n /\
  comps_normal S keep C T /\ (forall T', comps_normal S keep C T' -> T' = T) /\ display S n = Ok (unparse T).
Proof. intros H D. destruct (norm_spec S keep i C H D) as (n & T & H1 & H2 & H3 & H4 & H5 & _). eauto 8. Qed.
Lemma c17_iff S i mode : IRI S i -> (forall x, extract_authority i <> Some (x ++ lit ":")) ->
  exists n out b, (match mode with CkPreserve => normalize_preserve i | _ => normalize i end) = Ok n /\ display S n = Ok out /\ is_normalized S i mode = Ok b /\
    (b = true <-> out = i /\ (mode = CkRfc3986 -> ensure_rfc3986_normalizable n = Ok true)).
Proof.
  intros H NC. apply iri_reads in H. destruct H as (C & H & D).
  assert (NC' : forall x, c_a C <> Some (x ++ lit ":")). { intros x X. apply (NC x). destruct H as [H ->]. rewrite extract_authority_rec; auto. eapply components_weak; exact H. }
  destruct (is_normalized_spec S i C mode H D NC') as (n & out & b & E & X). exists n, out, b. split; auto. destruct mode; exact E.
Qed.
Lemma c17_refuted : exists i n out, IRI UriSpec i /\ normalize i = Ok n /\ display UriSpec n = Ok out /\ out <> i /\
  is_normalized UriSpec i CkDefault = Ok true /\ is_normalized UriSpec i CkRfc3986 = Ok true /\ is_normalized UriSpec i CkPreserve = Ok true.
Proof.
  exists (lit "http://example.com:/"). do 2 eexists. split; [apply iri_b; vm_compute; reflexivity|]. split; [vm_compute; reflexivity|]. split; [vm_compute; reflexivity|].
  split; [vm_compute; discriminate|]. repeat split; vm_compute; reflexivity.
Qed.
Lemma c17_complete S i mode n : IRI S i -> (match mode with CkPreserve => normalize_preserve i | _ => normalize i end) = Ok n -> display S n = Ok i ->
  (mode = CkRfc3986 -> ensure_rfc3986_normalizable n = Ok true) -> is_normalized S i mode = Ok true.
Proof.
  intros H En Di Hm. assert (NC : forall x, extract_authority i <> Some (x ++ lit ":")).
  { intros x X. apply iri_reads in H. destruct H as (C & H & D). destruct (norm_spec S (ck_keep mode) i C H D) as (n' & T & E & N & _ & Di' & R & _).
    assert (E' : (match mode with CkPreserve => normalize_preserve i | _ => normalize i end) = Ok n') by (destruct mode; exact E). rewrite En in E'. injection E' as <-. rewrite Di in Di'. injection Di' as Ei. rewrite <- Ei in R.
    assert (EC := reads_unique _ _ _ _ R H). assert (Ea : c_a T = c_a C) by (rewrite <- EC; reflexivity). destruct N as (_ & Na & _).
    assert (Xa : c_a C = Some (x ++ lit ":")). { destruct H as [H Hi]. rewrite Hi in X. rewrite extract_authority_rec in X; auto. eapply components_weak; exact H. }
    rewrite Ea, Xa in Na. cbn [opt_rel] in Na. destruct Na as (u & h & p & u' & h' & E1 & Hu & Hh & Hp & Ru & Rh & E2).
    assert (Last : forall v k r, opt_in port r -> host S k -> x ++ lit ":" = authority_string v k r -> r = Some []).
    { intros v k r Hr Hk E3. destruct r as [r|].
      - destruct (last_cases r) as [->|(a & z & ->)]; auto. exfalso. unfold authority_string in E3. cbn [lit] in E3. rewrite !app_assoc in E3. apply app_inj_tail in E3. destruct E3 as [_ E3]. apply port_iff in Hr. rewrite forallb_app in Hr. apply andb_prop in Hr. destruct Hr as [_ Hr]. cbn in Hr. rewrite andb_true_r in Hr. rewrite <- E3 in Hr. discriminate.
      - exfalso. unfold authority_string in E3. rewrite app_nil_r in E3. destruct (host_has_shape _ _ Hk) as [_ Sh]. destruct (last_cases k) as [->|(a & z & ->)].
        + rewrite app_nil_r in E3. destruct v as [v|]; [|destruct x; discriminate]. apply app_inj_tail in E3. destruct E3 as [_ E3]. discriminate.
        + rewrite app_assoc in E3. apply app_inj_tail in E3. destruct E3 as [_ E3]. change (N_of_ascii ":") with 58 in E3. subst z. destruct Sh as [Sh|(k' & Sh)].
          * rewrite none_app in Sh. apply andb_prop in Sh. destruct Sh as [_ Sh]. discriminate.
          * apply app_inj_tail in Sh. destruct Sh as [_ Sh]. discriminate. }
    assert (p = Some []) as -> by (eapply Last; eauto). cbn [drop_empty_port] in E2. assert (Hh' := host_normal_ok _ _ _ Hh Rh).
    assert (Y : None = Some (@nil BinNums.N)) by (apply (Last u' h' None); auto; exact I). discriminate. }
  destruct (c17_iff S i mode H NC) as (n' & out & b & E & Di' & Eb & Hb). rewrite En in E. injection E as <-. rewrite Di in Di'. injection Di' as <-. rewrite Eb. f_equal. apply Hb. auto.
Qed.
(** ** Percent-encoding normalization *)
Lemma c18_display S s : pct_wf s -> exists t, text (PctCaseNormalized S s) = Ok t /\ pct_normal S s t /\ (forall t', pct_normal S s t' -> t' = t).
Proof. intros W. destruct (pct_normalized_ok S s W) as (t & E & P). exists t. split; [eapply outs_text; eauto|]. split; auto. intros t' P'. symmetry. eapply pn_fun; eauto. Qed.
Lemma c18_denotes S s t b : pct_normal S s t -> (denotes s b <-> denotes t b).
Proof. intros P. split; intros D; [eapply pn_denotes; eauto|]. destruct (denotes_ex s (pn_wf_l _ _ _ P)) as (b' & D'). assert (X := pn_denotes _ _ _ _ P D'). now rewrite (denotes_fun _ _ D _ X). Qed.
Lemma unres_pchar S c : unreserved S c = true -> f_pchar S c = true.
Proof. unfold f_pchar. now intros ->. Qed.
Lemma c18_grammar S s t : pct_normal S s t ->
  (userinfo S s -> userinfo S t) /\ (Rfc3986.segment S s -> Rfc3986.segment S t) /\ (query S s -> query S t) /\ (fragment S s -> fragment S t) /\ (reg_name S s -> reg_name S t).
Proof.
  intros P. repeat split; intros H.
  - exact (userinfo_normal_ok S (Some s) (Some t) P H).
  - apply segment_scan in H. apply segment_scan. eapply pn_scan; [apply unres_pchar|exact P|exact H].
  - apply query_scan in H. apply query_scan. eapply pn_scan; [|exact P|exact H]. intros c Hc. unfold f_query. now rewrite (unres_pchar _ _ Hc).
  - apply fragment_scan in H. apply fragment_scan. eapply pn_scan; [|exact P|exact H]. intros c Hc. unfold f_fragment. now rewrite (unres_pchar _ _ Hc).
  - apply reg_name_scan in H. apply reg_name_scan. eapply pn_scan; [|exact P|exact H]. unfold f_regname. now intros c ->.
Qed.
Lemma c16_preserve_refuted : exists base ref n r n' out out', IRI UriSpec base /\ IRI_reference UriSpec ref /\ resolve base ref = Ok n /\ display UriSpec n = Ok r /\
  normalize_preserve r = Ok n' /\ display UriSpec n' = Ok out /\ display UriSpec (set_mode n MPreserve) = Ok out' /\ out = lit "foo:/c" /\ out' = lit "foo:a/../c".
Proof.
  exists (lit "foo:a/b"), (lit "../c"). do 5 eexists. split; [apply iri_b; vm_compute; reflexivity|]. split; [apply ref_b; vm_compute; reflexivity|]. repeat (split; [vm_compute; reflexivity|]). vm_compute; reflexivity.
Qed.
Lemma c18_host S h : pct_wf h -> exists b, is_ascii_only_host h = Ok b /\ (b = true <-> ascii_only h) /\
    (ascii_only h -> exists t, pct_normal S h t /\ text (NormalizedAsciiOnlyHost h) = Ok (lower_raw t)).
Proof.
  intros W. destruct (is_ascii_only_host_ok h W) as (b & E & Hb). exists b. split; auto. split; auto. intros A. destruct (ascii_only_host_ok S h A) as (t & Et & P). exists t. split; auto. eapply outs_text; eauto.
Qed.
Lemma c18_applies S s : userinfo S s \/ Rfc3986.segment S s \/ query S s \/ fragment S s \/ host S s -> pct_wf s.
Proof.
  intros [H|[H|[H|[H|H]]]]; [now apply userinfo_wf in H| |now apply query_wf in H|now apply fragment_wf in H|now apply host_wf in H].
  apply segment_scan in H. apply (class_wf S). unfold path_class. eapply scan_mono; [|exact H]. intros c Hc. unfold f_pchar_slash. now rewrite Hc.
Qed.
