(** * Normalization (proofs only), part 2: authority, display, validity, idempotence. *)
From Verif Require Import Base Chars Rfc3986 Utf8 CompSpec RfcResolve PctSpec NormSpec MValidate MTrusted MFormat MPct MPath MNormalize
  PBase PScan PHost PAuth PValidate PTrusted PComps PTypes PPath PPath2 PPath3 PPath4 PPct PPct2 PPct3 PPct4 PPath5 PResolve PRds PNorm.

(** ** Authority *)
Lemma strip_suffix_app c s x : strip_suffix_char c (s ++ [x]) = if x =? c then Some s else None.
Proof. unfold strip_suffix_char. rewrite rev_app_distr. cbn. now rewrite rev_involutive. Qed.
Lemma last_cases (s : str) : s = [] \/ exists a x, s = a ++ [x].
Proof. destruct s as [|c s]; [now left|]. right. destruct (exists_last (l := c :: s)) as (a & x & ->); [discriminate|]. eauto. Qed.
Lemma none_last p (a : str) x : none p (a ++ [x]) = true -> p x = false.
Proof. rewrite none_app, andb_true_iff, none_cons, andb_true_iff. intros [_ [H _]]. now apply negb_true_iff. Qed.
Lemma strip_port S h p : host S h -> opt_in port p ->
  match strip_suffix_char COLON (h ++ oport p) with Some x => x | None => h ++ oport p end = h ++ oport (drop_empty_port p).
Proof.
  intros Hh Hp. destruct p as [p|]; cbn [oport drop_empty_port].
  - destruct (last_cases p) as [->|(a & x & ->)].
    + change (h ++ lit ":" ++ []) with (h ++ [COLON]). rewrite strip_suffix_app, N.eqb_refl. cbn [drop_empty_port oport]. now rewrite app_nil_r.
    + assert (Hx : x =? COLON = false). { apply port_iff in Hp. rewrite forallb_app in Hp. apply andb_prop in Hp. destruct Hp as [_ Hp]. cbn in Hp. rewrite andb_true_r in Hp. apply not_true_iff_false. intros E. apply N.eqb_eq in E. subst x. discriminate. }
      rewrite !app_assoc. rewrite strip_suffix_app, Hx. destruct (a ++ [x]) eqn:E; [now destruct a|]. cbn [oport]. rewrite <- E. now rewrite !app_assoc.
  - rewrite ?app_nil_r. cbn [oport]. rewrite ?app_nil_r. destruct (last_cases h) as [->|(a & x & ->)]; [reflexivity|]. rewrite strip_suffix_app.
    destruct (x =? COLON) eqn:E; auto. exfalso. apply N.eqb_eq in E. subst x. destruct (host_has_shape S _ Hh) as [_ [Z|(h' & Z)]].
    + apply none_last in Z. discriminate.
    + apply app_inj_tail in Z. destruct Z. discriminate.
Qed.
Lemma digits_id Sp p : forallb is_digit p = true -> pct_normal Sp p p /\ lower_raw p = p /\ ascii_only p /\ pct_wf p.
Proof.
  intros H. assert (Z : none (N.eqb 37) p = true). { eapply forallb_none; [|exact H]. intros c Hc. destruct (37 =? c) eqn:E; auto. apply N.eqb_eq in E. subst c. discriminate. }
  split; [now apply pn_id|]. split; [|split; [|now apply wf_none]].
  - rewrite lower_raw_none by auto. clear Z. induction p as [|c p IH]; auto. cbn in *. apply andb_prop in H. destruct H as [H1 H2]. now rewrite lower_digit, IH.
  - clear Z. induction p as [|c p IH]; [apply ascii_only_nil|]. cbn in H. apply andb_prop in H. destruct H as [H1 H2]. unfold is_digit, between in H1. apply andb_prop in H1. destruct H1 as [A B]. apply N.leb_le in A, B.
    apply ascii_only_raw; [lia|]. split; [lia|auto].
Qed.
Definition okp (Sp : Spec) (x : str) : Prop := pct_wf x /\ ascii_only x /\ lower_raw x = x /\ forall h u, pct_normal Sp h u -> pct_normal Sp (h ++ x) (u ++ x).
Lemma oport_ok Sp p : opt_in port p -> okp Sp (oport p).
Proof.
  intros H. unfold okp. destruct p as [p|]; cbn [oport].
  - apply port_iff in H. destruct (digits_id Sp p H) as (A & B & C & D). change (lit ":" ++ p) with (58 :: p). split; [constructor; [discriminate|auto]|]. split; [|split].
    + apply ascii_only_raw; [discriminate|]. split; [reflexivity|auto].
    + rewrite lower_raw_raw by discriminate. now rewrite B.
    + intros h u P. apply pn_app_delim; auto. discriminate.
  - split; [constructor|]. split; [apply ascii_only_nil|]. split; auto. intros h u P. now rewrite !app_nil_r.
Qed.
Lemma drop_port p : opt_in port p -> opt_in port (drop_empty_port p).
Proof. destruct p as [[|c p]|]; cbn; auto. Qed.
Lemma host_port_norm S h p : host S h -> opt_in port p -> exists h', host_normal S h h' /\
  outs (normalize_host_port S (h ++ oport p)) = Some (h' ++ oport (drop_empty_port p), tt).
Proof.
  intros Hh Hp. unfold normalize_host_port. cbv zeta. rewrite strip_port with (S := S) by auto.
  assert (Wh := host_wf _ _ Hh). destruct (oport_ok S _ (drop_port _ Hp)) as (W & A & L & P). set (x := oport (drop_empty_port p)) in *. clearbody x.
  destruct (pn_ex S h Wh) as (u & Pu). assert (Wu := pn_wf_r _ _ _ Pu). assert (Px := P _ _ Pu).
  destruct (is_ascii_only_host_ok (h ++ x)) as (b & E & Hb). { eapply pn_wf_l; eauto. }
  rewrite E, lift_bind. destruct b.
  - assert (Ax : ascii_only (h ++ x)) by tauto. destruct (ascii_only_host_ok S _ Ax) as (t & Et & Pt). rewrite (pn_fun _ _ _ Pt _ Px) in Et.
    exists (lower_raw u). split; [|now rewrite Et, lower_raw_cat, L by auto]. apply hn_ascii; auto. apply ascii_only_cat in Ax; tauto.
  - exists u. split; [|rewrite (proj1 (pnf_ok S _ (pn_wf_l _ _ _ Px))); now rewrite (pnf_eq _ _ _ Px)]. apply hn_other; auto. intros X. assert (ascii_only (h ++ x)) by (apply ascii_only_cat; auto). apply Hb in H. discriminate.
Qed.
Lemma userinfo_wf S u : userinfo S u -> pct_wf u.
Proof. intros H. apply userinfo_scan in H. apply pct_wf_scan. eapply scan_mono; [|exact H]. reflexivity. Qed.
Lemma authority_norm S a : authority S a -> exists a', authority_normal S a a' /\ outs (normalize_authority S a) = Some (a', tt).
Proof.
  intros H. apply authority_comps in H. destruct H as (u & h & p & -> & Hu & Hh & Hp).
  destruct (host_port_norm S h p Hh Hp) as (h' & Nh & Eh).
  assert (Na : none (N.eqb AT) (h ++ oport p) = true).
  { rewrite none_app. apply andb_true_intro. split; [eapply host_no_at; eauto|]. destruct p as [p|]; cbn [oport]; [|reflexivity]. change (lit ":" ++ p) with (COLON :: p). rewrite none_cons. cbn [N.eqb negb andb].
    eapply digits_none; [|apply port_iff; exact Hp]. intros c Hc. apply N.eqb_eq in Hc. now subst. }
  unfold authority_string. fold (oport p). unfold normalize_authority. destruct u as [u|].
  - rewrite <- app_assoc. change (lit "@" ++ h ++ oport p) with (AT :: h ++ oport p).
    rewrite (proj2 (rfind_split_hole_some (u ++ AT :: h ++ oport p) AT u (h ++ oport p))) by auto.
    assert (Wu := userinfo_wf _ _ Hu). destruct (pnf_ok S u Wu) as [Eu Pu].
    exists (authority_string (Some (pnf S u)) h' (drop_empty_port p)). split.
    + exists (Some u), h, p, (Some (pnf S u)), h'. split; [|repeat split; auto]. unfold authority_string. rewrite <- app_assoc. reflexivity.
    + unfold authority_string. rewrite <- app_assoc. eapply outs_bind; [exact Eu|]. cbv beta. eapply outs_bind; [apply outs_write|]. exact Eh.
  - cbn [app]. rewrite (proj2 (rfind_split_hole_none _ AT)) by auto. eexists. split; [|exact Eh].
    exists None, h, p, None, h'. repeat split; auto.
Qed.
Lemma authority_normal_ok S a a' : authority_normal S a a' -> authority S a /\ authority S a'.
Proof.
  intros (u & h & p & u' & h' & -> & Hu & Hh & Hp & Ru & Rh & ->). split; apply authority_comps; [exists u, h, p; auto|].
  exists u', h', (drop_empty_port p). split; [auto|]. split; [|split; [eapply host_normal_ok; eauto|now apply drop_port]].
  destruct u as [u|], u' as [u'|]; try contradiction; auto. cbn in *. apply userinfo_scan in Hu. apply userinfo_scan. eapply pn_scan; [|exact Ru|exact Hu]. unfold f_userinfo. now intros c ->.
Qed.
Lemma drop_port_idem p : drop_empty_port (drop_empty_port p) = drop_empty_port p.
Proof. destruct p as [[|]|]; reflexivity. Qed.
Lemma authority_normal_idem S a a' : authority_normal S a a' -> authority_normal S a' a'.
Proof.
  intros N. assert (OK := authority_normal_ok _ _ _ N). destruct N as (u & h & p & u' & h' & -> & Hu & Hh & Hp & Ru & Rh & ->).
  exists u', h', (drop_empty_port p), u', h'. split; [auto|]. split.
  { destruct u as [u|], u' as [u'|]; try contradiction; auto. cbn in *. apply userinfo_scan in Hu. apply userinfo_scan. eapply pn_scan; [|exact Ru|exact Hu]. unfold f_userinfo. now intros c ->. }
  split; [eapply host_normal_ok; eauto|]. split; [now apply drop_port|]. split; [|split; [eapply host_normal_idem; eauto|now rewrite drop_port_idem]].
  destruct u as [u|], u' as [u'|]; try contradiction; auto. eapply pn_idem; eauto.
Qed.
Lemma authority_normal_fun S a t1 t2 : authority_normal S a t1 -> authority_normal S a t2 -> t1 = t2.
Proof.
  intros (u & h & p & u' & h' & -> & Hu & Hh & Hp & Ru & Rh & ->) (v & k & r & v' & k' & E & Hv & Hk & Hr & Rv & Rk & ->).
  apply (authority_unique S) in E; auto. injection E as <- <- <-. rewrite (host_normal_fun _ _ _ _ Rh Rk).
  assert (u' = v'); [|congruence]. destruct u as [u|], u' as [u'|], v' as [v'|]; try contradiction; auto. f_equal. eapply pn_fun; eauto.
Qed.

(** ** Paths *)
Lemma path_normal_alt S has p t : path_normal S false has p t <-> exists q, rds p q /\ pct_normal S q t /\ pct_wf p.
Proof.
  unfold path_normal. cbn [andb]. split.
  - intros (p' & P & R). assert (W := pn_wf_l _ _ _ P).
    destruct (fmt_norm_ok S MDefault false (from_single_path p)) as (q & t' & p2 & H1 & H2 & H3 & H4 & _); try discriminate; auto.
    { exact I. } { unfold flat. cbn. now rewrite app_nil_r. }
    unfold flat in *. cbn in *. rewrite app_nil_r in *. rewrite (pn_fun _ _ _ H3 _ P) in H4. rewrite (rds_literal_fun _ _ _ H4 R) in H2. eauto.
  - intros (q0 & H0 & P0 & W).
    destruct (fmt_norm_ok S MDefault false (from_single_path p)) as (q & t' & p2 & H1 & H2 & H3 & H4 & _); try discriminate; auto.
    { exact I. } { unfold flat. cbn. now rewrite app_nil_r. }
    unfold flat in *. cbn in *. rewrite app_nil_r in *. exists p2. split; auto. rewrite (rds_fun _ _ _ H0 H1) in P0. now rewrite (pn_fun _ _ _ P0 _ H2).
Qed.
Lemma path_normal_fun S k h p t1 t2 : path_normal S k h p t1 -> path_normal S k h p t2 -> t1 = t2.
Proof.
  unfold path_normal. destruct (k && negb h && negb (starts_with (lit "/") p)).
  - intros; eapply pn_fun; eauto.
  - intros (p1 & P1 & R1) (p2 & P2 & R2). rewrite (pn_fun _ _ _ P1 _ P2) in R1. eapply rds_literal_fun; eauto.
Qed.
Definition path_class (S : Spec) (p : str) : Prop := scan (f_pchar_slash S) p = true.
Lemma unres_pchar_slash S c : unreserved S c = true -> f_pchar_slash S c = true.
Proof. unfold f_pchar_slash, f_pchar. now intros ->. Qed.
Lemma path_normal_class S k h p t : path_normal S k h p t -> path_class S p -> path_class S t.
Proof.
  destruct k.
  - unfold path_normal at 1. destruct (true && negb h && negb (starts_with (lit "/") p)) eqn:B.
    + intros P C. eapply pn_scan; [|exact P|exact C]. apply unres_pchar_slash.
    + intros H. assert (H2 : path_normal S false h p t) by exact H. apply path_normal_alt in H2. destruct H2 as (q & R & P & W). intros C.
      eapply pn_scan; [|exact P|]. { apply unres_pchar_slash. } eapply rds_scan; eauto. apply f_pchar_slash_char.
  - intros H. apply path_normal_alt in H. destruct H as (q & R & P & W). intros C.
    eapply pn_scan; [|exact P|]. { apply unres_pchar_slash. } eapply rds_scan; eauto. apply f_pchar_slash_char.
Qed.
Lemma pn_slashy S q t : pct_normal S q t -> slashy q <-> slashy t.
Proof.
  intros P. split; intros [->|(r & ->)].
  - left. now apply pn_nil_inv in P. - apply pn_raw_inv in P; [|discriminate]. destruct P as (t' & -> & _). right. eauto.
  - left. exact (proj1 (pn_empty _ _ _ P) eq_refl). - destruct (pn_slash_head _ _ _ r P eq_refl) as (r' & -> & _). right. eauto.
Qed.
Lemma path_normal_slashy S k p t : path_normal S k true p t -> slashy p -> slashy t.
Proof.
  assert (X : path_normal S k true p t = path_normal S false true p t) by (unfold path_normal; now rewrite andb_false_r). rewrite X. clear X.
  intros H. apply path_normal_alt in H. destruct H as (q & R & P & W). intros Hp. apply (proj1 (pn_slashy _ _ _ P)). eapply rds_slashy; eauto.
Qed.
(** Normal paths *)
Definition path_is_normal (S : Spec) (t : str) : Prop := dotless t /\ pct_normal S t t.
Lemma path_normal_is S h p t : path_normal S false h p t -> path_is_normal S t.
Proof.
  intros H. apply path_normal_alt in H. destruct H as (q & R & P & W). split; [|eapply pn_idem; eauto]. eapply pn_dotless; eauto. eapply rds_dotless; eauto.
Qed.
Lemma is_normal_path S h t : path_is_normal S t -> path_normal S false h t t.
Proof. intros [D P]. apply path_normal_alt. exists t. split; [now apply dotless_rds|]. split; auto. eapply pn_wf_l; eauto. Qed.
Lemma pn_guard S t : pct_normal S t t -> pct_normal S (lit "/." ++ t) (lit "/." ++ t).
Proof. intros P. apply pn_raw; [discriminate|]. apply pn_raw; [discriminate|exact P]. Qed.
Lemma safe_normal S a t : path_is_normal S t -> path_normal S false (defined a) (safe_path a t) t.
Proof.
  intros N. destruct a as [a|]; [now apply is_normal_path|]. unfold safe_path. destruct (starts_with (lit "//") t) eqn:E; [|now apply is_normal_path].
  destruct N as [D P]. apply path_normal_alt. exists t. assert (PG := pn_guard _ _ P). repeat split; auto; [|eapply pn_wf_l; eauto].
  apply starts_slash_iff in E. destruct E as (r & ->). apply rds_guarded; auto; [right; eauto|discriminate].
Qed.

(** ** Components *)
Lemma lower_scheme s : scheme s -> scheme (map lower s).
Proof.
  apply lcl_cat; [apply (lcl_cls ALPHA)|apply lcl_star, (lcl_cls (fun c => ALPHA c || DIGIT c || one_of "+-." c))]; intros c; [apply (lower_class ALPHA)|apply (lower_class (fun c => ALPHA c || DIGIT c || one_of "+-." c))]; vm_compute; reflexivity.
Qed.
Lemma path_ok_class S (s a : option str) p : match a, s with
  | Some _, _ => path_abempty S p
  | None, Some _ => (path_absolute S <|> path_rootless S <|> path_empty) p
  | None, None => (path_absolute S <|> path_noscheme S <|> path_empty) p end -> path_class S p /\ (a <> None -> slashy p).
Proof.
  unfold path_class. intros H. destruct a as [a|].
  - apply path_abempty_scan in H. destruct H as [->|(r & -> & H)]; [split; [reflexivity|intros; now left]|].
    split; [|intros; right; eauto]. rewrite scan_cons by discriminate. now rewrite f_pchar_slash_char.
  - split; [|congruence]. destruct s; [apply path_noauth_abs in H|apply path_noauth_rel in H]; tauto.
Qed.
Lemma abempty_intro S p : path_class S p -> slashy p -> path_abempty S p.
Proof.
  unfold path_class. intros C [->|(r & ->)]; apply path_abempty_scan; [now left|right]. exists r. split; auto. change (lit "/" ++ r) with (SLASH :: r) in C. rewrite scan_cons in C by discriminate. now apply andb_prop in C.
Qed.
Lemma safe_class S a t : path_class S t -> path_class S (safe_path a t).
Proof.
  unfold path_class. destruct a; auto. unfold safe_path. destruct (starts_with (lit "//") t); auto. intros H. cbn [lit app]. 
  change (scan (f_pchar_slash S) (47 :: 46 :: t) = true). rewrite !scan_cons by discriminate. rewrite H. destruct S; reflexivity.
Qed.
Lemma safe_no_double t : starts_with [SLASH; SLASH] (safe_path None t) = false.
Proof. unfold safe_path. destruct (starts_with (lit "//") t) eqn:E; [reflexivity|exact E]. Qed.
(** Any path of the right character class is grammatical once guarded. *)
Lemma target_ok S s a t q f : scheme s -> opt_in (authority S) a -> opt_in (query S) q -> opt_in (fragment S) f ->
  path_class S t -> (a <> None -> slashy t) -> components_ok S (Some s) a (safe_path a t) q f.
Proof.
  intros Hs Ha Hq Hf C Sl. unfold components_ok. repeat split; auto. destruct a as [a|].
  - apply abempty_intro; auto. apply Sl. discriminate.
  - apply path_noauth_abs. split; [now apply safe_class|apply safe_no_double].
Qed.
Lemma opt_rel_none R x y : opt_rel R x y -> (x <> None <-> y <> None).
Proof. destruct x, y; cbn; intros; try contradiction; split; congruence. Qed.
Definition loose_ok (S : Spec) (C : comps) : Prop :=
  (exists s, c_s C = Some s /\ scheme s) /\ opt_in (authority S) (c_a C) /\ opt_in (query S) (c_q C) /\ opt_in (fragment S) (c_f C) /\
  path_class S (c_p C) /\ (c_a C <> None -> slashy (c_p C)).
Lemma comps_loose S C : comps_ok S C -> defined (c_s C) = true -> loose_ok S C.
Proof.
  destruct C as [s a p q f]. unfold comps_ok, loose_ok. cbn [c_s c_a c_p c_q c_f]. intros (Hs & Ha & Hq & Hf & Hp) D. destruct s as [s|]; [|discriminate].
  destruct (path_ok_class S (Some s) a p Hp) as [Cp Sp]. repeat split; eauto.
Qed.
Lemma loose_target S C : loose_ok S C -> comps_ok S (reread C) /\ defined (c_s C) = true.
Proof.
  destruct C as [s a p q f]. unfold comps_ok, loose_ok, reread. cbn [c_s c_a c_p c_q c_f]. intros ((s0 & -> & Hs) & Ha & Hq & Hf & Hc & Hl). split; auto. now apply target_ok.
Qed.
Lemma normal_loose S k C T : loose_ok S C -> comps_normal S k C T -> loose_ok S T.
Proof.
  destruct C as [s a p q f], T as [s' a' p' q' f']. unfold loose_ok, comps_normal. cbn [c_s c_a c_p c_q c_f].
  intros ((s0 & -> & Hs) & Ha & Hq & Hf & Cp & Sp) (Rs & Ra & Rp & Rq & Rf). destruct s' as [s'|]; [|contradiction]. cbn in Rs. subst s'.
  split; [eexists; split; [reflexivity|now apply lower_scheme]|]. split; [|split; [|split; [|split]]].
  - destruct a, a'; try contradiction; auto. now apply authority_normal_ok in Ra.
  - destruct q, q'; try contradiction; auto. cbn in *. apply query_scan in Hq. apply query_scan. eapply pn_scan; [|exact Rq|exact Hq]. unfold f_query, f_pchar. now intros c ->.
  - destruct f, f'; try contradiction; auto. cbn in *. apply fragment_scan in Hf. apply fragment_scan. eapply pn_scan; [|exact Rf|exact Hf]. unfold f_fragment, f_pchar. now intros c ->.
  - eapply path_normal_class; eauto.
  - intros N. apply (opt_rel_none _ _ _ Ra) in N. specialize (Sp N). destruct a; [|congruence]. eapply path_normal_slashy; eauto.
Qed.
Lemma comps_normal_ok S k C T : comps_ok S C -> defined (c_s C) = true -> comps_normal S k C T -> comps_ok S (reread T) /\ defined (c_s T) = true.
Proof. intros H D N. apply loose_target. eapply normal_loose; eauto. now apply comps_loose. Qed.
Lemma comps_normal_fun S k C T1 T2 : comps_normal S k C T1 -> comps_normal S k C T2 -> T1 = T2.
Proof.
  destruct C as [s a p q f], T1 as [s1 a1 p1 q1 f1], T2 as [s2 a2 p2 q2 f2]. unfold comps_normal. cbn [c_s c_a c_p c_q c_f].
  intros (A1 & A2 & A3 & A4 & A5) (B1 & B2 & B3 & B4 & B5).
  assert (G : forall (R : str -> str -> Prop) x y z, (forall a b c, R a b -> R a c -> b = c) -> opt_rel R x y -> opt_rel R x z -> y = z).
  { intros R [x|] [y|] [z|] H X Y; try contradiction; auto. f_equal. eapply H; eauto. }
  f_equal.
  - eapply G; [|exact A1|exact B1]. congruence.
  - eapply G; [|exact A2|exact B2]. intros; eapply authority_normal_fun; eauto.
  - eapply path_normal_fun; eauto.
  - eapply G; [|exact A4|exact B4]. intros; eapply pn_fun; eauto.
  - eapply G; [|exact A5|exact B5]. intros; eapply pn_fun; eauto.
Qed.
Lemma starts_slash1 s : starts_with (lit "/") s = true <-> exists r, s = 47 :: r.
Proof.
  unfold starts_with. split.
  - destruct (strip_prefix (lit "/") s) as [r|] eqn:E; [|discriminate]. intros _. exists r. now apply strip_prefix_inv in E.
  - intros (r & ->). reflexivity.
Qed.
Lemma comps_normal_idem S k C T : comps_normal S k C T -> comps_normal S k (reread T) T.
Proof.
  destruct C as [s a p q f], T as [s' a' p' q' f']. unfold comps_normal, reread. cbn [c_s c_a c_p c_q c_f].
  intros (Rs & Ra & Rp & Rq & Rf).
  assert (G : forall (R : str -> str -> Prop) x y, (forall a b, R a b -> R b b) -> opt_rel R x y -> opt_rel R y y).
  { intros R [x|] [y|] H X; try contradiction; auto. eapply H; eauto. }
  split; [eapply G; [|exact Rs]; intros x y ->; now rewrite map_lower_idem|].
  split; [eapply G; [|exact Ra]; intros; eapply authority_normal_idem; eauto|].
  split; [|split; [eapply G; [|exact Rq]|eapply G; [|exact Rf]]; intros; eapply pn_idem; eauto].
  assert (Dd : defined a = defined a') by (destruct a, a'; try contradiction; reflexivity).
  unfold path_normal in Rp. destruct (k && negb (defined a) && negb (starts_with (lit "/") p)) eqn:B.
  - (* relative path kept *)
    apply andb_prop in B. destruct B as [B B3]. apply andb_prop in B. destruct B as [B1 B2]. destruct k; [|discriminate]. destruct a; [discriminate|]. destruct a'; [contradiction|].
    assert (Ns : starts_with (lit "/") p' = false). { apply not_true_iff_false. intros X. apply starts_slash1 in X. destruct X as (r & ->). destruct (pn_slash_head _ _ _ r Rp eq_refl) as (r' & -> & _). discriminate. }
    assert (Nd : starts_with (lit "//") p' = false). { apply not_true_iff_false. intros X. apply starts_slash_iff in X. destruct X as (r & ->). discriminate. }
    unfold safe_path. rewrite Nd. unfold path_normal. rewrite Ns. cbn. eapply pn_idem; eauto.
  - assert (N : path_is_normal S p') by (apply (path_normal_is S false p p'); exact Rp).
    assert (Q := safe_normal S a' p' N). unfold path_normal. destruct (k && negb (defined a') && negb (starts_with (lit "/") (safe_path a' p'))) eqn:B'; [|exact Q].
    (* then the path is relative and its own normal form *)
    apply andb_prop in B'. destruct B' as [B' B3]. destruct a' as [a'|]; [rewrite andb_false_r in B'; discriminate|].
    unfold safe_path in B3 |- *. destruct (starts_with (lit "//") p'); [discriminate|]. apply N.
Qed.
