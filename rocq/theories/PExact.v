(** Exact behaviour in the cases in which the code violates a property. *)
From Verif Require Import Base Chars Rfc3986 CompSpec RfcResolve PctSpec NormSpec EditSpec MValidate MTrusted MFormat MPct MPath MWriters MEdit
  MNormalize PBase PScan PHost PAuth PValidate PTrusted PComps PAscii PTypes PTypes2 PPath PPath2 PPath3 PPath4 PPct PPct2 PPct3 PPct4 PPath5 PResolve PRds PNorm PNorm2 PNorm3 PNorm4 PNorm5 PNorm6 PNorm7 PNorm8 PEdit.
From Coq Require Import Lia.
Open Scope N_scope.

Lemma weak_valid S s a p q f : weak_ok s a p q -> IRI_reference S (recompose s a p q f) -> components_ok S s a p q f.
Proof.
  intros W H. apply reference_reads in H as ([s' a' p' q' f'] & O & E). cbn [c_s c_a c_p c_q c_f] in *.
  apply recompose_inj in E; [|exact W|eapply components_weak; exact O]. destruct E as (-> & -> & -> & -> & ->). exact O.
Qed.
Lemma editable_reference S t j : editable t = true -> new S t j = Ok j -> IRI_reference S j.
Proof. intros Ht H. destruct (editable_reads S t j Ht H) as (C & R). exact (reads_reference _ _ _ R). Qed.

Lemma new_id_any S t j k : new S t j = Ok k -> k = j.
Proof. unfold new. destruct (validate S t j); cbn; congruence. Qed.

(** ** Password replacement in a userinfo without ":" *)
Lemma range_nocolon S i C u h o : dissects S i C (Some u) h o -> ~ In 58 u ->
  password_range_to_hide i = Ok (Some (start_of C + length u, start_of C + length u)%nat).
Proof. intros H Hn. rewrite (range_spec _ _ _ _ _ _ H), find_colon_none by exact Hn. reflexivity. Qed.
Lemma replaced_nocolon (A : Type) S i C u h o (f : str -> W A) a : dissects S i C (Some u) h o -> ~ In 58 u ->
  snd (f []) = Ret a -> text (replaced_display i f) = Ok (render (with_authority C (Some (u ++ concat (fst (f [])))) h o)).
Proof.
  intros H Hn Hf. unfold replaced_display. rewrite (range_nocolon _ _ _ _ _ _ H Hn). cbn [lift wbind wret].
  assert (Ei : i = ((osch (c_s C) ++ lit "//") ++ u) ++ [] ++ tail_of C h o).
  { rewrite (dissects_render _ _ _ _ _ _ H), render_some. cbn [app]. now rewrite <- !app_assoc. }
  assert (En : (start_of C + length u)%nat = length ((osch (c_s C) ++ lit "//") ++ u)) by (unfold start_of; now rewrite !app_length).
  rewrite En. rewrite (slice_p_mid _ _ _ _ _ _ Ei eq_refl) by (cbn [length]; lia). cbn [lift wbind wret].
  pose proof (masked_text A i _ [] _ _ (length ((osch (c_s C) ++ lit "//") ++ u)) (f []) a Ei eq_refl) as M.
  cbn [length] in M. rewrite Nat.add_0_r in M. specialize (M eq_refl Hf).
  destruct (write_with_masked_password i _ _ (f [])) as [cs en]. cbn [app]. rewrite render_some, M. now rewrite <- !app_assoc.
Qed.

(** ** Password removal in a userinfo without ":" *)
Definition broken (debug : bool) (j : str) : may str := if debug then Panic else Ok j.
Lemma debug_bad debug S t j : (forall k, new S t j <> Ok k) -> (do _ <- debug_valid debug S t j ; Ok j) = broken debug j.
Proof.
  intros H. unfold debug_valid, broken. destruct debug; [|reflexivity]. cbn [andb].
  unfold new in H. destruct (validate S t j) as [[]|e|] eqn:E; try reflexivity. exfalso. eapply H. cbn. reflexivity.
Qed.
Lemma none_prefix (f : N -> bool) (a b : str) : none f (a ++ b) = true -> none f a = true.
Proof. unfold none. rewrite forallb_app. intros H. now apply andb_prop in H. Qed.

Lemma remove_last debug S t i C x c h o : editable t = true -> new S t i = Ok i -> dissects S i C (Some (x ++ [c])) h o -> ~ In 58 (x ++ [c]) ->
  (c < 128 -> let j := render (with_authority C (Some x) h o) in
     (userinfo S x -> remove_password_inline debug S t i = Ok j /\ new S t j = Ok j /\ dissects S j (with_authority C (Some x) h o) (Some x) h o) /\
     (~ userinfo S x -> remove_password_inline debug S t i = broken debug j /\ new S t j <> Ok j)) /\
  (128 <= c -> remove_password_inline debug S t i = Panic).
Proof.
  intros Ht Hn H Hc. pose proof H as (R & E & Hu & Hh & Ho).
  assert (Ei : i = ((osch (c_s C) ++ lit "//") ++ x) ++ [c] ++ tail_of C h o).
  { rewrite (dissects_render _ _ _ _ _ _ H), render_some. now rewrite <- !app_assoc. }
  set (n := length ((osch (c_s C) ++ lit "//") ++ x)).
  assert (En : (start_of C + length (x ++ [c]))%nat = Datatypes.S n) by (unfold n, start_of; rewrite !app_length; cbn [length]; lia).
  assert (Hp : forall m, prev_byte i (Datatypes.S n) = m -> m = if Nat.eqb (clen c) 1 then Ok n else Panic).
  { intros m <-. unfold prev_byte. rewrite Ei at 1. change ([c] ++ tail_of C h o) with (c :: tail_of C h o). now rewrite (nth_mid _ _ _ n). }
  specialize (Hp _ eq_refl).
  split.
  - intros L j.
    assert (Ec : clen c = 1%nat) by (unfold clen; now rewrite (proj2 (N.ltb_lt c 128))).
    rewrite Ec in Hp. cbn [Nat.eqb] in Hp.
    assert (Ej : j = ((osch (c_s C) ++ lit "//") ++ x) ++ tail_of C h o)
      by (unfold j; rewrite render_some; now rewrite <- !app_assoc).
    assert (Er : remove_password_inline debug S t i = (do _ <- debug_valid debug S t j ; Ok j)).
    { unfold remove_password_inline. rewrite (range_nocolon _ _ _ _ _ _ H Hc). cbn [bind]. rewrite En, Hp. cbn [bind].
      rewrite (drain_mid _ _ _ i n _ Ei eq_refl); [|unfold n; cbn [length]; lia]. cbn [bind]. now rewrite <- Ej. }
    split.
    + intros Ux. assert (D : dissects S j (with_authority C (Some x) h o) (Some x) h o) by (eapply dissects_authority; eauto).
      assert (Hj : new S t j = Ok j).
      { apply (class_new S t j _ Ht (proj1 D)). apply class_authority. now apply (class_new S t i C Ht R). }
      split; [|auto]. rewrite Er, debug_new by exact Hj. reflexivity.
    + intros Ux. assert (Hj : new S t j <> Ok j).
      { intros Hj. apply (editable_reference _ _ _ Ht) in Hj. unfold j, render, with_authority in Hj. cbn [c_s c_a c_p c_q c_f] in Hj.
        pose proof R as [O _]. pose proof (components_weak _ _ _ _ _ _ O) as W. rewrite E in W.
        apply weak_valid in Hj.
        - destruct Hj as (_ & Ha & _). cbn [opt_in] in Ha. apply validate_authority_iff in Ha.
          unfold validate_authority in Ha. unfold authority_string in Ha. unfold find_split_hole in Ha.
          assert (Hat : none (N.eqb AT) x = true).
          { cbn [opt_in] in Hu. apply userinfo_scan in Hu. apply (none_prefix _ x [c]).
            apply (scan_none (f_userinfo S)); [|exact Hu]. intros d Hd. apply N.eqb_eq in Hd as <-. destruct S; repeat split; try reflexivity; discriminate. }
          rewrite <- app_assoc in Ha. change (lit "@") with [AT] in Ha. cbn [app] in Ha. rewrite (split_first_app (N.eqb AT) x AT) in Ha by (exact Hat || reflexivity).
          cbn [bind] in Ha. apply Ux. apply validate_userinfo_iff. destruct (validate_userinfo S x) as [[]|e|]; [reflexivity|discriminate|discriminate].
        - destruct W as (W1 & W2 & W3 & W4). split; [|split; [|split]]; auto.
          + destruct (c_s C); auto. discriminate.
          + destruct W2 as [W2 W5]. split; [|exact W5]. unfold authority_string in *. unfold none in *. rewrite !forallb_app in *.
            rewrite !andb_true_iff in *. tauto. }
      split; [|exact Hj]. rewrite Er. apply debug_bad. intros k K. apply Hj. rewrite K. f_equal. apply (new_id_any S t j k K).
  - intros L. assert (Ec : Nat.eqb (clen c) 1 = false).
    { unfold clen. rewrite (proj2 (N.ltb_ge c 128)) by exact L. destruct (c <? 2048); [reflexivity|]. destruct (c <? 65536); reflexivity. }
    rewrite Ec in Hp. unfold remove_password_inline. rewrite (range_nocolon _ _ _ _ _ _ H Hc). cbn [bind]. rewrite En, Hp. reflexivity.
Qed.

(** An empty userinfo: the "/" before it is removed, and the rest becomes the path. *)
Lemma remove_empty debug S t i C h o : editable t = true -> new S t i = Ok i -> dissects S i C (Some []) h o ->
  let D := mkC (c_s C) None (lit "/" ++ authority_string (Some []) h o ++ c_p C) (c_q C) (c_f C) in
  let j := render D in
  (~ IP_literal h -> remove_password_inline debug S t i = Ok j /\ new S t j = Ok j /\ reads S j D) /\
  (IP_literal h -> remove_password_inline debug S t i = broken debug j /\ new S t j <> Ok j).
Proof.
  intros Ht Hn H D j. pose proof H as (R & E & Hu & Hh & Ho).
  assert (Ei : i = (osch (c_s C) ++ lit "/") ++ lit "/" ++ tail_of C h o).
  { rewrite (dissects_render _ _ _ _ _ _ H), render_some. change (lit "//") with (lit "/" ++ lit "/"). cbn [app]. now rewrite <- !app_assoc. }
  set (n := length (osch (c_s C) ++ lit "/")).
  assert (En : (start_of C + 0)%nat = Datatypes.S n) by (unfold n, start_of; rewrite !app_length; cbn [length lit]; lia).
  assert (Ej : j = (osch (c_s C) ++ lit "/") ++ tail_of C h o).
  { unfold j, D, render. cbn [c_s c_a c_p c_q c_f]. unfold recompose, tail_of, authority_string. fold (osch (c_s C)). cbn [app].
    change (match c_s C with Some x => x ++ lit ":" | None => [] end) with (osch (c_s C)).
    change (match o with Some x => lit ":" ++ x | None => [] end) with (oport o).
    change (match c_q C with Some x => lit "?" ++ x | None => [] end) with (oq (c_q C)).
    change (match c_f C with Some x => lit "#" ++ x | None => [] end) with (ofr (c_f C)).
    now rewrite <- !app_assoc. }
  assert (Er : remove_password_inline debug S t i = (do _ <- debug_valid debug S t j ; Ok j)).
  { unfold remove_password_inline. rewrite (range_nocolon _ _ _ _ _ _ H (fun f => f)). cbn [bind length]. rewrite En.
    unfold prev_byte. rewrite Ei at 1. change (lit "/" ++ tail_of C h o) with (SLASH :: tail_of C h o) at 1. rewrite (nth_mid _ _ _ n) by reflexivity.
    change (Nat.eqb (clen SLASH) 1) with true. cbn [bind].
    rewrite (drain_mid _ _ _ i n _ Ei eq_refl); [|unfold n; cbn [length lit]; lia]. cbn [bind]. now rewrite <- Ej. }
  pose proof R as [O _]. destruct O as (Os & Oa & Oq & Of & Op). rewrite E in Op.
  assert (Sp : scan (f_pchar_slash S) (c_p C) = true).
  { apply path_abempty_scan in Op as [-> |(r & -> & Sr)]; [reflexivity|]. rewrite scan_cons by discriminate. now rewrite f_pchar_slash_char. }
  assert (So : scan (f_pchar_slash S) (oport o ++ c_p C) = true).
  { destruct o as [o|]; [|exact Sp]. cbn [oport opt_in] in *. rewrite <- app_assoc. apply scan_app_true; [now destruct S|]. apply scan_app_true; [|exact Sp].
    apply forallb_scan; [apply f_pchar_slash_pct|]. apply star_cls in Ho. eapply forallb_impl; [|exact Ho]. intros c Hc.
    apply pchar_sub_slash. unfold f_pchar, unreserved. rewrite Hc. now rewrite !orb_true_r. }
  split.
  - intros Hl.
    assert (Rn : scan (f_pchar_slash S) h = true).
    { assert (Rg : reg_name S h) by (destruct Hh as [K|[K|K]]; [tauto|now apply v4_regname|exact K]).
      apply reg_name_scan in Rg. eapply scan_mono; [|exact Rg]. intros c Hc. apply pchar_sub_slash. unfold f_pchar. unfold f_regname in Hc. now rewrite Hc. }
    assert (RD : reads S j D).
    { split; [|reflexivity]. unfold D. cbn [c_s c_a c_p c_q c_f].
      assert (Sa : scan (f_pchar_slash S) (lit "/" ++ authority_string (Some []) h o ++ c_p C) = true).
      { unfold authority_string. fold (oport o). cbn [app]. rewrite <- !app_assoc.
        apply scan_app_true; [now destruct S|]. apply scan_app_true; [now destruct S|]. apply scan_app_true; [exact Rn|exact So]. }
      repeat split; auto. destruct (c_s C).
      - apply path_noauth_abs. split; [exact Sa|reflexivity].
      - apply path_noauth_rel. split; [exact Sa|]. split; reflexivity. }
    assert (Hj : new S t j = Ok j).
    { apply (class_new S t j D Ht RD). apply (class_new S t i C Ht R) in Hn. destruct t; try discriminate; exact Hn. }
    split; [|auto]. rewrite Er, debug_new by exact Hj. reflexivity.
  - intros Hl.
    assert (Hj : new S t j <> Ok j).
    { intros Hj. apply (editable_reference _ _ _ Ht) in Hj. unfold j, render, D in Hj. cbn [c_s c_a c_p c_q c_f] in Hj.
      pose proof (components_weak _ _ _ _ _ _ (proj1 R)) as W. rewrite E in W. destruct W as (W1 & (W2 & _) & W3 & W4).
      apply weak_valid in Hj.
      - destruct Hj as (_ & _ & _ & _ & Hp).
        assert (Sa : scan (f_pchar_slash S) (lit "/" ++ authority_string (Some []) h o ++ c_p C) = true)
          by (destruct (c_s C); [apply path_noauth_abs in Hp|apply path_noauth_rel in Hp]; tauto).
        apply IP_literal_iff in Hl as (r & -> & _). unfold authority_string in Sa. cbn [app lit] in Sa.
        do 3 (rewrite scan_cons in Sa by discriminate). apply andb_prop in Sa as [_ Sa]. apply andb_prop in Sa as [_ Sa]. apply andb_prop in Sa as [Sa _].
        destruct S; vm_compute in Sa; discriminate.
      - split; [|split; [|split]].
        + destruct (c_s C); [exact W1|reflexivity].
        + reflexivity.
        + unfold none in *. rewrite !forallb_app. rewrite W3, andb_true_r. cbn [lit forallb]. cbn [negb andb].
          eapply forallb_impl; [|exact W2]. intros c. unfold sqh, qh. destruct (c =? SLASH); [discriminate|auto].
        + exact W4. }
    split; [|exact Hj]. rewrite Er. apply debug_bad. intros k K. apply Hj. rewrite K. f_equal. apply (new_id_any S t j k K).
Qed.

(** ** Accessors of an absolute IRI that ends in an empty fragment *)
Definition odd_query (debug : bool) (q : option str) : may (option str) :=
  match q with
  | Some q => Ok (Some (q ++ lit "#"))
  | None => if debug then Panic else Ok (Some [])
  end.
Lemma absolute_odd debug S i : absolute_IRI S i -> exists s a p q,
  to_major i = Ok (Some s, a, p, q, None) /\ components_ok S (Some s) a p q None /\
  new S TAbsolute (i ++ lit "#") = Ok (i ++ lit "#") /\
  scheme_str TAbsolute (i ++ lit "#") = Ok (Some s) /\ authority_str TAbsolute (i ++ lit "#") = Ok a /\
  path_str TAbsolute (i ++ lit "#") = Ok p /\ query_str debug TAbsolute (i ++ lit "#") = odd_query debug q /\
  query_ri debug S TAbsolute (i ++ lit "#") = if debug then Panic else odd_query false q.
Proof.
  intros H. assert (Hn : new S TAbsolute (i ++ lit "#") = Ok (i ++ lit "#")) by (apply absolute_new_exact; eauto).
  apply absolute_comps in H. destruct H as (s & a & p & q & -> & Hc). exists s, a, p, q.
  pose proof (components_weak _ _ _ _ _ _ Hc) as W.
  assert (E : recompose (Some s) a p q None ++ lit "#" = recompose (Some s) a p q (Some [])).
  { rewrite !recompose_eq. cbn [ofr]. now rewrite app_nil_r, <- !app_assoc. }
  split; [now apply to_major_rec|]. split; [exact Hc|]. split; [exact Hn|]. rewrite E.
  assert (Q : query_str debug TAbsolute (recompose (Some s) a p q (Some [])) = odd_query debug q).
  { unfold query_str, extract_query_absolute_iri. rewrite recompose_eq.
    replace (osch (Some s) ++ oauth a ++ p ++ oq q ++ ofr (Some [])) with ((osch (Some s) ++ oauth a ++ p) ++ oq q ++ ofr (Some []))
      by (now rewrite <- !app_assoc).
    rewrite until_query_rec by exact (front_no_qh _ _ _ _ W). cbn [fst ofr].
    destruct q as [x|]; cbn [oq odd_query]; cbn [lit app]; destruct debug; reflexivity. }
  unfold scheme_str, authority_str, path_str, query_ri. rewrite Q.
  rewrite (extract_scheme_absolute_rec _ _ _ _ _ W), (extract_authority_absolute_rec _ _ _ _ _ W), (extract_path_absolute_rec _ _ _ _ _ W).
  cbn [bind]. do 4 (split; [reflexivity|]).
  destruct q as [x|]; destruct debug; try reflexivity. cbn [odd_query bind].
  unfold new_unchecked_justified. 
  destruct (validate S TQuery (x ++ lit "#")) as [[]|e|] eqn:V; try reflexivity.
  exfalso. cbn [validate] in V. apply validate_query_iff in V. apply query_scan in V.
  destruct Hc as (_ & _ & Hq & _). cbn [opt_in] in Hq. apply query_scan in Hq. rewrite scan_app in V by exact Hq.
  destruct S; vm_compute in V; discriminate.
Qed.

(** ** [replace_host] on an IRI with a fragment, in debug builds *)
Lemma trap_bad S i C : reads S i C -> c_f C <> None -> c_f C <> Some [] -> debug_valid true S (replace_host_asserts TIri) i = Panic.
Proof.
  intros R H1 H2. unfold debug_valid. cbn [replace_host_asserts andb].
  destruct (validate S TAbsolute i) as [[]|e|] eqn:E; try reflexivity. exfalso.
  assert (Hn : new S TAbsolute i = Ok i) by (unfold new; now rewrite E).
  apply (class_new S TAbsolute i C eq_refl R) in Hn. cbn [ty_class] in Hn. tauto.
Qed.
Lemma replace_host_panics alloc S i C h' only : new S TIri i = Ok i -> reads S i C -> c_f C <> None -> c_f C <> Some [] ->
  replace_host true alloc S TIri i h' only = Panic /\ try_replace_host_impl true alloc S TIri i h' only = Panic.
Proof.
  intros Hn R H1 H2. pose proof (trap_bad _ _ _ R H1 H2) as Bi.
  assert (T : try_replace_host_impl true alloc S TIri i h' only = Panic).
  { unfold try_replace_host_impl. destruct (replace_domain_impl alloc S i h' only) as [[r s]|[]|] eqn:E; [|reflexivity].
    cbn [bind]. assert (B : debug_valid true S (replace_host_asserts TIri) s = Panic); [|now rewrite B].
    destruct (c_a C) as [a|] eqn:Ea.
    - assert (exists u h o, dissects S i C u h o) as (u & h & o & D).
      { pose proof R as [(_ & Ha & _) _]. rewrite Ea in Ha. apply authority_comps in Ha. destruct Ha as (u & h & o & Ex & Hu & Hh & Ho).
        exists u, h, o. split; auto. rewrite Ea, Ex. auto. }
      pose proof D as (_ & _ & _ & Hh & _).
      pose proof E as E'. unfold replace_domain_impl in E. destruct (components_dissects _ _ _ _ _ _ D) as [_ EA]. 
      destruct (is_err (validate_host S h')) eqn:Ev.
      + rewrite EA in E. destruct (ac_rec u h o) as (_ & EB & _). rewrite EB in E. cbn [bind] in E. injection E as _ <-. exact Bi.
      + destruct (only && negb (is_host_reg_name h)) eqn:Eo.
        * rewrite EA in E. destruct (ac_rec u h o) as (_ & EB & _). rewrite EB in E. cbn [bind] in E. rewrite ?Ev, ?Eo in E. injection E as _ <-. exact Bi.
        * assert (Hh' : host S h').
          { apply validate_host_iff. destruct (validate_host S h') as [[]|e|] eqn:V; [reflexivity|discriminate|]. now apply validate_host_np in V. }
          assert (Ho : only = true -> ~ IP_literal h /\ ~ IPv4address h).
          { intros ->. cbn [andb] in Eo. apply negb_false_iff in Eo. now apply (is_host_reg_name_iff S h Hh) in Eo. }
          destruct (replace_domain_ok alloc S i C u h o h' only D Hh' Ho) as [K1 K2]. cbv zeta in K1, K2. rewrite E' in K1, K2.
          assert (K : s = i \/ s = render (with_authority C u h' o)).
          { destruct alloc; [specialize (K1 (or_introl eq_refl)); injection K1 as _ ->; now right|].
            destruct (Nat.leb_spec (blen h) (blen h')) as [Hl|Hl]; [specialize (K2 eq_refl Hl); injection K2 as _ ->; now left|].
            specialize (K1 (or_intror Hl)). injection K1 as _ ->. now right. }
          destruct K as [-> | ->]; [exact Bi|].
          apply (trap_bad S _ (with_authority C u h' o)); [|exact H1|exact H2].
          exact (proj1 (proj2 (host_new_ok S TIri i C u h o h' eq_refl Hn D Hh'))).
    - unfold replace_domain_impl in E. destruct (no_authority _ _ _ R Ea) as [_ EA]. rewrite EA in E. injection E as _ <-. exact Bi. }
  split; [|exact T]. unfold replace_host. now rewrite T.
Qed.

(** ** [is_normalized] overlooks an empty port *)
Lemma is_normalized_port S i C u h mode : dissects S i C u h (Some []) -> defined (c_s C) = true ->
  is_normalized S i mode = is_normalized S (render (with_authority C u h None)) mode.
Proof.
  intros H Hd. assert (D : dissects S (render (with_authority C u h None)) (with_authority C u h None) u h None).
  { pose proof H as (R & E & Hu & Hh & Ho). eapply dissects_authority; eauto. exact I. }
  assert (A : forall o j E, dissects S j E u h o -> decompose_authority (authority_string u h o) = mkAuth (authority_string u h o) (length (oui u)) (length (oui u) + length h)).
  { intros o j E (_ & _ & Hu & Hh & Ho). apply decompose_authority_rec.
    - destruct u; [|easy]. cbn in Hu. eapply userinfo_no_at; exact Hu.
    - now apply host_has_shape in Hh.
    - destruct o; [|easy]. now apply port_iff. }
  pose proof (A _ _ _ H) as A1. pose proof (A _ _ _ D) as A2.
  pose proof (components_weak _ _ _ _ _ _ (proj1 (proj1 H))) as W1. pose proof (components_weak _ _ _ _ _ _ (proj1 (proj1 D))) as W2.
  pose proof H as (R & E & _). destruct C as [[s|] a p q f]; [|discriminate]. cbn [c_s c_a c_p c_q c_f with_authority] in *. subst a.
  destruct R as [_ ->]. unfold render, with_authority. cbn [c_s c_a c_p c_q c_f]. unfold is_normalized. rewrite !scheme_colon_rec by assumption. cbn [bind].
  rewrite (ss_authority_rec _ _ _ _ _ W1). rewrite (ss_authority_rec _ _ _ _ _ W2). rewrite until_query_rec by apply W1.
  rewrite A1, A2. destruct (ac_rec u h (Some [])) as (-> & -> & _). destruct (ac_rec u h None) as (-> & -> & _). reflexivity.
Qed.
Lemma authority_no_colon S i C u h : dissects S i C u h None -> forall x, c_a C <> Some (x ++ lit ":").
Proof.
  intros (_ & E & Hu & Hh & _) x X. rewrite E in X. injection X as X. unfold authority_string in X. rewrite app_nil_r in X.
  destruct (host_has_shape _ _ Hh) as [_ Sh]. destruct (last_cases h) as [->|(a & z & ->)].
  - rewrite app_nil_r in X. destruct u as [v|]; [|destruct x; discriminate]. apply app_inj_tail in X. destruct X as [_ X]. discriminate.
  - rewrite app_assoc in X. apply app_inj_tail in X. destruct X as [_ X]. change (N_of_ascii ":") with 58 in X. subst z. destruct Sh as [Sh|(k' & Sh)].
    + rewrite none_app in Sh. apply andb_prop in Sh. destruct Sh as [_ Sh]. discriminate.
    + apply app_inj_tail in Sh. destruct Sh as [_ Sh]. discriminate.
Qed.
Lemma c17_port S i C u h mode : dissects S i C u h (Some []) -> defined (c_s C) = true ->
  let j := render (with_authority C u h None) in
  exists n n' out b,
    norm_input (ck_keep mode) i = Ok n /\ norm_input (ck_keep mode) j = Ok n' /\
    display S n = Ok out /\ display S n' = Ok out /\ is_normalized S i mode = Ok b /\
    (b = true <-> out = j /\ (mode = CkRfc3986 -> ensure_rfc3986_normalizable n' = Ok true)).
Proof.
  intros H Hd j. assert (D : dissects S j (with_authority C u h None) u h None).
  { pose proof H as (R & E & Hu & Hh & Ho). eapply dissects_authority; eauto. exact I. }
  rewrite (is_normalized_port S i C u h mode H Hd). fold j.
  destruct (is_normalized_spec S j _ mode (proj1 D) Hd (authority_no_colon _ _ _ _ _ D)) as (n' & out & b & E1 & E2 & E3 & E4).
  destruct (norm_spec S (ck_keep mode) j _ (proj1 D) Hd) as (n2 & T & F1 & F2 & _ & F4 & _).
  rewrite E1 in F1. injection F1 as <-. rewrite E2 in F4. injection F4 as ->.
  destruct (norm_spec S (ck_keep mode) i _ (proj1 H) Hd) as (n & T' & G1 & G2 & _ & G4 & _).
  assert (T' = T) as ->.
  { apply (comps_normal_fun S (ck_keep mode) C T' T G2). destruct F2 as (K1 & K2 & K3 & K4 & K5). cbn [c_s c_a c_p c_q c_f with_authority] in *.
    pose proof H as (_ & E & _). split; [exact K1|]. split; [|split; [|auto]].
    - rewrite E. destruct (c_a T) as [x|]; cbn [opt_rel] in *; [|contradiction].
      destruct K2 as (u1 & h1 & p1 & u' & h' & X & Hu1 & Hh1 & Hp1 & Ru & Rh & Ex).
      pose proof D as (_ & _ & Hu & Hh & _).
      pose proof (authority_unique S u1 h1 p1 u h None) as U.
      assert (U' : (u1, h1, p1) = (u, h, None)) by (apply U; auto; exact I).
      injection U' as -> -> ->. exists u, h, (Some []), u', h'. repeat split; auto. apply (proj2 (proj2 (proj2 (proj2 H)))).
    - rewrite E. exact K3. }
  exists n, n', (unparse T), b. do 5 (split; [assumption|]). exact E4.
Qed.

(** ** [ensure_rfc3986_normalizable] after [and_normalize] *)
Lemma c14_exact S base ref B R : reads S base B -> defined (c_s B) = true -> reads S ref R ->
  exists n T0 T b, resolve base ref = Ok n /\ transform B R T0 /\ comps_normal S false T0 T /\
    display S (set_mode n MDefault) = Ok (unparse T) /\ ensure_rfc3986_normalizable (set_mode n MDefault) = Ok b /\
    (b = true <-> ~ fell_back T0) /\ (defined (c_s R) = false -> defined (c_a R) = false -> c_p R = [] -> b = true).
Proof.
  intros A D C. destruct (c14_resolve S base ref B R A D C) as (n & T0 & b & H1 & H2 & _ & H4 & H5). destruct (c11_and_normalize S base ref B R A D C) as (n' & T0' & T & E1 & E2 & N & Di).
  rewrite H1 in E1. injection E1 as <-. pose proof (transform_fun _ _ _ _ E2 H2) as ->. exists n, T0, T, b. do 5 (split; [assumption|]). split; [exact H5|].
  intros X1 X2 X3. apply H5. intros [F1 F2].
  destruct H2 as [p A1 R1|p A1 A2 R1|A1 A2 A3|r p A1 A2 A3 R1|m p A1 A2 A3 A4 M1 R1]; try congruence.
  - cbn [c_a c_p] in *. destruct A as [A _]. apply components_weak in A. destruct A as (_ & W & _). rewrite F1 in W.
    apply starts_slash_iff in F2. destruct F2 as (r & F2). rewrite F2 in W. cbn in W. discriminate.
  - rewrite A3 in X3. discriminate.
Qed.

(** ** Resolving the result for a reference without scheme, authority and path again *)
Lemma c35_exact S base base' ref B R : reads S base B -> defined (c_s B) = true -> IRI S base' -> reads S ref R ->
  defined (c_s R) = false -> defined (c_a R) = false -> c_p R = [] ->
  let q := if defined (c_q R) then c_q R else c_q B in
  exists n n' p, resolve base ref = Ok n /\ display S n = Ok (recompose (c_s B) (c_a B) (c_p B) q (c_f R)) /\
    resolve base' (recompose (c_s B) (c_a B) (c_p B) q (c_f R)) = Ok n' /\
    rds (c_p B) p /\ display S n' = Ok (unparse (mkC (c_s B) (c_a B) p q (c_f R))).
Proof.
  intros HB DB HB' HR X1 X2 X3 q. apply iri_reads in HB'. destruct HB' as (B' & HB' & DB').
  destruct (resolve_spec S base ref B R HB DB HR) as (n & T & E & Tr & U & D & RT & IT).
  pose proof (U _ (tr_empty_path rds B R X1 X2 X3)) as <-. fold q in RT, D, U, IT.
  assert (Es : safe_path (c_a B) (c_p B) = c_p B).
  { unfold safe_path. pose proof HB as [HC _]. destruct (components_weak _ _ _ _ _ _ HC) as (_ & X & _). destruct (c_a B); auto. change (starts_with (lit "//") (c_p B) = false) in X. now rewrite X. }
  unfold unparse, reread in RT, D. cbn [c_s c_a c_p c_q c_f] in RT, D. rewrite Es in RT, D.
  set (C := mkC (c_s B) (c_a B) (c_p B) q (c_f R)) in *.
  destruct (resolve_spec S base' _ B' C HB' DB' RT) as (n' & T' & E' & Tr' & U' & D' & _).
  destruct (rds_total (c_p B)) as (p & Hp).
  exists n, n', p. do 3 (split; [assumption|]). split; [exact Hp|]. rewrite D'. f_equal. f_equal. symmetry.
  apply U'. exact (tr_scheme rds B' C p DB Hp).
Qed.
Lemma remove_exact debug S t i C user c h o : editable t = true -> new S t i = Ok i ->
  dissects S i C (Some (user ++ [c])) h o -> ~ In 58 (user ++ [c]) ->
  let j := recompose (c_s C) (Some (authority_string (Some user) h o)) (c_p C) (c_q C) (c_f C) in
  ((c < 128)%N ->
    (userinfo S user -> remove_password_inline debug S t i = Ok j /\ new S t j = Ok j /\
       dissects S j (with_authority C (Some user) h o) (Some user) h o) /\
    (~ userinfo S user -> remove_password_inline debug S t i = (if debug then Panic else Ok j) /\ new S t j <> Ok j)) /\
  ((128 <= c)%N -> remove_password_inline debug S t i = Panic).
Proof. exact (remove_last debug S t i C user c h o). Qed.
Lemma c17_empty_port S i C u h mode : dissects S i C u h (Some []) -> defined (c_s C) = true ->
  let j := recompose (c_s C) (Some (authority_string u h None)) (c_p C) (c_q C) (c_f C) in
  exists n n' out b,
    match mode with CkPreserve => normalize_preserve i | _ => normalize i end = Ok n /\
    match mode with CkPreserve => normalize_preserve j | _ => normalize j end = Ok n' /\
    display S n = Ok out /\ display S n' = Ok out /\ is_normalized S i mode = Ok b /\
    (b = true <-> out = j /\ (mode = CkRfc3986 -> ensure_rfc3986_normalizable n' = Ok true)).
Proof.
  intros H D j. destruct (c17_port S i C u h mode H D) as (n & n' & out & b & H1 & H2 & H3). exists n, n', out, b.
  destruct mode; (split; [exact H1|split; [exact H2|exact H3]]).
Qed.
(** When memory runs out. *)
Lemma mask_alloc debug S t i C u h o : dissects S i C (Some u) h o -> mask_to_dedicated_string debug false S t i = Err AllocFailed.
Proof.
  intros D. unfold mask_to_dedicated_string. destruct (password_cases S i C (proj1 D)) as [P|(user & pw & h' & o' & P & Hc)].
  - destruct P as [(_ & P)|[(h' & o' & P)|(u' & h' & o' & P & Hc)]].
    + destruct D as (_ & D & _). congruence.
    + destruct D as (_ & A & B1 & B2 & B3), P as (_ & A' & B1' & B2' & B3'). rewrite A in A'. assert (E : authority_string (Some u) h o = authority_string None h' o') by congruence.
      pose proof (authority_unique S _ _ _ _ _ _ B1 B2 B3 B1' B2' B3' E) as U. discriminate U.
    + now rewrite (range_nocolon _ _ _ _ _ _ P Hc).
  - now rewrite (range_pw _ _ _ _ _ _ _ P Hc).
Qed.
