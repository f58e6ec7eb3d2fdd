(** * Top-level validators = RFC grammar (proofs only). *)
From Verif Require Import Base Chars Rfc3986 MValidate PBase PScan PHost PAuth.

Definition qh (c : N) : bool := (c =? QMARK) || (c =? HASH).
Definition sqh (c : N) : bool := (c =? SLASH) || (c =? QMARK) || (c =? HASH).

(** ** Component validators *)
Lemma validate_scheme_iff i : validate_scheme i = Ok tt <-> scheme i.
Proof.
  unfold validate_scheme, scheme. rewrite check_ok, cls_cat.
  assert (Hc : forall c, is_ascii c && is_ascii_scheme_continue c
                 = (ALPHA c || DIGIT c || one_of "+-." c)).
  { intros c. destruct (is_ascii c) eqn:H; cbn [andb].
    - apply (sweep_eq is_ascii_scheme_continue (fun c => ALPHA c || DIGIT c || one_of "+-." c));
        [vm_compute; reflexivity | assumption].
    - rewrite (one_of_ascii _ c H) by reflexivity. unfold ALPHA, DIGIT, between, is_ascii in *. lia. }
  split.
  - destruct i as [|c r]; [easy|]. intros H. bdestr. exists c, r. repeat split; auto.
    apply star_cls. erewrite forallb_ext'; [eassumption|]. intros x. symmetry. apply Hc.
  - intros (c & b & -> & Ha & Hb). apply star_cls in Hb. unfold is_alpha, is_upper, is_lower. unfold ALPHA in Ha.
    rewrite Ha. cbn [andb]. erewrite forallb_ext'; [exact Hb|]. exact Hc.
Qed.
Lemma validate_scheme_np i : validate_scheme i <> Panic.
Proof. apply check_np. Qed.
Lemma validate_query_iff S i : validate_query S i = Ok tt <-> query S i.
Proof.
  unfold validate_query.
  now rewrite check_ok, satisfy_scan, (scan_ext _ _ i (query_ok S)), <- query_scan.
Qed.
Lemma validate_fragment_iff S i : validate_fragment S i = Ok tt <-> fragment S i.
Proof.
  unfold validate_fragment.
  now rewrite check_ok, satisfy_scan, (scan_ext _ _ i (fragment_ok S)), <- fragment_scan.
Qed.
Lemma validate_path_iff S i : validate_path S i = Ok tt <-> path S i.
Proof. unfold validate_path. now rewrite check_ok, path_chars_scan, path_scan. Qed.
Lemma validate_path_segment_iff S i : validate_path_segment S i = Ok tt <-> segment S i.
Proof.
  unfold validate_path_segment.
  now rewrite check_ok, satisfy_scan, (scan_ext _ _ i (pchar_ok S)), <- segment_scan.
Qed.
Lemma validate_path_abempty_iff S i : validate_path_abempty S i = Ok tt <-> path_abempty S i.
Proof.
  rewrite path_abempty_scan. unfold validate_path_abempty. destruct i as [|c r]; cbn [is_empty].
  - split; auto.
  - destruct (strip_prefix [SLASH] (c :: r)) as [r'|] eqn:E.
    + apply strip_prefix_some in E. cbn in E. injection E as -> ->.
      rewrite check_ok, path_chars_scan. split.
      * intros H. right. eauto.
      * intros [H|(x & [= ->] & Hx)]; [easy|auto].
    + split; [easy|]. intros [H|(x & [= -> ->] & Hx)]; [easy|]. discriminate.
Qed.
Lemma validate_path_abempty_np S i : validate_path_abempty S i <> Panic.
Proof.
  unfold validate_path_abempty. destruct (is_empty i); [discriminate|].
  destruct (strip_prefix [SLASH] i); [apply check_np|discriminate].
Qed.
Lemma validate_reg_name_iff S i : validate_reg_name S i = Ok tt <-> reg_name S i /\ ~ IPv4address i.
Proof.
  unfold validate_reg_name. rewrite check_ok, andb_true_iff, satisfy_scan, (scan_ext _ _ i (regname_ok S)), <- reg_name_scan.
  split; intros [H1 H2]; split; auto.
  - apply (is_host_reg_name_iff S) in H2; [tauto|]. right; right; auto.
  - apply (is_host_reg_name_iff S); [right; right; auto|]. split; auto.
    intros H. apply IP_literal_iff in H. destruct H as (m & -> & _).
    apply reg_name_scan in H1. rewrite scan_cons in H1 by discriminate. now destruct S.
Qed.

(** ** Splitting off query and fragment *)
Lemma query_no_hash S q : query S q -> none (N.eqb HASH) q = true.
Proof.
  intros H. apply query_scan in H. eapply scan_none; [|exact H]. intros c Hc.
  apply N.eqb_eq in Hc. subst. destruct S; repeat split; try reflexivity; discriminate.
Qed.

Definition after_ok (Q F : lang) (c : N) (rest : str) : Prop :=
  if c =? QMARK then
    match find_split_hole rest HASH with
    | Some (q, f) => Q q /\ F f
    | None => Q rest
    end
  else F rest.

Lemma qf_iff (L Q F : lang) i :
  (forall x, L x -> none qh x = true) -> (forall x, Q x -> none (N.eqb HASH) x = true) ->
  (L +++ opt (tok "?" +++ Q) +++ opt (tok "#" +++ F)) i <->
  match find_split2_hole i QMARK HASH with
  | Some (a, c, rest) => L a /\ after_ok Q F c rest
  | None => L i
  end.
Proof.
  intros HL HQ. unfold find_split2_hole. fold qh. change (fun c => (c =? QMARK) || (c =? HASH)) with qh.
  split.
  - intros (a & r & -> & Ha & (q & f & -> & Hq & Hf)). assert (Hn := HL _ Ha).
    destruct Hq as [-> | Hq].
    + destruct Hf as [-> | Hf].
      * cbn [app]. rewrite app_nil_r. now rewrite split_first_none_app.
      * apply tok_cat in Hf. destruct Hf as (f' & -> & Hf). cbn [app lit].
        change (N_of_ascii "#") with HASH. rewrite split_first_app; auto.
    + apply tok_cat in Hq. destruct Hq as (q' & -> & Hq). cbn [app lit].
      change (N_of_ascii "?") with QMARK. rewrite split_first_app; auto. split; auto.
      unfold after_ok. rewrite N.eqb_refl. destruct Hf as [-> | Hf].
      * rewrite app_nil_r. now rewrite (proj2 (find_split_hole_none _ _)) by auto.
      * apply tok_cat in Hf. destruct Hf as (f' & -> & Hf). cbn [app lit].
        change (N_of_ascii "#") with HASH.
        rewrite (proj2 (find_split_hole_some _ HASH q' f')); auto.
  - destruct (split_first qh i) as [[[a c] rest]|] eqn:E.
    + apply split_first_some in E. destruct E as (-> & Hn & Hc). intros [Ha Hr].
      apply cat_intro; auto. unfold after_ok in Hr. apply orb_prop in Hc.
      destruct (N.eqb_spec c QMARK) as [->|Hne].
      * destruct (find_split_hole rest HASH) as [[q f]|] eqn:E.
        -- apply find_split_hole_some in E. destruct E as [-> _].
           exists (QMARK :: q), (HASH :: f). split; [reflexivity|]. destruct Hr as [Hq Hf].
           split; right; apply tok_cat; eexists; (split; [reflexivity|auto]).
        -- exists (QMARK :: rest), []. rewrite app_nil_r. split; [reflexivity|].
           split; [right; apply tok_cat; eexists; (split; [reflexivity|auto]) | now left].
      * destruct Hc as [Hc|Hc]; [discriminate|]. apply N.eqb_eq in Hc. subst c.
        exists [], (HASH :: rest). split; [reflexivity|]. split; [now left|].
        right; apply tok_cat; eexists; (split; [reflexivity|auto]).
    + intros H. exists i, []. rewrite app_nil_r. repeat split; auto. exists [], []. repeat split; now left.
Qed.

Lemma query_nil S : query S []. Proof. constructor. Qed.
Lemma fragment_nil S : fragment S []. Proof. constructor. Qed.

Definition F_of (S : Spec) (acc : bool) : lang := if acc then fragment S else eps.

Lemma validate_after_path_iff S c rest acc : c = QMARK \/ c = HASH ->
  (validate_after_path S c rest acc = Ok tt <-> after_ok (query S) (F_of S acc) c rest).
Proof.
  intros Hc. unfold validate_after_path, after_ok.
  assert (Hg : forall q f, (validate_query S q ;;
    (if negb acc && negb (is_empty f) then Err UnexpectedFragment else validate_fragment S f)) = Ok tt
     <-> query S q /\ F_of S acc f).
  { intros q f. rewrite <- validate_query_iff.
    destruct (validate_query S q) as [[]|e|]; cbn [bind]; [|now split|now split].
    unfold F_of. destruct acc; cbn [negb andb].
    - rewrite <- validate_fragment_iff. tauto.
    - destruct f as [|x f]; cbn [is_empty negb].
      + rewrite validate_fragment_iff. split; [intros _; split; auto; reflexivity | intros _; apply fragment_nil].
      + split; [easy|]. intros [_ H]. discriminate. }
  destruct (c =? QMARK).
  - destruct (find_split_hole rest HASH) as [[q f]|]; rewrite Hg; [tauto|].
    split; [tauto|]. intros H. split; auto. destruct acc; [apply fragment_nil | reflexivity].
  - rewrite Hg. split; [tauto|]. intros H; split; auto. apply query_nil.
Qed.

(** ** hier-part / relative-part *)
Lemma path_no_qh S s : scan (f_pchar_slash S) s = true -> none qh s = true.
Proof.
  apply scan_none. intros c Hc. unfold qh in Hc. delim_cases Hc;
    destruct S; repeat split; try reflexivity; discriminate.
Qed.
Lemma abempty_no_qh S s : path_abempty S s -> none qh s = true.
Proof.
  intros H. apply path_abempty_scan in H. destruct H as [->|(r & -> & Hr)]; [easy|].
  apply path_no_qh in Hr. rewrite none_cons, Hr. reflexivity.
Qed.

Lemma sqh_weak_qh s : none sqh s = true -> none qh s = true.
Proof.
  apply none_weaken. intros c. unfold qh, sqh. intros H. apply orb_prop in H. destruct H as [->| ->];
  now rewrite ?orb_true_r.
Qed.

Lemma authority_path_iff S i : validate_authority_path_abempty S i = Ok tt <-> (authority S +++ path_abempty S) i.
Proof.
  unfold validate_authority_path_abempty.
  assert (Hg : forall a p, (validate_authority S a ;; validate_path_abempty S p) = Ok tt <->
     authority S a /\ path_abempty S p).
  { intros a p. rewrite <- validate_authority_iff, <- validate_path_abempty_iff.
    destruct (validate_authority S a) as [[]|e|]; cbn [bind]; [tauto|now split|now split]. }
  unfold find_split. split.
  - destruct (split_first (N.eqb SLASH) i) as [[[a c] b]|] eqn:E; rewrite Hg; intros [Ha Hp].
    + apply split_first_some in E. destruct E as (-> & _ & _). now apply cat_intro.
    + exists i, []. rewrite app_nil_r. auto.
  - intros (a & p & -> & Ha & Hp).
    assert (Hn : none (N.eqb SLASH) a = true).
    { apply authority_none in Ha. eapply none_weaken; [|exact Ha]. intros c Hc.
      apply N.eqb_eq in Hc. now subst. }
    pose proof Hp as Hp'. apply path_abempty_scan in Hp'. destruct Hp' as [->|(r & -> & _)].
    + rewrite app_nil_r, split_first_none_app by assumption. now apply Hg.
    + rewrite split_first_app by easy. now apply Hg.
Qed.
Lemma authority_path_np S i : validate_authority_path_abempty S i <> Panic.
Proof.
  unfold validate_authority_path_abempty.
  destruct (match find_split i SLASH with Some v => v | None => (i, []) end) as [a p].
  destruct (validate_authority S a) as [[]| |] eqn:E; cbn [bind].
  - apply validate_path_abempty_np. - discriminate. - now apply validate_authority_np in E.
Qed.
Lemma authority_path_no_qh S i : (authority S +++ path_abempty S) i -> none qh i = true.
Proof.
  intros (a & p & -> & Ha & Hp). rewrite none_app.
  rewrite (abempty_no_qh _ _ Hp), sqh_weak_qh; [easy|]. now apply authority_none in Ha.
Qed.

(** [P] is the language of paths without authority. *)
Definition hier_with S (P : lang) : lang := (tok "//" +++ authority S +++ path_abempty S) <|> P.

Lemma strip_qh i a c r pre : none qh a = true -> i = a ++ c :: r -> none qh pre = true -> qh c = true ->
  strip_prefix pre i = None -> strip_prefix pre a = None.
Proof.
  intros Ha -> Hp Hc H. apply strip_prefix_none. intros x ->.
  rewrite strip_prefix_none in H. apply (H (x ++ c :: r)). now rewrite app_assoc.
Qed.

Lemma after_scheme_iff S (pv : str -> vres) (P : lang) acc i :
  (forall x, strip_prefix [SLASH; SLASH] x = None -> (pv x = Ok tt <-> P x)) ->
  (forall x, P x -> none qh x = true) ->
  (forall x, P x -> strip_prefix [SLASH; SLASH] x = None) ->
  (validate_after_scheme S pv acc i = Ok tt <->
   (hier_with S P +++ opt (tok "?" +++ query S) +++ opt (tok "#" +++ F_of S acc)) i).
Proof.
  intros Hpv HP Hss. unfold validate_after_scheme.
  assert (Hv : forall (x : vres) c r, c = QMARK \/ c = HASH ->
    ((do ap <- (x ;; Ok (Some (c, r))) ;
      match ap with Some (first, rest) => validate_after_path S first rest acc | None => Ok tt end) = Ok tt
      <-> x = Ok tt /\ after_ok (query S) (F_of S acc) c r)).
  { intros x c r Hc. destruct x as [[]|e|]; cbn [bind]; [|now split|now split].
    rewrite validate_after_path_iff by assumption. tauto. }
  assert (Hv0 : forall x : vres,
    ((do ap <- (x ;; Ok (@None (N * str))) ;
      match ap with Some (first, rest) => validate_after_path S first rest acc | None => Ok tt end) = Ok tt
      <-> x = Ok tt)).
  { intros x. destruct x as [[]|e|]; cbn [bind]; split; easy. }
  assert (Hc : forall x a c r, find_split2_hole x QMARK HASH = Some (a, c, r) ->
     x = a ++ c :: r /\ none qh a = true /\ qh c = true /\ (c = QMARK \/ c = HASH)).
  { intros x a c r H. apply split_first_some in H. destruct H as (-> & Hn & Hc). repeat split; auto.
    apply orb_prop in Hc. destruct Hc as [Hc|Hc]; apply N.eqb_eq in Hc; auto. }
  unfold hier_with. rewrite alt_cat. rewrite (qf_iff P); [|auto|apply query_no_hash].
  rewrite cat_assoc, tok_cat.
  destruct (strip_prefix [SLASH; SLASH] i) as [r|] eqn:E.
  - apply strip_prefix_some in E. cbn [app] in E.
    assert (Hnp : ~ match find_split2_hole i QMARK HASH with
                  | Some (a, c, rest) => P a /\ after_ok (query S) (F_of S acc) c rest
                  | None => P i end).
    { destruct (find_split2_hole i QMARK HASH) as [[[a c] rest]|] eqn:Es.
      - apply Hc in Es. destruct Es as (Ei & Hn & Hcc & Hq). intros [Ha _].
        apply Hss in Ha. rewrite strip_prefix_none in Ha. subst i.
        destruct a as [|x [|y a]]; cbn in Ei; inversion Ei; subst; try discriminate.
        now apply (Ha a).
      - intros Ha. apply Hss in Ha. subst i. discriminate. }
    assert (Hex : (exists b, i = lit "//" ++ b /\
       ((authority S +++ path_abempty S) +++ opt (tok "?" +++ query S) +++ opt (tok "#" +++ F_of S acc)) b)
       <-> ((authority S +++ path_abempty S) +++ opt (tok "?" +++ query S) +++ opt (tok "#" +++ F_of S acc)) r).
    { subst i. split; [intros (b & [= ->] & H); exact H | intros H; exists r; auto]. }
    rewrite Hex. clear Hex.
    rewrite (qf_iff (authority S +++ path_abempty S)); [|apply authority_path_no_qh|apply query_no_hash].
    destruct (find_split2_hole r QMARK HASH) as [[[a c] rest]|] eqn:Er.
    + apply Hc in Er. rewrite Hv by tauto. rewrite authority_path_iff. tauto.
    + rewrite Hv0, authority_path_iff. tauto.
  - assert (Hno : ~ exists b, i = lit "//" ++ b /\
       ((authority S +++ path_abempty S) +++ opt (tok "?" +++ query S) +++ opt (tok "#" +++ F_of S acc)) b).
    { intros (b & -> & _). rewrite strip_prefix_none in E. now apply (E b). }
    destruct (find_split2_hole i QMARK HASH) as [[[a c] rest]|] eqn:Er.
    + apply Hc in Er. destruct Er as (Ei & Hn & Hcc & Hq). rewrite Hv by tauto.
      rewrite Hpv; [tauto|]. eapply strip_qh; eauto.
    + rewrite Hv0, Hpv by assumption. tauto.
Qed.

Lemma after_scheme_np S (pv : str -> vres) acc i :
  (forall x, strip_prefix [SLASH; SLASH] x = None -> pv x <> Panic) ->
  validate_after_scheme S pv acc i <> Panic.
Proof.
  intros Hpv. unfold validate_after_scheme.
  assert (Ha : forall c r, validate_after_path S c r acc <> Panic).
  { intros c r. unfold validate_after_path.
    destruct (if c =? QMARK then match find_split_hole r HASH with Some v => v | None => (r, []) end
              else ([], r)) as [q f].
    unfold validate_query, validate_fragment, check.
    destruct (satisfy_chars_with_pct_encoded _ _ q); cbn [bind]; [|discriminate].
    destruct (negb acc && negb (is_empty f)); [discriminate|].
    destruct (satisfy_chars_with_pct_encoded _ _ f); discriminate. }
  assert (Hv : forall (x : vres) o, x <> Panic ->
    (do ap <- (x ;; Ok o) ;
      match ap with Some (first, rest) => validate_after_path S first rest acc | None => Ok tt end) <> Panic).
  { intros x o Hx. destruct x as [[]|e|]; cbn [bind]; [|discriminate|easy].
    destruct o as [[c r]|]; [apply Ha | discriminate]. }
  destruct (strip_prefix [SLASH; SLASH] i) as [r|] eqn:E.
  - destruct (find_split2_hole r QMARK HASH) as [[[a c] rest]|]; apply Hv; apply authority_path_np.
  - destruct (find_split2_hole i QMARK HASH) as [[[a c] rest]|] eqn:Er; apply Hv; apply Hpv; auto.
    apply split_first_some in Er. destruct Er as (Ei & Hn & Hcc). eapply strip_qh; eauto.
Qed.

Lemma starts_strip p x : starts_with p x = false <-> strip_prefix p x = None.
Proof. unfold starts_with. destruct (strip_prefix p x); split; easy. Qed.

Lemma path_abs_v S x : strip_prefix [SLASH; SLASH] x = None ->
  (validate_path_absolute_authority_absent S x = Ok tt <->
   (path_absolute S <|> path_rootless S <|> path_empty) x).
Proof.
  intros H. apply starts_strip in H. rewrite path_noauth_abs.
  unfold validate_path_absolute_authority_absent. destruct x as [|c x]; cbn [is_empty]; [now split|].
  rewrite H, check_ok, path_chars_scan. tauto.
Qed.
Lemma path_rel_v S x : strip_prefix [SLASH; SLASH] x = None ->
  (validate_path_relative_authority_absent S x = Ok tt <->
   (path_absolute S <|> path_noscheme S <|> path_empty) x).
Proof.
  intros H. apply starts_strip in H. rewrite path_noauth_rel.
  unfold validate_path_relative_authority_absent, first_is_colon. rewrite H.
  destruct (find_split2_hole x SLASH COLON) as [[[a c] b]|].
  - destruct (c =? SLASH); cbn [negb].
    + rewrite check_ok, path_chars_scan. tauto.
    + split; [easy|]. intros (_ & _ & ?). easy.
  - rewrite check_ok, path_chars_scan. tauto.
Qed.
Lemma path_abs_np S x : strip_prefix [SLASH; SLASH] x = None ->
  validate_path_absolute_authority_absent S x <> Panic.
Proof.
  intros H. apply starts_strip in H. unfold validate_path_absolute_authority_absent.
  destruct (is_empty x); [discriminate|]. rewrite H. apply check_np.
Qed.
Lemma path_rel_np S x : strip_prefix [SLASH; SLASH] x = None ->
  validate_path_relative_authority_absent S x <> Panic.
Proof.
  intros H. apply starts_strip in H. unfold validate_path_relative_authority_absent. rewrite H.
  destruct (find_split2_hole x SLASH COLON) as [[[a c] b]|]; [|apply check_np].
  destruct (c =? SLASH); [apply check_np | discriminate].
Qed.

Lemma hier_abs S acc i :
  validate_after_scheme S (validate_path_absolute_authority_absent S) acc i = Ok tt <->
  (hier_part S +++ q_opt S +++ opt (tok "#" +++ F_of S acc)) i.
Proof.
  apply (after_scheme_iff S _ (path_absolute S <|> path_rootless S <|> path_empty)).
  - apply path_abs_v.
  - intros x H. apply path_noauth_abs in H. now apply (path_no_qh S).
  - intros x H. apply path_noauth_abs in H. now apply starts_strip.
Qed.
Lemma hier_rel S i :
  validate_relative_ref S i = Ok tt <-> relative_ref S i.
Proof.
  apply (after_scheme_iff S _ (path_absolute S <|> path_noscheme S <|> path_empty) true).
  - apply path_rel_v.
  - intros x H. apply path_noauth_rel in H. now apply (path_no_qh S).
  - intros x H. apply path_noauth_rel in H. now apply starts_strip.
Qed.

(** ** scheme *)
Lemma scheme_no_colon x : scheme x -> none (N.eqb COLON) x = true /\ x <> [].
Proof.
  intros H. apply cls_cat in H. destruct H as (c & b & -> & Hc & Hb). apply star_cls in Hb.
  split; [|discriminate]. rewrite none_cons.
  assert (Hn : none (N.eqb COLON) b = true).
  { eapply forallb_none_app; [|exact Hb]. intros x Hx. apply N.eqb_eq in Hx. now subst. }
  rewrite Hn, andb_true_r. destruct (N.eqb_spec COLON c); [subst; discriminate|easy].
Qed.
Definition gd (c : N) : bool := (c =? SLASH) || (c =? QMARK) || (c =? HASH).
Lemma scheme_no_gd x : scheme x -> none gd x = true.
Proof.
  intros H. apply cls_cat in H. destruct H as (c & b & -> & Hc & Hb). apply star_cls in Hb.
  rewrite none_cons. assert (Hn : none gd b = true).
  { eapply forallb_none_app; [|exact Hb]. intros x Hx. unfold gd in Hx. delim_cases Hx; reflexivity. }
  rewrite Hn, andb_true_r. destruct (gd c) eqn:E; [|easy]. unfold gd in E. delim_cases E; discriminate.
Qed.
Lemma scheme_cat (B : lang) i : (scheme +++ tok ":" +++ B) i <->
  exists s r, find_split_hole i COLON = Some (s, r) /\ scheme s /\ B r.
Proof.
  split.
  - intros (s & x & -> & Hs & Hx). apply tok_cat in Hx. destruct Hx as (r & -> & Hr).
    exists s, r. repeat split; auto. apply find_split_hole_some. split; [reflexivity|].
    now apply scheme_no_colon in Hs.
  - intros (s & r & E & Hs & Hr). apply find_split_hole_some in E. destruct E as [-> _].
    apply cat_intro; auto. apply tok_cat. exists r. auto.
Qed.

Lemma is_err_scheme s : is_err (validate_scheme s) = false <-> scheme s.
Proof.
  rewrite <- validate_scheme_iff. pose proof (validate_scheme_np s).
  destruct (validate_scheme s) as [[]| |]; split; easy.
Qed.

(** A relative reference never has a valid scheme before its first colon. *)
Lemma relative_no_scheme S i s r : relative_ref S i -> find_split_hole i COLON = Some (s, r) -> ~ scheme s.
Proof.
  intros Hr E Hs. apply find_split_hole_some in E. destruct E as [-> Hn].
  assert (Hg := scheme_no_gd _ Hs). destruct (scheme_no_colon _ Hs) as [_ Hne].
  destruct Hr as (p & qf & E & Hp & Hqf).
  destruct Hp as [Hp|Hp].
  - apply tok_cat in Hp. destruct Hp as (x & -> & _). destruct s as [|c s]; [easy|].
    cbn in E. injection E as -> _. discriminate.
  - apply path_noauth_rel in Hp. destruct Hp as (Hsc & Hss & Hf).
    (* p must contain the colon *)
    assert (Hq : qf = [] \/ exists c y, qf = c :: y /\ gd c = true).
    { destruct Hqf as (q & f & -> & [-> |Hq] & Hf').
      - destruct Hf' as [-> |Hf']; [now left|]. apply tok_cat in Hf'. destruct Hf' as (y & -> & _).
        right. exists HASH, y. auto.
      - apply tok_cat in Hq. destruct Hq as (y & -> & _). right. exists QMARK, (y ++ f). auto. }
    assert (Hx : exists y, p = s ++ COLON :: y).
    { clear - E Hq Hg. revert p E. induction s as [|c s IH]; intros [|x p] E; cbn in E.
      - destruct Hq as [-> |(c & y & -> & Hc)]; [easy|]. inversion E. subst. discriminate Hc.
      - inversion E. subst. eexists; reflexivity.
      - destruct Hq as [-> |(c' & y & -> & Hc)]; [easy|]. inversion E. subst.
        rewrite none_cons, Hc in Hg. discriminate.
      - injection E as -> E. rewrite none_cons in Hg. bdestr. apply IH in E; auto.
        destruct E as (y & ->). now exists y. }
    destruct Hx as (y & ->). unfold first_is_colon, find_split2_hole in Hf.
    rewrite split_first_app in Hf; [discriminate| |reflexivity].
    clear - Hn Hg. induction s as [|c s IH]; [easy|]. rewrite none_cons in *. bdestr.
    rewrite IH by assumption. rewrite (N.eqb_sym c COLON), H1. unfold gd in H.
    destruct (c =? SLASH); [discriminate|reflexivity].
Qed.

Theorem validate_uri_iff S i : validate_uri S i = Ok tt <-> IRI S i.
Proof.
  unfold validate_uri, validate_uri_reference_common, IRI. rewrite scheme_cat.
  destruct (find_split_hole i COLON) as [[s r]|]; cbn [is_relative_allowed is_fragment_allowed].
  - destruct (is_err (validate_scheme s)) eqn:E.
    + split; [easy|]. intros (s' & r' & [= <- <-] & Hs & _). apply is_err_scheme in Hs. congruence.
    + apply is_err_scheme in E. rewrite hier_abs. split; [eauto 6|].
      intros (s' & r' & [= <- <-] & Hs & H). exact H.
  - split; [easy|]. intros (s' & r' & ? & _). easy.
Qed.

(** The language accepted by the absolute validator. *)
Definition absolute_code S : lang := scheme +++ tok ":" +++ hier_part S +++ q_opt S +++ opt (tok "#").
Theorem validate_absolute_iff S i : validate_absolute_uri S i = Ok tt <-> absolute_code S i.
Proof.
  unfold validate_absolute_uri, validate_uri_reference_common, absolute_code. rewrite scheme_cat.
  assert (Hh : forall r, (hier_part S +++ q_opt S +++ opt (tok "#" +++ eps)) r <->
                         (hier_part S +++ q_opt S +++ opt (tok "#")) r).
  { intros r. split; apply cat_impl; auto; intros x; apply cat_impl; auto; intros y; (intros [H|H]; [now left|right]).
    - apply tok_cat in H. destruct H as (b & -> & ->). reflexivity.
    - apply tok_cat. exists []. rewrite app_nil_r. split; [exact H|reflexivity]. }
  destruct (find_split_hole i COLON) as [[s r]|]; cbn [is_relative_allowed is_fragment_allowed].
  - destruct (is_err (validate_scheme s)) eqn:E.
    + split; [easy|]. intros (s' & r' & [= <- <-] & Hs & _). apply is_err_scheme in Hs. congruence.
    + apply is_err_scheme in E. rewrite hier_abs. cbn [F_of]. rewrite Hh. split; [eauto 6|].
      intros (s' & r' & [= <- <-] & Hs & H). exact H.
  - split; [easy|]. intros (s' & r' & ? & _). easy.
Qed.

Theorem validate_uri_reference_iff S i : validate_uri_reference S i = Ok tt <-> IRI_reference S i.
Proof.
  unfold IRI_reference, alt. rewrite <- validate_uri_iff.
  unfold validate_uri, validate_uri_reference, validate_uri_reference_common.
  destruct (find_split_hole i COLON) as [[s r]|] eqn:Es; cbn [is_relative_allowed is_fragment_allowed].
  - destruct (is_err (validate_scheme s)) eqn:E.
    + rewrite hier_rel. split; [auto|]. intros [H|H]; [easy|auto].
    + apply is_err_scheme in E. split; [auto|]. intros [H|H]; [auto|].
      exfalso. eapply relative_no_scheme; eauto.
  - rewrite hier_rel. split; [auto|]. intros [H|H]; [easy|auto].
Qed.

Lemma validate_common_np S i rule : validate_uri_reference_common S i rule <> Panic.
Proof.
  unfold validate_uri_reference_common, validate_relative_ref.
  assert (Hr : validate_after_scheme S (validate_path_relative_authority_absent S) true i <> Panic)
    by (apply after_scheme_np, path_rel_np).
  destruct (find_split_hole i COLON) as [[s r]|].
  - destruct (is_err (validate_scheme s)); [destruct (is_relative_allowed rule); [auto|discriminate]|].
    apply after_scheme_np, path_abs_np.
  - destruct (is_relative_allowed rule); [auto|discriminate].
Qed.
Lemma validate_relative_np S i : validate_relative_ref S i <> Panic.
Proof. apply after_scheme_np, path_rel_np. Qed.
