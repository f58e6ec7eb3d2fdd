(** * Builder (proofs only), part 2. *)
From Verif Require Import Base Chars Rfc3986 Utf8 CompSpec RfcResolve PctSpec NormSpec EditSpec MValidate MTrusted MFormat MPct MPath MNormalize MSearch
  MEdit MBuild BuildSpec PBase PScan PHost PAuth PValidate PTrusted PComps PAscii PTypes PSearch PPath PPath2 PPath3 PPath4 PPct PPct2 PPct3 PPct4 PPath5 PRds PNorm PNorm2 PNorm3 PNorm6 PNorm7
  PEdit PBuild.

(** ** Paths *)
Lemma find_hi (f : N -> bool) bs r : Forall (fun b => 128 <= b) bs -> (forall b, 128 <= b -> f b = false) -> find f (bs ++ r) = find f r.
Proof. intros H A. induction H as [|b bs Hb Hbs IH]; auto. cbn [app find]. now rewrite A. Qed.
Lemma colon_first_eq p : colon_first p = first_is_colon p.
Proof.
  unfold colon_first, first_is_colon, prior_byte2_p, find_byte, find_split2_hole, utf8s.
  assert (G : forall p, find (is2 SLASH COLON) (flat_map utf8 p) = match split_first (fun c => (c =? SLASH) || (c =? COLON)) p with Some (_, c, _) => Some c | None => None end).
  { induction p0 as [|c r IH]; auto. cbn [flat_map split_first]. destruct (N.ltb_spec c 128) as [L|L].
    - replace (utf8 c) with [c] by (unfold utf8; now replace (c <? 128) with true by (symmetry; now apply N.ltb_lt)). cbn [app find]. change (is2 SLASH COLON c) with ((c =? SLASH) || (c =? COLON)). destruct ((c =? SLASH) || (c =? COLON)); auto. rewrite IH.
      destruct (split_first _ r) as [[[? ?] ?]|]; reflexivity.
    - rewrite find_hi.
      + rewrite IH. replace (c =? SLASH) with false by (symmetry; apply N.eqb_neq; unfold SLASH; lia). replace (c =? COLON) with false by (symmetry; apply N.eqb_neq; unfold COLON; lia).
        cbn [orb]. destruct (split_first _ r) as [[[? ?] ?]|]; reflexivity.
      + unfold utf8. replace (c <? 128) with false by (symmetry; now apply N.ltb_ge). destruct (c <? 2048); [repeat constructor; lia|]. destruct (c <? 65536); repeat constructor; lia.
      + intros b Hb. unfold is2, SLASH, COLON. apply orb_false_intro; apply N.eqb_neq; lia. }
  rewrite G. destruct (split_first _ p) as [[[a c] r]|] eqn:E; auto. apply split_first_some in E. destruct E as (_ & _ & H). apply orb_prop in H. destruct H as [H|H]; apply N.eqb_eq in H; subst; reflexivity.
Qed.

Lemma sw1 x r : starts_with [SLASH] (x :: r) = (SLASH =? x).
Proof. unfold starts_with. change (strip_prefix [SLASH] (x :: r)) with (if SLASH =? x then Some r else None). now destruct (SLASH =? x). Qed.
Lemma pc_abs_run cs : run pc_write (None, Some true) cs OOk = match concat cs with
  | [] => ((None, Some true), OOk)
  | X => ((Some (if starts_with [SLASH] X then StartsWithDoubleSlash else CommonAbsolute), Some true), OErr) end.
Proof.
  induction cs as [|c r IH]; auto. cbn [run concat]. unfold pc_write at 1. unfold pc_after_first at 1. destruct c as [|x c]; cbn [is_empty app]; auto. now rewrite !sw1.
Qed.
Lemma pc_rel_run cs : (exists a, run pc_write (None, Some false) cs OOk = ((None, Some a), OOk)) \/
  (exists r a, run pc_write (None, Some false) cs OOk = ((Some r, a), OErr) /\ (r = CommonRelative \/ r = RelativeFirstSegmentHasColon)).
Proof.
  induction cs as [|c r IH]; [left; exists false; reflexivity|]. cbn [run]. change (pc_write (None, Some false) c) with (pc_after_first false c). unfold pc_after_first. destruct (is_empty c); auto.
  destruct (find_split_hole c SLASH) as [[f ?]|].
  - right. eexists _, _. split; [reflexivity|]. destruct (existsb _ f); auto.
  - destruct (existsb _ c); auto. right. eexists _, _. split; [reflexivity|]. auto.
Qed.
Definition pc_rel (pc : PathCharacteristic) : Prop := pc = CommonRelative \/ pc = RelativeFirstSegmentHasColon.
Lemma pc_start cs : let X := concat cs in exists pc, (match run pc_write (None, None) cs OOk with
  | (_, OPanic) => Panic
  | (_, OOk) => Ok CommonRelative
  | ((Some r, _), OErr) => Ok r
  | ((None, _), OErr) => Panic
  end : may PathCharacteristic) = Ok pc /\
  match X with
  | [] => pc = CommonRelative
  | c :: r => if c =? SLASH then pc = match r with [] => CommonRelative | _ => if starts_with [SLASH] r then StartsWithDoubleSlash else CommonAbsolute end
              else pc_rel pc
  end.
Proof.
  cbv zeta. induction cs as [|c r IH]; [eexists; split; reflexivity|]. cbn [run concat]. destruct c as [|x c].
  - unfold pc_write at 1. cbn [is_empty app]. exact IH.
  - unfold pc_write at 1. cbn [is_empty app]. change (strip_prefix [SLASH] (x :: c)) with (if SLASH =? x then Some c else None). rewrite (N.eqb_sym SLASH x). destruct (x =? SLASH) eqn:E.
    + assert (A := pc_abs_run (c :: r)). cbn [run concat] in A. unfold pc_write at 1 in A.
      assert (Y : (match pc_after_first true c with Cont st' => run pc_write st' r OOk | Stop st' => (st', OErr) end) = match c ++ concat r with
        | [] => ((None, Some true), OOk)
        | X => ((Some (if starts_with [SLASH] X then StartsWithDoubleSlash else CommonAbsolute), Some true), OErr) end) by exact A.
      rewrite Y. destruct (c ++ concat r) as [|y z]; eexists; split; reflexivity.
    + destruct (pc_rel_run ((x :: c) :: r)) as [(a & A)|(q & a & A & Hq)]; cbn [run] in A; unfold pc_write at 1 in A.
      * assert (Y : (match pc_after_first false (x :: c) with Cont st' => run pc_write st' r OOk | Stop st' => (st', OErr) end) = ((None, Some a), OOk)) by exact A.
        rewrite Y. eexists. split; [reflexivity|now left].
      * assert (Y : (match pc_after_first false (x :: c) with Cont st' => run pc_write st' r OOk | Stop st' => (st', OErr) end) = ((Some q, a), OErr)) by exact A.
        rewrite Y. eexists. split; [reflexivity|exact Hq].
Qed.
Lemma pc_ok S p m a X : outs (fmt_write_normalize S m a p) = Some (X, tt) -> exists pc, from_path_to_display S p m a = Ok pc /\
  match X with
  | [] => pc = CommonRelative
  | c :: r => if c =? SLASH then pc = match r with [] => CommonRelative | _ => if starts_with [SLASH] r then StartsWithDoubleSlash else CommonAbsolute end
              else pc_rel pc
  end.
Proof.
  intros H. unfold from_path_to_display, run_display. unfold outs in H. destruct (fmt_write_normalize S m a p) as [cs [[]| |]]; try discriminate. injection H as <-. cbn [fst snd end_of]. apply pc_start.
Qed.
Lemma pn_colon S p t : pct_normal S p t -> first_is_colon p = false -> first_is_colon t = false.
Proof.
  intros P H. assert (W := pn_wf_l _ _ _ P).
  assert (F : forall a ta, pct_normal S a ta -> none (fun c => (c =? SLASH) || (c =? COLON)) a = true -> none (fun c => (c =? SLASH) || (c =? COLON)) ta = true).
  { intros a ta Pa Na. set (f := fun c : N => negb ((c =? SLASH) || (c =? COLON))).
    assert (Sa : scan f a = true).
    { apply pn_wf_l in Pa. clear - Pa Na. subst f. induction Pa as [|c s Hc Pa IH|u l s Hu Hl Pa IH]; auto.
      - rewrite none_cons in Na. apply andb_prop in Na. destruct Na as [N1 N2]. rewrite scan_cons by auto. now rewrite N1, IH.
      - rewrite !none_cons in Na. apply andb_prop in Na. destruct Na as [_ Na]. apply andb_prop in Na. destruct Na as [_ Na]. apply andb_prop in Na. destruct Na as [_ Na].
        change 37 with PCT. rewrite scan_pct. change (is_hexdigit u) with (HEXDIG u). change (is_hexdigit l) with (HEXDIG l). rewrite Hu, Hl. now apply IH. }
    assert (St : scan f ta = true). { eapply pn_scan; [|exact Pa|exact Sa]. intros c Hc. subst f. cbn beta. clear - Hc. unfold SLASH, COLON. destruct (N.eqb_spec c 47) as [->|]; [destruct S; discriminate|]. destruct (N.eqb_spec c 58) as [->|]; [destruct S; discriminate|]. reflexivity. }
    eapply scan_none; [|exact St]. intros c Hc. subst f. cbn beta. rewrite Hc. split; auto. apply orb_prop in Hc. destruct Hc as [Hc|Hc]; apply N.eqb_eq in Hc; subst; split; [reflexivity|discriminate|reflexivity|discriminate]. }
  unfold first_is_colon, find_split2_hole in *. destruct (split_first _ p) as [[[a c] r]|] eqn:E.
  - apply split_first_some in E. destruct E as (-> & Na & Hc). assert (c = SLASH) by (apply negb_false_iff, N.eqb_eq in H; exact H). subst c.
    apply wf_slash in W. destruct W as [Wa _]. apply pn_split in P; auto; [|discriminate]. destruct P as (ta & tb & -> & Pa & _).
    rewrite (split_first_app _ ta SLASH tb); auto. eapply F; eauto.
  - destruct (split_first _ t) as [[[a c] r]|] eqn:E2; auto. exfalso. apply split_first_none in E. apply (F _ _ P) in E. apply split_first_some in E2. destruct E2 as (-> & _ & Hc).
    rewrite none_app, none_cons in E. rewrite Hc in E. cbn in E. rewrite andb_false_r in E. discriminate.
Qed.

(** ** Validation *)
Definition oauth_text (b : Builder) : option str := option_map authority_text (b_authority b).
Lemma some_map b : is_some (b_authority b) = is_some (oauth_text b).
Proof. unfold oauth_text. now destruct (b_authority b). Qed.
Lemma opt_ok {A} (v : A -> vres) (P : A -> Prop) o : (forall x, v x = Ok tt <-> P x) ->
  (match o with Some x => v x | None => Ok tt end = Ok tt <-> match o with Some x => P x | None => True end).
Proof. intros H. destruct o; [apply H|tauto]. Qed.
Lemma validate_builder_iff S b abs : values_ok b ->
  (validate_builder_for_iri_reference S b = Ok abs <-> parts_ok S b /\ check_path S b = Ok (true, abs)).
Proof.
  intros V. apply (proj1 (values_auth b)) in V. unfold validate_builder_for_iri_reference, parts_ok.
  assert (Hs : match b_scheme b return res ErrorKind unit with Some s => validate_scheme s | None => Ok tt end = Ok tt <-> opt_in scheme (b_scheme b)) by (apply opt_ok, validate_scheme_iff).
  assert (Ha : match b_authority b return res ErrorKind unit with Some a => validate_authority_builder S a | None => Ok tt end = Ok tt <-> match b_authority b with Some a => authority_parts_ok S a | None => True end).
  { revert V. destruct (b_authority b) as [a|]; intros V; [exact (vab_iff S a V)|tauto]. }
  assert (Hq : match b_query b return res ErrorKind unit with Some q => validate_query S q | None => Ok tt end = Ok tt <-> opt_in (query S) (b_query b)) by (apply opt_ok, validate_query_iff).
  assert (Hf : match b_fragment b return res ErrorKind unit with Some f => validate_fragment S f | None => Ok tt end = Ok tt <-> opt_in (fragment S) (b_fragment b)) by (apply opt_ok, validate_fragment_iff).
  rewrite <- Hs, <- Ha, <- Hq, <- Hf. clear Hs Ha Hq Hf V.
  generalize (match b_query b return res ErrorKind unit with Some q => validate_query S q | None => Ok tt end) (match b_fragment b return res ErrorKind unit with Some q => validate_fragment S q | None => Ok tt end). intros Y Z.
  generalize (match b_scheme b return res ErrorKind unit with Some s => validate_scheme s | None => Ok tt end). intros X.
  set (A := match b_authority b return res ErrorKind unit with Some a => validate_authority_builder S a | None => Ok tt end). clearbody A.
  destruct X as [[]| |]; cbn [bind]; [|split; [discriminate|intros [[? _] _]; discriminate]..].
  destruct A as [[]| |]; cbn [bind]; [|split; [discriminate|intros [(_ & ? & _) _]; discriminate]..].
  destruct (check_path S b) as [[acc ab]|[]|]; cbn [bind up]; [|split; [discriminate|intros [_ ?]; discriminate]].
  destruct acc; cbn [negb]; [|split; [discriminate|intros [_ ?]; discriminate]].
  destruct Y as [[]| |]; cbn [bind]; [|split; [discriminate|intros [(_ & _ & ? & _) _]; discriminate]..].
  destruct Z as [[]| |]; cbn [bind]; [|split; [discriminate|intros [(_ & _ & _ & ?) _]; discriminate]..].
  split; [intros [= <-]; auto|intros [_ [= <-]]; auto].
Qed.
Lemma build_iff S t b x : editable t = true -> values_ok b ->
  (build S t b = Ok x <-> x = (b, snd x) /\ fits t (requested b) /\ parts_ok S b /\ check_path S b = Ok (true, snd x)).
Proof.
  intros Ht V. unfold build. destruct x as [b' abs]. cbn [snd].
  assert (G : (do abs <- validate_builder_for_iri_reference S b ; Ok (b, abs)) = Ok (b', abs) <-> (b', abs) = (b, abs) /\ parts_ok S b /\ check_path S b = Ok (true, abs)).
  { rewrite <- validate_builder_iff by auto. destruct (validate_builder_for_iri_reference S b) as [ab| |]; cbn [bind]; [|split; [discriminate|intros (_ & ?); discriminate]..].
    split; [intros [= <- <-]; auto|intros ([= <-] & [= <-]); auto]. }
  unfold requested. destruct t; try discriminate; cbn [fits c_s c_f]; destruct (b_scheme b) as [s|]; cbn [is_some negb defined bind].
  all: try (destruct (b_fragment b); cbn [is_some bind]).
  all: try rewrite G; try (split; [discriminate|intros (_ & H & _); try discriminate; destruct H; discriminate]).
  all: intuition.
Qed.

(** ** Without normalization *)
Lemma rule_path S C p : path_rule S C p -> path S p.
Proof.
  intros H. apply path_scan. unfold path_rule in H. destruct (c_a C) as [a|] eqn:A.
  - now apply (path_ok_class S (c_s C) (Some a)) in H.
  - destruct (c_s C) as [s|] eqn:E; [now apply (path_ok_class S (Some s) None) in H|now apply (path_ok_class S None None) in H].
Qed.
Lemma sw_slash p : starts_with [SLASH] p = true <-> exists r, p = SLASH :: r.
Proof.
  destruct p as [|c r]; [split; [discriminate|intros (? & ?); discriminate]|]. rewrite sw1, N.eqb_eq. split; [intros <-; eauto|intros (r' & [= -> _]); auto].
Qed.
Lemma slashy_b p : (starts_with [SLASH] p || is_empty p) = true <-> slashy p.
Proof. unfold slashy. rewrite <- sw_slash. destruct p; cbn [is_empty]; [tauto|]. rewrite orb_false_r. split; [auto|intros [?|?]; [discriminate|auto]]. Qed.
Lemma check_raw S b : b_normalize b = false -> exists acc, check_path S b = Ok (acc, starts_with [SLASH] (b_path b)) /\
  (path S (b_path b) -> (acc = true <-> path_rule S (requested b) (b_path b))).
Proof.
  intros N. unfold check_path. cbv zeta. rewrite N. eexists. split; [reflexivity|]. intros P. apply path_scan in P. unfold path_rule, requested. cbn [c_a c_s].
  destruct (b_authority b) as [a|]; cbn [is_some option_map].
  - rewrite slashy_b. split; [now apply abempty_intro|]. intros H. apply (path_ok_class S None (Some (authority_text a))) in H. now apply H.
  - destruct (b_scheme b) as [s|]; cbn [is_some orb].
    + rewrite path_noauth_abs, negb_true_iff. tauto.
    + rewrite path_noauth_rel. destruct (starts_with [SLASH] (b_path b)) eqn:E; rewrite negb_true_iff.
      * assert (first_is_colon (b_path b) = false); [|tauto]. apply sw_slash in E. destruct E as (r & ->). reflexivity.
      * rewrite colon_first_eq. assert (starts_with [SLASH; SLASH] (b_path b) = false); [|tauto].
        destruct (starts_with [SLASH; SLASH] (b_path b)) eqn:D; auto. apply starts_slash_iff in D. destruct D as (r & D). rewrite D in E. discriminate.
Qed.
Lemma fmt_builder_raw S b abs : b_normalize b = false -> outs (fmt_builder S b abs) =
  Some (recompose (b_scheme b) (oauth_text b) (b_path b) (b_query b) (b_fragment b), tt).
Proof.
  intros N. unfold fmt_builder, recompose, oauth_text. rewrite N. cbn [negb].
  eapply outs_bind with (a := tt). { destruct (b_scheme b) as [s|]; [|reflexivity]. eapply outs_bind; apply outs_write. }
  cbv beta. eapply outs_bind with (a := tt). { destruct (b_authority b) as [a|]; [|reflexivity]. cbn [option_map]. eapply outs_bind; [apply outs_write|]. apply fmt_auth_raw. }
  cbv beta. eapply outs_bind with (a := tt). { apply outs_write. }
  cbv beta. eapply outs_bind with (a := tt). { destruct (b_query b) as [s|]; [|reflexivity]. eapply outs_bind; apply outs_write. }
  cbv beta. destruct (b_fragment b) as [s|]; [|reflexivity]. eapply outs_bind; apply outs_write.
Qed.
Lemma representable_comps S b : values_ok b -> representable S b -> comps_ok S (requested b).
Proof.
  intros V (Hs & Ha & Hp & Hq & Hf). unfold comps_ok, components_ok, requested. cbn [c_s c_a c_p c_q c_f]. split; [auto|]. split; [|split; [auto|]; split; [auto|unfold path_rule, requested in Hp; cbn [c_a c_s] in Hp; revert Hp; destruct (option_map authority_text (b_authority b)); destruct (b_scheme b); auto]].
  apply (proj1 (values_auth b)) in V. destruct (b_authority b) as [a|]; cbn [option_map opt_in]; auto. now apply parts_authority.
Qed.
Lemma fits_class t C : editable t = true -> fits t C -> ty_class t C.
Proof. destruct t; try discriminate; cbn; try tauto. now intros _ ->. Qed.
Lemma build_accepts debug S t b : editable t = true -> values_ok b -> b_normalize b = false -> representable S b -> fits t (requested b) ->
  exists x i, build S t b = Ok x /\ text (built_display S x) = Ok i /\ reads S i (requested b) /\ new S t i = Ok i /\
  built_to_dedicated_string S debug t x = Ok i.
Proof.
  intros Ht V N R F. assert (O := representable_comps S b V R). destruct (check_raw S b N) as (acc & E & Hacc).
  assert (acc = true). { apply Hacc; [|apply R]. eapply rule_path, R. } subst acc.
  set (i := recompose (b_scheme b) (oauth_text b) (b_path b) (b_query b) (b_fragment b)).
  assert (Rd : reads S i (requested b)) by (split; [exact O|reflexivity]).
  assert (Nw : new S t i = Ok i) by (apply (class_new S t i _ Ht Rd); now apply fits_class).
  exists (b, starts_with [SLASH] (b_path b)), i. split.
  { apply build_iff; auto. cbn [snd]. split; [reflexivity|]. split; auto. split; auto. destruct R as (A & B & C & D & G). repeat split; auto. }
  assert (T : text (built_display S (b, starts_with [SLASH] (b_path b))) = Ok i) by (apply outs_text with (a := tt), fmt_builder_raw, N).
  split; [exact T|]. split; auto. split; auto. unfold built_to_dedicated_string. rewrite T. now apply unchecked_new.
Qed.
Lemma build_only S t b x : editable t = true -> values_ok b -> b_normalize b = false -> path S (b_path b) -> build S t b = Ok x -> representable S b /\ fits t (requested b).
Proof.
  intros Ht V N P H. apply build_iff in H; auto. destruct H as (_ & F & (A & B & C & D) & E). split; auto. destruct (check_raw S b N) as (acc & E' & Hacc). rewrite E' in E. injection E as -> _.
  repeat split; auto. now apply Hacc.
Qed.
Lemma validate_np_raw S b : b_normalize b = false -> validate_builder_for_iri_reference S b <> Panic.
Proof.
  intros N. unfold validate_builder_for_iri_reference. destruct (check_raw S b N) as (acc & -> & _). cbn [up].
  destruct (b_scheme b) as [s|]; [destruct (validate_scheme s) as [[]| |] eqn:E; cbn [bind]; [|discriminate|now apply validate_scheme_np in E]|cbn [bind]].
  all: destruct (b_authority b) as [a|]; [destruct (validate_authority_builder S a) as [[]| |] eqn:E2; cbn [bind]; [|discriminate|now apply vab_np in E2]|cbn [bind]].
  all: destruct acc; cbn [negb]; [|discriminate].
  all: destruct (b_query b) as [q|]; [destruct (validate_query S q) as [[]| |] eqn:E3; cbn [bind]; [|discriminate|now apply check_np in E3]|cbn [bind]].
  all: destruct (b_fragment b) as [f|]; [destruct (validate_fragment S f) as [[]| |] eqn:E4; cbn [bind]; [discriminate|discriminate|now apply check_np in E4]|cbn [bind]; discriminate].
Qed.
Lemma build_total S t b : b_normalize b = false -> (exists x, build S t b = Ok x) \/ (exists e, build S t b = Err e).
Proof.
  intros N. assert (H := validate_np_raw S b N). destruct (build S t b) as [x|e|] eqn:E; eauto. exfalso. unfold build in E.
  destruct (validate_builder_for_iri_reference S b); [| |congruence].
  all: destruct t; cbn [bind] in E; try discriminate; destruct (b_scheme b); cbn [is_some negb bind] in E; try discriminate; destruct (b_fragment b); cbn [is_some bind] in E; discriminate.
Qed.
