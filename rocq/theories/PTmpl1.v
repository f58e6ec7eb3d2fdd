(** * Proofs for C27: the template validator. *)
From Verif Require Import Base Chars Rfc3986 Utf8 PctSpec EncodeSpec MValidate MTrusted MFormat MSearch MPct MEncode MTemplate TemplateSpec.
From Verif Require Import PBase PScan PSearch.

(** ** Character classes *)
Definition vc (c : N) : bool := ALPHA c || DIGIT c || (c =? 95).
Definition vcd (c : N) : bool := vc c || (c =? 46).
Lemma start_ok c : (is_ascii c && is_ascii_varchar_start c) = vc c.
Proof.
  destruct (is_ascii c) eqn:E; cbn [andb].
  - apply (sweep_eq is_ascii_varchar_start vc); [vm_compute; reflexivity|assumption].
  - unfold vc, ALPHA, DIGIT, between, is_ascii in *. lia.
Qed.
Lemma cont_ok c : both is_ascii_varchar_continue (fun _ => false) c = vcd c.
Proof.
  unfold both. destruct (is_ascii c) eqn:E.
  - apply (sweep_eq is_ascii_varchar_continue vcd); [vm_compute; reflexivity|assumption].
  - unfold vcd, vc, ALPHA, DIGIT, between, is_ascii in *. lia.
Qed.
Lemma literal_ok c : (negb (is_ascii c) || negb (is_ascii_literal_char c)) = negb (literal_ascii c).
Proof.
  destruct (is_ascii c) eqn:E; cbn [negb orb].
  - f_equal. apply (sweep_eq is_ascii_literal_char literal_ascii); [vm_compute; reflexivity|assumption].
  - unfold literal_ascii, between, is_ascii in *. lia.
Qed.
Lemma literal_ascii_ascii c : literal_ascii c = true -> is_ascii c = true.
Proof. unfold literal_ascii, between, is_ascii. lia. Qed.

(** ** Names *)
Lemma varchar_iff x : varchar x <-> (exists c, x = [c] /\ vc c = true) \/ pct_encoded x.
Proof. reflexivity. Qed.
Lemma rest_scan s : star (tok "." <|> varchar) s <-> scan vcd s = true.
Proof.
  apply star_scan; [|reflexivity]. intros x. unfold alt, tok, cls, varchar, vcd. split.
  - intros [->|[(c & -> & H)|H]]; [left; exists 46; split; reflexivity| |right; exact H].
    left. exists c. split; [auto|]. change (vc c = true) in H. now rewrite H.
  - intros [(c & -> & H)|H]; [|right; right; exact H]. apply orb_prop in H as [H|H].
    + right. left. exists c. split; [reflexivity|exact H].
    + apply N.eqb_eq in H as ->. left. reflexivity.
Qed.
Definition name_b (s : str) : bool :=
  match s with
  | [] => false
  | c :: r =>
      if c =? PCT then match r with u :: l :: r' => is_hexdigit u && is_hexdigit l && scan vcd r' | _ => false end
      else vc c && scan vcd r
  end.
Lemma name_iff s : crate_varname s <-> name_b s = true.
Proof.
  unfold crate_varname. rewrite cat_iff. split.
  - intros (a & b & -> & Ha & Hb). apply rest_scan in Hb. apply (proj1 (varchar_iff a)) in Ha. destruct Ha as [(c & -> & Hc)|Ha].
    + cbn [app name_b]. destruct (N.eqb_spec c PCT) as [->|]; [discriminate Hc|]. now rewrite Hc, Hb.
    + apply pct_encoded_iff in Ha as (u & l & -> & Hu & Hl). cbn [app name_b]. now rewrite Hu, Hl, Hb.
  - destruct s as [|c r]; [discriminate|]. cbn [name_b]. destruct (N.eqb_spec c PCT) as [->|Hc].
    + destruct r as [|u [|l r]]; try discriminate. intros H; bdestr. exists [PCT; u; l], r.
      split; [reflexivity|]. split; [|now apply rest_scan].
      apply varchar_iff. right. apply pct_encoded_iff. eauto.
    + intros H; bdestr. exists [c], r. split; [reflexivity|]. split; [|now apply rest_scan].
      apply varchar_iff. left. eauto.
Qed.
Lemma utf8s_cons c r : utf8s (c :: r) = utf8 c ++ utf8s r.
Proof. reflexivity. Qed.
Lemma utf8s_ascii_cons c r : c < 128 -> utf8s (c :: r) = c :: utf8s r.
Proof. intros H. rewrite utf8s_cons, utf8_ascii_eq; auto. Qed.
Lemma utf8s_high_cons c r : 128 <= c -> exists b bs, utf8s (c :: r) = b :: bs /\ 128 <= b.
Proof.
  intros H. rewrite utf8s_cons. pose proof (utf8_high c H) as F. pose proof (utf8_len c) as L. pose proof (clen_pos c).
  destruct (utf8 c) as [|b bs]; [cbn in L; lia|]. inversion F; subst. exists b, (bs ++ utf8s r). auto.
Qed.
Lemma hex_ascii c : is_hexdigit c = true -> c < 128.
Proof. unfold is_hexdigit, is_digit, between. lia. Qed.
Lemma hex2_utf8 r : starts_with_double_hexdigits (utf8s r) = starts_with_double_hexdigits r.
Proof.
  destruct r as [|u r]; [reflexivity|]. destruct (N.ltb_spec u 128) as [Hu|Hu].
  - rewrite utf8s_ascii_cons by assumption. destruct r as [|l r]; [reflexivity|].
    destruct (N.ltb_spec l 128) as [Hl|Hl].
    + now rewrite utf8s_ascii_cons.
    + destruct (utf8s_high_cons l r Hl) as (b & bs & -> & Hb). cbn [starts_with_double_hexdigits].
      replace (is_hexdigit b) with false by (unfold is_hexdigit, is_digit, between; lia).
      replace (is_hexdigit l) with false by (unfold is_hexdigit, is_digit, between; lia). reflexivity.
  - destruct (utf8s_high_cons u r Hu) as (b & bs & -> & Hb).
    unfold starts_with_double_hexdigits.
    replace (is_hexdigit b) with false by (unfold is_hexdigit, is_digit, between; lia).
    replace (is_hexdigit u) with false by (unfold is_hexdigit, is_digit, between; lia).
    now destruct bs, r.
Qed.
Lemma from_1 c r : c < 128 -> str_from (c :: r) 1 = Ok r.
Proof. intros H. apply (from_after [] c r H). Qed.
Lemma from_3 c u l r : c < 128 -> u < 128 -> l < 128 -> str_from (c :: u :: l :: r) 3 = Ok r.
Proof.
  intros Hc Hu Hl. rewrite <- (from_after [c; u] l r Hl). cbn [app]. f_equal. cbn [blen].
  unfold clen. now rewrite (proj2 (N.ltb_lt _ _) Hc), (proj2 (N.ltb_lt _ _) Hu).
Qed.
Lemma validate_varname_eq s off :
  validate_varname s off = if name_b s then Ok tt else terr InvalidExpression off.
Proof.
  unfold validate_varname. destruct s as [|c r]; [reflexivity|].
  destruct (N.ltb_spec c 128) as [Hc|Hc].
  2:{ destruct (utf8s_high_cons c r Hc) as (b & bs & -> & Hb). cbn [name_b].
      replace (b =? PCT) with false by (unfold PCT; lia). replace (c =? PCT) with false by (unfold PCT; lia).
      replace (is_ascii b) with false by (unfold is_ascii; lia).
      rewrite <- start_ok. replace (is_ascii c) with false by (unfold is_ascii; lia). reflexivity. }
  rewrite utf8s_ascii_cons, hex2_utf8, start_ok by assumption. cbn [name_b].
  destruct (N.eqb_spec c PCT) as [->|Hp]; cbn [andb].
  - destruct r as [|u [|l r]]; try reflexivity. cbn [starts_with_double_hexdigits].
    destruct (is_hexdigit u && is_hexdigit l) eqn:E; [|reflexivity]. bdestr.
    rewrite from_3 by (assumption || now apply hex_ascii). cbn [tlift bind].
    rewrite satisfy_scan, (scan_ext _ vcd) by apply cont_ok. reflexivity.
  - destruct (vc c); [|reflexivity]. rewrite from_1 by assumption. cbn [tlift bind].
    rewrite satisfy_scan, (scan_ext _ vcd) by apply cont_ok. reflexivity.
Qed.

(** ** Variable specifications *)
Definition decides (x : tres unit) (P : Prop) : Prop := x <> Panic /\ (x = Ok tt <-> P).
Lemma decides_seq x y P Q : decides x P -> (P -> decides y Q) -> decides (x ;; y) (P /\ Q).
Proof.
  intros [Hn Hi] H. destruct x as [[]|e|]; [| |contradiction].
  - assert (HP : P) by now apply Hi. cbn [bind]. destruct (H HP) as [Hn2 Hi2]. split; [exact Hn2|]. tauto.
  - cbn [bind]. split; [discriminate|]. split; [discriminate|]. intros [HP _]. apply Hi in HP. discriminate.
Qed.
Lemma decides_iff x P Q : (P <-> Q) -> decides x P -> decides x Q.
Proof. intros E [H1 H2]. split; [exact H1|]. now rewrite H2. Qed.
Lemma decides_err k n (P : Prop) : ~ P -> decides (terr k n) P.
Proof. intros H. split; [discriminate|]. split; [discriminate|contradiction]. Qed.
Lemma decides_ok (P : Prop) : P -> decides (Ok tt) P.
Proof. intros H. split; [discriminate|]. tauto. Qed.
Lemma decides_name s off : decides (validate_varname s off) (crate_varname s).
Proof.
  rewrite validate_varname_eq. destruct (name_b s) eqn:E.
  - apply decides_ok. now apply name_iff.
  - apply decides_err. rewrite name_iff. congruence.
Qed.
(** Names contain none of the delimiters. *)
Definition delim (c : N) : bool := (c =? 58) || (c =? 42) || (c =? 44) || (c =? 123) || (c =? 125).
Lemma vcd_delim s p : (forall c, p c = true -> delim c = true) -> scan vcd s = true -> none p s = true.
Proof.
  intros Hp. apply scan_none. intros c H. apply Hp in H.
  unfold delim in H. rewrite !orb_true_iff, !N.eqb_eq in H.
  destruct H as [[[[->| ->]| ->]| ->]| ->]; repeat split; discriminate.
Qed.
Lemma name_vcd s : name_b s = true -> scan vcd s = true.
Proof.
  destruct s as [|c r]; [discriminate|]. cbn [name_b]. destruct (N.eqb_spec c PCT) as [->|Hc].
  - destruct r as [|u [|l r]]; try discriminate. now rewrite scan_pct.
  - rewrite scan_cons by assumption. unfold vcd. intros H; bdestr. rewrite H, H0. reflexivity.
Qed.
Lemma name_delim s p : (forall c, p c = true -> delim c = true) -> crate_varname s -> none p s = true.
Proof. intros Hp H. apply name_iff, name_vcd in H. now apply vcd_delim. Qed.
Lemma digits_delim s p : (forall c, p c = true -> delim c = true) -> forallb DIGIT s = true -> none p s = true.
Proof.
  intros Hp. apply forallb_impl. intros c H. destruct (p c) eqn:E; [|reflexivity]. apply Hp in E.
  unfold delim in E. unfold DIGIT, between in H. lia.
Qed.
Lemma reps_digits lo hi s : reps lo hi (cls DIGIT) s <-> (lo <= length s <= hi)%nat /\ forallb DIGIT s = true.
Proof.
  unfold reps. split.
  - intros (n & Hn & H). apply rep_cls in H as [<- H]. auto.
  - intros [Hn H]. exists (length s). split; [assumption|]. now apply rep_cls.
Qed.
Lemma mod_delim m p : (forall c, p c = true -> delim c = true /\ (c =? 58) = false /\ (c =? 42) = false) ->
  match m with Prefix ds => reps 1 5 (cls DIGIT) ds | _ => True end -> none p (rmod_text m) = true.
Proof.
  intros Hp H. destruct m as [|ds|]; cbn [rmod_text].
  - reflexivity.
  - change (lit ":" ++ ds) with (58 :: ds). rewrite none_cons. apply reps_digits in H as [_ H].
    rewrite (digits_delim ds) by (auto; intros c Hc; now apply Hp). rewrite andb_true_r.
    destruct (p 58) eqn:E; [|reflexivity]. apply Hp in E as (_ & E & _). discriminate.
  - change (lit "*") with [42]. rewrite none_cons. cbn [none forallb]. rewrite andb_true_r.
    destruct (p 42) eqn:E; [|reflexivity]. apply Hp in E as (_ & _ & E). discriminate.
Qed.
Lemma spec_delim r p : (forall c, p c = true -> delim c = true /\ (c =? 58) = false /\ (c =? 42) = false) ->
  crate_spec r -> none p (rspec_text r) = true.
Proof.
  intros Hp [Hn Hm]. unfold rspec_text. rewrite none_app. apply andb_true_intro. split.
  - apply name_delim; [intros c Hc; now apply Hp|assumption].
  - now apply mod_delim.
Qed.
Lemma spec_nonempty r : crate_spec r -> rspec_text r <> [].
Proof.
  intros [Hn _]. apply name_iff in Hn. unfold rspec_text. destruct (r_name r); [discriminate|discriminate].
Qed.

Lemma position_digits s : match position (fun b => negb (is_digit b)) (utf8s s) with
  | Some _ => forallb DIGIT s = false | None => forallb DIGIT s = true end.
Proof.
  induction s as [|c r IH]; [reflexivity|]. destruct (N.ltb_spec c 128) as [Hc|Hc].
  - rewrite utf8s_ascii_cons by assumption. cbn [position forallb]. change (is_digit c) with (DIGIT c).
    destruct (DIGIT c); cbn [negb andb]; [|reflexivity].
    destruct (position _ (utf8s r)); assumption.
  - destruct (utf8s_high_cons c r Hc) as (b & bs & -> & Hb). cbn [position forallb].
    replace (is_digit b) with false by (unfold is_digit, between; lia). cbn [negb].
    unfold DIGIT at 1, between. replace (48 <=? c) with true by lia. replace (c <=? 57) with false by lia. reflexivity.
Qed.
Lemma digits_blen s : forallb DIGIT s = true -> blen s = length s.
Proof.
  induction s as [|c r IH]; [reflexivity|]. cbn [forallb]. intros H; bdestr. cbn [blen length]. rewrite IH by assumption.
  unfold clen. unfold DIGIT, between in H. now rewrite (proj2 (N.ltb_lt c 128)) by lia.
Qed.
Lemma colon_star c : (c =? COLON) || (c =? STAR) = true -> delim c = true.
Proof. unfold COLON, STAR, delim. lia. Qed.
Definition is_spec (s : str) : Prop := exists r, crate_spec r /\ s = rspec_text r.
Lemma decides_spec s off : decides (validate_varspec s off) (is_spec s).
Proof.
  unfold validate_varspec, find_split2_hole.
  destruct (split_first _ s) as [[[a c] b]|] eqn:E.
  - apply split_first_some in E as (-> & Ha & Hc).
    assert (U : forall r, crate_spec r -> a ++ c :: b = rspec_text r -> r_name r = a /\ c :: b = rmod_text (r_mod r)).
    { intros [n m] [Hn Hm]. unfold rspec_text. cbn [r_name r_mod] in *. intros Eq.
      assert (Nn : none (fun x => (x =? COLON) || (x =? STAR)) n = true) by (apply name_delim; [apply colon_star|assumption]).
      destruct m as [|ds|]; cbn [rmod_text] in *.
      - rewrite app_nil_r in Eq. subst n. rewrite none_app, none_cons, Hc in Nn. cbn in Nn. now rewrite andb_false_r in Nn.
      - change (lit ":" ++ ds) with (58 :: ds) in *. apply (first_unique (fun x => (x =? COLON) || (x =? STAR))) in Eq; auto.
        destruct Eq as (-> & -> & ->). auto.
      - change (lit "*") with [42] in *. apply (first_unique (fun x => (x =? COLON) || (x =? STAR))) in Eq; auto.
        destruct Eq as (-> & -> & ->). auto. }
    destruct (N.eqb_spec c COLON) as [->|Hcol].
    + apply (decides_iff _ (crate_varname a /\ reps 1 5 (cls DIGIT) b)).
      { split.
        - intros [H1 H2]. exists (mkR a (Prefix b)). split; [split; assumption|reflexivity].
        - intros (r & Hr & Eq). destruct (U r Hr Eq) as [E1 E2]. destruct Hr as [Hn Hm]. rewrite E1 in Hn.
          split; [assumption|]. destruct (r_mod r); cbn [rmod_text] in E2; try discriminate.
          now injection E2 as ->. }
      apply decides_seq; [apply decides_name|]. intros _.
      destruct (Nat.leb 1 (blen b) && Nat.leb (blen b) 5) eqn:L; cbn [negb].
      * pose proof (position_digits b) as P. destruct (position _ (utf8s b)).
        -- apply decides_err. rewrite reps_digits. intros [_ H]. congruence.
        -- apply decides_ok. rewrite reps_digits. rewrite digits_blen in L by assumption.
           apply andb_prop in L as [L1 L2]. apply Nat.leb_le in L1, L2. auto.
      * apply decides_err. rewrite reps_digits. intros [H1 H2]. rewrite digits_blen in L by assumption.
        apply andb_false_iff in L as [L|L]; apply Nat.leb_gt in L; lia.
    + cbn [orb] in Hc. apply N.eqb_eq in Hc as ->. rewrite N.eqb_refl.
      apply (decides_iff _ (crate_varname a /\ b = [])).
      { split.
        - intros [H1 ->]. exists (mkR a Explode). split; [split; [assumption|exact I]|reflexivity].
        - intros (r & Hr & Eq). destruct (U r Hr Eq) as [E1 E2]. destruct Hr as [Hn Hm]. rewrite E1 in Hn.
          split; [assumption|]. destruct (r_mod r); cbn [rmod_text] in E2; try discriminate.
          now injection E2 as ->. }
      apply decides_seq; [apply decides_name|]. intros _. destruct b; [now apply decides_ok|now apply decides_err].
  - apply split_first_none in E. eapply decides_iff; [|apply decides_name]. split.
    + intros H. exists (mkR s NoMod). split; [split; [assumption|exact I]|]. unfold rspec_text; cbn. now rewrite app_nil_r.
    + intros ([n m] & [Hn Hm] & ->). unfold rspec_text in *. cbn [r_name r_mod] in *.
      destruct m; cbn [rmod_text] in *; [now rewrite app_nil_r| |];
      rewrite none_app in E; apply andb_prop in E as [_ E]; discriminate.
Qed.

(** ** Lists of variable specifications *)
Lemma split_on_join s : join [COMMA] (split_on (N.eqb COMMA) s) = s
  /\ Forall (fun x => none (N.eqb COMMA) x = true) (split_on (N.eqb COMMA) s) /\ split_on (N.eqb COMMA) s <> [].
Proof.
  induction s as [|c r (IH1 & IH2 & IH3)]; [repeat split; [repeat constructor|discriminate]|].
  cbn [split_on]. destruct (N.eqb COMMA c) eqn:E.
  - apply N.eqb_eq in E as <-. split; [|split; [now constructor|discriminate]].
    destruct (split_on (N.eqb COMMA) r) as [|x l]; [contradiction|]. cbn [join app]. now rewrite <- IH1.
  - destruct (split_on (N.eqb COMMA) r) as [|x l]; [contradiction|]. split; [|split; [|discriminate]].
    + destruct l; cbn [join app] in *; now rewrite IH1.
    + inversion IH2; subst. constructor; [|assumption]. rewrite none_cons, E. assumption.
Qed.
Lemma split_on_unique l : l <> [] -> Forall (fun x => none (N.eqb COMMA) x = true) l ->
  split_on (N.eqb COMMA) (join [COMMA] l) = l.
Proof.
  intros Hl F. induction F as [|x l Hx F IH]; [contradiction|]. destruct l as [|y l].
  - cbn [join]. clear IH Hl F. induction x as [|c x IH]; [reflexivity|]. rewrite none_cons in Hx. bdestr.
    cbn [split_on]. rewrite H, IH by assumption. reflexivity.
  - change (join [COMMA] (x :: y :: l)) with (x ++ COMMA :: join [COMMA] (y :: l)).
    assert (IH' := IH ltac:(discriminate)). clear IH. revert IH'. generalize (join [COMMA] (y :: l)). intros t IH.
    clear Hl. induction x as [|c x IHx]; cbn [app split_on].
    + now rewrite N.eqb_refl, IH.
    + rewrite none_cons in Hx. bdestr. rewrite H, IHx by assumption. reflexivity.
Qed.
Lemma decides_specs l : forall i off, decides (validate_varspecs i l off) (Forall is_spec l).
Proof.
  induction l as [|v r IH]; intros i off; cbn [validate_varspecs]; [now apply decides_ok|].
  eapply decides_iff; [|apply decides_seq; [apply decides_spec|intros _; apply IH]].
  split; [intros [H1 H2]; now constructor|intros H; inversion H; auto].
Qed.
Lemma specs_list l : Forall is_spec l <-> exists rs, Forall crate_spec rs /\ l = map rspec_text rs.
Proof.
  split.
  - induction 1 as [|x l (r & Hr & ->) _ (rs & Hrs & ->)]; [now exists []|]. exists (r :: rs). split; [now constructor|reflexivity].
  - intros (rs & H & ->). induction H; constructor; [eexists; eauto|assumption].
Qed.
Lemma map_none p rs : (forall c, p c = true -> delim c = true /\ (c =? 58) = false /\ (c =? 42) = false) ->
  Forall crate_spec rs -> Forall (fun x => none p x = true) (map rspec_text rs).
Proof. intros Hp. induction 1; constructor; [now apply spec_delim|assumption]. Qed.
Lemma comma_delim c : N.eqb COMMA c = true -> delim c = true /\ (c =? 58) = false /\ (c =? 42) = false.
Proof. intros H. apply N.eqb_eq in H as <-. repeat split; reflexivity. Qed.
Definition is_specs (s : str) : Prop := exists rs, rs <> [] /\ Forall crate_spec rs /\ s = join (lit ",") (map rspec_text rs).
Lemma decides_split s i off : decides (validate_varspecs i (split_on (N.eqb COMMA) s) off) (is_specs s).
Proof.
  eapply decides_iff; [|apply decides_specs]. rewrite specs_list. destruct (split_on_join s) as (E & F & Hn). split.
  - intros (rs & H & Eq). exists rs. repeat split; [|assumption|]; [intros ->; now rewrite Eq in Hn|].
    now rewrite <- Eq.
  - intros (rs & Hne & H & ->). exists rs. split; [assumption|]. apply split_on_unique.
    + destruct rs; [contradiction|discriminate].
    + now apply map_none; [apply comma_delim|].
Qed.

(** ** Expressions *)
Definition body_text (o : rop) (rs : list rspec) : str := rop_text o ++ join (lit ",") (map rspec_text rs).
Definition is_body (s : str) : Prop := exists o rs, rs <> [] /\ Forall crate_spec rs /\ s = body_text o rs.
Lemma first_of_specs rs : rs <> [] -> Forall crate_spec rs ->
  exists c r, join (lit ",") (map rspec_text rs) = c :: r /\ (c = PCT \/ vc c = true).
Proof.
  intros Hn F. destruct F as [|[n m] rs [Hr Hm] F]; [contradiction|]. cbn [r_name r_mod] in *. apply name_iff in Hr.
  destruct n as [|c n]; [discriminate|].
  assert (Hc : c = PCT \/ vc c = true).
  { cbn [name_b] in Hr. destruct (N.eqb_spec c PCT); [auto|]. bdestr. auto. }
  destruct rs; cbn [map join]; unfold rspec_text at 1; cbn [app r_name]; eauto.
Qed.
Lemma from_byte_high b : 128 <= b -> MaybeOperator_from_byte b = None.
Proof.
  intros H. unfold MaybeOperator_from_byte.
  repeat match goal with |- context [b =? ?k] => replace (b =? k) with false by lia end. reflexivity.
Qed.
Lemma from_byte_spec b :
  (exists o op, MaybeOperator_from_byte b = Some (OpWorking op) /\ rop_text o = [b]) \/
  (MaybeOperator_from_byte b = Some OpForFuture /\ vc b = false /\ b <> PCT /\ forall o, rop_text o <> [b]) \/
  (MaybeOperator_from_byte b = None /\ forall o, rop_text o <> [b]).
Proof.
  unfold MaybeOperator_from_byte.
  destruct (N.eqb_spec b 43) as [->|]; [left; exists Plus; eauto|].
  destruct (N.eqb_spec b 35) as [->|]; [left; exists Hash; eauto|].
  destruct (N.eqb_spec b 46) as [->|]; [left; exists Dot; eauto|].
  destruct (N.eqb_spec b 47) as [->|]; [left; exists Slash; eauto|].
  destruct (N.eqb_spec b 59) as [->|]; [left; exists Semi; eauto|].
  destruct (N.eqb_spec b 63) as [->|]; [left; exists Ques; eauto|].
  destruct (N.eqb_spec b 38) as [->|]; [left; exists Amp; eauto|]. right.
  destruct ((b =? 61) || (b =? 44) || (b =? 33) || (b =? 64) || (b =? 124)) eqn:E; [left|right].
  - split; [reflexivity|]. unfold vc, ALPHA, DIGIT, between, PCT. split; [lia|]. split; [lia|].
    intros []; cbn; congruence.
  - split; [reflexivity|]. intros []; cbn; congruence.
Qed.
Lemma rop_one o c r b s : rop_text o ++ c :: r = b :: s -> (rop_text o = [] /\ o = Simple /\ c = b /\ r = s) \/ (rop_text o = [b] /\ s = c :: r).
Proof. destruct o; cbn; intros [= -> ->]; auto. Qed.
Lemma op_first_excl o b : rop_text o = [b] -> vc b = false /\ b <> PCT.
Proof. destruct o; cbn; intros [=]; subst b; split; (reflexivity || discriminate). Qed.
Lemma decides_body s off : decides (validate_expr_body s off) (is_body s).
Proof.
  unfold validate_expr_body. destruct s as [|c s].
  { apply decides_err. intros (o & rs & Hn & F & E). destruct (first_of_specs rs Hn F) as (c & r & Er & _).
    unfold body_text in E. rewrite Er in E. destruct o; discriminate. }
  assert (NO : MaybeOperator_from_byte c = None -> decides (validate_varspecs 0 (split_on (N.eqb COMMA) (c :: s)) off) (is_body (c :: s))).
  { intros M. eapply decides_iff; [|apply decides_split]. split.
    - intros (rs & Hn & F & E). exists Simple, rs. auto.
    - intros (o & rs & Hn & F & E). exists rs. repeat split; auto. rewrite E. unfold body_text.
      destruct (first_of_specs rs Hn F) as (d & r & Er & Hd). unfold body_text in E. rewrite Er in *.
      symmetry in E. apply rop_one in E as [(-> & _)|[E _]]; [reflexivity|].
      destruct (from_byte_spec c) as [(? & ? & M' & _)|[(M' & _)|(_ & X)]]; [congruence|congruence|now apply X in E]. }
  destruct (N.ltb_spec c 128) as [Hc|Hc].
  2:{ destruct (utf8s_high_cons c s Hc) as (b & bs & -> & Hb). rewrite from_byte_high by assumption. apply NO. now apply from_byte_high. }
  rewrite utf8s_ascii_cons by assumption.
  destruct (from_byte_spec c) as [(o & op & M & Eo)|[(M & V & P & X)|(M & X)]]; rewrite M.
  - rewrite from_1 by assumption. cbn [tlift bind]. eapply decides_iff; [|apply decides_split].
    destruct (op_first_excl o c Eo) as [V P]. split.
    + intros (rs & Hn & F & ->). exists o, rs. repeat split; auto. unfold body_text. now rewrite Eo.
    + intros (o' & rs & Hn & F & E). exists rs. repeat split; auto.
      destruct (first_of_specs rs Hn F) as (d & r & Er & Hd). unfold body_text in E. rewrite Er in *. symmetry in E.
      apply rop_one in E as [(_ & _ & -> & _)|[_ E]]; [destruct Hd; congruence|assumption].
  - apply decides_err. intros (o' & rs & Hn & F & E).
    destruct (first_of_specs rs Hn F) as (d & r & Er & Hd). unfold body_text in E. rewrite Er in *. symmetry in E.
    apply rop_one in E as [(_ & _ & -> & _)|[E _]]; [destruct Hd; congruence|]. now apply X in E.
  - now apply NO.
Qed.
Lemma none_join p l : p COMMA = false -> Forall (fun x => none p x = true) l -> none p (join (lit ",") l) = true.
Proof.
  intros Hp. induction 1 as [|x l Hx F IH]; [reflexivity|]. destruct l as [|y l]; [assumption|].
  change (join (lit ",") (x :: y :: l)) with (x ++ COMMA :: join (lit ",") (y :: l)).
  rewrite none_app, none_cons, Hx, IH, Hp. reflexivity.
Qed.
Lemma body_no_brace o rs p : (forall c, p c = true -> c = RBRACE \/ c = LBRACE) ->
  Forall crate_spec rs -> none p (body_text o rs) = true.
Proof.
  intros Hp F. unfold body_text. rewrite none_app. apply andb_true_intro. split.
  - apply forallb_forall. intros x Hx. destruct (p x) eqn:E; [|reflexivity]. apply Hp in E.
    destruct o; cbn in Hx; try contradiction; destruct Hx as [Hx|Hx]; try contradiction; subst x; destruct E; discriminate.
  - apply none_join.
    + destruct (p COMMA) eqn:E; [|reflexivity]. apply Hp in E as []; discriminate.
    + apply map_none; [|assumption]. intros c Hc. apply Hp in Hc as [->| ->]; repeat split; reflexivity.
Qed.
