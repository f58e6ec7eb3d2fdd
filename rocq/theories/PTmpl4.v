(** * Proofs for C27: the errors of the template validator. *)
From Verif Require Import Base Chars Rfc3986 Utf8 PctSpec EncodeSpec MValidate MTrusted MFormat MSearch MPct MEncode MTemplate TemplateSpec TmplErrSpec.
From Verif Require Import PBase PScan PSearch PTmpl1 PTmpl2.

Lemma none_in c s : none (N.eqb c) s = true <-> ~ In c s.
Proof.
  unfold none. rewrite forallb_forall. split.
  - intros H Hi. apply H in Hi. now rewrite N.eqb_refl in Hi.
  - intros H x Hx. apply negb_true_iff, N.eqb_neq. now intros ->.
Qed.
Lemma none2_in c d s : none (fun x => (x =? c) || (x =? d)) s = true <-> ~ In c s /\ ~ In d s.
Proof.
  unfold none. rewrite forallb_forall. split.
  - intros H. split; intros Hi; apply H in Hi; rewrite N.eqb_refl in Hi; [discriminate|now rewrite orb_true_r in Hi].
  - intros [H1 H2] x Hx. apply negb_true_iff, orb_false_iff. split; apply N.eqb_neq; now intros ->.
Qed.

(** ** Varspecs *)
Lemma position_at s p : position (fun b => negb (is_digit b)) (utf8s s) = Some p ->
  exists x c y, s = x ++ c :: y /\ forallb DIGIT x = true /\ DIGIT c = false /\ p = blen x.
Proof.
  revert p. induction s as [|c r IH]; intros p; [discriminate|]. destruct (N.ltb_spec c 128) as [Hc|Hc].
  - rewrite utf8s_ascii_cons by assumption. cbn [position]. change (is_digit c) with (DIGIT c).
    destruct (DIGIT c) eqn:D; cbn [negb].
    + destruct (position _ (utf8s r)) as [i|]; [|discriminate]. intros [= <-].
      destruct (IH i eq_refl) as (x & d & y & -> & H1 & H2 & ->). exists (c :: x), d, y. repeat split; auto.
      * cbn [forallb]. now rewrite D.
      * cbn [blen]. unfold clen. now rewrite (proj2 (N.ltb_lt _ _) Hc).
    + intros [= <-]. exists [], c, r. auto.
  - destruct (utf8s_high_cons c r Hc) as (b & bs & -> & Hb). cbn [position].
    replace (is_digit b) with false by (unfold is_digit, between; lia). cbn [negb]. intros [= <-].
    exists [], c, r. repeat split. unfold DIGIT, between. lia.
Qed.
Lemma position_at_back x c y : forallb DIGIT x = true -> DIGIT c = false ->
  position (fun b => negb (is_digit b)) (utf8s (x ++ c :: y)) = Some (blen x).
Proof.
  intros Hx Hc. induction x as [|d x IH]; cbn [app].
  - destruct (N.ltb_spec c 128) as [H|H].
    + rewrite utf8s_ascii_cons by assumption. cbn [position]. change (is_digit c) with (DIGIT c). now rewrite Hc.
    + destruct (utf8s_high_cons c y H) as (b & bs & -> & Hb). cbn [position].
      replace (is_digit b) with false by (unfold is_digit, between; lia). reflexivity.
  - cbn [forallb] in Hx. bdestr. assert (Hd : d < 128) by (unfold DIGIT, between in H; lia).
    rewrite utf8s_ascii_cons by assumption. cbn [position]. change (is_digit d) with (DIGIT d). rewrite H. cbn [negb].
    rewrite IH by assumption. cbn [blen]. unfold clen. now rewrite (proj2 (N.ltb_lt _ _) Hd).
Qed.
Lemma spec_err_fwd v off e : validate_varspec v off = Err e ->
  exists j, bad_spec v j /\ e = mkTE InvalidExpression (off + j)%nat.
Proof.
  unfold validate_varspec, find_split2_hole. destruct (split_first _ v) as [[[a c] b]|] eqn:E.
  - apply split_first_some in E as (-> & Ha & Hc). apply none2_in in Ha as [Ha1 Ha2].
    assert (Ht : c :: b = [] \/ exists t', c :: b = 58 :: t' \/ c :: b = 42 :: t').
    { right. exists b. apply orb_prop in Hc as [Hc|Hc]; apply N.eqb_eq in Hc as ->; auto. }
    rewrite validate_varname_eq. destruct (name_b a) eqn:N.
    2:{ assert (X : e = mkTE InvalidExpression off -> exists j, bad_spec (a ++ c :: b) j /\ e = mkTE InvalidExpression (off + j)%nat).
        { intros ->. exists 0%nat. split; [|f_equal; lia]. exists a, (c :: b). repeat split; auto. left. split; [|reflexivity].
          rewrite name_iff. congruence. }
        destruct (c =? COLON); [|destruct (c =? STAR)]; cbn [bind]; intros [= <-]; now apply X. }
    apply name_iff in N. cbn [bind]. destruct (N.eqb_spec c COLON) as [->|Hcol].
    + destruct (Nat.leb 1 (blen b) && Nat.leb (blen b) 5) eqn:L; cbn [negb].
      * destruct (position _ (utf8s b)) as [p|] eqn:P; [|discriminate]. intros [= <-].
        apply position_at in P as (x & d & y & -> & Hx & Hd & ->). exists (blen a + 2 + blen x)%nat.
        split; [|f_equal; lia]. exists a, (COLON :: x ++ d :: y). repeat split; auto. right. split; [assumption|].
        right. left. exists x, d, y. repeat split; auto. apply andb_prop in L as [_ L]. now apply Nat.leb_le.
      * intros [= <-]. exists (blen a + 2)%nat. split; [|f_equal; lia]. exists a, (COLON :: b). repeat split; auto. right.
        split; [assumption|]. left. exists b. repeat split. apply andb_false_iff in L as [L|L]; apply Nat.leb_gt in L; lia.
    + cbn [orb] in Hc. apply N.eqb_eq in Hc as ->. rewrite N.eqb_refl. destruct b as [|x b]; [discriminate|].
      cbn [is_empty negb]. intros [= <-]. exists (blen a + 1)%nat. split; [|f_equal; lia].
      exists a, (STAR :: x :: b). repeat split; auto. right. split; [assumption|]. right. right. exists (x :: b). repeat split. discriminate.
  - apply split_first_none in E. apply none2_in in E as [E1 E2]. rewrite validate_varname_eq. destruct (name_b v) eqn:N; [discriminate|].
    intros [= <-]. exists 0%nat. split; [|f_equal; lia]. exists v, []. rewrite app_nil_r. repeat split; auto.
    left. split; [|reflexivity]. rewrite name_iff. congruence.
Qed.
Lemma spec_err_back v off j : bad_spec v j -> validate_varspec v off = Err (mkTE InvalidExpression (off + j)%nat).
Proof.
  intros (a & t & -> & Ha1 & Ha2 & Ht & H). unfold validate_varspec, find_split2_hole.
  assert (Na : none (fun x => (x =? COLON) || (x =? STAR)) a = true) by now apply none2_in.
  destruct Ht as [->|(t' & [->| ->])].
  - rewrite app_nil_r, split_first_none_app by assumption. rewrite validate_varname_eq.
    destruct H as [[H ->]|[_ [(? & ? & _)|[(? & ? & ? & ? & _)|(? & ? & _)]]]]; try discriminate.
    rewrite name_iff in H. destruct (name_b a); [now destruct H|]. unfold terr. do 2 f_equal. lia.
  - rewrite split_first_app by (assumption || reflexivity). rewrite N.eqb_refl, validate_varname_eq.
    destruct H as [[H ->]|[H1 H]].
    + rewrite name_iff in H. destruct (name_b a); [now destruct H|]. unfold terr. cbn [bind]. do 2 f_equal. lia.
    + apply name_iff in H1. rewrite H1. cbn [bind].
      destruct H as [(ds & [= ->] & H & ->)|[(x & c & y & [= ->] & HL & Hx & Hc & ->)|(? & ? & _)]]; [| |discriminate].
      * replace (Nat.leb 1 (blen ds) && Nat.leb (blen ds) 5) with false.
        2:{ symmetry. apply andb_false_iff. destruct H; [left|right]; apply Nat.leb_gt; lia. }
        cbn [negb]. unfold terr. do 2 f_equal. lia.
      * rewrite position_at_back by assumption.
        replace (Nat.leb 1 (blen (x ++ c :: y)) && Nat.leb (blen (x ++ c :: y)) 5) with true.
        2:{ symmetry. apply andb_true_intro. split; apply Nat.leb_le; [|assumption]. rewrite blen_app. cbn [blen]. pose proof (clen_pos c). lia. }
        cbn [negb]. unfold terr. do 2 f_equal. lia.
  - rewrite split_first_app by (assumption || reflexivity). change (42 =? COLON) with false. change (42 =? STAR) with true. cbn [orb].
    rewrite validate_varname_eq. destruct H as [[H ->]|[H1 H]].
    + rewrite name_iff in H. destruct (name_b a); [now destruct H|]. unfold terr. cbn [bind]. do 2 f_equal. lia.
    + apply name_iff in H1. rewrite H1. cbn [bind].
      destruct H as [(? & ? & _)|[(? & ? & ? & ? & _)|(t & [= ->] & H & ->)]]; try discriminate.
      destruct t; [contradiction|]. cbn [is_empty negb]. unfold terr. do 2 f_equal. lia.
Qed.

(** ** Lists of varspecs *)
Definition commas (l : list str) : str := flat_map (fun x => x ++ [COMMA]) l.
Definition lead (i : nat) (off : nat) : nat := (if Nat.eqb i 0 then off else off + 1)%nat.
Lemma specs_err_fwd l : forall i off e, validate_varspecs i l off = Err e ->
  exists l1 v l2 j, l = l1 ++ v :: l2 /\ Forall is_spec l1 /\ bad_spec v j /\
    e = mkTE InvalidExpression (lead i off + blen (commas l1) + j)%nat.
Proof.
  induction l as [|v r IH]; intros i off e; cbn [validate_varspecs]; [discriminate|].
  fold (lead i off). destruct (decides_spec v (lead i off)) as [D1 D2].
  destruct (validate_varspec v (lead i off)) as [[]|e'|] eqn:E; [| |contradiction]; cbn [bind].
  - intros H. apply IH in H as (l1 & w & l2 & j & -> & F & B & ->). exists (v :: l1), w, l2, j. repeat split; auto.
    + constructor; [now apply D2|assumption].
    + f_equal. unfold lead at 1. cbn [Nat.eqb commas flat_map]. rewrite !blen_app. cbn [blen]. change (clen COMMA) with 1%nat.
      fold (commas l1). lia.
  - intros [= <-]. apply spec_err_fwd in E as (j & B & ->). exists [], v, r, j. split; [reflexivity|]. split; [constructor|]. split; [assumption|]. f_equal. cbn. lia.
Qed.
Lemma specs_err_back l1 v l2 j : Forall is_spec l1 -> bad_spec v j -> forall i off,
  validate_varspecs i (l1 ++ v :: l2) off = Err (mkTE InvalidExpression (lead i off + blen (commas l1) + j)%nat).
Proof.
  intros F B. induction F as [|x l1 Hx F IH]; intros i off; cbn [app validate_varspecs]; fold (lead i off).
  - rewrite (spec_err_back v _ j B). cbn. do 2 f_equal. lia.
  - rewrite (proj2 (proj2 (decides_spec x (lead i off))) Hx). cbn [bind]. rewrite IH. do 2 f_equal.
    unfold lead at 1. cbn [Nat.eqb commas flat_map]. rewrite !blen_app. cbn [blen]. change (clen COMMA) with 1%nat.
    fold (commas l1). lia.
Qed.
Definition bad_list (s : str) (m : nat) : Prop :=
  exists l v t j, s = before l ++ v ++ t /\ Forall crate_spec l /\ ~ In 44 v /\ (t = [] \/ exists t', t = 44 :: t') /\
    bad_spec v j /\ m = (blen (before l) + j)%nat.
Lemma before_commas l : before l = commas (map rspec_text l).
Proof. induction l as [|r l IH]; [reflexivity|]. cbn [before flat_map map commas]. fold (before l). rewrite IH. reflexivity. Qed.
Lemma join_commas l1 v l2 : join [COMMA] (l1 ++ v :: l2) = commas l1 ++ v ++ match l2 with [] => [] | _ => COMMA :: join [COMMA] l2 end.
Proof.
  induction l1 as [|x l1 IH]; cbn [app commas flat_map].
  - destruct l2; cbn [join]; [now rewrite app_nil_r|reflexivity].
  - fold (commas l1). rewrite <- !app_assoc, <- IH. cbn [app]. destruct (l1 ++ v :: l2) eqn:E; [now destruct l1|]. reflexivity.
Qed.
Lemma list_err_fwd s off e : validate_varspecs 0 (split_on (N.eqb COMMA) s) off = Err e ->
  exists m, bad_list s m /\ e = mkTE InvalidExpression (off + m)%nat.
Proof.
  intros H. apply specs_err_fwd in H as (l1 & v & l2 & j & E & F & B & ->).
  destruct (split_on_join s) as (J & N & _). rewrite E in *. apply Forall_app in N as [_ N]. inversion N as [|? ? Nv _]; subst.
  apply specs_list in F as (rs & Hrs & ->). exists (blen (before rs) + j)%nat. split.
  - exists rs, v, (match l2 with [] => [] | _ => COMMA :: join [COMMA] l2 end), j.
    rewrite join_commas. rewrite <- before_commas. repeat split; auto.
    + now apply none_in.
    + destruct l2; [now left|]. right. eexists. reflexivity.
  - rewrite before_commas. unfold lead. cbn [Nat.eqb]. f_equal. lia.
Qed.
Lemma list_err_back s off m : bad_list s m ->
  validate_varspecs 0 (split_on (N.eqb COMMA) s) off = Err (mkTE InvalidExpression (off + m)%nat).
Proof.
  intros (l & v & t & j & -> & F & Nv & Ht & B & ->).
  assert (X : exists l2, t = match l2 with [] => [] | _ => COMMA :: join [COMMA] l2 end /\ Forall (fun x => none (N.eqb COMMA) x = true) l2).
  { destruct Ht as [->|(t' & ->)]; [exists []; auto|]. destruct (split_on_join t') as (J & N & Ne).
    exists (split_on (N.eqb COMMA) t'). split; [|assumption]. destruct (split_on (N.eqb COMMA) t'); [contradiction|]. now rewrite J. }
  destruct X as (l2 & -> & N2). rewrite before_commas, <- join_commas. rewrite split_on_unique.
  - rewrite (specs_err_back _ v l2 j); [|apply specs_list; exists l; auto|assumption]. unfold lead. cbn [Nat.eqb]. do 2 f_equal. lia.
  - now destruct (map rspec_text l).
  - apply Forall_app. split; [apply map_none; [apply comma_delim|assumption]|]. constructor; [now apply none_in|assumption].
Qed.

(** ** Expressions *)
Lemma from_byte_ops c :
  (exists o op, MaybeOperator_from_byte c = Some (OpWorking op) /\ rop_text o = [c] /\ In c ops /\ ~ In c future_ops) \/
  (MaybeOperator_from_byte c = Some OpForFuture /\ In c future_ops /\ ~ In c ops) \/
  (MaybeOperator_from_byte c = None /\ ~ In c (ops ++ future_ops)).
Proof.
  unfold MaybeOperator_from_byte.
  Ltac isop o := left; exists o; eexists; split; [reflexivity|]; split; [reflexivity|]; vm_compute; split; intuition discriminate.
  destruct (N.eqb_spec c 43) as [->|]; [isop Plus|].
  destruct (N.eqb_spec c 35) as [->|]; [isop Hash|].
  destruct (N.eqb_spec c 46) as [->|]; [isop Dot|].
  destruct (N.eqb_spec c 47) as [->|]; [isop Slash|].
  destruct (N.eqb_spec c 59) as [->|]; [isop Semi|].
  destruct (N.eqb_spec c 63) as [->|]; [isop Ques|].
  destruct (N.eqb_spec c 38) as [->|]; [isop Amp|]. right.
  destruct ((c =? 61) || (c =? 44) || (c =? 33) || (c =? 64) || (c =? 124)) eqn:E; [left|right]; (split; [reflexivity|]).
  - rewrite !orb_true_iff, !N.eqb_eq in E. change future_ops with [61; 44; 33; 64; 124]. change ops with [43; 35; 46; 47; 59; 63; 38]. cbn [In]. split; intuition congruence.
  - rewrite !orb_false_iff, !N.eqb_neq in E. change (ops ++ future_ops) with [43; 35; 46; 47; 59; 63; 38; 61; 44; 33; 64; 124]. cbn [In]. intuition congruence.
Qed.
Lemma from_first c s : match utf8s (c :: s) with b :: _ => MaybeOperator_from_byte b | [] => None end = MaybeOperator_from_byte c.
Proof.
  destruct (N.ltb_spec c 128) as [Hc|Hc].
  - now rewrite utf8s_ascii_cons.
  - destruct (utf8s_high_cons c s Hc) as (b & bs & -> & Hb). now rewrite !from_byte_high.
Qed.
Lemma body_first c s off : validate_expr_body (c :: s) off =
  match MaybeOperator_from_byte c with
  | Some (OpWorking _) => validate_varspecs 0 (split_on (N.eqb COMMA) s) (off + 1)
  | Some OpForFuture => terr UnsupportedOperator off
  | None => validate_varspecs 0 (split_on (N.eqb COMMA) (c :: s)) off
  end.
Proof.
  unfold validate_expr_body. pose proof (from_first c s) as F. destruct (utf8s (c :: s)) as [|b bs] eqn:E.
  { exfalso. apply (f_equal (@length _)) in E. rewrite utf8s_len in E. cbn [blen length] in E. pose proof (clen_pos c). lia. }
  rewrite F. destruct (MaybeOperator_from_byte c) as [[op|]|] eqn:M; [|reflexivity..].
  assert (Hc : c < 128). { destruct (N.ltb_spec c 128); [assumption|]. rewrite from_byte_high in M by assumption. discriminate. }
  now rewrite from_1.
Qed.
Lemma body_err_fwd b off e : validate_expr_body b off = Err e ->
  exists k j, bad_body b k j /\ e = mkTE (kind k) (off + j)%nat.
Proof.
  destruct b as [|c s].
  { intros [= <-]. exists BadExpression, 0%nat. split; [left; auto|cbn [kind]; f_equal; lia]. }
  rewrite body_first. destruct (from_byte_ops c) as [(o & op & -> & Eo & I1 & I2)|[(-> & I1 & I2)|(-> & I1)]].
  - intros H. apply list_err_fwd in H as (m & (l & v & t & j & -> & F & Nv & Ht & B & ->) & ->).
    exists BadExpression, (blen (rop_text o ++ before l) + j)%nat. split.
    + right. right. exists o, l, v, t, j. rewrite Eo. repeat split; auto. intros ->. discriminate.
    + rewrite Eo. cbn [kind app blen]. replace (clen c) with 1%nat; [f_equal; lia|].
      destruct o; try discriminate Eo; injection Eo as <-; reflexivity.
  - intros [= <-]. exists FutureOperator, 0%nat. split; [|cbn [kind]; f_equal; lia]. right. left. exists c, s. auto.
  - intros H. apply list_err_fwd in H as (m & (l & v & t & j & E & F & Nv & Ht & B & ->) & ->).
    exists BadExpression, (blen (before l) + j)%nat. split; [|reflexivity].
    right. right. exists Simple, l, v, t, j. cbn [rop_text app]. repeat split; auto. intros _ c' r' [= <- <-]. assumption.
Qed.
Lemma body_err_back b k j off : bad_body b k j -> validate_expr_body b off = Err (mkTE (kind k) (off + j)%nat).
Proof.
  intros [(-> & -> & ->)|[(c & r & -> & Hc & -> & ->)|(o & l & v & t & j' & E & Ho & F & Nv & Ht & B & -> & ->)]].
  - cbn. unfold terr. do 2 f_equal. lia.
  - rewrite body_first. destruct (from_byte_ops c) as [(o & op & M & Eo & I1 & I2)|[(-> & I1 & I2)|(M & I1)]].
    + contradiction.
    + cbn [kind]. unfold terr. do 2 f_equal. lia.
    + exfalso. apply I1. apply in_or_app. now right.
  - assert (BL : bad_list (before l ++ v ++ t) (blen (before l) + j')) by (exists l, v, t, j'; auto 10).
    cbn [kind]. rewrite blen_app. destruct (rop_text o) as [|x [|? ?]] eqn:Eo.
    + assert (o = Simple) as -> by (destruct o; (reflexivity || discriminate)). cbn [app blen Nat.add] in *. subst b.
      rewrite <- (list_err_back _ off _ BL). destruct (before l ++ v ++ t) as [|c s] eqn:Eb.
      { reflexivity. }
      rewrite body_first. specialize (Ho eq_refl c s eq_refl).
      destruct (from_byte_ops c) as [(o & op & M & _ & I1 & I2)|[(M & I1 & I2)|(M & I1)]];
        [exfalso; apply Ho, in_or_app; now left|exfalso; apply Ho, in_or_app; now right|].
      now rewrite M.
    + subst b. cbn [app]. rewrite body_first.
      destruct (from_byte_ops x) as [(o' & op & -> & _ & I1 & I2)|[(M & I1 & I2)|(M & I1)]].
      * rewrite (list_err_back _ _ _ BL). do 2 f_equal. cbn [blen]. replace (clen x) with 1%nat; [lia|]. destruct o; try discriminate Eo; injection Eo as <-; reflexivity.
      * exfalso. destruct o; try discriminate Eo; injection Eo as <-; vm_compute in I2; intuition.
      * exfalso. destruct o; try discriminate Eo; injection Eo as <-; vm_compute in I1; intuition.
    + destruct o; discriminate.
Qed.

(** ** Triplets *)
Lemma two_err_fwd r off e : two r off = Err e -> exists m, bad_hex r m /\ e = mkTE InvalidPercentEncoding (off + m)%nat.
Proof.
  intros H. pose proof (two_spec r off) as S. unfold two in *. destruct (Nat.ltb_spec (blen r) 2) as [L|L].
  { injection H as <-. exists 0%nat. split; [left; auto|f_equal; lia]. }
  destruct r as [|u r]; [cbn in L; lia|].
  assert (NC : ~ cut (u :: r)).
  { destruct S as [(? & ? & ? & _ & _ & _ & S)|[[_ S]|(_ & NC & _)]]; [congruence|congruence|assumption]. }
  clear S. destruct (N.ltb_spec u 128) as [Hu|Hu].
  - assert (Lu : clen u = 1%nat) by (unfold clen; now rewrite (proj2 (N.ltb_lt _ _) Hu)).
    destruct r as [|l r]; [cbn [blen] in L; lia|].
    destruct (N.ltb_spec l 128) as [Hl|Hl].
    2:{ exfalso. apply NC. exists u, (l :: r). split; [reflexivity|]. right. split; [assumption|]. eauto. }
    assert (Ll : clen l = 1%nat) by (unfold clen; now rewrite (proj2 (N.ltb_lt _ _) Hl)).
    assert (Sp : str_split_at (u :: l :: r) 2 = Ok ([u; l], r)).
    { replace 2%nat with (blen [u; l]) by (cbn [blen]; lia). apply (split_at_app [u; l] r). }
    rewrite Sp in H. cbn [tlift bind] in H. rewrite !utf8s_ascii_cons in H by assumption. cbn [byte_at nth_error tlift bind] in H.
    destruct (is_hexdigit u) eqn:Eu; cbn [negb] in H.
    + destruct (is_hexdigit l) eqn:El; cbn [negb] in H; [discriminate|]. injection H as <-.
      exists 2%nat. split; [|reflexivity]. right. split; [assumption|]. exists u, (l :: r). repeat split; auto. right. split; [exact Eu|]. exists l, r. auto.
    + injection H as <-. exists 1%nat. split; [|reflexivity]. right. split; [assumption|]. exists u, (l :: r). repeat split; auto.
  - assert (Hx : is_hexdigit u = false) by (unfold is_hexdigit, is_digit, between; lia).
    assert (H2 : u < 2048). { destruct (N.ltb_spec u 2048); [assumption|]. exfalso. apply NC. exists u, r. auto. }
    assert (Lu2 : clen u = 2%nat).
    { unfold clen. rewrite (proj2 (N.ltb_ge u 128) Hu). now rewrite (proj2 (N.ltb_lt u 2048) H2). }
    assert (Sp : str_split_at (u :: r) 2 = Ok ([u], r)).
    { replace 2%nat with (blen [u]) by (cbn [blen]; lia). apply (split_at_app [u] r). }
    rewrite Sp in H. cbn [tlift bind] in H. destruct (utf8s_high_cons u [] Hu) as (b & bs & Eb & Hb). rewrite Eb in H.
    cbn [byte_at nth_error tlift bind] in H.
    replace (is_hexdigit b) with false in H by (unfold is_hexdigit, is_digit, between; lia). cbn [negb] in H. injection H as <-.
    exists 1%nat. split; [|reflexivity]. right. split; [assumption|]. exists u, r. repeat split; auto.
Qed.
Lemma bad_hex_unique r m m' : bad_hex r m -> bad_hex r m' -> m = m'.
Proof.
  intros [[L ->]|(L & c & t & -> & NC & H)] [[L' ->]|(L' & c' & t' & E & NC' & H')]; try lia.
  injection E as <- <-. destruct H as [[H ->]|(H & d & u & -> & Hd & ->)], H' as [[H' ->]|(H' & d' & u' & E & Hd' & ->)]; congruence.
Qed.
Lemma two_err_back r off m : bad_hex r m -> two r off = Err (mkTE InvalidPercentEncoding (off + m)%nat).
Proof.
  intros B. destruct (two_spec r off) as [(u & l & t & -> & Hu & Hl & E)|[[C E]|(_ & _ & e & E)]].
  - exfalso. destruct B as [[L _]|(_ & c & t' & Er & _ & H)].
    + cbn [blen] in L. pose proof (clen_pos u). pose proof (clen_pos l). lia.
    + injection Er as <- <-. destruct H as [[H _]|(_ & d & u' & Et & Hd & _)].
      * change (is_hexdigit u = false) in H. congruence.
      * injection Et as <- <-. change (is_hexdigit l = false) in Hd. congruence.
  - exfalso. destruct B as [[L _]|(_ & c & t' & Er & NC & _)]; [|contradiction].
    destruct C as (c & t & -> & [Hc|[Hc (d & t' & -> & Hd)]]); cbn [blen] in L.
    + unfold clen in L. replace (c <? 128) with false in L by lia. replace (c <? 2048) with false in L by lia.
      destruct (c <? 65536); lia.
    + pose proof (clen_pos c). pose proof (clen_pos d). lia.
  - rewrite E. apply two_err_fwd in E as (m' & B' & ->). now rewrite (bad_hex_unique _ _ _ B B').
Qed.

(** ** Literals *)
Lemma literal_blen a : forallb literal_ascii a = true -> blen a = length a.
Proof.
  induction a as [|c a IH]; [reflexivity|]. cbn [forallb]. intros H; bdestr. cbn [blen length]. rewrite IH by assumption.
  apply literal_ascii_ascii in H. unfold is_ascii in H. unfold clen. now rewrite H.
Qed.
Lemma lit_ok a off : forallb literal_ascii a = true -> validate_literal a off = Ok tt.
Proof. intros H. destruct (validate_literal_eq a off) as [n ->]. now rewrite H. Qed.
Lemma lit_err_back a c x off : forallb literal_ascii a = true -> literal_ascii c = false ->
  validate_literal (a ++ c :: x) off = Err (mkTE InvalidCharacter (off + blen a)%nat).
Proof.
  intros Ha Hc. unfold validate_literal.
  assert (P : position (fun c => negb (is_ascii c) || negb (is_ascii_literal_char c)) (a ++ c :: x) = Some (blen a)).
  { rewrite literal_blen by assumption. clear off. induction a as [|d a IH]; cbn [app position].
    - rewrite literal_ok, Hc. reflexivity.
    - cbn [forallb] in Ha. bdestr. rewrite literal_ok, H. cbn [negb]. now rewrite IH. }
  now rewrite P.
Qed.
Lemma lit_err_fwd s off e : validate_literal s off = Err e ->
  exists a c x, s = a ++ c :: x /\ forallb literal_ascii a = true /\ literal_ascii c = false /\
    e = mkTE InvalidCharacter (off + blen a)%nat.
Proof.
  intros H. destruct (validate_literal_eq s off) as [n E]. destruct (forallb literal_ascii s) eqn:F; [congruence|].
  assert (X : exists a c x, s = a ++ c :: x /\ forallb literal_ascii a = true /\ literal_ascii c = false).
  { clear -F. induction s as [|c s IH]; [discriminate|]. cbn [forallb] in F. destruct (literal_ascii c) eqn:L.
    - destruct (IH F) as (a & d & x & -> & Ha & Hd). exists (c :: a), d, x. cbn [forallb]. rewrite L. auto.
    - exists [], c, s. auto. }
  destruct X as (a & c & x & -> & Ha & Hc). exists a, c, x. repeat split; auto.
  rewrite lit_err_back in H by assumption. congruence.
Qed.

(** ** Whole templates *)
Definition fault_in (s : str) (k : defect) (n : nat) (e : str) : Prop :=
  exists m, fault e k m /\ n = (blen s - blen e + m)%nat.
Lemma fault_tm s k n : template_fault s k n <-> tm (fault_in s k n) s.
Proof.
  split.
  - intros (T & e & m & F & -> & H & ->). apply tm_parts; [assumption|]. apply tm_end. exists m. split; [assumption|].
    rewrite blen_app. lia.
  - intros H. apply parts_tm in H as (T & e & F & -> & (m & H & ->)). exists T, e, m. repeat split; auto. rewrite blen_app. lia.
Qed.
Lemma tm_lits E a e : forallb literal_ascii a = true -> tm E e -> tm E (a ++ e).
Proof. intros Ha He. induction a as [|c a IH]; [assumption|]. cbn [forallb] in Ha. bdestr. cbn [app]. apply tm_lit; auto. Qed.
Lemma err_fwd s : forall f pre rest e, s = pre ++ rest -> validate_template_loop f s rest (blen pre) = Err e ->
  exists k n, tm (fault_in s k n) rest /\ e = mkTE (kind k) n.
Proof.
  assert (LIT : forall pre rest a x e, s = pre ++ rest -> rest = a ++ x -> none (fun c => (c =? PCT) || (c =? LBRACE)) a = true ->
    validate_literal a (blen pre) = Err e -> exists k n, tm (fault_in s k n) rest /\ e = mkTE (kind k) n).
  { intros pre rest a x e Es Er Na H. apply lit_err_fwd in H as (b & c & y & -> & Hb & Hc & ->).
    exists BadCharacter, (blen pre + blen b)%nat. split; [|reflexivity]. rewrite Er, <- app_assoc. apply tm_lits; [assumption|].
    apply tm_end. exists 0%nat. split.
    - left. exists c, (y ++ x). repeat split; auto; intros ->; rewrite none_app, none_cons in Na; apply andb_prop in Na as [_ Na]; discriminate.
    - rewrite Es, Er, <- app_assoc. cbn [app]. rewrite !blen_app. lia. }
  induction f as [|f IH]; intros pre rest e Es H; [discriminate|].
  destruct rest as [|x0 rest0]; [discriminate|]. remember (x0 :: rest0) as rest eqn:Er0.
  assert (Hr : rest <> []) by now rewrite Er0. clear Er0.
  destruct (find_split2_hole rest PCT LBRACE) as [[[a c] b]|] eqn:E.
  - rewrite (loop_step f s rest _ a c b Hr E) in H. unfold find_split2_hole in E.
    apply split_first_some in E as (Er & Na & Hc). unfold step in H.
    destruct (validate_literal a (blen pre)) as [[]|e'|] eqn:L.
    2:{ destruct (c =? PCT); [|destruct (c =? LBRACE); [|discriminate]]; cbn [bind] in H; injection H as <-; eapply LIT; eauto. }
    2:{ destruct (validate_literal_eq a (blen pre)) as [n L']. rewrite L in L'. destruct (forallb literal_ascii a); discriminate. }
    assert (La : forallb literal_ascii a = true).
    { destruct (validate_literal_eq a (blen pre)) as [n L']. rewrite L in L'. destruct (forallb literal_ascii a); [reflexivity|discriminate]. }
    destruct (N.eqb_spec c PCT) as [->|Hp]; cbn [bind] in H.
    + destruct (two b (blen pre + blen a)) as [r|e'|] eqn:Tw; cbn [bind] in H; [| |discriminate].
      * assert (X : exists u l, b = u :: l :: r /\ is_hexdigit u = true /\ is_hexdigit l = true).
        { destruct (two_spec b (blen pre + blen a)) as [(u & l & r' & -> & Hu & Hl & E)|[[_ E]|(_ & _ & e' & E)]]; [|congruence..].
          assert (r' = r) as -> by congruence. eauto. }
        destruct X as (u & l & -> & Hu & Hl).
        assert (Es' : s = (pre ++ a ++ [PCT; u; l]) ++ r) by (rewrite Es, Er, <- !app_assoc; reflexivity).
        replace (blen s - blen r)%nat with (blen (pre ++ a ++ [PCT; u; l])) in H by (rewrite Es', (blen_app (pre ++ _)); lia).
        apply (IH _ _ _ Es') in H as (k & n & H & ->). exists k, n. split; [|reflexivity]. rewrite Er. apply tm_lits; [assumption|]. now apply tm_pct.
      * injection H as <-. apply two_err_fwd in Tw as (m & B & ->). exists BadTriplet, (blen pre + blen a + m)%nat. split; [|reflexivity].
        rewrite Er. apply tm_lits; [assumption|]. apply tm_end. exists m. split; [right; left; exists b; auto|].
        rewrite Es, Er, !blen_app. lia.
    + cbn [orb] in Hc. rewrite Hc in H. apply N.eqb_eq in Hc as ->. unfold find_split_hole in H.
      destruct (split_first (N.eqb RBRACE) b) as [[[x c'] r]|] eqn:Eb.
      * apply split_first_some in Eb as (-> & Nx & Hc'). apply N.eqb_eq in Hc'. subst c'.
        destruct (validate_expr_body x (blen pre + blen a + 1)) as [[]|e'|] eqn:B; cbn [bind] in H.
        -- assert (Es' : s = (pre ++ a ++ LBRACE :: x ++ [RBRACE]) ++ r).
           { rewrite Es, Er, <- !app_assoc. cbn [app]. rewrite <- !app_assoc. reflexivity. }
           replace (blen s - blen r)%nat with (blen (pre ++ a ++ LBRACE :: x ++ [RBRACE])) in H by (rewrite Es', (blen_app (pre ++ _)); lia).
           apply (IH _ _ _ Es') in H as (k & n & H & ->). exists k, n. split; [|reflexivity]. rewrite Er. apply tm_lits; [assumption|].
           apply tm_expr; [|assumption..]. now apply (proj2 (decides_body x (blen pre + blen a + 1))).
        -- injection H as <-. apply body_err_fwd in B as (k & j & B & ->). exists k, (blen pre + blen a + 1 + j)%nat. split; [|reflexivity].
           rewrite Er. apply tm_lits; [assumption|]. apply tm_end. exists (1 + j)%nat. split.
           ++ right. right. right. exists x, r, j. repeat split; auto. now apply none_in.
           ++ rewrite Es, Er, !blen_app. lia.
        -- now apply (proj1 (decides_body x (blen pre + blen a + 1))) in B.
      * apply split_first_none in Eb. cbn [bind] in H. injection H as <-. exists NotClosed, (blen pre + blen a)%nat. split; [|reflexivity].
        rewrite Er. apply tm_lits; [assumption|]. apply tm_end. exists 0%nat. split.
        -- right. right. left. exists b. repeat split; auto. now apply none_in.
        -- rewrite Es, Er, !blen_app. lia.
  - cbn [validate_template_loop] in H. rewrite E in H. replace (is_empty rest) with false in H by now destruct rest.
    unfold find_split2_hole in E. apply split_first_none in E. eapply LIT; eauto. symmetry; apply app_nil_r.
Qed.
Lemma literal_none a : forallb literal_ascii a = true -> none (fun c => (c =? PCT) || (c =? LBRACE)) a = true.
Proof.
  apply forallb_impl. intros c H. apply negb_true_iff, orb_false_iff. split; apply N.eqb_neq; intros ->; discriminate.
Qed.
Lemma loop_lit_err f s a c x off : forallb literal_ascii a = true -> literal_ascii c = false -> c <> PCT -> c <> LBRACE ->
  validate_template_loop (S f) s (a ++ c :: x) off = Err (mkTE InvalidCharacter (off + blen a)%nat).
Proof.
  intros Ha Hc Hp Hb. assert (Hr : a ++ c :: x <> []) by now destruct a.
  destruct (find_split2_hole (a ++ c :: x) PCT LBRACE) as [[[y d] z]|] eqn:E.
  - rewrite (loop_step f s _ off y d z Hr E). unfold find_split2_hole in E. apply split_first_some in E as (E & Ny & Hd).
    assert (X : exists w, y = a ++ c :: w).
    { clear -Ha E Hd Hp Hb. revert y E. induction a as [|b a IH]; intros y E; cbn [app] in E.
      - destruct y as [|y0 y]; cbn [app] in E; injection E as -> ->.
        + rewrite orb_true_iff, !N.eqb_eq in Hd. tauto.
        + now exists y.
      - cbn [forallb] in Ha. bdestr. destruct y as [|y0 y]; cbn [app] in E; injection E as -> E.
        + rewrite orb_true_iff, !N.eqb_eq in Hd. destruct Hd; subst; discriminate.
        + apply IH in E; [|assumption]. destruct E as [w ->]. now exists w. }
    destruct X as [w ->]. unfold step. rewrite lit_err_back by assumption. cbn [bind].
    destruct (d =? PCT) eqn:D; [reflexivity|]. cbn [orb] in Hd. now rewrite Hd.
  - cbn [validate_template_loop]. rewrite E. replace (is_empty (a ++ c :: x)) with false by now destruct a.
    now apply lit_err_back.
Qed.
Lemma err_back s k n rest : tm (fault_in s k n) rest -> forall a f pre, s = pre ++ a ++ rest ->
  forallb literal_ascii a = true -> (length (a ++ rest) < f)%nat ->
  validate_template_loop f s (a ++ rest) (blen pre) = Err (mkTE (kind k) n).
Proof.
  assert (SP : forall a c b, forallb literal_ascii a = true -> c = PCT \/ c = LBRACE -> find_split2_hole (a ++ c :: b) PCT LBRACE = Some (a, c, b)).
  { intros a c b Ha Hc. apply split_first_app; [now apply literal_none|]. destruct Hc as [->| ->]; reflexivity. }
  induction 1 as [e (m & H & ->)|c r Hc H IH|u l r Hu Hl H IH|body r Hb Nb H IH]; intros a f pre Es Ha Hf.
  - destruct f as [|f]; [lia|].
    assert (Hn : (blen s - blen e + m = blen pre + blen a + m)%nat) by (rewrite Es, !blen_app; lia). rewrite Hn.
    destruct H as [(c & r & -> & Hc & Hp & Hbr & -> & ->)|[(r & -> & B & ->)|[(r & -> & Nr & -> & ->)|(b & r & j & -> & Nb & B & ->)]]].
    + rewrite loop_lit_err by assumption. cbn [kind]. do 2 f_equal. lia.
    + rewrite (loop_step f s _ _ a PCT r); [|now destruct a|now apply SP; auto]. unfold step. rewrite N.eqb_refl, lit_ok by assumption.
      cbn [bind]. now rewrite (two_err_back _ _ _ B).
    + rewrite (loop_step f s _ _ a LBRACE r); [|now destruct a|now apply SP; auto]. unfold step. change (LBRACE =? PCT) with false.
      rewrite N.eqb_refl, lit_ok by assumption. cbn [bind]. unfold find_split_hole. rewrite split_first_none_app by now apply none_in.
      cbn [bind kind]. unfold terr. cbn [bind]. do 2 f_equal. lia.
    + change (123 :: b ++ 125 :: r) with (LBRACE :: b ++ RBRACE :: r) in *.
      rewrite (loop_step f s _ _ a LBRACE (b ++ RBRACE :: r)); [|now destruct a|now apply SP; auto]. unfold step. change (LBRACE =? PCT) with false.
      rewrite N.eqb_refl, lit_ok by assumption. cbn [bind]. unfold find_split_hole. rewrite split_first_app by (now apply none_in || reflexivity).
      rewrite (body_err_back _ _ _ _ B). cbn [bind]. do 2 f_equal. lia.
  - replace (a ++ c :: r) with ((a ++ [c]) ++ r) in * by (rewrite <- app_assoc; reflexivity).
    apply IH; auto. rewrite forallb_app, Ha. cbn [forallb]. now rewrite Hc.
  - destruct f as [|f]; [lia|]. rewrite (loop_step f s _ _ a PCT (u :: l :: r)); [|now destruct a|now apply SP; auto].
    unfold step. rewrite N.eqb_refl, lit_ok by assumption. cbn [bind].
    destruct (two_spec (u :: l :: r) (blen pre + blen a)) as [(u' & l' & r' & [= <- <- <-] & _ & _ & ->)|[[C _]|(X & _)]].
    + cbn [bind]. assert (Es' : s = (pre ++ a ++ [PCT; u; l]) ++ [] ++ r) by (rewrite Es, <- !app_assoc; reflexivity).
      replace (blen s - blen r)%nat with (blen (pre ++ a ++ [PCT; u; l])) by (rewrite Es', (blen_app (pre ++ _)); cbn [app]; lia).
      apply (IH []); auto. rewrite app_length in Hf. cbn [length app] in *. lia.
    + exfalso. destruct C as (c & t & [= <- <-] & [C|[_ (d & t' & [= <- <-] & C)]]); [apply hex_ascii in Hu|apply hex_ascii in Hl]; lia.
    + specialize (X u l r eq_refl). now rewrite Hu, Hl in X.
  - destruct f as [|f]; [lia|]. rewrite (loop_step f s _ _ a LBRACE (body ++ RBRACE :: r)); [|now destruct a|now apply SP; auto].
    unfold step. change (LBRACE =? PCT) with false. rewrite N.eqb_refl, lit_ok by assumption. cbn [bind]. unfold find_split_hole.
    rewrite split_first_app by (assumption || reflexivity).
    rewrite (proj2 (proj2 (decides_body body (blen pre + blen a + 1))) Hb). cbn [bind].
    assert (Es' : s = (pre ++ a ++ LBRACE :: body ++ [RBRACE]) ++ [] ++ r).
    { rewrite Es, <- !app_assoc. cbn [app]. rewrite <- !app_assoc. reflexivity. }
    replace (blen s - blen r)%nat with (blen (pre ++ a ++ LBRACE :: body ++ [RBRACE])) by (rewrite Es', (blen_app (pre ++ _)); cbn [app]; lia).
    apply (IH []); auto. rewrite !app_length in Hf. cbn [length] in Hf. rewrite app_length in Hf. cbn [length app] in *. lia.
Qed.
Lemma errors s e : template_new s = Err e <-> exists k n, template_fault s k n /\ e = mkTE (kind k) n.
Proof.
  unfold template_new, validate_template_str. transitivity (validate_template_loop (1 + length s) s s 0 = Err e).
  { destruct (validate_template_loop _ _ _ _) as [[]| |]; cbn [bind]; split; congruence. }
  split.
  - intros H. apply (err_fwd s _ [] s e eq_refl) in H as (k & n & H & ->). exists k, n. split; [now apply fault_tm|reflexivity].
  - intros (k & n & H & ->). apply fault_tm in H. apply (err_back s k n s H [] _ []); auto.
Qed.
Lemma fault_location s k n : template_fault s k n -> (n <= blen s)%nat.
Proof.
  intros (T & e & m & _ & -> & H & ->). rewrite blen_app. apply Nat.add_le_mono_l.
  destruct H as [(c & r & -> & _ & _ & _ & _ & ->)|[(r & -> & B & _)|[(r & -> & _ & _ & ->)|(b & r & j & -> & _ & B & ->)]]]; cbn [blen]; try lia.
  - change (clen 37) with 1%nat. destruct B as [[_ ->]|(L & c & t & -> & _ & [[_ ->]|(_ & d & t' & -> & _ & ->)])]; cbn [blen] in *; lia.
  - rewrite blen_app. cbn [blen]. change (clen 123) with 1%nat. change (clen 125) with 1%nat.
    enough (j <= blen b + 1)%nat by lia.
    destruct B as [(-> & _ & ->)|[(c & t & -> & _ & _ & ->)|(o & l & v & t & i & -> & _ & _ & _ & _ & B & _ & ->)]]; [lia..|].
    rewrite !blen_app. enough (i <= blen v + 1)%nat by lia.
    destruct B as (a & t' & -> & _ & _ & _ & [[_ ->]|[_ [(ds & -> & _ & ->)|[(x & c & y & -> & _ & _ & _ & ->)|(u & -> & Hu & ->)]]]]);
      rewrite ?blen_app; cbn [blen]; change (clen 58) with 1%nat; change (clen 42) with 1%nat; try lia.
    rewrite blen_app. cbn [blen]. pose proof (clen_pos c). lia.
Qed.
Lemma located s e : template_new s = Err e -> (te_location e <= blen s)%nat.
Proof. intros H. apply errors in H as (k & n & H & ->). now apply fault_location in H. Qed.
