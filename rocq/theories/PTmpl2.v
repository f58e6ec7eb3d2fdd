(** * Proofs for C27: whole templates. *)
From Verif Require Import Base Chars Rfc3986 Utf8 PctSpec EncodeSpec MValidate MTrusted MFormat MSearch MPct MEncode MTemplate TemplateSpec.
From Verif Require Import PBase PScan PSearch PTmpl1.

(** A template followed by something in [E]. *)
Inductive tm (E : str -> Prop) : str -> Prop :=
| tm_end s : E s -> tm E s
| tm_lit c s : literal_ascii c = true -> tm E s -> tm E (c :: s)
| tm_pct u l s : is_hexdigit u = true -> is_hexdigit l = true -> tm E s -> tm E (PCT :: u :: l :: s)
| tm_expr body s : is_body body -> none (N.eqb RBRACE) body = true -> tm E s -> tm E (LBRACE :: body ++ RBRACE :: s).

Lemma crate_lit_iff x : crate_literals x <-> (exists c, x = [c] /\ literal_ascii c = true) \/ pct_encoded x.
Proof. reflexivity. Qed.
Lemma lit_scan s : star crate_literals s <-> scan literal_ascii s = true.
Proof. apply star_scan; [apply crate_lit_iff|reflexivity]. Qed.
Lemma tm_scan E s e : scan literal_ascii s = true -> tm E e -> tm E (s ++ e).
Proof.
  intros H He. revert s H. apply (scan_ind (fun s => scan literal_ascii s = true -> tm E (s ++ e))).
  - intros _. exact He.
  - intros c r Hc IH H. rewrite scan_cons in H by assumption. bdestr. cbn [app]. apply tm_lit; auto.
  - intros u l r IH H. rewrite scan_pct in H. bdestr. cbn [app]. apply tm_pct; auto.
  - discriminate.
  - intros u. now rewrite scan_pct1.
Qed.
Lemma part_expr o rs : part_text (Expr o rs) = LBRACE :: body_text o rs ++ [RBRACE].
Proof. cbn [part_text]. unfold body_text. rewrite <- app_assoc. reflexivity. Qed.
Lemma tm_parts E T e : Forall crate_part T -> tm E e -> tm E (template_text T ++ e).
Proof.
  intros F He. induction F as [|p T Hp F IH]; [exact He|]. unfold template_text. cbn [flat_map]. rewrite <- app_assoc.
  fold (template_text T). destruct p as [s|o rs].
  - apply tm_scan; [|assumption]. now apply lit_scan.
  - rewrite part_expr. cbn [app]. rewrite <- app_assoc. cbn [app]. destruct Hp as [Hn Hs]. apply tm_expr; [exists o, rs; auto| |assumption].
    apply body_no_brace; [|assumption]. intros c Hc. left. now apply N.eqb_eq in Hc.
Qed.
Lemma parts_tm E s : tm E s -> exists T e, Forall crate_part T /\ s = template_text T ++ e /\ E e.
Proof.
  induction 1 as [s H|c s Hc H (T & e & F & -> & He)|u l s Hu Hl H (T & e & F & -> & He)|body s (o & rs & Hn & Hs & ->) Hb H (T & e & F & -> & He)].
  - exists [], s. auto.
  - exists (Lit [c] :: T), e. repeat split; [|assumption]. constructor; [|assumption]. apply lit_scan.
    destruct (N.eqb_spec c PCT) as [->|]; [discriminate|]. rewrite scan_cons by assumption. now rewrite Hc.
  - exists (Lit [PCT; u; l] :: T), e. repeat split; [|assumption]. constructor; [|assumption]. apply lit_scan.
    rewrite scan_pct, Hu, Hl. reflexivity.
  - exists (Expr o rs :: T), e. repeat split; [| |assumption]; [constructor; [split|]; assumption|].
    unfold template_text. cbn [flat_map]. rewrite part_expr. cbn [app]. rewrite <- !app_assoc. reflexivity.
Qed.

(** Inversions. *)
Section Inv.
Context (E : str -> Prop) (EP : forall s, E s -> match s with [] => True | c :: _ => c = PCT end).
Lemma tm_lit_inv a s : none (fun c => (c =? PCT) || (c =? LBRACE)) a = true ->
  (tm E (a ++ s) <-> (forallb literal_ascii a = true /\ tm E s) \/ (a <> [] /\ E (a ++ s))).
Proof using EP.
  intros Ha. split.
  - revert Ha. induction a as [|c a IH]; cbn [app]; intros Ha H.
    + left. auto.
    + rewrite none_cons in Ha. bdestr. apply orb_false_iff in H0 as [H2 H3]. apply N.eqb_neq in H2, H3.
      inversion H; subst; try congruence.
      * right. split; [discriminate|assumption].
      * apply IH in H6; auto. destruct H6 as [[H6 H7]|[Hne H6]].
        -- left. cbn [forallb]. now rewrite H5, H6.
        -- apply EP in H6. destruct a; [contradiction|]. cbn [app] in H6. subst. rewrite none_cons in H1. discriminate.
  - intros [[H1 H2]|[H1 H2]]; [|now apply tm_end]. clear Ha. induction a as [|c a IH]; cbn [app]; [assumption|].
    cbn [forallb] in H1. bdestr. apply tm_lit; auto.
Qed.
Lemma tm_pct_inv s : tm E (PCT :: s) <-> E (PCT :: s) \/ exists u l r, s = u :: l :: r /\ is_hexdigit u = true /\ is_hexdigit l = true /\ tm E r.
Proof.
  split.
  - intros H. inversion H as [? HE|c0 s0 HL _|u l s' Hu Hl Hs|]; subst; [left; exact HE|discriminate HL|]. right. exists u, l, s'. auto.
  - intros [H|(u & l & r & -> & Hu & Hl & H)]; [now apply tm_end|now apply tm_pct].
Qed.
Lemma tm_brace_inv s : tm E (LBRACE :: s) <-> exists b r, s = b ++ RBRACE :: r /\ none (N.eqb RBRACE) b = true /\ is_body b /\ tm E r.
Proof using EP.
  split.
  - intros H. inversion H as [? HE|c0 s0 HL _| |b s' Hb Hn Hs]; subst; [apply EP in HE; discriminate|discriminate HL|]. exists b, s'. auto.
  - intros (b & r & -> & Hb & H1 & H2). now apply tm_expr.
Qed.
End Inv.

Definition stop (s : str) : Prop := exists r, s = PCT :: r /\ cut r.
Lemma stop_pct s : stop s -> match s with [] => True | c :: _ => c = PCT end.
Proof. now intros (r & -> & _). Qed.

(** A literal part. *)
Lemma validate_literal_eq s off : exists n,
  validate_literal s off = if forallb literal_ascii s then Ok tt else terr InvalidCharacter n.
Proof.
  unfold validate_literal. destruct (position _ s) as [p|] eqn:P.
  - exists (off + p)%nat. apply position_first in P as [(x & Hx & Px) _]. rewrite literal_ok in Px. bdestr.
    replace (forallb literal_ascii s) with false; [reflexivity|]. symmetry. apply not_true_is_false. intros H.
    rewrite forallb_forall in H. rewrite H in Px; [discriminate|]. now apply nth_error_In in Hx.
  - exists 0%nat. apply position_none in P. replace (forallb literal_ascii s) with true; [reflexivity|]. symmetry.
    apply forallb_forall. rewrite Forall_forall in P. intros x Hx. specialize (P x Hx). rewrite literal_ok in P.
    destruct (literal_ascii x); [reflexivity|]. now destruct P.
Qed.
(** The two bytes after a ['%']. *)
Definition two (after : str) (m : nat) : tres str :=
  if Nat.ltb (blen after) 2 then terr InvalidPercentEncoding m
  else
    do (xdigits2, new_rest) <- tlift (str_split_at after 2) ;
    do x0 <- tlift (byte_at (utf8s xdigits2) 0) ;
    (if negb (is_hexdigit x0) then terr InvalidPercentEncoding (m + 1)
     else
      do x1 <- tlift (byte_at (utf8s xdigits2) 1) ;
      (if negb (is_hexdigit x1) then terr InvalidPercentEncoding (m + 2)
       else Ok new_rest)).
Lemma two_spec after m :
  (exists u l r, after = u :: l :: r /\ is_hexdigit u = true /\ is_hexdigit l = true /\ two after m = Ok r) \/
  (cut after /\ two after m = Panic) \/
  ((forall u l r, after = u :: l :: r -> is_hexdigit u && is_hexdigit l = false) /\ ~ cut after /\ exists e, two after m = Err e).
Proof.
  unfold two. destruct after as [|u r].
  { right. right. repeat split; [discriminate| |eexists; reflexivity]. intros (c & t & E & _). discriminate. }
  destruct (N.ltb_spec u 128) as [Hu|Hu].
  - assert (Lu : clen u = 1%nat) by (unfold clen; now rewrite (proj2 (N.ltb_lt _ _) Hu)).
    destruct r as [|l r].
    { right. right. cbn [blen]. rewrite Lu. cbn. repeat split; [discriminate| |eexists; reflexivity].
      intros (c & t & [= <- <-] & [Hc|[_ (d & t' & E & _)]]); [lia|discriminate]. }
    replace (Nat.ltb (blen (u :: l :: r)) 2) with false.
    2:{ symmetry. apply Nat.ltb_ge. cbn [blen]. pose proof (clen_pos l). lia. }
    destruct (N.ltb_spec l 128) as [Hl|Hl].
    + assert (Ll : clen l = 1%nat) by (unfold clen; now rewrite (proj2 (N.ltb_lt _ _) Hl)).
      assert (Sp : str_split_at (u :: l :: r) 2 = Ok ([u; l], r)).
      { replace 2%nat with (blen [u; l]) by (cbn [blen]; lia). apply (split_at_app [u; l] r). }
      rewrite Sp. cbn [tlift bind]. rewrite !utf8s_ascii_cons by assumption. cbn [byte_at nth_error tlift bind].
      assert (NC : ~ cut (u :: l :: r)).
      { intros (c & t & [= <- <-] & [Hc|[_ (d & t' & [= <- _] & Hd)]]); lia. }
      destruct (is_hexdigit u) eqn:Eu; cbn [negb].
      * destruct (is_hexdigit l) eqn:El; cbn [negb].
        -- left. exists u, l, r. auto.
        -- right. right. repeat split; auto; [|eexists; reflexivity]. intros ? ? ? [= <- <- <-]. now rewrite El, andb_false_r.
      * right. right. repeat split; auto; [|eexists; reflexivity]. intros ? ? ? [= <- <- <-]. now rewrite Eu.
    + right. left. split; [exists u, (l :: r); split; [reflexivity|right; split; [assumption|eauto]]|].
      assert (Ll : exists k, clen l = Datatypes.S (Datatypes.S k)).
      { unfold clen. rewrite (proj2 (N.ltb_ge l 128) Hl). destruct (l <? 2048); [eauto|]. destruct (l <? 65536); eauto. }
      destruct Ll as [k Ll]. cbn [str_split_at]. rewrite Lu, Ll. reflexivity.
  - assert (Hx : is_hexdigit u = false) by (unfold is_hexdigit, is_digit, between; lia).
    assert (Lu : (2 <= clen u)%nat).
    { unfold clen. rewrite (proj2 (N.ltb_ge u 128) Hu). destruct (u <? 2048); [lia|]. destruct (u <? 65536); lia. }
    replace (Nat.ltb (blen (u :: r)) 2) with false. 2:{ symmetry. apply Nat.ltb_ge. cbn [blen]. lia. }
    destruct (N.ltb_spec u 2048) as [H2|H2].
    + right. right. assert (Lu2 : clen u = 2%nat).
      { unfold clen. rewrite (proj2 (N.ltb_ge u 128) Hu). now rewrite (proj2 (N.ltb_lt u 2048) H2). }
      repeat split.
      * intros ? ? ? [= <- _]. now rewrite Hx.
      * intros (c & t & [= <- <-] & [Hc|[Hc _]]); lia.
      * assert (Sp : str_split_at (u :: r) 2 = Ok ([u], r)).
        { replace 2%nat with (blen [u]) by (cbn [blen]; lia). apply (split_at_app [u] r). }
        rewrite Sp. cbn [tlift bind]. destruct (utf8s_high_cons u [] Hu) as (b & bs & -> & Hb). cbn [byte_at nth_error tlift bind].
        replace (is_hexdigit b) with false by (unfold is_hexdigit, is_digit, between; lia). eexists. reflexivity.
    + right. left. split; [exists u, r; auto|].
      assert (Ll : exists k, clen u = Datatypes.S (Datatypes.S (Datatypes.S k))).
      { unfold clen. rewrite (proj2 (N.ltb_ge u 128) Hu), (proj2 (N.ltb_ge u 2048) H2). destruct (u <? 65536); eauto. }
      destruct Ll as [k Ll]. cbn [str_split_at]. rewrite Ll. reflexivity.
Qed.

Definition step (rest : str) (offset : nat) (literal : str) (sep : N) (after : str) : tres str :=
  if sep =? PCT then validate_literal literal offset ;; two after (offset + blen literal)
  else if sep =? LBRACE then
    validate_literal literal offset ;;
    match find_split_hole after RBRACE with
    | None => terr ExpressionNotClosed (offset + blen literal)
    | Some (expr, new_rest) => validate_expr_body expr (offset + blen literal + 1) ;; Ok new_rest
    end
  else Panic.
Lemma loop_step f s rest off a c b : rest <> [] -> find_split2_hole rest PCT LBRACE = Some (a, c, b) ->
  validate_template_loop (S f) s rest off = (do r <- step rest off a c b ; validate_template_loop f s r (blen s - blen r)).
Proof. intros Hr E. cbn [validate_template_loop]. rewrite E. now destruct rest. Qed.

Lemma loop_spec n : forall rest s off f, (length rest <= n)%nat -> (length rest < f)%nat ->
  (validate_template_loop f s rest off = Ok tt <-> tm (eq []) rest) /\
  (validate_template_loop f s rest off = Panic <-> tm stop rest).
Proof.
  assert (EN : forall s, [] = s -> match s with [] => True | c :: _ => c = PCT end) by now intros s <-.
  induction n as [|n IH]; intros rest s off f Hn Hf.
  - destruct rest; [|cbn in Hn; lia]. destruct f; [lia|]. split; split; [intros _; now apply tm_end|reflexivity|discriminate|].
    intros H. inversion H as [? HE| | |]; subst. destruct HE as (r & HE & _). discriminate.
  - destruct f as [|f]; [lia|]. destruct rest as [|x rest0].
    { apply (IH [] s off (S f)); cbn; lia. }
    remember (x :: rest0) as rest eqn:Er. assert (Hr : rest <> []) by now rewrite Er.
    destruct (find_split2_hole rest PCT LBRACE) as [[[a c] b]|] eqn:E.
    + rewrite (loop_step f s rest off a c b Hr E). unfold find_split2_hole in E.
      apply split_first_some in E as (Eq & Ha & Hc). rewrite Eq. unfold step.
      rewrite (tm_lit_inv (eq []) EN) by assumption. rewrite (tm_lit_inv stop stop_pct) by assumption.
      assert (NN : ~ (a <> [] /\ [] = a ++ c :: b)) by (intros [_ H]; now destruct a).
      assert (NS : ~ (a <> [] /\ stop (a ++ c :: b))).
      { intros [H1 H2]. apply stop_pct in H2. destruct a; [contradiction|]. cbn [app] in H2. subst. rewrite none_cons in Ha. discriminate. }
      destruct (validate_literal_eq a off) as [m ->].
      destruct (N.eqb_spec c PCT) as [->|Hp].
      * destruct (forallb literal_ascii a) eqn:La; cbn [bind].
        2:{ split; split; try discriminate; intros [[H _]|H]; try discriminate; contradiction. }
        rewrite !tm_pct_inv.
        destruct (two_spec b (off + blen a)) as [(u & l & r & -> & Hu & Hl & ->)|[(C & ->)|(B & NC & e & ->)]]; cbn [bind].
        -- destruct (IH r s (blen s - blen r)%nat f) as [I1 I2]; [| |rewrite I1, I2].
           { rewrite Eq in Hn. rewrite app_length in Hn. cbn [length] in Hn. lia. }
           { rewrite Eq in Hf. rewrite app_length in Hf. cbn [length] in Hf. lia. }
           split; split.
           ++ intros H. left. split; [reflexivity|]. right. exists u, l, r. auto.
           ++ intros [[_ [H|(u' & l' & r' & [= <- <- <-] & _ & _ & H)]]|H]; [discriminate|assumption|contradiction].
           ++ intros H. left. split; [reflexivity|]. right. exists u, l, r. auto.
           ++ intros [[_ [H|(u' & l' & r' & [= <- <- <-] & _ & _ & H)]]|H]; [|assumption|contradiction].
              destruct H as (q & [= <-] & (c' & t & [= <- <-] & [Hc'|[_ (d & t' & [= <- <-] & Hd)]])).
              ** apply hex_ascii in Hu. lia. ** apply hex_ascii in Hl. lia.
        -- split; split; try discriminate.
           ++ intros [[_ [H|(u' & l' & r' & -> & Hu & Hl & H)]]|H]; [discriminate| |contradiction].
              destruct C as (c' & t & [= <- <-] & [Hc'|[_ (d & t' & [= <- <-] & Hd)]]).
              ** apply hex_ascii in Hu. lia. ** apply hex_ascii in Hl. lia.
           ++ intros _. left. split; [reflexivity|]. left. exists b. auto.
           ++ reflexivity.
        -- split; split; try discriminate.
           ++ intros [[_ [H|(u' & l' & r' & E & Hu & Hl & H)]]|H]; [discriminate| |contradiction].
              specialize (B _ _ _ E). now rewrite Hu, Hl in B.
           ++ intros [[_ [H|(u' & l' & r' & E & Hu & Hl & H)]]|H]; [| |contradiction].
              { destruct H as (q & [= <-] & H). contradiction. }
              specialize (B _ _ _ E). now rewrite Hu, Hl in B.
      * cbn [orb] in Hc. rewrite Hc. apply N.eqb_eq in Hc as ->.
        destruct (forallb literal_ascii a) eqn:La; cbn [bind].
        2:{ split; split; try discriminate; intros [[H _]|H]; try discriminate; contradiction. }
        rewrite (tm_brace_inv (eq []) EN), (tm_brace_inv stop stop_pct).
        unfold find_split_hole. destruct (split_first (N.eqb RBRACE) b) as [[[e c'] r]|] eqn:Eb.
        -- apply split_first_some in Eb as (Eb & He & Hc'). apply N.eqb_eq in Hc'. subst c'.
           assert (U : forall e' r', b = e' ++ RBRACE :: r' -> none (N.eqb RBRACE) e' = true -> e' = e /\ r' = r).
           { intros e' r' E' N'. rewrite Eb in E'. apply (first_unique (N.eqb RBRACE)) in E'; auto. destruct E' as (-> & _ & ->). auto. }
           destruct (decides_body e (off + blen a + 1)) as [D1 D2].
           destruct (validate_expr_body e (off + blen a + 1)) as [[]|er|]; cbn [bind]; [| |contradiction].
           ++ destruct (IH r s (blen s - blen r)%nat f) as [I1 I2]; [| |rewrite I1, I2].
              { rewrite Eq, Eb in Hn. rewrite app_length in Hn. cbn [length] in Hn. rewrite app_length in Hn. cbn [length] in Hn. lia. }
              { rewrite Eq, Eb in Hf. rewrite app_length in Hf. cbn [length] in Hf. rewrite app_length in Hf. cbn [length] in Hf. lia. }
              split; split.
              ** intros H. left. split; [reflexivity|]. exists e, r. repeat split; auto. now apply D2.
              ** intros [[_ (e' & r' & E' & N' & _ & H)]|H]; [|contradiction]. destruct (U _ _ E' N') as [-> ->]. assumption.
              ** intros H. left. split; [reflexivity|]. exists e, r. repeat split; auto. now apply D2.
              ** intros [[_ (e' & r' & E' & N' & _ & H)]|H]; [|contradiction]. destruct (U _ _ E' N') as [-> ->]. assumption.
           ++ split; split; try discriminate; (intros [[_ (e' & r' & E' & N' & B' & H)]|H]; [|contradiction]);
              destruct (U _ _ E' N') as [-> ->]; apply D2 in B'; discriminate.
        -- apply split_first_none in Eb. cbn [bind].
           split; split; try discriminate; (intros [[_ (e' & r' & E' & N' & B' & H)]|H]; [|contradiction]);
           rewrite E', none_app, none_cons in Eb; rewrite N.eqb_refl in Eb; now rewrite andb_false_r in Eb.
    + cbn [validate_template_loop]. rewrite E. replace (is_empty rest) with false by now destruct rest.
      unfold find_split2_hole in E. apply split_first_none in E. destruct (validate_literal_eq rest off) as [m ->].
      rewrite <- (app_nil_r rest). rewrite (tm_lit_inv (eq []) EN) by assumption. rewrite (tm_lit_inv stop stop_pct) by assumption.
      rewrite !app_nil_r.
      assert (NS : ~ (rest <> [] /\ stop rest)).
      { intros [_ (q & -> & _)]. rewrite none_cons in E. discriminate. }
      assert (NS' : ~ tm stop []) by (intros H; inversion H; subst; destruct H0 as (q & H0 & _); discriminate).
      destruct (forallb literal_ascii rest).
      * split; split; try discriminate; try reflexivity.
        -- intros _. left. split; [reflexivity|]. now apply tm_end.
        -- intros [[_ H]|H]; contradiction.
      * split; split; try discriminate; intros [[H _]|H]; try discriminate; try contradiction.
        destruct H as [H H']. congruence.
Qed.

(** ** Conclusions *)
Lemma accepts s : template_new s = Ok s <-> crate_template s.
Proof.
  unfold template_new, validate_template_str.
  destruct (loop_spec (length s) s s 0 (1 + length s)) as [H _]; [lia|lia|].
  transitivity (tm (eq []) s).
  - rewrite <- H. destruct (validate_template_loop _ _ _ _) as [[]| |]; cbn [bind]; split; intros; congruence || reflexivity.
  - unfold crate_template. split.
    + intros X. apply parts_tm in X as (T & e & F & -> & <-). exists T. split; [assumption|apply app_nil_r].
    + intros (T & F & ->). rewrite <- (app_nil_r (template_text T)). apply tm_parts; [assumption|]. now apply tm_end.
Qed.
Lemma panics s : template_new s = Panic <-> exists T r, Forall crate_part T /\ s = template_text T ++ 37 :: r /\ cut r.
Proof.
  unfold template_new, validate_template_str.
  destruct (loop_spec (length s) s s 0 (1 + length s)) as [_ H]; [lia|lia|].
  transitivity (tm stop s).
  - rewrite <- H. destruct (validate_template_loop _ _ _ _) as [[]| |]; cbn [bind]; split; intros; congruence || reflexivity.
  - split.
    + intros X. apply parts_tm in X as (T & e & F & -> & (r & -> & C)). exists T, r. auto.
    + intros (T & r & F & -> & C). apply tm_parts; [assumption|]. apply tm_end. exists r. auto.
Qed.
Lemma new_id s t : template_new s = Ok t -> t = s.
Proof. unfold template_new. destruct (validate_template_str s); cbn [bind]; congruence. Qed.

(** Every template of the RFC without non-ASCII literal characters is accepted. *)
Lemma rfc_name_crate s : varname s -> crate_varname s.
Proof.
  intros (a & b & -> & Ha & Hb). exists a, b. split; [reflexivity|]. split; [assumption|]. clear Ha.
  induction Hb as [|x y Hx Hy IH]; [constructor|]. apply star_app; [|assumption].
  destruct Hx as (d & v & -> & [->|Hd] & Hv).
  - apply star_one. now right.
  - apply star_app; [apply star_one; now left|apply star_one; now right].
Qed.
Lemma rfc_max_crate s : max_length s -> reps 1 5 (cls DIGIT) s /\ decimal s <= 9999.
Proof.
  unfold max_length. rewrite cls_cat. intros (c & b & -> & Hc & Hb). apply reps_digits in Hb as [Hl Hb].
  split.
  - apply reps_digits. cbn [length forallb]. split; [lia|]. rewrite Hb. unfold DIGIT, between in *. lia.
  - unfold between in Hc. unfold decimal. destruct b as [|x [|y [|z [|? ?]]]]; cbn [length] in Hl; try lia;
    cbn [forallb] in Hb; unfold DIGIT, between in Hb; cbn [fold_left]; lia.
Qed.
Lemma rfc_spec_crate r : rfc_spec r -> crate_spec r /\ small_spec r.
Proof.
  intros [Hn Hm]. unfold crate_spec, small_spec. destruct (r_mod r); repeat split; auto using rfc_name_crate.
  - now apply rfc_max_crate. - apply rfc_max_crate in Hm. lia.
Qed.
Definition ascii_part (p : part) : Prop := match p with Lit s => all_ascii s = true | Expr _ _ => True end.
Lemma rfc_literal_crate s : star literals s -> all_ascii s = true -> star crate_literals s.
Proof.
  induction 1 as [|a b Ha Hb IH]; [constructor|]. unfold all_ascii. rewrite forallb_app. intros H; bdestr.
  constructor; [|now apply IH]. destruct Ha as [Ha|[(c & -> & Hc)|[(c & -> & Hc)|Ha]]].
  - now left.
  - apply ucschar_nonascii in Hc. cbn [forallb] in H. rewrite Hc in H. discriminate.
  - apply iprivate_nonascii in Hc. cbn [forallb] in H. rewrite Hc in H. discriminate.
  - now right.
Qed.
Lemma rfc_part_crate p : rfc_part p -> ascii_part p -> crate_part p /\ small_part p.
Proof.
  destruct p as [s|o l]; cbn.
  - intros H1 H2. split; [now apply rfc_literal_crate|exact I].
  - intros [Hn F] _. repeat split; auto; (eapply Forall_impl; [|exact F]); intros r Hr; now apply rfc_spec_crate.
Qed.
Lemma all_ascii_parts T : all_ascii (template_text T) = true -> Forall ascii_part T.
Proof.
  induction T as [|p T IH]; [constructor|]. unfold template_text, all_ascii. cbn [flat_map]. rewrite forallb_app. intros H; bdestr.
  constructor; [|now apply IH]. destruct p; [assumption|exact I].
Qed.
Lemma rfc_accepted s : rfc_template s -> all_ascii s = true -> template_new s = Ok s.
Proof.
  intros (T & F & ->) H. apply accepts. exists T. split; [|reflexivity]. apply all_ascii_parts in H.
  rewrite Forall_forall in *. intros p Hp. now apply rfc_part_crate; auto.
Qed.
