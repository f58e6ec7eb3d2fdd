(** * The expansion of expressions and templates, and the type check (C28, C29). *)
From Verif Require Import Base Chars Rfc3986 Utf8 PctSpec EncodeSpec MValidate MTrusted MFormat MSearch MPct MEncode MTemplate MMaybePct MExpand TemplateSpec ExpandSpec.
From Verif Require Import PBase PScan PSearch PPct PPct2 PEncode PEncode2 PPath2 PTmpl1 PTmpl2 PTmpl3 PExp1 PExp2 PExp3 PExp4 PExp5.

Lemma specs_len rs : Forall spec_ok rs -> (length rs <= length (specs_text rs))%nat.
Proof.
  induction 1 as [|r rs [Hc _] F IH]; [cbn; lia|]. pose proof (spec_nonempty r Hc) as Hn.
  destruct rs as [|r' rs].
  - unfold specs_text. cbn [map TemplateSpec.join]. destruct (rspec_text r); [contradiction|cbn; lia].
  - rewrite specs_cons. rewrite app_length. cbn [length] in *. lia.
Qed.
Lemma small_specs rs : Forall crate_spec rs -> Forall small_spec rs -> Forall spec_ok rs.
Proof. induction 1 as [|r rs H F IH]; intros Hs; [constructor|]. inversion Hs; subst. constructor; [split; assumption|auto]. Qed.
Section Expand.
Variables (S : Spec) (debug : bool) (ctx : Ctx) (env : str -> sval).
(** How a variable is expanded. *)
Variable value : rop -> rspec -> sval -> str.
Definition good (o : rop) (r : rspec) : Prop := forall first,
  outs (visit_value S debug (spec_of r) (op_of o) first (ctx (r_name r))) =
  Some (if defined (env (r_name r)) then opening o first ++ value o r (env (r_name r)) else [], first && negb (defined (env (r_name r)))).
Definition vals (o : rop) (rs : list rspec) : list str :=
  map (fun r => value o r (env (r_name r))) (filter (fun r => defined (env (r_name r))) rs).
Definition vars_text (o : rop) (first : bool) (rs : list rspec) : str :=
  match vals o rs with [] => [] | v :: vs => opening o first ++ v ++ flat_map (fun y => w_sep (op_row o) ++ y) vs end.
Lemma vars_false o rs : vars_text o false rs = flat_map (fun y => w_sep (op_row o) ++ y) (vals o rs).
Proof. unfold vars_text. destruct (vals o rs) as [|v vs]; [reflexivity|]. cbn [flat_map]. unfold opening. now rewrite <- app_assoc. Qed.
Lemma vars_true o rs : vars_text o true rs = expression value env o rs.
Proof.
  unfold vars_text, expression. fold (vals o rs). destruct (vals o rs) as [|v vs]; [reflexivity|]. unfold opening. now rewrite join_cons.
Qed.
Lemma expand_vars_ok o rs : Forall spec_ok rs -> (forall r, In r rs -> good o r) ->
  forall fuel first, (length rs < fuel)%nat -> outs (expand_vars fuel S debug ctx (op_of o) first (specs_text rs)) = Some (vars_text o first rs, tt).
Proof.
  induction 1 as [|r rs [Hc Hs] F IH]; intros HT fuel first Hf; (destruct fuel as [|fuel]; [cbn in Hf; lia|]); cbn [expand_vars].
  - change (specs_text []) with (@nil N). rewrite varlist_nil. apply outs_ret.
  - rewrite varlist_cons by assumption. rewrite parse_trusted_small by assumption. cbn [bind]. rewrite lift_bind. cbv beta iota.
    cbn [vs_name spec_of]. pose proof (HT r (or_introl eq_refl)) as Ht.
    assert (IH' : forall first, outs (expand_vars fuel S debug ctx (op_of o) first (specs_text rs)) = Some (vars_text o first rs, tt)).
    { intros f. apply IH; [intros; apply HT; now right|cbn in Hf; lia]. }
    eapply outs_eq; [eapply outs_bind; [apply Ht|apply IH']|].
    unfold vars_text at 2, vals. cbn [filter]. destruct (defined (env (r_name r))) eqn:Ed; cbn [negb].
    + rewrite andb_false_r, vars_false. cbn [map]. unfold vals. now rewrite <- app_assoc.
    + rewrite andb_true_r. reflexivity.
Qed.
Lemma expand_expr_ok o rs : rs <> [] -> Forall spec_ok rs -> (forall r, In r rs -> good o r) ->
  outs (expand_expr S debug ctx (body_text o rs)) = Some (expression value env o rs, tt).
Proof.
  intros Hn F HT. unfold expand_expr. rewrite decompose_eq; [|assumption|eapply Forall_impl; [|exact F]; now intros r []].
  rewrite lift_bind. cbv beta iota. rewrite <- vars_true. apply expand_vars_ok; auto. pose proof (specs_len rs F). lia.
Qed.
Lemma expanded_ok T : Tok T -> (forall o rs r, In (Expr o rs) T -> In r rs -> good o r) -> forall l f, no_brace l -> (length l + length (template_text T) < f)%nat ->
  outs (expanded_loop f S debug ctx (l ++ template_text T)) = Some (l ++ expansion value env T, tt).
Proof.
  induction 1 as [|p T [Hp Hs] HT IH]; intros Ht l f Hl Hf.
  - cbn [template_text flat_map] in *. unfold expansion. cbn [flat_map]. rewrite app_nil_r in *. destruct f as [|f]; [lia|]. cbn [expanded_loop].
    destruct l as [|c l]; [reflexivity|]. rewrite chunks_lit by (assumption || discriminate). rewrite lift_bind. cbv beta iota.
    destruct f as [|f]; [cbn in Hf; lia|]. apply outs_then with (a := tt). apply outs_write.
  - assert (Ht' : forall o rs r, In (Expr o rs) T -> In r rs -> good o r) by (intros o rs r H; apply (Ht o rs r); now right). specialize (IH Ht').
    destruct p as [s|o rs].
    + rewrite template_cons in *. cbn [part_text] in *. rewrite app_length in Hf. rewrite app_assoc.
      eapply outs_eq; [apply IH; [|rewrite app_length; lia]|].
      * unfold no_brace. rewrite none_app. apply andb_true_intro. split; [assumption|now apply lit_no_brace].
      * unfold expansion. cbn [flat_map]. now rewrite <- app_assoc.
    + destruct Hp as [Hn F]. pose proof (body_nonempty o rs Hn F) as Hb. pose proof (body_no_rbrace o rs F) as Hr. cbn [small_part] in Hs.
      rewrite template_expr in *. cbn [length] in Hf. rewrite app_length in Hf. cbn [length] in Hf.
      assert (EX : forall f, (length (template_text T) < f)%nat -> outs (expanded_loop (Datatypes.S f) S debug ctx (LBRACE :: body_text o rs ++ RBRACE :: template_text T)) = Some (expansion value env (Expr o rs :: T), tt)).
      { intros f' Hf'. cbn [expanded_loop]. rewrite chunks_expr by assumption. rewrite lift_bind. cbv beta iota.
        change (expansion value env (Expr o rs :: T)) with (expression value env o rs ++ expansion value env T).
        eapply outs_bind with (a := tt).
        - apply expand_expr_ok; auto; [now apply small_specs|]. intros r Hi. apply (Ht o rs r); [now left|assumption].
        - apply (IH [] f'); [reflexivity|assumption]. }
      destruct f as [|f]; [lia|]. destruct l as [|c l].
      * cbn [app]. apply EX. cbn in Hf. lia.
      * cbn [expanded_loop]. rewrite chunks_lit_expr by (assumption || discriminate). rewrite lift_bind. cbv beta iota.
        eapply outs_bind with (a := tt); [apply outs_write|]. cbv beta. destruct f as [|f]; [cbn in Hf; lia|]. apply EX. cbn [length] in Hf. lia.
Qed.

End Expand.

(** ** The type check *)
Section Check.
Variables (S : Spec) (debug : bool) (ctx : Ctx) (env : str -> sval).
Hypothesis Henv : supplies_env ctx env.
Lemma misused_eq r : is_maxlen (vs_modifier (spec_of r)) && is_composite (type_of (ctx (r_name r))) = misused (env (r_name r)) r.
Proof using Henv.
  unfold misused, spec_of. cbn [vs_modifier]. destruct (r_mod r) as [|ds|]; cbn [mod_of is_maxlen andb]; auto.
  destruct (Henv (r_name r)) as [|d s Hd|ds' l F|ds' l F]; auto; now destruct F.
Qed.
Definition heads (l : list rspec) : str := flat_map (fun x => rspec_text x ++ lit ",") l.
Lemma typecheck_vars_ok rs : Forall spec_ok rs -> (forall r, In r rs -> misused (env (r_name r)) r = false) -> forall fuel pos, (length rs < fuel)%nat ->
  typecheck_vars fuel ctx pos (specs_text rs) = Ok (pos + blen (heads rs))%nat.
Proof using Henv.
  induction 1 as [|r rs [Hc Hs] F IH]; intros Hm fuel pos Hf; (destruct fuel as [|fuel]; [cbn in Hf; lia|]); cbn [typecheck_vars].
  - change (specs_text []) with (@nil N). rewrite varlist_nil. cbn. now rewrite Nat.add_0_r.
  - rewrite varlist_cons by assumption. rewrite parse_trusted_small by assumption. cbn [bind tlift].
    change (vs_name (spec_of r)) with (r_name r). rewrite misused_eq. rewrite Hm by now left. rewrite IH; [|intros; apply Hm; now right|cbn in Hf; lia].
    unfold heads. cbn [flat_map]. rewrite !blen_app. change (blen (lit ",")) with 1%nat. f_equal. lia.
Qed.
Lemma typecheck_vars_err l1 r l2 : Forall spec_ok (l1 ++ r :: l2) -> (forall x, In x l1 -> misused (env (r_name x)) x = false) -> misused (env (r_name r)) r = true ->
  forall fuel pos, (length l1 < fuel)%nat -> typecheck_vars fuel ctx pos (specs_text (l1 ++ r :: l2)) = terr UnexpectedValueType (pos + blen (heads l1))%nat.
Proof using Henv.
  induction l1 as [|x l1 IH]; intros F Hm Hr fuel pos Hf; (destruct fuel as [|fuel]; [cbn in Hf; lia|]); cbn [typecheck_vars app];
  apply Forall_cons_iff in F as [[Hc Hs] F]; rewrite varlist_cons by assumption; rewrite parse_trusted_small by assumption; cbn [bind tlift].
  - change (vs_name (spec_of r)) with (r_name r). rewrite misused_eq, Hr. cbn. now rewrite Nat.add_0_r.
  - change (vs_name (spec_of x)) with (r_name x). rewrite misused_eq. rewrite Hm by now left. rewrite IH; auto; [|intros; apply Hm; now right|cbn in Hf; lia].
    unfold heads. cbn [flat_map]. rewrite !blen_app. change (blen (lit ",")) with 1%nat. f_equal. lia.
Qed.
Lemma heads_len rs : rs <> [] -> blen (heads rs) = (blen (specs_text rs) + 1)%nat.
Proof.
  induction rs as [|r rs IH]; [contradiction|]. intros _. destruct rs as [|r' rs].
  - unfold heads, specs_text. cbn [flat_map map TemplateSpec.join]. rewrite app_nil_r, blen_app. reflexivity.
  - rewrite specs_cons, blen_app. unfold heads in *. cbn [flat_map] in *. rewrite blen_app, IH by discriminate. rewrite blen_app. change (blen (lit ",")) with 1%nat.
    cbn [blen]. change (clen COMMA) with 1%nat. lia.
Qed.
Lemma op_len o : Operator_len (op_of o) = blen (rop_text o). Proof. now destruct o. Qed.
Definition is_misuse (T : list part) (n : nat) := misuse_at env T n.
Lemma misuse_cons p T n : misuse_at env (p :: T) n ->
  (exists o l1 r l2, p = Expr o (l1 ++ r :: l2) /\ (forall x, In x l1 -> misused (env (r_name x)) x = false) /\ misused (env (r_name r)) r = true /\
     n = (1 + blen (rop_text o) + blen (heads l1))%nat) \/
  (fine env [p] /\ exists n', misuse_at env T n' /\ n = (blen (part_text p) + n')%nat).
Proof.
  intros (T1 & o & l1 & r & l2 & T2 & E & H1 & H2 & H3 & ->). destruct T1 as [|p1 T1].
  - cbn [app] in E. injection E as -> ->. left. exists o, l1, r, l2. repeat split; auto.
    + intros x Hx. apply (H2 o l1 x); [now left|assumption].
    + cbn [template_text flat_map app]. rewrite !blen_app. change (blen (lit "{")) with 1%nat. unfold heads. lia.
  - cbn [app] in E. injection E as -> ->. right. split; [intros o' l' x Hi Hx; apply (H1 o' l' x); [destruct Hi as [->|[]]; now left|assumption]|].
    eexists. split; [exists T1, o, l1, r, l2, T2; repeat split; auto; intros o' l' x Hi; apply (H1 o' l' x); now right|].
    rewrite template_cons, <- app_assoc, blen_app. reflexivity.
Qed.
Lemma typecheck_ok T : Tok T -> forall l f pos, no_brace l -> (length l + length (template_text T) < f)%nat ->
  (fine env T -> typecheck_loop f debug ctx pos (l ++ template_text T) = Ok tt) /\
  (forall n, misuse_at env T n -> typecheck_loop f debug ctx pos (l ++ template_text T) = terr UnexpectedValueType (pos + blen l + n)%nat).
Proof using Henv.
  induction 1 as [|p T [Hp Hs] HT IH]; intros l f pos Hl Hf.
  - cbn [template_text flat_map] in *. rewrite app_nil_r in *. split.
    + intros _. destruct f as [|f]; [lia|]. cbn [typecheck_loop].
      destruct l as [|c l]; [reflexivity|]. rewrite chunks_lit by (assumption || discriminate). cbn [bind tlift].
      destruct f as [|f]; [cbn in Hf; lia|]. reflexivity.
    + intros n (T1 & o & l1 & r & l2 & T2 & E & _). now apply app_cons_not_nil in E.
  - destruct p as [s|o rs].
    + rewrite template_cons in *. cbn [part_text] in *. rewrite app_length in Hf. rewrite app_assoc.
      assert (Hl' : no_brace (l ++ s)). { unfold no_brace. rewrite none_app. apply andb_true_intro. split; [assumption|now apply lit_no_brace]. }
      destruct (IH (l ++ s) f pos Hl') as [I1 I2]; [rewrite app_length; lia|]. split.
      * intros Hfi. apply I1. intros o rs r H. apply (Hfi o rs r). now right.
      * intros n Hm. apply misuse_cons in Hm as [(o & l1 & r & l2 & E & _)|(_ & n' & Hm & ->)]; [discriminate|]. rewrite (I2 n' Hm), blen_app. cbn [part_text]. f_equal. lia.
    + destruct Hp as [Hn F]. pose proof (body_nonempty o rs Hn F) as Hb. pose proof (body_no_rbrace o rs F) as Hr. cbn [small_part] in Hs.
      pose proof (small_specs rs F Hs) as Fs. pose proof (specs_len rs Fs) as Hsl.
      rewrite template_expr in *. cbn [length] in Hf. rewrite app_length in Hf. cbn [length] in Hf.
      assert (EB : blen (body_text o rs) = (blen (rop_text o) + blen (specs_text rs))%nat) by (unfold body_text; now rewrite blen_app).
      assert (EX : forall f pos, (length (template_text T) < f)%nat ->
        (fine env (Expr o rs :: T) -> typecheck_loop (Datatypes.S f) debug ctx pos (LBRACE :: body_text o rs ++ RBRACE :: template_text T) = Ok tt) /\
        (forall n, misuse_at env (Expr o rs :: T) n -> typecheck_loop (Datatypes.S f) debug ctx pos (LBRACE :: body_text o rs ++ RBRACE :: template_text T) = terr UnexpectedValueType (pos + n)%nat)).
      { intros f' pos' Hf'. cbn [typecheck_loop]. rewrite chunks_expr by assumption. cbn [bind tlift]. rewrite decompose_eq by assumption. cbn [bind tlift]. rewrite op_len.
        assert (G : fine env [Expr o rs] -> forall X (k : nat -> tres X), (do x <- typecheck_vars (1 + length (specs_text rs)) ctx (pos' + (blen (rop_text o) + 1)) (specs_text rs) ; k x) = k (pos' + blen (body_text o rs) + 2)%nat).
        { intros Hfi X k. rewrite typecheck_vars_ok; [|assumption| |cbn [Nat.add]; lia].
          - cbn [bind]. rewrite heads_len, EB by assumption. f_equal. lia.
          - intros r Hi. apply (Hfi o rs r); [now left|assumption]. }
        assert (P2 : (pos' + blen (body_text o rs) + 2 = pos' + blen (part_text (Expr o rs)))%nat).
        { rewrite part_expr. cbn [blen app]. rewrite blen_app. cbn [blen]. change (clen LBRACE) with 1%nat. change (clen RBRACE) with 1%nat. lia. }
        destruct (IH [] f' (pos' + blen (body_text o rs) + 2)%nat eq_refl Hf') as [I1 I2]. cbn [app blen] in I1, I2.
        split.
        - intros Hfi. cbv zeta. rewrite G by (intros o' l' r H; apply (Hfi o' l' r); destruct H as [->|[]]; now left). rewrite Nat.eqb_refl.
          apply I1. intros o' l' r H. apply (Hfi o' l' r). now right.
        - intros n Hm. cbv zeta. apply misuse_cons in Hm as [(o' & l1 & r & l2 & E & M1 & M2 & ->)|(Hfi & n' & Hm & ->)].
          + injection E as <- ->. rewrite typecheck_vars_err; auto; [|rewrite app_length in Hsl; cbn [length Nat.add] in *; lia]. cbn [bind terr]. unfold terr. f_equal. f_equal. lia.
          + rewrite G by assumption. rewrite Nat.eqb_refl. rewrite (I2 n' Hm). f_equal. rewrite Nat.add_0_r, P2. lia. }
      destruct f as [|f]; [lia|]. destruct l as [|c l].
      * cbn [app blen]. destruct (EX f pos) as [E1 E2]; [cbn in Hf; lia|]. split; [exact E1|]. intros n Hm. rewrite (E2 n Hm). f_equal. lia.
      * assert (E : forall X (g : tres X), typecheck_loop (Datatypes.S f) debug ctx pos ((c :: l) ++ LBRACE :: body_text o rs ++ RBRACE :: template_text T) =
          typecheck_loop f debug ctx (pos + blen (c :: l)) (LBRACE :: body_text o rs ++ RBRACE :: template_text T)).
        { intros _ _. cbn [typecheck_loop]. rewrite chunks_lit_expr by (assumption || discriminate). reflexivity. }
        rewrite (E nat (Ok O)). destruct f as [|f]; [cbn in Hf; lia|]. apply EX. cbn [length] in Hf. lia.
Qed.
Lemma fine_or T : fine env T \/ exists n, misuse_at env T n.
Proof.
  induction T as [|p T IH]; [left; intros o l r []|].
  assert (D : fine env [p] \/ exists o l1 r l2, p = Expr o (l1 ++ r :: l2) /\ (forall x, In x l1 -> misused (env (r_name x)) x = false) /\ misused (env (r_name r)) r = true).
  { destruct p as [s|o l]; [left; intros o l r [H|[]]; discriminate|].
    assert (D : (forall r, In r l -> misused (env (r_name r)) r = false) \/ exists l1 r l2, l = l1 ++ r :: l2 /\ (forall x, In x l1 -> misused (env (r_name x)) x = false) /\ misused (env (r_name r)) r = true).
    { induction l as [|r l IHl]; [left; intros r []|]. destruct (misused (env (r_name r)) r) eqn:E.
      - right. exists [], r, l. repeat split; auto. intros x [].
      - destruct IHl as [H|(l1 & r' & l2 & -> & H1 & H2)]; [left; intros x [<-|Hx]; auto|].
        right. exists (r :: l1), r', l2. repeat split; auto. intros x [<-|Hx]; auto. }
    destruct D as [D|(l1 & r & l2 & -> & H1 & H2)]; [left|right; eauto 10]. intros o' l' r [H|[]]. injection H as <- <-. apply D. }
  destruct D as [D|(o & l1 & r & l2 & -> & H1 & H2)].
  - destruct IH as [IH|(n & T1 & o & l1 & r & l2 & T2 & -> & H1 & H2 & H3 & ->)].
    + left. intros o l r [->|H] Hx; [apply (D o l r); [now left|assumption]|apply (IH o l r); assumption].
    + right. eexists. exists (p :: T1), o, l1, r, l2, T2. repeat split; auto. intros o' l' x [->|H] Hx; [apply (D o' l' x); [now left|assumption]|now apply (H1 o' l' x)].
  - right. eexists. exists [], o, l1, r, l2, T. repeat split; auto; [intros ? ? ? []|]. intros o' l' x [H|[]]. injection H as <- <-. apply H1.
Qed.
(** The main conclusions. *)
Theorem typechecks T : Tok T ->
  (expand_new debug ctx (template_text T) = Ok tt <-> fine env T) /\
  (forall e, expand_new debug ctx (template_text T) = Err e <-> exists n, misuse_at env T n /\ e = mkTE UnexpectedValueType n) /\
  expand_new debug ctx (template_text T) <> Panic.
Proof using Henv.
  intros HT. unfold expand_new, typecheck_context.
  destruct (typecheck_ok T HT [] (1 + length (template_text T)) 0 eq_refl ltac:(cbn; lia)) as [H1 H2]. cbn [app blen] in *.
  destruct (fine_or T) as [Hf|[n Hm]].
  - rewrite (H1 Hf). repeat split; auto; try discriminate. intros (n & Hm & _). rewrite (H1 Hf) in H2. specialize (H2 n Hm). discriminate.
  - rewrite (H2 n Hm). cbn [Nat.add]. unfold terr in *. repeat split; auto; try discriminate.
    + intros Hf. rewrite (H1 Hf) in H2. specialize (H2 n Hm). discriminate.
    + intros [= <-]. eauto.
    + intros (n' & Hm' & ->). specialize (H2 n' Hm') as E. rewrite (H2 n Hm) in E. cbn [Nat.add] in E. exact E.
Qed.
Lemma tame_good o r : crate_spec r -> tame debug o r (ctx (r_name r)) -> misused (env (r_name r)) r = false -> good S debug ctx env (crate_value S) o r.
Proof using Henv. intros Hc Ht Hm first. apply (visit_value_ok S debug o r Hc first _ _ (Henv (r_name r)) Ht Hm). Qed.
Theorem expands_gen value T : Tok T -> (forall o rs r, In (Expr o rs) T -> In r rs -> good S debug ctx env value o r) -> fine env T ->
  expand_to_string S debug ctx (template_text T) = Ok (expansion value env T).
Proof using Henv.
  intros HT Ht Hf. unfold expand_to_string. destruct (typechecks T HT) as [[_ H] _]. rewrite (H Hf). cbn [bind].
  unfold expanded_fmt. rewrite (outs_text _ (expansion value env T) tt); [reflexivity|].
  apply (expanded_ok S debug ctx env value T HT Ht []); [reflexivity|cbn; lia].
Qed.
Theorem expands T : Tok T -> tame_template debug ctx T -> fine env T ->
  expand_to_string S debug ctx (template_text T) = Ok (crate_expansion S env T).
Proof using Henv.
  intros HT Ht Hf. apply expands_gen; auto. intros o rs r H1 H2. apply tame_good; [|now apply (Ht o rs)|now apply (Hf o rs)].
  unfold Tok in HT. rewrite Forall_forall in HT. destruct (HT _ H1) as [[_ F] _]. rewrite Forall_forall in F. now apply F.
Qed.
End Check.
