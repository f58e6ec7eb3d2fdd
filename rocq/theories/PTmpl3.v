(** * Reading the parts of an accepted template: chunks, operators, variable specifications (C28-C30). *)
From Verif Require Import Base Chars Rfc3986 Utf8 PctSpec EncodeSpec MValidate MTrusted MFormat MSearch MPct MEncode MTemplate TemplateSpec.
From Verif Require Import PBase PScan PSearch PTmpl1 PTmpl2.

(** ** One variable specification *)
Definition mod_of (m : rmod) : Modifier := match m with NoMod => MNone | Prefix ds => MMaxLen (decimal ds) | Explode => MExplode end.
Definition spec_of (r : rspec) : VarSpec := mkVS (r_name r) (mod_of (r_mod r)).
Lemma decimal_mono ds : forall a, a <= fold_left (fun a d => 10 * a + (d - 48)) ds a.
Proof.
  induction ds as [|d ds IH]; intros a; cbn [fold_left]; [lia|]. specialize (IH (10 * a + (d - 48))). lia.
Qed.
Lemma parse_digits_eq ds : forall a, forallb DIGIT ds = true ->
  parse_digits a ds = (if 65535 <? fold_left (fun a d => 10 * a + (d - 48)) ds a then if is_empty ds then Some a else None else Some (fold_left (fun a d => 10 * a + (d - 48)) ds a)).
Proof.
  induction ds as [|d ds IH]; intros a H; cbn [parse_digits fold_left forallb is_empty] in *; [now destruct (65535 <? a)|].
  bdestr. change (is_digit d) with (DIGIT d). rewrite H. replace (a * 10 + (d - 48)) with (10 * a + (d - 48)) by lia.
  pose proof (decimal_mono ds (10 * a + (d - 48))) as M.
  destruct (N.ltb_spec 65535 (10 * a + (d - 48))).
  - now rewrite (proj2 (N.ltb_lt _ _)) by lia.
  - rewrite IH by assumption. destruct (65535 <? _) eqn:E; [|reflexivity]. destruct ds; [|reflexivity].
    cbn [fold_left] in E. lia.
Qed.
Lemma parse_u16_eq ds : reps 1 5 (cls DIGIT) ds -> parse_u16 ds = if 65535 <? decimal ds then None else Some (decimal ds).
Proof.
  intros H. apply reps_digits in H as [L H]. destruct ds as [|d ds]; [cbn in L; lia|]. unfold parse_u16.
  replace (d =? 43) with false. 2:{ cbn [forallb] in H. unfold DIGIT, between in H. lia. }
  cbn [andb]. rewrite parse_digits_eq by assumption. reflexivity.
Qed.
Lemma strip_suffix_last s c : strip_suffix_char (s ++ [c]) STAR = if c =? STAR then Some s else None.
Proof. unfold strip_suffix_char. rewrite rev_app_distr. cbn [rev app]. now rewrite rev_involutive. Qed.
Lemma strip_none s : none (N.eqb STAR) s = true -> strip_suffix_char s STAR = None.
Proof.
  destruct s as [|c s] using rev_ind; [reflexivity|]. rewrite none_app, none_cons. intros H; bdestr.
  rewrite strip_suffix_last. rewrite N.eqb_sym in H0. now rewrite H0.
Qed.
Lemma star_delim c : N.eqb STAR c = true -> delim c = true.
Proof. intros H. apply N.eqb_eq in H as <-. reflexivity. Qed.
Lemma colon_delim c : N.eqb COLON c = true -> delim c = true.
Proof. intros H. apply N.eqb_eq in H as <-. reflexivity. Qed.
Lemma parse_trusted_eq r : crate_spec r ->
  VarSpec_parse_trusted (rspec_text r) =
    match r_mod r with Prefix ds => if 65535 <? decimal ds then Panic else Ok (spec_of r) | _ => Ok (spec_of r) end.
Proof.
  destruct r as [n m]. intros [Hn Hm]. unfold rspec_text, VarSpec_parse_trusted, spec_of. cbn [r_name r_mod] in *.
  pose proof (name_delim n _ star_delim Hn) as N1. pose proof (name_delim n _ colon_delim Hn) as N2.
  destruct m as [|ds|]; cbn [rmod_text mod_of].
  - rewrite app_nil_r. rewrite strip_none by assumption. unfold find_split_hole.
    now rewrite split_first_none_app.
  - change (lit ":" ++ ds) with (COLON :: ds). pose proof (proj1 (reps_digits _ _ _) Hm) as [L D].
    rewrite strip_none. 2:{ rewrite none_app, none_cons, N1. cbn [negb andb]. apply digits_delim; [apply star_delim|assumption]. }
    unfold find_split_hole. rewrite split_first_app by (assumption || reflexivity). rewrite parse_u16_eq by assumption.
    now destruct (65535 <? decimal ds).
  - change (lit "*") with [42]. now rewrite strip_suffix_last.
Qed.
Lemma parse_trusted_small r : crate_spec r -> small_spec r -> VarSpec_parse_trusted (rspec_text r) = Ok (spec_of r).
Proof.
  intros H S. rewrite parse_trusted_eq by assumption. unfold small_spec in S. destruct (r_mod r); auto.
  now rewrite (proj2 (N.ltb_ge _ _) S).
Qed.

(** ** The list of one expression *)
Definition specs_text (rs : list rspec) : str := join (lit ",") (map rspec_text rs).
Lemma specs_cons r r' rs : specs_text (r :: r' :: rs) = rspec_text r ++ COMMA :: specs_text (r' :: rs).
Proof. reflexivity. Qed.
Lemma varlist_nil : varlist_next [] = Ok None. Proof. reflexivity. Qed.
Lemma varlist_cons r rs : crate_spec r ->
  varlist_next (specs_text (r :: rs)) = (do v <- VarSpec_parse_trusted (rspec_text r) ; Ok (Some (blen (rspec_text r), v, specs_text rs))).
Proof.
  intros H. pose proof (spec_delim r _ comma_delim H) as Hc. unfold varlist_next, find_split_hole. destruct rs as [|r' rs].
  - unfold specs_text. cbn [map join]. rewrite split_first_none_app by assumption.
    replace (is_empty (rspec_text r)) with false; [reflexivity|]. pose proof (spec_nonempty r H). now destruct (rspec_text r).
  - rewrite specs_cons. now rewrite split_first_app.
Qed.

(** ** Operators *)
Definition op_of (o : rop) : Operator :=
  match o with
  | Simple => OString | Plus => OReserved | Hash => OFragment | Dot => OLabel | Slash => OPathSegments
  | Semi => OPathParams | Ques => OFormQuery | Amp => OFormQueryCont
  end.
Lemma decompose_eq o rs : rs <> [] -> Forall crate_spec rs -> decompose (body_text o rs) = Ok (op_of o, specs_text rs).
Proof.
  intros Hn F. destruct (first_of_specs rs Hn F) as (c & r & E & Hc). unfold body_text, decompose. fold (specs_text rs) in *.
  assert (Hl : c < 128). { destruct Hc as [->|Hc]; [reflexivity|]. unfold vc, ALPHA, DIGIT, between in Hc. lia. }
  destruct o; cbn [rop_text op_of].
  - cbn [app]. rewrite E at 1. rewrite utf8s_ascii_cons by assumption.
    replace (is_alpha c || is_digit c || (c =? 95) || (c =? PCT)) with true; [reflexivity|].
    destruct Hc as [->|Hc]; [reflexivity|]. unfold vc in Hc. change (is_alpha c) with (ALPHA c). change (is_digit c) with (DIGIT c).
    rewrite Hc. reflexivity.
  - change (lit "+" ++ specs_text rs) with (43 :: specs_text rs). rewrite utf8s_ascii_cons by reflexivity. cbn [bind]. now rewrite from_1.
  - change (lit "#" ++ specs_text rs) with (35 :: specs_text rs). rewrite utf8s_ascii_cons by reflexivity. cbn [bind]. now rewrite from_1.
  - change (lit "." ++ specs_text rs) with (46 :: specs_text rs). rewrite utf8s_ascii_cons by reflexivity. cbn [bind]. now rewrite from_1.
  - change (lit "/" ++ specs_text rs) with (47 :: specs_text rs). rewrite utf8s_ascii_cons by reflexivity. cbn [bind]. now rewrite from_1.
  - change (lit ";" ++ specs_text rs) with (59 :: specs_text rs). rewrite utf8s_ascii_cons by reflexivity. cbn [bind]. now rewrite from_1.
  - change (lit "?" ++ specs_text rs) with (63 :: specs_text rs). rewrite utf8s_ascii_cons by reflexivity. cbn [bind]. now rewrite from_1.
  - change (lit "&" ++ specs_text rs) with (38 :: specs_text rs). rewrite utf8s_ascii_cons by reflexivity. cbn [bind]. now rewrite from_1.
Qed.
Lemma body_nonempty o rs : rs <> [] -> Forall crate_spec rs -> body_text o rs <> [].
Proof.
  intros Hn F. destruct (first_of_specs rs Hn F) as (c & r & E & _). unfold body_text. rewrite E.
  destruct (rop_text o); discriminate.
Qed.

(** ** Chunks *)
Definition no_brace (l : str) : Prop := none (N.eqb LBRACE) l = true.
Lemma lit_no_brace s : star crate_literals s -> no_brace s.
Proof.
  intros H. apply lit_scan in H. unfold no_brace. revert H. apply scan_none. intros c Hc. apply N.eqb_eq in Hc as <-.
  repeat split; discriminate.
Qed.
Lemma chunks_nil debug : chunks_next debug [] = Ok None. Proof. reflexivity. Qed.
Lemma chunks_lit debug l : l <> [] -> no_brace l -> chunks_next debug l = Ok (Some (ChunkLiteral l, [])).
Proof.
  intros Hl H. unfold chunks_next. replace (is_empty l) with false by now destruct l.
  unfold find_split. now rewrite split_first_none_app.
Qed.
Lemma chunks_lit_expr debug l r : l <> [] -> no_brace l -> chunks_next debug (l ++ LBRACE :: r) = Ok (Some (ChunkLiteral l, LBRACE :: r)).
Proof.
  intros Hl H. unfold chunks_next. replace (is_empty (l ++ LBRACE :: r)) with false by now destruct l.
  unfold find_split. rewrite split_first_app by (assumption || reflexivity). now destruct l.
Qed.
Lemma chunks_expr debug b r : b <> [] -> none (N.eqb RBRACE) b = true ->
  chunks_next debug (LBRACE :: b ++ RBRACE :: r) = Ok (Some (ChunkExpr b, r)).
Proof.
  intros Hb H. unfold chunks_next. cbn [is_empty]. unfold find_split. cbn [split_first]. rewrite N.eqb_refl.
  rewrite from_1 by reflexivity. cbn [bind]. unfold find_split_hole. rewrite split_first_app by (assumption || reflexivity).
  unfold ExprBody_new. replace (is_empty b) with false by now destruct b. rewrite andb_false_r. reflexivity.
Qed.
Lemma body_no_rbrace o rs : Forall crate_spec rs -> none (N.eqb RBRACE) (body_text o rs) = true.
Proof. apply body_no_brace. intros c Hc. left. now apply N.eqb_eq in Hc. Qed.
(** The text of a template after a literal prefix. *)
Lemma template_cons p T : template_text (p :: T) = part_text p ++ template_text T.
Proof. reflexivity. Qed.
Lemma template_expr o rs T : template_text (Expr o rs :: T) = LBRACE :: body_text o rs ++ RBRACE :: template_text T.
Proof. rewrite template_cons, part_expr. cbn [app]. now rewrite <- app_assoc. Qed.

(** ** C30: the variables *)
Notation Tok := usable.
Definition spec_ok (r : rspec) : Prop := crate_spec r /\ small_spec r.
Definition part_specs (p : part) : list rspec := match p with Lit _ => [] | Expr _ l => l end.
Definition template_specs (T : list part) : list rspec := flat_map part_specs T.
Lemma names_specs T : template_names T = map r_name (template_specs T).
Proof. unfold template_names, template_specs. induction T as [|p T IH]; cbn [flat_map]; [reflexivity|]. rewrite map_app, IH. now destruct p. Qed.
Lemma small_specs_iff T : Forall small_part T <-> Forall small_spec (template_specs T).
Proof.
  unfold template_specs. induction T as [|p T IH]; cbn [flat_map]; [split; constructor|]. rewrite Forall_app, Forall_cons_iff, IH.
  destruct p as [s|o l]; cbn [part_specs small_part]; [|tauto]. split; [intros [_ H]; split; [constructor|assumption]|tauto].
Qed.
Definition small_b (r : rspec) : bool := match r_mod r with Prefix ds => decimal ds <=? 65535 | _ => true end.
Lemma small_b_iff r : small_b r = true <-> small_spec r.
Proof. unfold small_b, small_spec. destruct (r_mod r); [tauto|apply N.leb_le|tauto]. Qed.
Lemma parse_b r : crate_spec r -> VarSpec_parse_trusted (rspec_text r) = if small_b r then Ok (spec_of r) else Panic.
Proof.
  intros H. rewrite parse_trusted_eq by assumption. unfold small_b. destruct (r_mod r); auto. rewrite N.leb_antisym. now destruct (65535 <? decimal digits).
Qed.
Lemma find_expr_spec debug T : Forall crate_part T -> forall l f, no_brace l -> (length l + length (template_text T) < f)%nat ->
  (find_expr f debug (l ++ template_text T) = Ok (None, []) /\ template_specs T = []) \/
  (exists o rs T', rs <> [] /\ Forall crate_spec rs /\ Forall crate_part T' /\
     find_expr f debug (l ++ template_text T) = Ok (Some (body_text o rs), template_text T') /\
     template_specs T = rs ++ template_specs T' /\ (length (template_text T') < length (template_text T))%nat).
Proof.
  induction 1 as [|p T Hp HT IH]; intros l f Hl Hf.
  - left. split; [|reflexivity]. cbn [template_text flat_map] in *. rewrite app_nil_r. destruct f as [|f]; [lia|]. cbn [find_expr].
    destruct l as [|c l]; [reflexivity|]. rewrite chunks_lit by (assumption || discriminate). cbn [bind].
    destruct f as [|f]; [cbn in Hf; lia|]. reflexivity.
  - destruct p as [s|o rs].
    + rewrite template_cons in *. cbn [part_text] in *. rewrite app_length in Hf. rewrite app_assoc.
      destruct (IH (l ++ s) f) as [[E1 E2]|(o & rs & T' & H1 & H2 & H3 & H4 & H5 & H6)].
      * unfold no_brace. rewrite none_app. apply andb_true_intro. split; [assumption|now apply lit_no_brace].
      * rewrite app_length. lia.
      * left. auto.
      * right. exists o, rs, T'. repeat split; auto. rewrite app_length. lia.
    + right. destruct Hp as [Hn F].
      pose proof (body_nonempty o rs Hn F) as Hb. pose proof (body_no_rbrace o rs F) as Hr.
      rewrite template_expr in *. exists o, rs, T. repeat split; auto.
      * destruct f as [|f]; [lia|]. destruct l as [|c l].
        -- cbn [app find_expr]. rewrite chunks_expr by assumption. reflexivity.
        -- cbn [find_expr]. rewrite chunks_lit_expr by (assumption || discriminate). cbn [bind].
           destruct f as [|f]; [cbn in Hf; lia|]. cbn [find_expr]. rewrite chunks_expr by assumption. reflexivity.
      * cbn [length]. rewrite app_length. cbn [length]. lia.
Qed.
Definition upcoming (it : VariablesIter) (todo : list rspec) : Prop :=
  exists T rs, Forall crate_part T /\ Forall crate_spec rs /\ vi_chunks it = template_text T /\
    (vi_vars it = Some (specs_text rs) \/ vi_vars it = None /\ rs = []) /\ todo = rs ++ template_specs T.
Definition answers (debug : bool) (x : may (option str * VariablesIter)) (todo : list rspec) : Prop :=
  match todo with
  | [] => exists it, x = Ok (None, it) /\ upcoming it []
  | r :: rs => if small_b r then exists it, x = Ok (Some (r_name r), it) /\ upcoming it rs else x = Panic
  end.
Lemma spec_head debug f T r rs vars : Forall crate_part T -> crate_spec r -> Forall crate_spec rs -> vars = Some (specs_text (r :: rs)) ->
  answers debug (variables_loop (S f) debug (mkVI (template_text T) vars)) (r :: rs ++ template_specs T).
Proof.
  intros HT H1 F ->. cbn [variables_loop vi_vars answers]. rewrite varlist_cons, parse_b by assumption. destruct (small_b r); cbn [bind]; [|reflexivity].
  exists (mkVI (template_text T) (Some (specs_text rs))). split; [reflexivity|]. exists T, rs. repeat split; auto.
Qed.
Lemma next_chunk_ok debug T f : Forall crate_part T -> (1 <= f)%nat ->
  answers debug (do (e, chunks) <- find_expr (1 + length (template_text T)) debug (template_text T) ;
        match e with
        | None => Ok (None, mkVI chunks None)
        | Some b => do (_, vars) <- decompose b ; variables_loop f debug (mkVI chunks (Some vars))
        end) (template_specs T).
Proof.
  intros HT Hf.
  destruct (find_expr_spec debug T HT [] (1 + length (template_text T))) as [[E1 E2]|(o & rs & T' & Hn & F & HT' & E & Hnm & _)]; [reflexivity|cbn; lia| |];
  cbn [app] in *.
  - rewrite E1, E2. cbn [bind]. exists (mkVI [] None). split; [reflexivity|]. exists [], []. repeat split; auto.
  - rewrite E, Hnm. cbn [bind]. rewrite decompose_eq by assumption.
    cbn [bind]. destruct rs as [|r rs]; [contradiction|]. inversion F; subst. destruct f as [|f]; [lia|]. now apply spec_head.
Qed.
Lemma next_ok debug it todo : upcoming it todo -> answers debug (variables_next debug it) todo.
Proof.
  intros (T & rs & HT & F & E & V & ->). destruct it as [ch vars]. cbn [vi_chunks vi_vars] in *. subst ch.
  unfold variables_next. cbn [vi_chunks]. destruct rs as [|r rs].
  - cbn [app]. change (2 + length (template_text T))%nat with (S (1 + length (template_text T))).
    cbn [variables_loop vi_vars vi_chunks]. destruct V as [->|[-> _]].
    + change (specs_text []) with (@nil N). rewrite varlist_nil. cbn [bind]. apply next_chunk_ok; [assumption|lia].
    + apply next_chunk_ok; [assumption|lia].
  - destruct V as [V|[_ V]]; [|discriminate]. inversion F; subst. now apply spec_head.
Qed.
Lemma collect_ok debug n : forall it todo, (length todo < n)%nat -> upcoming it todo ->
  variables_collect n debug it = if forallb small_b todo then Ok (map r_name todo) else Panic.
Proof.
  induction n as [|n IH]; intros it todo L U; [lia|]. cbn [variables_collect]. apply (next_ok debug) in U.
  destruct todo as [|x todo]; cbn [answers forallb map] in *.
  - destruct U as (it' & -> & _). reflexivity.
  - destruct (small_b x); cbn [andb]; [|now rewrite U]. destruct U as (it' & -> & U). cbn [bind]. cbn [length] in L. rewrite (IH it' todo) by (assumption || lia).
    now destruct (forallb small_b todo).
Qed.
Lemma specs_le T : Forall crate_part T -> (length (template_specs T) <= length (template_text T))%nat.
Proof.
  induction 1 as [|p T Hp F IH]; [reflexivity|]. rewrite template_cons. unfold template_specs in *. cbn [flat_map].
  rewrite !app_length. enough (length (part_specs p) <= length (part_text p))%nat by lia.
  destruct p as [s|o rs]; cbn [part_specs]; [cbn; lia|]. rewrite part_expr. unfold body_text. cbn [length]. rewrite !app_length.
  cbn [length]. destruct Hp as [_ Hp]. clear -Hp. enough (length rs <= length (specs_text rs))%nat by (unfold specs_text in *; lia).
  induction Hp as [|r rs Hr F IH]; [reflexivity|]. pose proof (spec_nonempty r Hr) as Hne.
  assert (1 <= length (rspec_text r))%nat by (destruct (rspec_text r); [contradiction|cbn; lia]).
  destruct rs as [|r' rs]; [unfold specs_text; cbn [map join length]; lia|]. rewrite specs_cons, app_length. cbn [length] in *. lia.
Qed.
Lemma variables_eq debug T : Forall crate_part T ->
  template_variables debug (template_text T) = if forallb small_b (template_specs T) then Ok (template_names T) else Panic.
Proof.
  intros HT. unfold template_variables. rewrite names_specs. apply collect_ok; [pose proof (specs_le T HT); lia|].
  exists T, []. repeat split; auto.
Qed.
Lemma small_all T : forallb small_b (template_specs T) = true <-> Forall small_part T.
Proof. rewrite small_specs_iff, forallb_forall, Forall_forall. split; intros H r Hr; apply small_b_iff; auto. Qed.
Lemma usable_parts T : Tok T <-> Forall crate_part T /\ Forall small_part T.
Proof.
  unfold usable. split.
  - intros H. split; (eapply Forall_impl; [|exact H]); intros p Hp; apply Hp.
  - intros [H1 H2]. rewrite Forall_forall in *. intros p Hp. auto.
Qed.
Lemma variables_ok debug T : Tok T -> template_variables debug (template_text T) = Ok (template_names T).
Proof. intros HT. apply usable_parts in HT as [H1 H2]. rewrite variables_eq by assumption. now rewrite (proj2 (small_all T) H2). Qed.
Lemma variables_panic debug T : Forall crate_part T -> (template_variables debug (template_text T) = Panic <-> ~ Forall small_part T).
Proof.
  intros H. rewrite variables_eq by assumption. rewrite <- small_all. destruct (forallb small_b (template_specs T)); split; intros X; try discriminate; try congruence; try tauto. 
Qed.
