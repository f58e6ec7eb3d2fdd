(** * Proofs about MCost2.v. *)
From Verif Require Import Base Chars Utf8 MValidate MTrusted MFormat MSearch MPct MEncode MTemplate MCost MCost2 PBase PSearch PCost PCost2 PCost3 PCost4.
Open Scope nat_scope.

Lemma find_hole_fst : forall s n, fst (k_find_split_hole s n) = find_split_hole s n.
Proof. reflexivity. Qed.
Lemma find_keep_fst : forall s n, fst (k_find_split s n) = find_split s n.
Proof. reflexivity. Qed.
Lemma varspec_parse_fst : forall s, fst (k_VarSpec_parse_trusted s) = VarSpec_parse_trusted s.
Proof.
  intros s. unfold k_VarSpec_parse_trusted, VarSpec_parse_trusted. rewrite kbind_fst. cbn [k_strip_suffix_char fst].
  destruct (strip_suffix_char s STAR); [reflexivity|]. rewrite kbind_fst, find_hole_fst. destruct (find_split_hole s COLON) as [[a b]|]; reflexivity.
Qed.
Lemma varlist_fst : forall s, fst (k_varlist_next s) = varlist_next s.
Proof.
  intros s. unfold k_varlist_next, varlist_next. rewrite kbind_fst, find_hole_fst. destruct (find_split_hole s COMMA) as [[a b]|].
  - rewrite kand_fst, varspec_parse_fst. destruct (VarSpec_parse_trusted a); reflexivity.
  - destruct (is_empty s); [reflexivity|]. rewrite kand_fst, varspec_parse_fst. destruct (VarSpec_parse_trusted s); reflexivity.
Qed.
Lemma chunks_fst : forall debug s, fst (k_chunks_next debug s) = chunks_next debug s.
Proof.
  intros debug s. unfold k_chunks_next, chunks_next. destruct (is_empty s); [reflexivity|]. rewrite kbind_fst, find_keep_fst.
  destruct (find_split s LBRACE) as [[[|x a] b]|]; try reflexivity. rewrite kand_fst, kret_fst. destruct (str_from s 1) as [i|e|]; try reflexivity.
  rewrite kbind_fst, find_hole_fst. cbn [bind]. destruct (find_split_hole i RBRACE) as [[e r]|]; [|reflexivity].
  rewrite kand_fst, kret_fst. destruct (ExprBody_new debug e); reflexivity.
Qed.
Lemma find_expr_fst : forall fuel debug s, fst (k_find_expr fuel debug s) = find_expr fuel debug s.
Proof.
  induction fuel as [|fuel IH]; intros debug s; [reflexivity|]. cbn [k_find_expr find_expr]. rewrite kand_fst, chunks_fst.
  destruct (chunks_next debug s) as [[[[l|b] r]|]|e|]; try reflexivity. apply IH.
Qed.
Lemma variables_loop_fst : forall fuel debug it, fst (k_variables_loop fuel debug it) = variables_loop fuel debug it.
Proof.
  induction fuel as [|fuel IH]; intros debug it; [reflexivity|]. cbn [k_variables_loop variables_loop].
  assert (N : fst (rdo (e, chunks) <- k_find_expr (1 + length (vi_chunks it)) debug (vi_chunks it) ;
        match e with
        | None => kret (Ok (None, mkVI chunks None))
        | Some b => rdo (_, vars) <- k_expr_decompose b ; k_variables_loop fuel debug (mkVI chunks (Some vars))
        end) = do (e, chunks) <- find_expr (1 + length (vi_chunks it)) debug (vi_chunks it) ;
        match e with
        | None => Ok (None, mkVI chunks None)
        | Some b => do (_, vars) <- MTemplate.decompose b ; variables_loop fuel debug (mkVI chunks (Some vars))
        end).
  { rewrite kand_fst, find_expr_fst. destruct (find_expr _ debug _) as [[[b|] c]|e|]; try reflexivity. cbn [bind]. rewrite kand_fst. cbn [k_expr_decompose fst].
    destruct (MTemplate.decompose b) as [[o v]|e|]; try reflexivity. apply IH. }
  destruct (vi_vars it) as [vars|]; [|exact N]. rewrite kand_fst, varlist_fst. destruct (varlist_next vars) as [[[[n v] r]|]|e|]; try reflexivity. exact N.
Qed.
Lemma collect_fst : forall n debug it, fst (k_variables_collect n debug it) = variables_collect n debug it.
Proof.
  induction n as [|n IH]; intros debug it; [reflexivity|]. cbn [k_variables_collect variables_collect]. rewrite kand_fst. unfold k_variables_next, variables_next.
  rewrite variables_loop_fst. destruct (variables_loop _ debug it) as [[[v|] it']|e|]; try reflexivity. cbn [bind]. rewrite kand_fst, IH.
  destruct (variables_collect n debug it'); reflexivity.
Qed.
Lemma template_variables_fst : forall debug s, fst (k_template_variables debug s) = template_variables debug s.
Proof. intros. apply collect_fst. Qed.

(** ** Bounds: what is left to do is paid for by what is left to read. *)
Lemma varspec_parse_le : forall s, snd (k_VarSpec_parse_trusted s) <= 2 * length s + 1.
Proof.
  intros s. unfold k_VarSpec_parse_trusted. rewrite kbind_snd. cbn [k_strip_suffix_char fst snd]. destruct (strip_suffix_char s STAR); [rewrite kret_snd; lia|].
  rewrite kbind_snd. destruct (hole_spec s COLON) as (o & m & E & H). rewrite E. cbn [fst snd]. destruct o as [[a b]|]; [|rewrite kret_snd; lia].
  rewrite kbind_snd, kret_snd. cbn [k_parse_u16 fst snd]. lia.
Qed.
Lemma varlist_le : forall s, match fst (k_varlist_next s) with
  | Ok (Some (_, _, r)) => snd (k_varlist_next s) + 4 * length r <= 4 * length s
  | _ => snd (k_varlist_next s) <= 4 * length s end.
Proof.
  intros s. unfold k_varlist_next. rewrite kbind_fst, kbind_snd. destruct (hole_spec s COMMA) as (o & m & E & H). rewrite E. cbn [fst snd]. destruct o as [[a b]|].
  - rewrite kand_fst, kand_snd. pose proof (varspec_parse_le a). destruct (k_VarSpec_parse_trusted a) as [[v|e|] n]; cbn [fst snd kret] in *; lia.
  - destruct s as [|c r]; [cbn in *; lia|]. cbn [is_empty]. rewrite kand_fst, kand_snd. pose proof (varspec_parse_le (c :: r)).
    destruct (k_VarSpec_parse_trusted (c :: r)) as [[v|e|] n]; cbn [fst snd kret length] in *; lia.
Qed.
Lemma expr_new_eq : forall debug s b, ExprBody_new debug s = Ok b -> b = s.
Proof. intros debug s b. unfold ExprBody_new. destruct (debug && is_empty s); [discriminate|]. injection 1 as <-. reflexivity. Qed.
Lemma chunks_le : forall debug s, match fst (k_chunks_next debug s) with
  | Ok (Some (ChunkLiteral _, r)) => snd (k_chunks_next debug s) + 6 * length r <= 6 * length s
  | Ok (Some (ChunkExpr b, r)) => snd (k_chunks_next debug s) + 6 * length r + 4 * length b + 1 <= 6 * length s
  | _ => snd (k_chunks_next debug s) <= 6 * length s end.
Proof.
  intros debug [|c0 s0]; [cbn; lia|]. remember (c0 :: s0) as s eqn:Es. assert (Hs : 1 <= length s) by (rewrite Es; cbn; lia).
  unfold k_chunks_next. replace (is_empty s) with false by (rewrite Es; reflexivity). clear Es. rewrite kbind_fst, kbind_snd.
  destruct (keep_spec s LBRACE) as (o & m & E & H). rewrite E. cbn [fst snd]. destruct o as [[[|x a] b]|]; cbn [length] in H.
  - rewrite kand_fst, kand_snd, kret_fst, kret_snd. destruct (str_from s 1) as [i|e|] eqn:Ei; cbn [fst snd]; try lia. apply from_length in Ei.
    rewrite kbind_fst, kbind_snd. destruct (hole_spec i RBRACE) as (o & m' & E' & H'). rewrite E'. cbn [fst snd]. destruct o as [[e r]|]; [|cbn [kret fst snd]; lia].
    rewrite kand_fst, kand_snd, kret_fst, kret_snd. destruct (ExprBody_new debug e) as [b'|y|] eqn:Eb; cbn [kret fst snd]; try lia.
    apply expr_new_eq in Eb. subst b'. lia.
  - cbn [kret fst snd]. lia.
  - cbn [kret fst snd length]. lia.
Qed.
Lemma find_expr_le : forall fuel debug s, match fst (k_find_expr fuel debug s) with
  | Ok (Some b, r) => snd (k_find_expr fuel debug s) + 6 * length r + 4 * length b + 1 <= 6 * length s
  | Ok (None, r) => snd (k_find_expr fuel debug s) + 6 * length r <= 6 * length s
  | _ => snd (k_find_expr fuel debug s) <= 6 * length s end.
Proof.
  induction fuel as [|fuel IH]; intros debug s; [cbn; lia|]. cbn [k_find_expr]. rewrite kand_fst, kand_snd. pose proof (chunks_le debug s) as H.
  destruct (k_chunks_next debug s) as [[[[[l|b] r]|]|e|] n] eqn:E; cbn [fst snd kret] in *; try lia.
  - specialize (IH debug r). destruct (fst (k_find_expr fuel debug r)) as [[[b|] r']|e|]; lia.
  - destruct s as [|c s]; [injection E as <-; cbn; lia|]. exfalso. revert E. unfold k_chunks_next. cbn [is_empty]. unfold kbind.
    destruct (fst (k_find_split (c :: s) LBRACE)) as [[[|x a] b]|]; cbn [fst snd kret]; try discriminate.
    unfold kand, kret. cbn [fst snd]. destruct (str_from (c :: s) 1) as [i|e|]; cbn [fst snd]; try discriminate.
    destruct (k_find_split_hole i RBRACE) as [[[e r]|] m]; cbn [fst snd]; try discriminate. destruct (ExprBody_new debug e); cbn [fst snd]; discriminate.
Qed.
Lemma expr_decompose_le : forall b o v, MTemplate.decompose b = Ok (o, v) -> length v <= length b.
Proof.
  intros b o v. unfold MTemplate.decompose. destruct (utf8s b) as [|x r]; [discriminate|]. destruct (is_alpha x || _ || _ || _)%bool.
  - injection 1 as _ <-. lia.
  - destruct (Operator_from_byte x); [|discriminate]. destruct (str_from b 1) as [y|e|] eqn:E; cbn [bind]; try discriminate. injection 1 as _ <-. apply from_length in E. lia.
Qed.
Definition left (it : VariablesIter) : nat := 6 * length (vi_chunks it) + match vi_vars it with Some v => 4 * length v | None => 0 end.
Lemma variables_loop_le : forall fuel debug it, match fst (k_variables_loop fuel debug it) with
  | Ok (_, it') => snd (k_variables_loop fuel debug it) + left it' <= left it
  | _ => snd (k_variables_loop fuel debug it) <= left it end.
Proof.
  induction fuel as [|fuel IH]; intros debug it; [cbn; lia|]. cbn [k_variables_loop].
  assert (N : let x := (rdo (e, chunks) <- k_find_expr (1 + length (vi_chunks it)) debug (vi_chunks it) ;
        match e with
        | None => kret (Ok (None, mkVI chunks None))
        | Some b => rdo (_, vars) <- k_expr_decompose b ; k_variables_loop fuel debug (mkVI chunks (Some vars))
        end) in match fst x with Ok (_, it') => snd x + left it' <= 6 * length (vi_chunks it) | _ => snd x <= 6 * length (vi_chunks it) end).
  { intros x. subst x. rewrite kand_fst, kand_snd. pose proof (find_expr_le (1 + length (vi_chunks it)) debug (vi_chunks it)) as H.
    destruct (k_find_expr (1 + length (vi_chunks it)) debug (vi_chunks it)) as [[[[b|] c]|e|] n]; cbn [fst snd kret] in *; try lia.
    - rewrite kand_fst, kand_snd. cbn [k_expr_decompose fst snd]. destruct (MTemplate.decompose b) as [[o v]|e|] eqn:Ed; try lia. apply expr_decompose_le in Ed.
      specialize (IH debug (mkVI c (Some v))). unfold left in IH at 2 4. cbn [vi_chunks vi_vars] in IH.
      destruct (fst (k_variables_loop fuel debug (mkVI c (Some v)))) as [[o' it']|e|]; unfold left in *; cbn [vi_chunks vi_vars] in *; lia.
    - unfold left. cbn [vi_chunks vi_vars]. lia. }
  cbv zeta in N. assert (L : left it = 6 * length (vi_chunks it) + match vi_vars it with Some v => 4 * length v | None => 0 end) by reflexivity.
  rewrite L. clear L. destruct (vi_vars it) as [vars|] eqn:Ev.
  - rewrite kand_fst, kand_snd. pose proof (varlist_le vars) as H. destruct (k_varlist_next vars) as [[[[[n v] r]|]|e|] m]; cbn [fst snd kret] in *; try lia.
    + unfold left. cbn [vi_chunks vi_vars]. lia.
    + match goal with |- context [fst ?x] => destruct (fst x) as [[o it']|e|]; lia end.
  - match goal with |- context [fst ?x] => destruct (fst x) as [[o it']|e|]; lia end.
Qed.
Lemma collect_le : forall n debug it, snd (k_variables_collect n debug it) <= left it.
Proof.
  induction n as [|n IH]; intros debug it; [cbn; lia|]. cbn [k_variables_collect]. rewrite kand_snd. unfold k_variables_next.
  pose proof (variables_loop_le (2 + length (vi_chunks it)) debug it) as H. destruct (k_variables_loop _ debug it) as [[[[v|] it']|e|] m]; cbn [fst snd kret] in *; try lia.
  rewrite kand_snd. specialize (IH debug it'). destruct (fst (k_variables_collect n debug it')); cbn [kret snd]; lia.
Qed.
Lemma template_variables_le : forall debug s, snd (k_template_variables debug s) <= 6 * length s.
Proof. intros. unfold k_template_variables. pose proof (collect_le (2 + length s) debug (variables s)) as H. unfold left, variables in H. cbn [vi_chunks vi_vars] in H. unfold variables. lia. Qed.
