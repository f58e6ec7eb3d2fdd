(** * Appending templates (C41), proofs. *)
From Verif Require Import Base Chars Rfc3986 Utf8 PctSpec EncodeSpec MValidate MTrusted MFormat MSearch MPct MEncode MTemplate MMaybePct MExpand MTypes TemplateSpec ExpandSpec.
From Verif Require Import PBase PScan PSearch PPct PPct2 PEncode PEncode2 PPath2 PTmpl1 PTmpl2 PTmpl3 PExp1 PExp2 PExp3 PExp4 PExp5 PExp6.

Lemma template_app T1 T2 : template_text (T1 ++ T2) = template_text T1 ++ template_text T2.
Proof. unfold template_text. apply flat_map_app. Qed.
Lemma append_accepted s t : template_new s = Ok s -> template_new t = Ok t -> template_new (s ++ t) = Ok (s ++ t).
Proof.
  rewrite !accepts. intros (T1 & F1 & ->) (T2 & F2 & ->). exists (T1 ++ T2). split; [now apply Forall_app|now rewrite template_app].
Qed.
Lemma append_ok debug s t : template_new s = Ok s -> template_new t = Ok t ->
  template_append debug s t = Ok (s ++ t) /\ template_new (s ++ t) = Ok (s ++ t).
Proof.
  intros Hs Ht. pose proof (append_accepted s t Hs Ht) as H. split; auto. unfold template_append.
  unfold template_new in H. destruct (validate_template_str (s ++ t)) as [[]|e|]; try discriminate H. cbn. now rewrite andb_false_r.
Qed.

(** ** Variables *)
Lemma append_variables debug s t : template_new s = Ok s -> template_new t = Ok t ->
  template_variables debug (s ++ t) = (do x <- template_variables debug s ; do y <- template_variables debug t ; Ok (x ++ y)).
Proof.
  rewrite !accepts. intros (T1 & F1 & ->) (T2 & F2 & ->). rewrite <- template_app.
  rewrite !variables_eq by (try apply Forall_app; auto). unfold template_specs, template_names. rewrite !flat_map_app, forallb_app'.
  destruct (forallb small_b (flat_map part_specs T1)); cbn [andb bind]; [|reflexivity].
  destruct (forallb small_b (flat_map part_specs T2)); reflexivity.
Qed.

(** ** Expansion *)
Lemma text_then {A} (x : W unit) (y : W A) : text (x >> y) = (do a <- text x ; do b <- text y ; Ok (a ++ b)).
Proof.
  destruct x as [o [[]| |]]; cbn [wbind]; [|reflexivity|reflexivity]. destruct y as [o' r]. unfold text. cbn [fst snd bind].
  destruct r; cbn [bind]; [now rewrite concat_app|reflexivity|reflexivity].
Qed.
Lemma text_write s : text (write s) = Ok s.
Proof. unfold text, write. cbn. now rewrite app_nil_r. Qed.

Section X.
Variables (S : Spec) (debug : bool) (ctx : Ctx).
Definition part_out (p : part) : may str :=
  match p with Lit s => Ok s | Expr o rs => text (expand_expr S debug ctx (body_text o rs)) end.
Fixpoint parts_out (T : list part) : may str :=
  match T with [] => Ok [] | p :: T => do a <- part_out p ; do b <- parts_out T ; Ok (a ++ b) end.
Lemma parts_out_app T1 T2 : parts_out (T1 ++ T2) = (do a <- parts_out T1 ; do b <- parts_out T2 ; Ok (a ++ b)).
Proof.
  induction T1 as [|p T1 IH]; cbn [app parts_out bind]; [now destruct (parts_out T2)|].
  destruct (part_out p) as [a|[]|]; cbn [bind]; [|reflexivity]. rewrite IH.
  destruct (parts_out T1) as [b|[]|]; cbn [bind]; [|reflexivity]. destruct (parts_out T2) as [c|[]|]; cbn [bind]; [|reflexivity].
  now rewrite app_assoc.
Qed.
Lemma expanded_parts T : Forall crate_part T -> forall l f, no_brace l -> (length l + length (template_text T) < f)%nat ->
  text (expanded_loop f S debug ctx (l ++ template_text T)) = (do b <- parts_out T ; Ok (l ++ b)).
Proof.
  induction 1 as [|p T Hp HT IH]; intros l f Hl Hf.
  - cbn [template_text flat_map parts_out bind] in *. rewrite app_nil_r in *. destruct f as [|f]; [lia|]. cbn [expanded_loop].
    destruct l as [|c l]; [reflexivity|]. rewrite chunks_lit by (assumption || discriminate). rewrite lift_bind. cbv beta iota.
    destruct f as [|f]; [cbn in Hf; lia|]. rewrite text_then, text_write. cbn [expanded_loop]. rewrite chunks_nil. cbn [bind]. 
    change (text (wdo r <- lift (Ok None); match r with Some (ChunkLiteral l, rest) => write l >> expanded_loop f S debug ctx rest | Some (ChunkExpr b, rest) => expand_expr S debug ctx b >> expanded_loop f S debug ctx rest | None => wret tt end)) with (@Ok Empty_set str []).
    cbn [bind]. now rewrite !app_nil_r.
  - destruct p as [s|o rs].
    + rewrite template_cons in *. cbn [part_text] in *. rewrite app_length in Hf. rewrite app_assoc.
      rewrite IH; [|unfold no_brace; rewrite none_app; apply andb_true_intro; split; [assumption|now apply lit_no_brace]|rewrite app_length; lia].
      cbn [parts_out part_out bind]. destruct (parts_out T) as [b|[]|]; cbn [bind]; [now rewrite <- app_assoc|reflexivity].
    + destruct Hp as [Hn F]. pose proof (body_nonempty o rs Hn F) as Hb. pose proof (body_no_rbrace o rs F) as Hr.
      rewrite template_expr in *. cbn [length] in Hf. rewrite app_length in Hf. cbn [length] in Hf.
      assert (EX : forall f, (length (template_text T) < f)%nat -> text (expanded_loop (Datatypes.S f) S debug ctx (LBRACE :: body_text o rs ++ RBRACE :: template_text T)) = parts_out (Expr o rs :: T)).
      { intros f' Hf'. cbn [expanded_loop]. rewrite chunks_expr by assumption. rewrite lift_bind. cbv beta iota. rewrite text_then. cbn [parts_out part_out].
        pose proof (IH [] f' eq_refl Hf') as E. cbn [app] in E. rewrite E. destruct (parts_out T) as [b|[]|]; reflexivity. }
      destruct f as [|f]; [lia|]. destruct l as [|c l].
      * cbn [app]. rewrite EX by (cbn in Hf; lia). destruct (parts_out (Expr o rs :: T)) as [b|[]|]; reflexivity.
      * cbn [expanded_loop]. rewrite chunks_lit_expr by (assumption || discriminate). rewrite lift_bind. cbv beta iota.
        rewrite text_then, text_write. cbn [bind]. destruct f as [|f]; [cbn in Hf; lia|]. rewrite EX by (cbn [length] in Hf; lia). reflexivity.
Qed.
Lemma expanded_fmt_parts T : Forall crate_part T -> text (expanded_fmt S debug ctx (template_text T)) = parts_out T.
Proof.
  intros H. unfold expanded_fmt. pose proof (expanded_parts T H [] (1 + length (template_text T)) eq_refl) as E. cbn [app length] in E.
  rewrite E by (cbn [length]; lia). destruct (parts_out T) as [b|[]|]; reflexivity.
Qed.

(** ** The type check *)
Fixpoint tcs (pos : nat) (T : list part) : tres nat :=
  match T with
  | [] => Ok pos
  | Lit s :: T => tcs (pos + blen s) T
  | Expr o rs :: T =>
      do pos' <- typecheck_vars (1 + length (specs_text rs)) ctx (pos + (Operator_len (op_of o) + 1)) (specs_text rs) ;
      if Nat.eqb pos' (pos + blen (body_text o rs) + 2) then tcs pos' T else Panic
  end.
Lemma tcs_app T1 : forall pos T2, tcs pos (T1 ++ T2) = (do p <- tcs pos T1 ; tcs p T2).
Proof.
  induction T1 as [|[s|o rs] T1 IH]; intros pos T2; cbn [app tcs bind]; auto.
  destruct (typecheck_vars _ _ _ _) as [p|e|]; cbn [bind]; auto. destruct (Nat.eqb _ _); auto.
Qed.
Lemma tcs_end T : forall pos p, tcs pos T = Ok p -> p = (pos + blen (template_text T))%nat.
Proof.
  induction T as [|[s|o rs] T IH]; intros pos p; cbn [tcs].
  - intros [= <-]. cbn. lia.
  - intros H. apply IH in H. rewrite template_cons. cbn [part_text]. rewrite blen_app. lia.
  - destruct (typecheck_vars _ _ _ _) as [p'|e|]; cbn [bind]; try discriminate. destruct (Nat.eqb_spec p' (pos + blen (body_text o rs) + 2)); [|discriminate].
    intros H. apply IH in H. rewrite template_expr. cbn [blen]. rewrite blen_app. cbn [blen]. change (clen LBRACE) with 1%nat. change (clen RBRACE) with 1%nat. lia.
Qed.
Definition shift {A} (d : nat) (f : A -> A) (x : tres A) : tres A :=
  match x with Ok a => Ok (f a) | Err e => Err (mkTE (te_kind e) (d + te_location e)) | Panic => Panic end.
Lemma vars_shift d fuel : forall pos rest, typecheck_vars fuel ctx (d + pos) rest = shift d (Nat.add d) (typecheck_vars fuel ctx pos rest).
Proof.
  induction fuel as [|fuel IH]; intros pos rest; cbn [typecheck_vars]; [reflexivity|].
  destruct (varlist_next rest) as [[[[n vs] rest']|]|[]|]; cbn [tlift bind]; try reflexivity.
  destruct (_ && _); [reflexivity|]. rewrite <- IH. f_equal. lia.
Qed.
Lemma tcs_shift d T : forall pos, tcs (d + pos) T = shift d (Nat.add d) (tcs pos T).
Proof.
  induction T as [|[s|o rs] T IH]; intros pos; cbn [tcs]; [reflexivity| |].
  - rewrite <- IH. f_equal. lia.
  - replace (d + pos + (Operator_len (op_of o) + 1))%nat with (d + (pos + (Operator_len (op_of o) + 1)))%nat by lia. rewrite vars_shift.
    destruct (typecheck_vars _ _ _ _) as [p|e|]; cbn [shift bind]; try reflexivity.
    replace (Nat.eqb (d + p) (d + pos + blen (body_text o rs) + 2)) with (Nat.eqb p (pos + blen (body_text o rs) + 2)).
    + destruct (Nat.eqb p _); [apply IH|reflexivity].
    + destruct (Nat.eqb_spec p (pos + blen (body_text o rs) + 2)), (Nat.eqb_spec (d + p) (d + pos + blen (body_text o rs) + 2)); auto; lia.
Qed.
Lemma typecheck_parts T : Forall crate_part T -> forall l f pos, no_brace l -> (length l + length (template_text T) < f)%nat ->
  typecheck_loop f debug ctx pos (l ++ template_text T) = (tcs (pos + blen l) T ;; Ok tt).
Proof.
  induction 1 as [|p T Hp HT IH]; intros l f pos Hl Hf.
  - cbn [template_text flat_map] in *. rewrite app_nil_r in *. destruct f as [|f]; [lia|]. cbn [typecheck_loop tcs bind].
    destruct l as [|c l]; [reflexivity|]. rewrite chunks_lit by (assumption || discriminate). cbn [bind tlift].
    destruct f as [|f]; [cbn in Hf; lia|]. reflexivity.
  - destruct p as [s|o rs].
    + rewrite template_cons in *. cbn [part_text] in *. rewrite app_length in Hf. rewrite app_assoc.
      assert (Hl' : no_brace (l ++ s)). { unfold no_brace. rewrite none_app. apply andb_true_intro. split; [assumption|now apply lit_no_brace]. }
      rewrite IH; [|assumption|rewrite app_length; lia]. cbn [tcs]. rewrite blen_app. now rewrite Nat.add_assoc.
    + destruct Hp as [Hn F]. pose proof (body_nonempty o rs Hn F) as Hb. pose proof (body_no_rbrace o rs F) as Hr.
      rewrite template_expr in *. cbn [length] in Hf. rewrite app_length in Hf. cbn [length] in Hf.
      assert (EX : forall f pos, (length (template_text T) < f)%nat ->
        typecheck_loop (Datatypes.S f) debug ctx pos (LBRACE :: body_text o rs ++ RBRACE :: template_text T) = (tcs pos (Expr o rs :: T) ;; Ok tt)).
      { intros f' pos' Hf'. cbn [typecheck_loop tcs]. rewrite chunks_expr by assumption. cbn [bind tlift]. rewrite decompose_eq by assumption. cbn [bind tlift].
        destruct (typecheck_vars _ _ _ _) as [p|e|]; cbn [bind]; try reflexivity. destruct (Nat.eqb p _); [|reflexivity].
        pose proof (IH [] f' p eq_refl Hf') as E. cbn [app blen] in E. rewrite E. now rewrite Nat.add_0_r. }
      destruct f as [|f]; [lia|]. destruct l as [|c l].
      * cbn [app blen]. rewrite EX by (cbn in Hf; lia). now rewrite Nat.add_0_r.
      * assert (E : typecheck_loop (Datatypes.S f) debug ctx pos ((c :: l) ++ LBRACE :: body_text o rs ++ RBRACE :: template_text T) =
          typecheck_loop f debug ctx (pos + blen (c :: l)) (LBRACE :: body_text o rs ++ RBRACE :: template_text T)).
        { cbn [typecheck_loop]. rewrite chunks_lit_expr by (assumption || discriminate). reflexivity. }
        rewrite E. destruct f as [|f]; [cbn in Hf; lia|]. apply EX. cbn [length] in Hf. lia.
Qed.
Lemma expand_new_parts T : Forall crate_part T -> expand_new debug ctx (template_text T) = (tcs 0 T ;; Ok tt).
Proof.
  intros H. unfold expand_new, typecheck_context. pose proof (typecheck_parts T H [] (1 + length (template_text T)) 0%nat eq_refl) as E. cbn [app length blen] in E.
  rewrite E; [reflexivity|cbn [length]; lia].
Qed.

Theorem append_typecheck s t : template_new s = Ok s -> template_new t = Ok t ->
  expand_new debug ctx (s ++ t) = (expand_new debug ctx s ;;
    match expand_new debug ctx t with
    | Err e => Err (mkTE (te_kind e) (blen s + te_location e))
    | x => x
    end).
Proof.
  rewrite !accepts. intros (T1 & F1 & ->) (T2 & F2 & ->). rewrite <- template_app.
  rewrite !expand_new_parts by (try apply Forall_app; auto). rewrite tcs_app.
  destruct (tcs 0 T1) as [p|e|] eqn:E; cbn [bind]; try reflexivity. apply tcs_end in E. cbn [Nat.add] in E. subst p.
  replace (blen (template_text T1)) with (blen (template_text T1) + 0)%nat at 1 by lia. rewrite tcs_shift.
  destruct (tcs 0 T2); reflexivity.
Qed.
Theorem append_display s t : template_new s = Ok s -> template_new t = Ok t ->
  text (expanded_fmt S debug ctx (s ++ t)) =
  (do x <- text (expanded_fmt S debug ctx s) ; do y <- text (expanded_fmt S debug ctx t) ; Ok (x ++ y)).
Proof.
  rewrite !accepts. intros (T1 & F1 & ->) (T2 & F2 & ->). rewrite <- template_app.
  rewrite !expanded_fmt_parts by (try apply Forall_app; auto). apply parts_out_app.
Qed.
Theorem append_expand s t z : template_new s = Ok s -> template_new t = Ok t ->
  (expand_to_string S debug ctx (s ++ t) = Ok z <->
   exists x y, expand_to_string S debug ctx s = Ok x /\ expand_to_string S debug ctx t = Ok y /\ z = x ++ y).
Proof.
  intros Hs Ht. unfold expand_to_string. rewrite append_typecheck, append_display by assumption.
  destruct (expand_new debug ctx s) as [[]|e|]; cbn [bind]; [|split; [discriminate|intros (x & y & ? & _); discriminate]|split; [discriminate|intros (x & y & ? & _); discriminate]].
  destruct (expand_new debug ctx t) as [[]|e|]; cbn [bind]; [|split; [discriminate|intros (x & y & _ & ? & _); discriminate]|split; [discriminate|intros (x & y & _ & ? & _); discriminate]].
  destruct (text (expanded_fmt S debug ctx s)) as [x|[]|]; cbn [tlift bind]; [|split; [discriminate|intros (x & y & ? & _); discriminate]].
  destruct (text (expanded_fmt S debug ctx t)) as [y|[]|]; cbn [tlift bind]; [|split; [discriminate|intros (x' & y & _ & ? & _); discriminate]].
  split; [intros [= <-]; eauto 6|]. intros (x' & y' & [= <-] & [= <-] & ->). reflexivity.
Qed.
End X.
