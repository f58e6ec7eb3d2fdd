(** Proofs for C53: an expansion depends only on the variables that the template names. *)
From Verif Require Import Base Chars Rfc3986 Utf8 EncodeSpec MValidate MTrusted MFormat MTemplate MExpand TemplateSpec ExpandSpec.
From Verif Require Import PBase PScan PTmpl1 PTmpl2 PTmpl3 PTmpl5 PExp4 PExp7 PPath2.

Section L.
Variables (S : Spec) (debug : bool) (ctx ctx' : Ctx).
Notation agree l := (forall name, In name l -> ctx name = ctx' name).
Lemma vars_agree o rs : Forall crate_spec rs -> agree (map r_name rs) -> forall fuel first,
  expand_vars fuel S debug ctx o first (specs_text rs) = expand_vars fuel S debug ctx' o first (specs_text rs).
Proof.
  induction 1 as [|r rs Hc F IH]; intros A fuel first; (destruct fuel as [|fuel]; [reflexivity|]); cbn [expand_vars].
  - change (specs_text []) with (@nil N). now rewrite varlist_nil, !lift_bind.
  - rewrite varlist_cons, parse_b by assumption. destruct (small_b r); cbn [bind]; [|reflexivity]. rewrite !lift_bind. cbv beta iota.
    change (vs_name (spec_of r)) with (r_name r). rewrite (A (r_name r)) by (left; reflexivity).
    destruct (visit_value S debug (spec_of r) o first (ctx' (r_name r))) as [cs [b| |]]; try reflexivity.
    cbn [wbind]. rewrite IH; [reflexivity|]. intros name H. apply A. now right.
Qed.
Lemma expr_agree o rs : rs <> [] -> Forall crate_spec rs -> agree (map r_name rs) ->
  expand_expr S debug ctx (body_text o rs) = expand_expr S debug ctx' (body_text o rs).
Proof. intros Hn F A. unfold expand_expr. rewrite decompose_eq by assumption. rewrite !lift_bind. cbv beta iota. now apply vars_agree. Qed.
Lemma loop_agree T : Forall crate_part T -> agree (template_names T) -> forall l f, no_brace l ->
  expanded_loop f S debug ctx (l ++ template_text T) = expanded_loop f S debug ctx' (l ++ template_text T).
Proof.
  induction 1 as [|p T Hp HT IH]; intros A l f Hl.
  - cbn [template_text flat_map] in *. rewrite app_nil_r in *. destruct f as [|f]; [reflexivity|]. cbn [expanded_loop].
    destruct l as [|c l]; [now rewrite chunks_nil, !lift_bind|]. rewrite chunks_lit by (discriminate || assumption). rewrite !lift_bind. cbv beta iota.
    destruct f as [|f]; [reflexivity|]. cbn [expanded_loop]. now rewrite chunks_nil, !lift_bind.
  - destruct p as [s|o rs].
    + rewrite template_cons. cbn [part_text]. rewrite app_assoc. apply IH; [exact A|].
      unfold no_brace. rewrite none_app. apply andb_true_intro. split; [assumption|now apply lit_no_brace].
    + destruct Hp as [Hn F]. pose proof (body_nonempty o rs Hn F) as Hb. pose proof (body_no_rbrace o rs F) as Hr. rewrite template_expr.
      assert (A1 : agree (map r_name rs)) by (intros name H; apply A; cbn [template_names flat_map part_names]; apply in_or_app; now left).
      assert (A2 : agree (template_names T)) by (intros name H; apply A; cbn [template_names flat_map part_names]; apply in_or_app; now right).
      assert (EX : forall f, expanded_loop f S debug ctx (LBRACE :: body_text o rs ++ RBRACE :: template_text T) = expanded_loop f S debug ctx' (LBRACE :: body_text o rs ++ RBRACE :: template_text T)).
      { intros f'. destruct f' as [|f']; [reflexivity|]. cbn [expanded_loop]. rewrite chunks_expr by assumption. rewrite !lift_bind. cbv beta iota.
        rewrite (expr_agree o rs Hn F A1). pose proof (IH A2 [] f' eq_refl) as E. cbn [app] in E. now rewrite E. }
      destruct l as [|c l]; [apply EX|]. destruct f as [|f]; [reflexivity|]. cbn [expanded_loop].
      rewrite chunks_lit_expr by (discriminate || assumption). rewrite !lift_bind. cbv beta iota. now rewrite EX.
Qed.
Lemma tvars_agree rs : Forall crate_spec rs -> agree (map r_name rs) -> forall fuel pos,
  typecheck_vars fuel ctx pos (specs_text rs) = typecheck_vars fuel ctx' pos (specs_text rs).
Proof.
  induction 1 as [|r rs Hc F IH]; intros A fuel pos; (destruct fuel as [|fuel]; [reflexivity|]); cbn [typecheck_vars].
  - change (specs_text []) with (@nil N). now rewrite varlist_nil.
  - rewrite varlist_cons, parse_b by assumption. destruct (small_b r); cbn [bind tlift]; [|reflexivity].
    change (vs_name (spec_of r)) with (r_name r). rewrite (A (r_name r)) by (left; reflexivity).
    destruct (_ && _); [reflexivity|]. apply IH. intros name H. apply A. now right.
Qed.
Lemma tcs_agree T : Forall crate_part T -> agree (template_names T) -> forall pos, tcs ctx pos T = tcs ctx' pos T.
Proof.
  induction 1 as [|[s|o rs] T Hp HT IH]; intros A pos; cbn [tcs]; [reflexivity|now apply IH|].
  destruct Hp as [Hn F].
  rewrite (tvars_agree rs F) by (intros name H; apply A; cbn [template_names flat_map part_names]; apply in_or_app; now left).
  destruct (typecheck_vars _ _ _ _) as [p|e|]; cbn [bind]; try reflexivity. destruct (Nat.eqb _ _); [|reflexivity].
  apply IH. intros name H. apply A. cbn [template_names flat_map part_names]. apply in_or_app. now right.
Qed.
Lemma local t names : template_new t = Ok t -> template_variables debug t = Ok names -> agree names ->
  expanded_fmt S debug ctx t = expanded_fmt S debug ctx' t /\ expand_to_string S debug ctx t = expand_to_string S debug ctx' t /\
  forall ty, try_from_expanded S debug ty ctx t = try_from_expanded S debug ty ctx' t.
Proof.
  rewrite accepts. intros (T & F & ->) V A.
  assert (names = template_names T) as ->.
  { rewrite variables_eq in V by assumption. destruct (forallb small_b (template_specs T)); congruence. }
  assert (E : expanded_fmt S debug ctx (template_text T) = expanded_fmt S debug ctx' (template_text T)).
  { unfold expanded_fmt. apply (loop_agree T F A [] _ eq_refl). }
  split; [exact E|]. split.
  - unfold expand_to_string. rewrite !expand_new_parts by assumption. now rewrite (tcs_agree T F A), E.
  - intros ty. unfold try_from_expanded. now rewrite E.
Qed.
End L.
Lemma insert_other S debug m k v t names : template_new t = Ok t -> template_variables debug t = Ok names -> ~ In k names ->
  expand_to_string S debug (sc_visit (fst (sc_insert m k v))) t = expand_to_string S debug (sc_visit m) t.
Proof.
  intros Ht V N. apply (local S debug _ _ t names Ht V). intros name H. unfold sc_visit.
  assert (E : map_get name (fst (sc_insert m k v)) = map_get name m); [|now rewrite E].
  assert (K : seqb name k = false). { destruct (seqb name k) eqn:K; [|reflexivity]. apply seqb_eq in K as ->. contradiction. }
  unfold sc_insert. destruct (negb _); [reflexivity|]. destruct v; cbn [fst]; rewrite ?get_remove, ?get_insert, K; reflexivity.
Qed.
