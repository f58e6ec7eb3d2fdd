(** * Expansion does not fail by itself (C37): an error of a write comes from the writer or from a value. *)
From Verif Require Import Base Chars Rfc3986 Utf8 MValidate MTrusted MFormat MSearch MPct MEncode MTemplate MMaybePct MExpand TemplateSpec ExpandSpec.
From Verif Require Import PBase PScan PSearch PTmpl1 PTmpl2 PTmpl3 PExp1 PExp6 PExp7 PExp8 PExp9 PDyn.

Definition sure {A} (x : W A) : Prop := snd x <> Fail.
Lemma sure_bind {A B} (x : W A) (f : A -> W B) : sure x -> (forall a, sure (f a)) -> sure (wbind x f).
Proof.
  destruct x as [o [a| |]]; cbn; intros H1 H2; try easy. specialize (H2 a). unfold wbind. destruct (f a) as [o' r]. exact H2.
Qed.
Lemma sure_lift {A} (x : may A) : sure (lift x).
Proof. destruct x as [a|[]|]; easy. Qed.
Lemma sure_enc {A} S c (d : W A) : sure d -> sure (PercentEncoded S c d).
Proof. exact (fun H => H). Qed.
Lemma sure_ret {A} (a : A) : sure (wret a). Proof. easy. Qed.
Lemma sure_pan {A} : sure (@wpanic A). Proof. easy. Qed.
Lemma sure_write s : sure (write s). Proof. easy. Qed.
Lemma sure_display s : sure (display s). Proof. easy. Qed.
Create HintDb sure.
#[export] Hint Resolve sure_ret sure_pan sure_write sure_lift sure_enc sure_display : sure.
Ltac sure := repeat first
  [ apply sure_bind; [|intros ?]
  | progress (auto with sure nocore)
  | match goal with |- sure (if ?b then _ else _) => destruct b | |- sure (match ?x with _ => _ end) => destruct x | |- sure (let '_ := ?x in _) => destruct x end ].
Lemma sure_sub debug a b : sure (usize_sub debug a b).
Proof. unfold usize_sub. sure. Qed.
#[export] Hint Resolve sure_sub : sure.

Section Process.
Context {St : Type}.
Variables (debug : bool) (f : St -> Frag -> W (St + unit)).
Hypothesis Hf : forall st x, sure (f st x).
#[local] Hint Resolve Hf : sure.
Lemma sure_undecodable st w : sure (output_as_undecodable debug f st w).
Proof. unfold output_as_undecodable. sure. Qed.
#[local] Hint Resolve sure_undecodable : sure.
Lemma sure_loop fuel : forall st db rest, sure (decompose_loop debug f fuel st db rest).
Proof. induction fuel as [|fuel IH]; intros st db rest; cbn [decompose_loop]; sure. Qed.
#[local] Hint Resolve sure_loop : sure.
Lemma sure_chunks l : forall st db, sure (decompose_chunks debug f st db l).
Proof. induction l as [|s l IH]; intros st db; cbn [decompose_chunks]; unfold decompose_write_str; sure. Qed.
#[local] Hint Resolve sure_chunks : sure.
Lemma sure_process st v : sure v -> sure (process_percent_encoded_best_effort debug f st v).
Proof.
  intros Hv. unfold process_percent_encoded_best_effort. apply sure_bind; [apply sure_chunks|]. intros [[st' db]|u]; [|sure].
  destruct (snd v) eqn:E; [|now elim Hv|sure]. sure.
Qed.
End Process.
Lemma sure_frag S st x : sure (escape_frag S st x).
Proof. unfold escape_frag. sure. Qed.
Lemma sure_maxfrag S debug n x : sure (maxlen_frag S debug n x).
Proof. unfold maxlen_frag. sure. Qed.
Lemma sure_escape S debug v r : sure v -> sure (escape_write S debug v r).
Proof. intros H. unfold escape_write. destruct r; [|now apply sure_enc]. apply sure_process; [|assumption]. apply sure_frag. Qed.
Lemma sure_truncate S debug l : forall n, sure (truncate_chunks S debug n l).
Proof. induction l as [|s l IH]; intros n; cbn [truncate_chunks]; unfold truncate_write; sure. Qed.
Lemma sure_maxlen S debug v r n : sure v -> sure (escape_write_with_maxlen S debug v r n).
Proof.
  intros H. unfold escape_write_with_maxlen. destruct r; [apply sure_process; [apply sure_maxfrag|assumption]|]. destruct n; [|now apply sure_enc].
  apply sure_bind; [apply sure_truncate|]. intros []. exact H.
Qed.
(** The values that do not fail. *)
Definition sure_value (v : Value) : Prop :=
  match v with
  | VUndefined => True
  | VString d => sure d
  | VList l => Forall sure l
  | VAssoc l => Forall (fun e => sure (fst e) /\ sure (snd e)) l
  end.
Lemma sure_each {A} (P : A -> Prop) visit l : (forall st x, P x -> sure (visit st x)) -> Forall P l -> forall st : bool * bool, sure (visit_each visit st l).
Proof. intros H. induction 1; intros st; cbn [visit_each]; sure; auto. Qed.
Lemma sure_visit S debug vs op first v : sure_value v -> sure (visit_value S debug vs op first v).
Proof.
  assert (H := fun d r => sure_escape S debug d r). assert (H' := fun d r n => sure_maxlen S debug d r n).
  destruct v as [|d|l|l]; cbn [visit_value sure_value]; intros Hv; [sure| | |].
  - unfold visit_string, prefix_once. sure.
  - apply sure_bind; [|intros []; sure]. apply (sure_each sure); [|assumption]. intros [a b] x Hx. unfold visit_item, is_explode. sure.
  - apply sure_bind; [|intros []; sure]. eapply sure_each; [|exact Hv]. intros [a b] [x y] [Hx Hy]. cbn [fst snd] in *. unfold visit_entry, is_explode. sure.
Qed.

(** ** Dynamic contexts *)
Definition dsure {St A} (y : D St A) : Prop := match snd y with DErr e _ => te_kind e = UnexpectedValueType | _ => True end.
Lemma dsure_bind {St A B} (x : D St A) (f : A -> St -> D St B) : dsure x -> (forall a c, dsure (f a c)) -> dsure (dbind x f).
Proof. destruct x as [o [a c|e c|]]; cbn; intros H1 H2; try easy. specialize (H2 a c). unfold dbind. destruct (f a c) as [o' r]. exact H2. Qed.
Lemma dsure_lift {St A} (c : St) (x : may A) : dsure (dlift c x).
Proof. destruct x as [a|[]|]; easy. Qed.
Lemma dsure_write {St A} pos (c : St) (d : W A) : sure d -> dsure (dwrite pos c d).
Proof. unfold sure, dsure, dwrite. cbn [snd]. now destruct (snd d). Qed.
Section Dyn.
Context {St : Type}.
Variables (S : Spec) (debug : bool) (ctx : DynCtx St).
Hypothesis Hc : forall p k c, sure_value (fst (dyn_visit ctx p k c)).
Lemma dsure_vars fuel : forall op first pos rest c, dsure (dyn_vars S debug ctx fuel op first pos rest c).
Proof.
  induction fuel as [|fuel IH]; intros op first pos rest c; cbn [dyn_vars]; [exact I|]. apply dsure_bind; [apply dsure_lift|]. intros [[[n vs] r]|] c'; [|exact I].
  destruct (dyn_visit ctx Typecheck _ _) as [v1 c1]. destruct (_ && _); [easy|].
  pose proof (Hc Expand (vs_name vs) c1) as H. destruct (dyn_visit ctx Expand _ _) as [v2 c2]. apply dsure_bind; [now apply dsure_write, sure_visit|]. intros; apply IH.
Qed.
Lemma dsure_loop fuel : forall pos t c, dsure (dyn_loop S debug ctx fuel pos t c).
Proof.
  induction fuel as [|fuel IH]; intros pos t c; cbn [dyn_loop]; [exact I|]. apply dsure_bind; [apply dsure_lift|]. intros [[[l|b] r]|] c'; [| |exact I].
  - apply dsure_bind; [now apply dsure_write|]. intros; apply IH.
  - apply dsure_bind; [|intros; apply IH]. unfold dyn_expr. apply dsure_bind; [apply dsure_lift|]. intros [op vars] c1. apply dsure_bind; [apply dsure_vars|].
    intros p c2. now destruct (Nat.eqb _ _).
Qed.
Lemma no_write_error t c e : fst (expand_dynamic_to_string S debug ctx t c) = Err e -> te_kind e = UnexpectedValueType.
Proof.
  rewrite to_string_eq. pose proof (dsure_loop (1 + length t) 0 t (dyn_start ctx c)) as H. unfold dsure in H. destruct (snd (dyn_loop _ _ _ _ _ _ _)); try discriminate. intros [= <-]. exact H.
Qed.
End Dyn.
Lemma shows_sure d s : shows d s -> sure d.
Proof. intros (H & _). unfold sure. now rewrite H. Qed.
Lemma supplies_sure v x : supplies v x -> sure_value v.
Proof.
  destruct 1 as [|d s H|ds l F|ds l F]; cbn [sure_value]; [exact I|now apply shows_sure in H| |].
  - induction F; constructor; auto. now apply shows_sure in H.
  - induction F as [|x y ds l [H1 H2] F IH]; constructor; auto. split; [now apply shows_sure in H1|now apply shows_sure in H2].
Qed.

(** ** With a context that does not change: no panic with tame values *)
Definition quiet {A} (y : D unit A) (P : A -> Prop) : Prop := match snd y with DRet a _ => P a | DErr _ _ => True | DPan => False end.
Lemma quiet_bind {A B} (y : D unit A) (g : A -> unit -> D unit B) P Q : quiet y P -> (forall a, P a -> quiet (g a tt) Q) -> quiet (dbind y g) Q.
Proof. destruct y as [o [a []|e c|]]; cbn; intros H1 H2; try easy. specialize (H2 a H1). unfold dbind. destruct (g a tt) as [o' r]. exact H2. Qed.
Section Quiet.
Variables (S : Spec) (debug : bool) (ctx : Ctx) (env : str -> sval).
Hypothesis He : supplies_env ctx env.
Notation dctx := (dyn_of ctx).
Lemma quiet_vars o rs : Forall spec_ok rs -> (forall r, In r rs -> tame debug o r (ctx (r_name r))) -> forall fuel first pos, (length rs < fuel)%nat ->
  quiet (dyn_vars S debug dctx fuel (op_of o) first pos (specs_text rs) tt) (fun p => p = (pos + blen (heads rs))%nat).
Proof using He.
  induction 1 as [|r rs [Hc Hs] F IH]; intros Ht fuel first pos Hf; (destruct fuel as [|fuel]; [cbn in Hf; lia|]); cbn [dyn_vars].
  - change (specs_text []) with (@nil N). rewrite varlist_nil. cbn. now rewrite Nat.add_0_r.
  - rewrite varlist_cons by assumption. rewrite parse_trusted_small by assumption. cbn [bind dlift]. rewrite dbind_ret. cbv beta iota.
    cbn [dyn_visit dyn_of]. change (vs_name (spec_of r)) with (r_name r). rewrite (misused_eq ctx env He r). destruct (misused (env (r_name r)) r) eqn:Hm; [exact I|].
    pose proof (tame_good S debug ctx env He o r Hc (Ht r (or_introl eq_refl)) Hm first) as G.
    destruct (visit_value _ _ _ _ _ _) as [ox [f1| |]]; try discriminate G. unfold dwrite. cbn [fst snd].
    eapply quiet_bind with (P := fun _ => True); [exact I|]. intros f2 _.
    replace (pos + blen (heads (r :: rs)))%nat with (pos + (blen (rspec_text r) + 1) + blen (heads rs))%nat.
    + apply IH; [intros; apply Ht; now right|cbn in Hf; lia].
    + unfold heads. cbn [flat_map]. rewrite !blen_app. change (blen (lit ",")) with 1%nat. lia.
Qed.
Lemma quiet_loop T : Tok T -> tame_template debug ctx T -> forall l f pos, no_brace l -> (length l + length (template_text T) < f)%nat ->
  quiet (dyn_loop S debug dctx f pos (l ++ template_text T) tt) (fun _ => True).
Proof using He.
  induction 1 as [|p T [Hp Hs] HT IH]; intros Ht l f pos Hl Hf.
  - cbn [template_text flat_map] in *. rewrite app_nil_r in *. destruct f as [|f]; [lia|]. cbn [dyn_loop].
    destruct l as [|c l]; [exact I|]. rewrite chunks_lit by (assumption || discriminate). cbn [dlift]. rewrite dbind_ret. cbv beta iota.
    destruct f as [|f]; [cbn in Hf; lia|]. exact I.
  - assert (Ht' : tame_template debug ctx T) by (intros o' l' r' H'; apply (Ht o' l' r'); now right). specialize (IH Ht'). destruct p as [s|o rs].
    + rewrite template_cons in *. cbn [part_text] in *. rewrite app_length in Hf. rewrite app_assoc.
      apply IH; [|rewrite app_length; lia]. unfold no_brace. rewrite none_app. apply andb_true_intro. split; [assumption|now apply lit_no_brace].
    + destruct Hp as [Hn F]. pose proof (body_nonempty o rs Hn F) as Hb. pose proof (body_no_rbrace o rs F) as Hr. cbn [small_part] in Hs.
      pose proof (small_specs rs F Hs) as Fs. pose proof (specs_len rs Fs) as Hsl.
      rewrite template_expr in *. cbn [length] in Hf. rewrite app_length in Hf. cbn [length] in Hf.
      assert (EB : blen (body_text o rs) = (blen (rop_text o) + blen (specs_text rs))%nat) by (unfold body_text; now rewrite blen_app).
      assert (EX : forall f pos, (length (template_text T) < f)%nat ->
        quiet (dyn_loop S debug dctx (Datatypes.S f) pos (LBRACE :: body_text o rs ++ RBRACE :: template_text T) tt) (fun _ => True)).
      { intros f' pos' Hf'. cbn [dyn_loop]. rewrite chunks_expr by assumption. cbn [dlift]. rewrite dbind_ret. cbv beta iota.
        unfold dyn_expr. rewrite decompose_eq by assumption. cbn [dlift]. rewrite !dbind_ret. cbv beta iota zeta. rewrite op_len.
        eapply quiet_bind with (P := fun _ => True); [|intros p _; apply (IH [] f'); [reflexivity|assumption]].
        eapply quiet_bind; [apply quiet_vars; [assumption|intros r Hi; apply (Ht o rs r); [now left|assumption]|cbn [Nat.add]; lia]|].
        cbv beta. intros p ->. rewrite heads_len by assumption. replace (Nat.eqb _ _) with true by (symmetry; apply Nat.eqb_eq; lia). exact I. }
      destruct f as [|f]; [lia|]. destruct l as [|c l].
      * cbn [app]. apply EX. cbn in Hf; lia.
      * destruct f as [|f]; [cbn in Hf; lia|]. remember (Datatypes.S f) as f1. cbn [dyn_loop]. rewrite chunks_lit_expr by (assumption || discriminate). cbn [dlift]. rewrite dbind_ret. cbv beta iota.
        unfold write, dwrite. cbn [fst snd]. eapply quiet_bind with (P := fun _ => True); [exact I|]. intros _ _. subst f1. apply EX. cbn [length] in Hf; lia.
Qed.
Lemma dynamic_no_panic T : Tok T -> tame_template debug ctx T -> fst (expand_dynamic_to_string S debug dctx (template_text T) tt) <> Panic.
Proof using He.
  intros HT Ht. rewrite to_string_eq. pose proof (quiet_loop T HT Ht [] (1 + length (template_text T)) 0 eq_refl ltac:(cbn; lia)) as H. cbn [app dyn_start dyn_of] in *.
  unfold quiet in H. destruct (snd (dyn_loop _ _ _ _ _ _ _)); easy.
Qed.
Lemma dyn_sure : forall p k c, sure_value (fst (dyn_visit dctx p k c)).
Proof using He. intros p k c. exact (supplies_sure _ _ (He k)). Qed.
Lemma same_result T : usable T -> fine env T -> fst (expand_dynamic_to_string S debug dctx (template_text T) tt) = expand_to_string S debug ctx (template_text T).
Proof using He.
  intros HT Hf. pose proof (same_writes S debug ctx env T append_write [] He HT Hf) as X. pose proof (no_write_error S debug dctx dyn_sure (template_text T) tt) as Y.
  pose proof (fun s => agreement S debug ctx env T s He HT) as A. destruct (typechecks debug ctx env He T HT) as (Z & _).
  destruct (fst (expand_dynamic_to_string S debug dctx (template_text T) tt)) as [s|e|] eqn:E.
  - symmetry. now apply A.
  - specialize (Y e eq_refl). enough (Y' : te_kind e = WriteFailed) by (rewrite Y' in Y; discriminate). unfold expand_dynamic_to_string in E. destruct (expand_dynamic S debug dctx append_write [] (template_text T) tt) as [[st r] o]. destruct X as [_ X]. apply X.
    destruct r; cbn [fst] in E; try discriminate. now injection E as ->.
  - unfold expand_to_string in *. rewrite (proj2 Z Hf) in *. cbn [bind] in *. destruct (text _) as [s|[]|]; cbn [tlift] in *; [|reflexivity]. now specialize (proj1 (A s) eq_refl).
Qed.
Lemma type_error_dynamic T n : usable T -> expand_to_string S debug ctx (template_text T) = terr UnexpectedValueType n ->
  let d := fst (expand_dynamic_to_string S debug dctx (template_text T) tt) in
  (d = terr UnexpectedValueType n \/ d = Panic) /\ (tame_template debug ctx T -> d = terr UnexpectedValueType n).
Proof using He.
  intros HT H d. assert (X : d = terr UnexpectedValueType n \/ d = Panic).
  { destruct d as [s|e|] eqn:E; [| |now right]; subst d.
    - apply (agreement S debug ctx env T s He HT) in E. rewrite E in H. discriminate.
    - left. pose proof (no_write_error S debug dctx dyn_sure (template_text T) tt e E) as Y. destruct (fine_or env T) as [Hf|[m Hm]].
      + rewrite (same_result T HT Hf), H in E. exact (eq_sym E).
      + destruct (dyn_ok S debug ctx env (fun r => misused_eq ctx env He r) T HT [] (1 + length (template_text T)) 0 eq_refl ltac:(cbn; lia)) as [_ D]. specialize (D m Hm). unfold stops in D.
        pose proof E as E'. rewrite to_string_eq in E'. cbn [app dyn_start dyn_of] in *. destruct (snd (dyn_loop _ _ _ _ _ _ _)) as [u c|e' c|]; try discriminate. injection E' as ->. destruct D as [->|D]; [|rewrite D in Y; discriminate].
        apply (dynamic_error S debug ctx env T _ He HT) in E. rewrite H in E. exact (eq_sym E). }
  split; [exact X|]. intros Ht. destruct X as [X|X]; [exact X|]. now elim (dynamic_no_panic T HT Ht).
Qed.
End Quiet.

Lemma only_type_errors {St} S debug (ctx : DynCtx St) t c e : (forall p k c, exists x, supplies (fst (dyn_visit ctx p k c)) x) ->
  fst (expand_dynamic_to_string S debug ctx t c) = Err e -> te_kind e = UnexpectedValueType.
Proof. intros H. apply no_write_error. intros p k c0. destruct (H p k c0) as [x Hx]. now apply supplies_sure in Hx. Qed.
