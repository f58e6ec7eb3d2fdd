(** * Where an expansion with a dynamic context stops (C37). *)
From Verif Require Import Base Chars Rfc3986 Utf8 PctSpec EncodeSpec MValidate MTrusted MFormat MSearch MPct MEncode MTemplate MMaybePct MExpand TemplateSpec ExpandSpec DynSpec.
From Verif Require Import PBase PScan PSearch PEncode PPath2 PTmpl1 PTmpl2 PTmpl3 PExp1 PExp2 PExp3 PExp4 PExp5 PExp6 PExp7 PExp8 PExp9 PExp10.
Open Scope string_scope. Open Scope N_scope. Open Scope list_scope.

Section Dyn.
Context {St : Type}.
Variables (S : Spec) (debug : bool) (ctx : DynCtx St).
Notation L := (logged ctx).
Notation Pr := (TErrorKind -> nat -> list event -> Prop).
(** Every way to stop satisfies [P]; on return [R]. *)
Definition inv {A} (y : D (St * list event) A) (P : Pr) (R : A -> list event -> Prop) : Prop :=
  Forall (fun x => P WriteFailed (snd (fst x)) (snd (snd x))) (fst y) /\
  match snd y with DRet a c => R a (snd c) | DErr e c => P (te_kind e) (te_location e) (snd c) | DPan => True end.
Lemma inv_bind {A B} (y : D _ A) (g : A -> _ -> D _ B) (P : Pr) R (P1 : Pr) R2 : inv y P1 R -> (forall k n l, P1 k n l -> P k n l) ->
  (forall a c l, R a l -> inv (g a (c, l)) P R2) -> inv (dbind y g) P R2.
Proof.
  intros [F E] HP H. assert (F' : Forall (fun x => P WriteFailed (snd (fst x)) (snd (snd x))) (fst y)) by (eapply Forall_impl; [|exact F]; intros; now apply HP).
  destruct y as [o [a [c l]|e [c l]|]]; cbn [fst snd dbind] in *.
  - destruct (H a c l E) as [F2 E2]. destruct (g a (c, l)) as [o' en]. cbn [fst snd] in *. split; cbn [fst snd]; [now apply Forall_app|exact E2].
  - split; cbn [fst snd]; auto.
  - split; cbn [fst snd]; auto.
Qed.
Lemma inv_write {A} pos c l0 (d : W A) : inv (dwrite pos (c, l0) d) (fun k n l => k = WriteFailed /\ n = pos /\ l = l0) (fun _ l => l = l0).
Proof.
  split; unfold dwrite; cbn [fst snd].
  - apply Forall_forall. intros x Hx. apply in_map_iff in Hx as (s & <- & _). now cbn.
  - destruct (snd d); now cbn.
Qed.
Lemma inv_impl {A} (y : D _ A) (P P' : Pr) R (R' : A -> list event -> Prop) : inv y P R -> (forall k n l, P k n l -> P' k n l) -> (forall a l, R a l -> R' a l) -> inv y P' R'.
Proof.
  intros [F E] HP HR. split; [eapply Forall_impl; [|exact F]; cbv beta; auto|]. destruct (snd y); auto.
Qed.
(** Stops among the variables of an expression. *)
Definition stop_vars (rs : list rspec) (pos : nat) (l0 : list event) : Pr := fun k n l =>
  exists l1 r l2, rs = l1 ++ r :: l2 /\ n = (pos + blen (heads l1))%nat /\
   ((k = WriteFailed /\ l = l0 ++ spec_visits l1 ++ [EVisit Typecheck (r_name r); EVisit Expand (r_name r)]) \/
    (k = UnexpectedValueType /\ l = l0 ++ spec_visits l1 ++ [EVisit Typecheck (r_name r)] /\ exists ds, r_mod r = Prefix ds)).
Lemma maxlen_prefix r : is_maxlen (vs_modifier (spec_of r)) = true -> exists ds, r_mod r = Prefix ds.
Proof. unfold spec_of. cbn [vs_modifier]. destruct (r_mod r); cbn; try discriminate. eauto. Qed.
Lemma vars_inv op rs : Forall spec_ok rs -> forall fuel first pos c l0, (length rs < fuel)%nat ->
  inv (dyn_vars S debug L fuel op first pos (specs_text rs) (c, l0)) (stop_vars rs pos l0) (fun p l => p = (pos + blen (heads rs))%nat /\ l = l0 ++ spec_visits rs).
Proof.
  induction 1 as [|r rs [Hc Hs] F IH]; intros fuel first pos c l0 Hf; (destruct fuel as [|fuel]; [cbn in Hf; lia|]); cbn [dyn_vars].
  - change (specs_text []) with (@nil N). rewrite varlist_nil. cbn. split; [constructor|]. cbn. rewrite ?app_nil_r. split; [lia|reflexivity].
  - rewrite varlist_cons by assumption. rewrite parse_trusted_small by assumption. cbn [bind dlift]. rewrite dbind_ret. cbv beta iota.
    change (vs_name (spec_of r)) with (r_name r). cbn [dyn_visit logged]. destruct (dyn_visit ctx Typecheck (r_name r) c) as [v1 c1].
    change (spec_visits (r :: rs)) with ([EVisit Typecheck (r_name r); EVisit Expand (r_name r)] ++ spec_visits rs).
    assert (EH : blen (heads (r :: rs)) = (blen (rspec_text r) + 1 + blen (heads rs))%nat).
    { unfold heads. cbn [flat_map]. rewrite !blen_app. change (blen (lit ",")) with 1%nat. lia. }
    destruct (is_maxlen _ && is_composite _) eqn:Em.
    + split; cbn [fst snd]; [constructor|]. exists [], r, rs. split; [reflexivity|]. cbn [te_kind te_location]. split; [cbn; lia|]. right. split; [reflexivity|]. split; [reflexivity|].
      apply andb_prop in Em as [Em _]. now apply maxlen_prefix.
    + destruct (dyn_visit ctx Expand (r_name r) c1) as [v2 c2]. rewrite <- app_assoc. cbn [app].
      eapply inv_bind; [apply inv_write| |].
      * cbv beta. intros k n l (-> & -> & ->). exists [], r, rs. split; [reflexivity|]. split; [cbn; lia|]. left. now split.
      * cbv beta. intros a c3 l ->. eapply inv_impl; [apply IH; cbn in Hf; lia| |].
        -- intros k n l (l1 & r' & l2 & -> & -> & X). exists (r :: l1), r', l2. split; [reflexivity|].
           assert (EH' : blen (heads (r :: l1)) = (blen (rspec_text r) + 1 + blen (heads l1))%nat).
           { unfold heads. cbn [flat_map]. rewrite !blen_app. change (blen (lit ",")) with 1%nat. lia. }
           rewrite EH'. split; [lia|].
           change (spec_visits (r :: l1)) with ([EVisit Typecheck (r_name r); EVisit Expand (r_name r)] ++ spec_visits l1).
           rewrite <- !app_assoc in X. destruct X as [X|X]; [left|right]; rewrite <- ?app_assoc; exact X.
        -- cbv beta. intros p l [-> ->]. rewrite EH, <- app_assoc. split; [lia|reflexivity].
Qed.
(** Stops of a template of which a literal [p] at [pos] is pending. *)
Definition later (T : list part) (k : TErrorKind) (n : nat) (seen : list event) : Prop :=
  exists T1 p T2, T = T1 ++ p :: T2 /\
  match p with
  | Lit s => (exists T0 o l, T1 = T0 ++ [Expr o l]) /\ k = WriteFailed /\ n = blen (template_text T1) /\ seen = visits T1
  | Expr o rs => exists m, stop_vars rs (1 + blen (rop_text o)) (visits T1) k m seen /\ n = (blen (template_text T1) + m)%nat
  end.
Definition stop_tail (T : list part) (p : str) (pos : nat) (l0 : list event) : Pr := fun k n l =>
  (k = WriteFailed /\ n = pos /\ l = l0 /\ (p <> [] \/ exists s T', T = Lit s :: T')) \/
  (exists m seen, later T k m seen /\ n = (pos + blen p + m)%nat /\ l = l0 ++ seen).
Lemma visits_app a b : visits (a ++ b) = visits a ++ visits b.
Proof. unfold visits, template_names. now rewrite !flat_map_app. Qed.
Lemma visits_expr o rs : visits [Expr o rs] = spec_visits rs.
Proof. unfold visits, spec_visits, template_names. cbn [flat_map part_names]. now rewrite app_nil_r. Qed.
Lemma stop_vars_shift rs pos l0 d l1 k n l : stop_vars rs pos l0 k n l -> stop_vars rs (d + pos) (l1 ++ l0) k (d + n) (l1 ++ l).
Proof.
  intros (a & r & b & E & -> & X). exists a, r, b. split; [exact E|]. split; [lia|]. destruct X as [(-> & ->)|(-> & -> & X)]; [left|right]; rewrite <- ?app_assoc; auto.
Qed.
Lemma later_cons p T k n seen : later T k n seen -> later (p :: T) k (blen (part_text p) + n) (visits [p] ++ seen).
Proof.
  intros (T1 & q & T2 & -> & X). exists (p :: T1), q, T2. split; [reflexivity|]. destruct q as [s|o rs].
  - destruct X as ((T0 & o & l & ->) & -> & -> & ->). split; [exists (p :: T0), o, l; reflexivity|]. split; [reflexivity|]. rewrite template_cons, blen_app. split; [lia|]. now rewrite <- visits_app.
  - destruct X as (m & X & ->). exists m. rewrite template_cons, blen_app. split; [|lia].
    change (p :: T1) with ([p] ++ T1). rewrite visits_app. apply (stop_vars_shift _ _ _ 0 _ _ _ _ X).
Qed.
Lemma loop_inv T : Tok T -> forall p f pos c l0, no_brace p -> (length p + length (template_text T) < f)%nat ->
  inv (dyn_loop S debug L f pos (p ++ template_text T) (c, l0)) (stop_tail T p pos l0) (fun _ _ => True).
Proof.
  induction 1 as [|q T [Hp Hs] HT IH]; intros l f pos c0 l0 Hl Hf.
  - cbn [template_text flat_map] in *. rewrite app_nil_r in *. destruct f as [|f]; [lia|]. cbn [dyn_loop].
    destruct l as [|c l]; [split; [constructor|exact Logic.I]|]. rewrite chunks_lit by (assumption || discriminate). cbn [dlift]. rewrite dbind_ret. cbv beta iota.
    eapply inv_bind; [apply inv_write| |].
    + cbv beta. intros k n l' (-> & -> & ->). left. repeat split; auto. left. discriminate.
    + cbv beta. intros a c1 l' _. destruct f as [|f]; [cbn in Hf; lia|]. cbn [dyn_loop]. rewrite chunks_nil. cbn [dlift]. rewrite dbind_ret. split; cbn [fst snd dret]; [apply Forall_nil|exact Logic.I].
  - destruct q as [s|o rs].
    + rewrite template_cons in *. cbn [part_text] in *. rewrite app_length in Hf. rewrite app_assoc.
      eapply inv_impl; [apply (IH (l ++ s)); [|rewrite app_length; lia]| |auto].
      * unfold no_brace. rewrite none_app. apply andb_true_intro. split; [assumption|now apply lit_no_brace].
      * intros k n l' [(-> & -> & -> & _)|(m & seen & X & -> & ->)]; [left; repeat split; eauto|]. right. exists (blen s + m)%nat, seen. split; [|rewrite blen_app; split; [lia|reflexivity]].
        exact (later_cons (Lit s) T k m seen X).
    + destruct Hp as [Hn F]. pose proof (body_nonempty o rs Hn F) as Hb. pose proof (body_no_rbrace o rs F) as Hr. cbn [small_part] in Hs.
      pose proof (small_specs rs F Hs) as Fs. pose proof (specs_len rs Fs) as Hsl.
      rewrite template_expr in *. cbn [length] in Hf. rewrite app_length in Hf. cbn [length] in Hf.
      assert (EB : blen (body_text o rs) = (blen (rop_text o) + blen (specs_text rs))%nat) by (unfold body_text; now rewrite blen_app).
      assert (P2 : (blen (body_text o rs) + 2 = blen (part_text (Expr o rs)))%nat).
      { rewrite part_expr. cbn [blen app]. rewrite blen_app. cbn [blen]. change (clen LBRACE) with 1%nat. change (clen RBRACE) with 1%nat. lia. }
      assert (EX : forall f pos c l0, (length (template_text T) < f)%nat -> inv (dyn_loop S debug L (Datatypes.S f) pos (LBRACE :: body_text o rs ++ RBRACE :: template_text T) (c, l0))
        (fun k n l => exists m seen, later (Expr o rs :: T) k m seen /\ n = (pos + m)%nat /\ l = l0 ++ seen) (fun _ _ => True)).
      { intros f' pos' c' l' Hf'. cbn [dyn_loop]. rewrite chunks_expr by assumption. cbn [dlift]. rewrite dbind_ret. cbv beta iota.
        unfold dyn_expr. rewrite decompose_eq by assumption. cbn [dlift]. rewrite !dbind_ret. cbv beta iota zeta. rewrite op_len.
        eapply inv_bind with (P1 := stop_vars rs (pos' + (blen (rop_text o) + 1)) l') (R := fun p l => p = (pos' + blen (body_text o rs) + 2)%nat /\ l = l' ++ spec_visits rs).
        - eapply inv_bind; [apply vars_inv; [assumption|cbn [Nat.add]; lia]|auto|]. cbv beta. intros a c2 ll [-> ->].
          rewrite heads_len by assumption. replace (Nat.eqb _ _) with true by (symmetry; apply Nat.eqb_eq; lia). split; [constructor|]. cbn [dret snd]. split; [lia|reflexivity].
        - intros k n ll X. exists (n - pos')%nat. assert (Y : (pos' + (n - pos'))%nat = n) by (destruct X as (l1 & r & l2 & _ & -> & _); lia).
          destruct X as (l1 & r & l2 & E & En & X).
          assert (G : forall seen, (k = WriteFailed /\ seen = spec_visits l1 ++ [EVisit Typecheck (r_name r); EVisit Expand (r_name r)]) \/
                (k = UnexpectedValueType /\ seen = spec_visits l1 ++ [EVisit Typecheck (r_name r)] /\ exists ds, r_mod r = Prefix ds) -> later (Expr o rs :: T) k (n - pos') seen).
          { intros seen Hs'. exists [], (Expr o rs), T. split; [reflexivity|]. exists (n - pos')%nat. split; [|reflexivity]. exists l1, r, l2. split; [exact E|]. split; [lia|]. exact Hs'. }
          destruct X as [(-> & ->)|(-> & -> & X)]; eexists; (split; [apply G|split; [now symmetry|reflexivity]]); auto.
        - cbv beta. intros a c2 ll [-> ->]. eapply inv_impl; [apply (IH [] f'); [reflexivity|assumption]| |auto].
          intros k n ll [(-> & -> & -> & [X|(s & T' & ->)])|(m & seen & X & -> & ->)]; [now elim X| |].
          + exists (blen (part_text (Expr o rs))), (visits [Expr o rs]). split; [|split; [lia|now rewrite visits_expr]].
            exists [Expr o rs], (Lit s), T'. split; [reflexivity|]. split; [now exists [], o, rs|]. split; [reflexivity|]. split; [|reflexivity]. rewrite template_cons, blen_app. cbn [template_text flat_map blen]. lia.
          + exists (blen (part_text (Expr o rs)) + m)%nat, (visits [Expr o rs] ++ seen). split; [now apply later_cons|]. split; [cbn [blen]; lia|]. now rewrite visits_expr, <- app_assoc. }
      destruct f as [|f]; [lia|]. destruct l as [|c l].
      * cbn [app]. eapply inv_impl; [apply EX; cbn in Hf; lia| |auto]. cbv beta. intros k n l' (m & seen & X & -> & ->). right. exists m, seen. split; [exact X|]. cbn [blen]. split; [lia|reflexivity].
      * destruct f as [|f]; [cbn in Hf; lia|]. remember (Datatypes.S f) as f1. cbn [dyn_loop]. rewrite chunks_lit_expr by (assumption || discriminate). cbn [dlift]. rewrite dbind_ret. cbv beta iota.
        eapply inv_bind; [apply inv_write| |].
        -- cbv beta. intros k n l' (-> & -> & ->). left. repeat split; auto. left. discriminate.
        -- cbv beta. intros a c2 l' ->. subst f1. eapply inv_impl; [apply EX; cbn [length] in Hf; lia| |auto].
           cbv beta. intros k n l' (m & seen & X & -> & ->). right. exists m, seen. auto.
Qed.
Lemma drun_inv {Wr} (w : Wr -> str -> wstep Wr) chunks e P : inv (chunks, e) P (fun _ _ => True) -> forall st st' x c l, drun w st chunks e = (st', Err x, Some (c, l)) -> P (te_kind x) (te_location x) l.
Proof.
  induction chunks as [|[[s p] [c l]] chunks IH]; intros [F E] st st' x c' l'; cbn [drun fst snd] in *.
  - destruct e as [[] [c l]|e [c l]|]; intros H; try discriminate. injection H as <- <- <- <-. exact E.
  - destruct (w st s) as [st1|st1].
    + apply IH. split; [now inversion F|assumption].
    + intros H. injection H as <- <- <- <-. now apply Forall_inv in F.
Qed.
Lemma stop_of T k n l : stop_tail T [] 0 [] k n l -> halts T (mkTE k n) l.
Proof.
  intros [(-> & -> & -> & [X|(s & T' & ->)])|(m & seen & (T1 & p & T2 & -> & X) & -> & ->)]; [now elim X| |].
  - apply (stop_literal _ [] s T'); [reflexivity|now left].
  - cbn [app blen]. rewrite !Nat.add_0_l. destruct p as [s|o rs].
    + destruct X as (Y & -> & -> & ->). apply (stop_literal _ T1 s T2); [reflexivity|now right].
    + destruct X as (q & (l1 & r & l2 & -> & -> & X) & ->).
      replace (blen (template_text T1) + (1 + blen (rop_text o) + blen (heads l1)))%nat with (place T1 o l1)
        by (unfold place, heads; rewrite !blen_app; change (blen (lit "{")) with 1%nat; lia).
      rewrite !app_assoc, <- visits_expr with (o := o), <- visits_app in X. destruct X as [(-> & ->)|(-> & -> & ds & X)].
      * now apply (stop_value _ T1 o l1 r l2 T2).
      * now apply (stop_type _ T1 o l1 r l2 T2 ds).
Qed.
Lemma stops_ok {Wr} (w : Wr -> str -> wstep Wr) st T c st' e c' log : Tok T ->
  expand_dynamic S debug L w st (template_text T) (c, []) = (st', Err e, Some (c', log)) -> exists seen, log = EStart :: seen ++ [EEnd] /\ halts T e seen.
Proof.
  intros HT. unfold expand_dynamic. cbn [dyn_start dyn_end logged app].
  pose proof (loop_inv T HT [] (1 + length (template_text T)) 0 (dyn_start ctx c) [EStart] eq_refl ltac:(cbn; lia)) as X. cbn [app] in X.
  destruct (dyn_loop _ _ _ _ _ _ _) as [chunks en]. cbn [fst snd]. destruct (drun w st chunks en) as [[st1 r1] o1] eqn:E. destruct o1 as [[c1 l1]|]; [|discriminate].
  intros H. injection H as <- -> <- <-. pose proof (drun_inv w chunks en _ X _ _ _ _ _ E) as Y.
  destruct Y as [(E1 & E2 & -> & Z)|(m & seen & Z & E2 & ->)].
  - exists []. split; [reflexivity|]. destruct e as [k n]. cbn [te_kind te_location] in *. apply stop_of. left. auto.
  - exists seen. split; [reflexivity|]. destruct e as [k n]. cbn [te_kind te_location] in *. apply stop_of. right. exists m, seen. auto.
Qed.
End Dyn.
(** With a context that does not change: the writer is given exactly what displaying [expand] gives it. *)
Lemma drun_run {Wr} (w : Wr -> str -> wstep Wr) (e : dend unit unit) (x : ending unit) :
  match x, e with Ret _, DRet _ _ => True | Fail, DErr e _ => te_kind e = WriteFailed | Pan, DPan => True | _, _ => False end ->
  forall chunks st, let '(st', r, o) := drun w st chunks e in
  run w st (map chunk_text chunks) (end_of x) = (st', match r with Ok _ => OOk | Err _ => OErr | Panic => OPanic end) /\
  (forall k, r = Err k -> te_kind k = WriteFailed).
Proof.
  intros H. induction chunks as [|[[s p] c] chunks IH]; intros st; cbn [drun map run].
  - destruct x as [[]| |], e as [[] c|e c|]; try contradiction; cbn [end_of]; split; try reflexivity; try discriminate. intros k [= <-]. exact H.
  - unfold chunk_text at 1. cbn [fst]. destruct (w st s) as [st1|st1]; [apply IH|]. split; [reflexivity|]. intros k [= <-]. reflexivity.
Qed.
Lemma same_writes {Wr} S debug ctx env T (w : Wr -> str -> wstep Wr) st : supplies_env ctx env -> usable T -> fine env T ->
  let '(st', r, o) := expand_dynamic S debug (dyn_of ctx) w st (template_text T) tt in
  run_display w st (expanded_fmt S debug ctx (template_text T)) = (st', match r with Ok _ => OOk | Err _ => OErr | Panic => OPanic end) /\
  (forall e, r = Err e -> te_kind e = WriteFailed).
Proof.
  intros He HT Hf. pose proof (dyn_ok S debug ctx env (fun r => misused_eq ctx env He r) T HT [] (1 + length (template_text T)) 0 eq_refl ltac:(cbn; lia)) as [D1 _].
  cbn [app] in D1. specialize (D1 Hf) as [E1 E2]. unfold expand_dynamic, run_display, expanded_fmt. cbn [dyn_start dyn_end dyn_of].
  destruct (expanded_loop _ _ _ _ _) as [ch x], (dyn_loop _ _ _ _ _ _ _) as [ch' e]. cbn [fst snd] in *. subst ch.
  pose proof (drun_run w e x) as X. specialize (X ltac:(destruct x as [[]| |], e as [? ?|? ?|]; auto) ch' st).
  destruct (drun w st ch' e) as [[st' r] o]. exact X.
Qed.
Lemma stops_example :
  let ctx := logged (dyn_of (fun _ => VString (display (lit "v")))) in
  let w := fun (st : nat * str) (s : str) => match fst st with O => Stop st | Datatypes.S n => Cont (n, snd st ++ s) end in
  let T := [Lit (lit "a"); Expr Ques [mkR (lit "x") NoMod; mkR (lit "y") (Prefix (lit "3"))]; Lit (lit "b")] in
  template_text T = lit "a{?x,y:3}b" /\ usable T /\
  expand_dynamic UriSpec true ctx w (0%nat, []) (template_text T) (tt, []) = ((0%nat, []), terr WriteFailed 0, Some (tt, [EStart; EEnd])) /\
  expand_dynamic UriSpec true ctx w (1%nat, []) (template_text T) (tt, []) =
    ((0%nat, lit "a"), terr WriteFailed 3, Some (tt, [EStart; EVisit Typecheck (lit "x"); EVisit Expand (lit "x"); EEnd])) /\
  halts T (mkTE WriteFailed 9) (visits [Expr Ques [mkR (lit "x") NoMod; mkR (lit "y") (Prefix (lit "3"))]]).
Proof.
  intros ctx w T. split; [reflexivity|]. split.
  - assert (R : Forall rfc_part T).
    { apply Forall_cons; [|apply Forall_cons; [rfc_expr|apply Forall_cons; [|apply Forall_nil]]]; cbn [rfc_part];
      match goal with |- star _ (lit ?x) => change (lit x) with (lit x ++ []) end; apply star_app; [apply star_one; left; eexists; split; reflexivity|constructor|apply star_one; left; eexists; split; reflexivity|constructor]. }
    pose proof (all_ascii_parts T eq_refl) as A. unfold usable. rewrite Forall_forall in *. intros p Hp. apply rfc_part_crate; auto.
  - split; [vm_compute; reflexivity|]. split; [vm_compute; reflexivity|].
    apply (stop_literal T [Lit (lit "a"); Expr Ques [mkR (lit "x") NoMod; mkR (lit "y") (Prefix (lit "3"))]] (lit "b") []); [reflexivity|].
    right. exists [Lit (lit "a")], Ques, [mkR (lit "x") NoMod; mkR (lit "y") (Prefix (lit "3"))]. reflexivity.
Qed.
