(** * Dynamic contexts (C37). *)
From Verif Require Import Base Chars Rfc3986 Utf8 PctSpec EncodeSpec MValidate MTrusted MFormat MSearch MPct MEncode MTemplate MMaybePct MExpand TemplateSpec ExpandSpec.
From Verif Require Import PBase PScan PSearch PEncode PPath2 PTmpl1 PTmpl2 PTmpl3 PExp1 PExp2 PExp3 PExp4 PExp5 PExp6.

(** ** Agreement with the expansion by a static context *)
Definition chunk_text {St} (x : str * nat * St) : str := fst (fst x).
Definition agree {A} (x : W unit) (y : D unit A) (P : A -> Prop) : Prop :=
  map chunk_text (fst y) = fst x /\
  match snd x, snd y with
  | Ret _, DRet a _ => P a
  | Fail, DErr e _ => te_kind e = WriteFailed
  | Pan, DPan => True
  | _, _ => False
  end.
Lemma agree_bind {A B} x (y : D unit A) P f (g : A -> unit -> D unit B) Q : agree x y P -> (forall a, P a -> agree f (g a tt) Q) -> agree (x >> f) (dbind y g) Q.
Proof.
  intros [E1 E2] H. destruct x as [ox ex], y as [oy ey]. cbn [fst snd] in *. unfold wbind, dbind. destruct ex as [[]| |], ey as [a []|e c|]; try contradiction.
  - destruct (H a E2) as [F1 F2]. destruct f as [of ef], (g a tt) as [og eg]. cbn [fst snd] in *. split; cbn [fst snd]; [now rewrite map_app, E1, F1|exact F2].
  - split; assumption.
  - split; assumption.
Qed.
(** The run ends before its end, with one of the errors. *)
Definition stops {A} (y : D unit A) (n : nat) : Prop :=
  match snd y with
  | DRet _ _ => False
  | DErr e _ => e = mkTE UnexpectedValueType n \/ te_kind e = WriteFailed
  | DPan => True
  end.
Lemma stops_left {A B} x (y : D unit A) (g : A -> unit -> D unit B) P n : agree x y P -> (forall a, P a -> stops (g a tt) n) -> stops (dbind y g) n.
Proof.
  intros [E1 E2] H. destruct x as [ox ex], y as [oy ey]. cbn [fst snd] in *. unfold dbind. destruct ex as [[]| |], ey as [a []|e c|]; try contradiction.
  - specialize (H a E2). destruct (g a tt) as [og eg]. exact H.
  - now right.
  - exact Logic.I.
Qed.
Lemma stops_bind {A B} (y : D unit A) (g : A -> unit -> D unit B) n : stops y n -> stops (dbind y g) n.
Proof. destruct y as [oy [a c|e c|]]; unfold stops; cbn [snd dbind fst]; tauto. Qed.
Lemma agree_ret {A} a (P : A -> Prop) : P a -> agree (wret tt) (dret a tt) P.
Proof. now split. Qed.
Lemma dbind_ret {St A B} (a : A) (c : St) (g : A -> St -> D St B) : dbind (dret a c) g = g a c.
Proof. unfold dbind, dret. now destruct (g a c). Qed.
Lemma agree_value {A B} pos (d : W A) (k : A -> W unit) (g : A -> unit -> D unit B) P : (forall a, agree (k a) (g a tt) P) -> agree (wbind d k) (dbind (dwrite pos tt d) g) P.
Proof.
  intros H. destruct d as [o [a| |]]; unfold dwrite; cbn [wbind dbind fst snd].
  - destruct (H a) as [F1 F2]. destruct (k a) as [of ef], (g a tt) as [og eg]. cbn [fst snd] in *. split; cbn [fst snd]; [|exact F2].
    rewrite map_app, map_map, F1. cbn [chunk_text fst]. now rewrite map_id.
  - split; cbn [fst snd]; [rewrite map_map; apply map_id|reflexivity].
  - split; cbn [fst snd]; [rewrite map_map; apply map_id|reflexivity].
Qed.
Lemma stops_value {A B} pos (d : W A) (g : A -> unit -> D unit B) n : (forall a, stops (g a tt) n) -> stops (dbind (dwrite pos tt d) g) n.
Proof.
  intros H. destruct d as [o [a| |]]; unfold dwrite; cbn [dbind fst snd].
  - specialize (H a). destruct (g a tt) as [og eg]. exact H.
  - now right.
  - exact Logic.I.
Qed.
Section Static.
Variables (S : Spec) (debug : bool) (ctx : Ctx) (env : str -> sval).
(** The types are those of [env]. *)
Hypothesis Htype : forall r, is_maxlen (vs_modifier (spec_of r)) && is_composite (type_of (ctx (r_name r))) = misused (env (r_name r)) r.
Notation dctx := (dyn_of ctx).
Lemma dyn_vars_ok op rs : Forall spec_ok rs -> (forall r, In r rs -> misused (env (r_name r)) r = false) -> forall fuel first pos, (length rs < fuel)%nat ->
  agree (expand_vars fuel S debug ctx op first (specs_text rs)) (dyn_vars S debug dctx fuel op first pos (specs_text rs) tt) (fun p => p = (pos + blen (heads rs))%nat).
Proof using Htype.
  induction 1 as [|r rs [Hc Hs] F IH]; intros Hm fuel first pos Hf; (destruct fuel as [|fuel]; [cbn in Hf; lia|]); cbn [expand_vars dyn_vars].
  - change (specs_text []) with (@nil N). rewrite varlist_nil. cbn. split; [reflexivity|]. cbn. now rewrite Nat.add_0_r.
  - rewrite varlist_cons by assumption. rewrite parse_trusted_small by assumption. cbn [bind]. rewrite lift_bind. cbn [dlift]. rewrite dbind_ret. cbv beta iota.
    cbn [dyn_visit dyn_of]. change (vs_name (spec_of r)) with (r_name r). rewrite Htype. rewrite Hm by now left.
    apply agree_value. intros first'. replace (pos + blen (heads (r :: rs)))%nat with (pos + (blen (rspec_text r) + 1) + blen (heads rs))%nat.
    + apply IH; [intros; apply Hm; now right|cbn in Hf; lia].
    + unfold heads. cbn [flat_map]. rewrite !blen_app. change (blen (lit ",")) with 1%nat. lia.
Qed.
Lemma dyn_vars_stop op l1 r l2 : Forall spec_ok (l1 ++ r :: l2) -> (forall x, In x l1 -> misused (env (r_name x)) x = false) -> misused (env (r_name r)) r = true ->
  forall fuel first pos, (length l1 < fuel)%nat -> stops (dyn_vars S debug dctx fuel op first pos (specs_text (l1 ++ r :: l2)) tt) (pos + blen (heads l1)).
Proof using Htype.
  induction l1 as [|x l1 IH]; intros F Hm Hr fuel first pos Hf; (destruct fuel as [|fuel]; [cbn in Hf; lia|]); cbn [dyn_vars app];
  apply Forall_cons_iff in F as [[Hc Hs] F]; rewrite varlist_cons by assumption; rewrite parse_trusted_small by assumption; cbn [bind dlift]; rewrite dbind_ret; cbv beta iota; cbn [dyn_visit dyn_of].
  - change (vs_name (spec_of r)) with (r_name r). rewrite Htype, Hr. left. cbn. now rewrite Nat.add_0_r.
  - change (vs_name (spec_of x)) with (r_name x). rewrite Htype. rewrite Hm by now left. apply stops_value. intros first'.
    replace (pos + blen (heads (x :: l1)))%nat with (pos + (blen (rspec_text x) + 1) + blen (heads l1))%nat.
    + apply IH; auto; [intros; apply Hm; now right|cbn in Hf; lia].
    + unfold heads. cbn [flat_map]. rewrite !blen_app. change (blen (lit ",")) with 1%nat. lia.
Qed.
Lemma dyn_ok T : Tok T -> forall l f pos, no_brace l -> (length l + length (template_text T) < f)%nat ->
  (fine env T -> agree (expanded_loop f S debug ctx (l ++ template_text T)) (dyn_loop S debug dctx f pos (l ++ template_text T) tt) (fun _ => True)) /\
  (forall n, misuse_at env T n -> stops (dyn_loop S debug dctx f pos (l ++ template_text T) tt) (pos + blen l + n)).
Proof using Htype.
  induction 1 as [|p T [Hp Hs] HT IH]; intros l f pos Hl Hf.
  - cbn [template_text flat_map] in *. rewrite app_nil_r in *. split.
    + intros _. destruct f as [|f]; [lia|]. cbn [expanded_loop dyn_loop].
      destruct l as [|c l]; [now split|]. rewrite chunks_lit by (assumption || discriminate). cbn [dlift]. rewrite lift_bind, dbind_ret. cbv beta iota.
      destruct f as [|f]; [cbn in Hf; lia|]. now split.
    + intros n (T1 & o & l1 & r & l2 & T2 & E & _). now apply app_cons_not_nil in E.
  - destruct p as [s|o rs].
    + rewrite template_cons in *. cbn [part_text] in *. rewrite app_length in Hf. rewrite app_assoc.
      assert (Hl' : no_brace (l ++ s)). { unfold no_brace. rewrite none_app. apply andb_true_intro. split; [assumption|now apply lit_no_brace]. }
      destruct (IH (l ++ s) f pos Hl') as [I1 I2]; [rewrite app_length; lia|]. split.
      * intros Hfi. apply I1. intros o rs r H. apply (Hfi o rs r). now right.
      * intros n Hm. apply misuse_cons in Hm as [(o & l1 & r & l2 & E & _)|(_ & n' & Hm & ->)]; [discriminate|]. pose proof (I2 n' Hm) as X. rewrite blen_app in X. cbn [part_text].
        now replace (pos + blen l + (blen s + n'))%nat with (pos + (blen l + blen s) + n')%nat by lia.
    + destruct Hp as [Hn F]. pose proof (body_nonempty o rs Hn F) as Hb. pose proof (body_no_rbrace o rs F) as Hr. cbn [small_part] in Hs.
      pose proof (small_specs rs F Hs) as Fs. pose proof (specs_len rs Fs) as Hsl.
      rewrite template_expr in *. cbn [length] in Hf. rewrite app_length in Hf. cbn [length] in Hf.
      assert (EB : blen (body_text o rs) = (blen (rop_text o) + blen (specs_text rs))%nat) by (unfold body_text; now rewrite blen_app).
      assert (EX : forall f pos, (length (template_text T) < f)%nat ->
        (fine env (Expr o rs :: T) -> agree (expanded_loop (Datatypes.S f) S debug ctx (LBRACE :: body_text o rs ++ RBRACE :: template_text T))
            (dyn_loop S debug dctx (Datatypes.S f) pos (LBRACE :: body_text o rs ++ RBRACE :: template_text T) tt) (fun _ => True)) /\
        (forall n, misuse_at env (Expr o rs :: T) n -> stops (dyn_loop S debug dctx (Datatypes.S f) pos (LBRACE :: body_text o rs ++ RBRACE :: template_text T) tt) (pos + n))).
      { intros f' pos' Hf'. cbn [expanded_loop dyn_loop]. rewrite chunks_expr by assumption. cbn [dlift]. rewrite lift_bind, dbind_ret. cbv beta iota.
        unfold expand_expr, dyn_expr. rewrite decompose_eq by assumption. cbn [dlift]. rewrite lift_bind, !dbind_ret. cbv beta iota zeta. rewrite op_len.
        assert (G : fine env [Expr o rs] -> agree (expand_vars (1 + length (specs_text rs)) S debug ctx (op_of o) true (specs_text rs))
           (dbind (dyn_vars S debug dctx (1 + length (specs_text rs)) (op_of o) true (pos' + (blen (rop_text o) + 1)) (specs_text rs) tt)
              (fun pos c => if Nat.eqb pos (pos' + blen (body_text o rs) + 2) then dret pos c else ([], DPan))) (fun p => p = (pos' + blen (body_text o rs) + 2)%nat)).
        { intros Hfi. pose proof (dyn_vars_ok (op_of o) rs Fs ltac:(intros r Hi; apply (Hfi o rs r); [now left|assumption]) (1 + length (specs_text rs)) true (pos' + (blen (rop_text o) + 1)) ltac:(cbn [Nat.add]; lia)) as X.
          set (x := expand_vars _ _ _ _ _ _ _) in *. replace x with (x >> wret tt).
          - eapply agree_bind; [exact X|]. cbv beta. intros p ->. rewrite heads_len by assumption.
            replace (Nat.eqb _ _) with true by (symmetry; apply Nat.eqb_eq; lia). apply agree_ret. lia.
          - clear. destruct x as [ox [[]| |]]; cbn; now rewrite ?app_nil_r. }
        assert (P2 : (pos' + blen (body_text o rs) + 2 = pos' + blen (part_text (Expr o rs)))%nat).
        { rewrite part_expr. cbn [blen app]. rewrite blen_app. cbn [blen]. change (clen LBRACE) with 1%nat. change (clen RBRACE) with 1%nat. lia. }
        destruct (IH [] f' (pos' + blen (body_text o rs) + 2)%nat eq_refl Hf') as [I1 I2]. cbn [app blen] in I1, I2.
        split.
        - intros Hfi. eapply agree_bind; [apply G; intros o' l' r H; apply (Hfi o' l' r); destruct H as [->|[]]; now left|].
          cbv beta. intros p ->. apply I1. intros o' l' r H. apply (Hfi o' l' r). now right.
        - intros n Hm. apply misuse_cons in Hm as [(o' & l1 & r & l2 & E & M1 & M2 & ->)|(Hfi & n' & Hm & ->)].
          + injection E as <- ->. apply stops_bind. apply stops_bind.
            replace (pos' + (1 + blen (rop_text o) + blen (heads l1)))%nat with (pos' + (blen (rop_text o) + 1) + blen (heads l1))%nat by lia.
            apply dyn_vars_stop; auto. rewrite app_length in Hsl; cbn [length Nat.add] in *; lia.
          + eapply stops_left; [now apply G|]. cbv beta. intros p ->. replace (pos' + (blen (part_text (Expr o rs)) + n'))%nat with (pos' + blen (body_text o rs) + 2 + 0 + n')%nat by lia.
            now apply I2. }
      destruct f as [|f]; [lia|]. destruct l as [|c l].
      * cbn [app blen]. destruct (EX f pos) as [E1 E2]; [cbn in Hf; lia|]. split; [exact E1|]. intros n Hm. rewrite Nat.add_0_r. now apply E2.
      * destruct f as [|f]; [cbn in Hf; lia|]. destruct (EX f (pos + blen (c :: l))%nat) as [E1 E2]; [cbn [length] in Hf; lia|].
        remember (Datatypes.S f) as f1. cbn [expanded_loop dyn_loop]. rewrite chunks_lit_expr by (assumption || discriminate). cbn [dlift]. rewrite lift_bind, dbind_ret. cbv beta iota.
        split.
        -- intros Hfi. apply agree_value. intros _. now apply E1.
        -- intros n Hm. apply stops_value. intros _. now apply E2.
Qed.
Lemma drun_append {St} (chunks : list (str * nat * St)) e : forall st, drun append_write st chunks e =
  (st ++ concat (map chunk_text chunks), match e with DRet _ _ => Ok tt | DErr e _ => Err e | DPan => Panic end, match e with DRet _ c | DErr _ c => Some c | DPan => None end).
Proof.
  induction chunks as [|[[s p] c] chunks IH]; intros st; cbn [drun map concat]; [rewrite app_nil_r; now destruct e as [[]| |]|].
  unfold append_write at 1. rewrite IH. unfold chunk_text at 2. cbn [fst]. now rewrite <- app_assoc.
Qed.
Lemma to_string_eq {St} (c : DynCtx St) t st : let d := dyn_loop S debug c (1 + length t) 0 t (dyn_start c st) in
  fst (expand_dynamic_to_string S debug c t st) = match snd d with DRet _ _ => Ok (concat (map chunk_text (fst d))) | DErr e _ => Err e | DPan => Panic end.
Proof.
  intros d. unfold expand_dynamic_to_string, expand_dynamic. fold d. rewrite drun_append. cbn [app]. destruct (snd d); reflexivity.
Qed.
Lemma static_dynamic T s : Tok T -> (expand_new debug ctx (template_text T) = Ok tt <-> fine env T) ->
  (expand_to_string S debug ctx (template_text T) = Ok s <-> fst (expand_dynamic_to_string S debug dctx (template_text T) tt) = Ok s).
Proof using Htype.
  intros HT Hc. rewrite to_string_eq. cbn [dyn_start dyn_of]. unfold expand_to_string, expanded_fmt.
  destruct (dyn_ok T HT [] (1 + length (template_text T)) 0 eq_refl ltac:(cbn; lia)) as [D1 D2]. cbn [app blen Nat.add] in D1, D2.
  destruct (fine_or env T) as [Hf|[n Hm]].
  - rewrite (proj2 Hc Hf). cbn [bind]. specialize (D1 Hf) as [E1 E2]. change (1 + length (template_text T))%nat with (Datatypes.S (length (template_text T))).
    rewrite E1. unfold text. destruct (snd (expanded_loop _ _ _ _ _)) as [[]| |], (snd (dyn_loop _ _ _ _ _ _ _)) as [[] []|e []|]; try contradiction; split; intros X; (discriminate || exact X).
  - assert (Hn : ~ fine env T). { intros Hf. specialize (D2 n Hm). destruct (D1 Hf) as [_ X]. unfold stops in D2.
      destruct Hm as (T1 & o & l1 & r & l2 & T2 & -> & _ & _ & M & _). rewrite (Hf o (l1 ++ r :: l2) r) in M; [discriminate|apply in_or_app; right; now left|apply in_or_app; right; now left]. }
    specialize (D2 n Hm). unfold stops in D2. change (1 + length (template_text T))%nat with (Datatypes.S (length (template_text T))).
    destruct (snd (dyn_loop _ _ _ _ _ _ _)) as [[] []|e []|]; [contradiction| |].
    + split; [|discriminate]. destruct (expand_new debug ctx (template_text T)) as [[]|e'|] eqn:E; cbn [bind]; try discriminate. tauto.
    + split; [|discriminate]. destruct (expand_new debug ctx (template_text T)) as [[]|e'|] eqn:E; cbn [bind]; try discriminate. tauto.
Qed.
Lemma static_error T n : Tok T -> fst (expand_dynamic_to_string S debug dctx (template_text T) tt) = terr UnexpectedValueType n -> misuse_at env T n.
Proof using Htype.
  intros HT. rewrite to_string_eq. cbn [dyn_start dyn_of].
  destruct (dyn_ok T HT [] (1 + length (template_text T)) 0 eq_refl ltac:(cbn; lia)) as [D1 D2]. cbn [app blen Nat.add] in D1, D2.
  change (1 + length (template_text T))%nat with (Datatypes.S (length (template_text T))).
  destruct (fine_or env T) as [Hf|[m Hm]].
  - specialize (D1 Hf) as [E1 E2]. destruct (snd (expanded_loop _ _ _ _ _)) as [[]| |], (snd (dyn_loop _ _ _ _ _ _ _)) as [[] []|e []|]; try contradiction; try discriminate.
    intros [= ->]. discriminate E2.
  - pose proof (D2 m Hm) as X. unfold stops in X. destruct (snd (dyn_loop _ _ _ _ _ _ _)) as [[] []|e []|]; [contradiction| |discriminate].
    intros [= ->]. destruct X as [[= <-]|X]; [assumption|discriminate].
Qed.
End Static.

(** ** The callbacks and the visits *)
Section Log.
Context {St : Type}.
Variables (S : Spec) (debug : bool) (ctx : DynCtx St).
Notation L := (logged ctx).
Definition sofar (l0 ev l : list event) : Prop := exists seen rest, ev = seen ++ rest /\ l = l0 ++ seen.
Definition trace {A} (y : D (St * list event) A) (l0 ev : list event) : Prop :=
  Forall (fun x => sofar l0 ev (snd (snd x))) (fst y) /\
  match snd y with DRet _ c => snd c = l0 ++ ev | DErr _ c => sofar l0 ev (snd c) | DPan => True end.
Lemma sofar_more l0 e1 e2 l : sofar l0 e1 l -> sofar l0 (e1 ++ e2) l.
Proof. intros (a & b & -> & ->). exists a, (b ++ e2). now rewrite <- app_assoc. Qed.
Lemma sofar_later l0 e1 e2 l : sofar (l0 ++ e1) e2 l -> sofar l0 (e1 ++ e2) l.
Proof. intros (a & b & -> & ->). exists (e1 ++ a), b. now rewrite <- !app_assoc. Qed.
Lemma trace_bind {A B} (y : D _ A) (g : A -> _ -> D _ B) l0 e1 e2 : trace y l0 e1 -> (forall a c, trace (g a (c, l0 ++ e1)) (l0 ++ e1) e2) -> trace (dbind y g) l0 (e1 ++ e2).
Proof.
  intros [F E] H. destruct y as [o [a [c l]|e [c l]|]]; cbn [fst snd dbind] in *.
  - subst l. destruct (H a c) as [F2 E2]. destruct (g a (c, l0 ++ e1)) as [o' en]. cbn [fst snd] in *. split; cbn [fst snd].
    + apply Forall_app. split; [eapply Forall_impl; [|exact F]; intros; now apply sofar_more|eapply Forall_impl; [|exact F2]; intros; now apply sofar_later].
    + destruct en as [b c'|e c'|]; [now rewrite E2, <- app_assoc|now apply sofar_later|exact Logic.I].
  - split; cbn [fst snd]; [eapply Forall_impl; [|exact F]; intros; now apply sofar_more|now apply sofar_more].
  - split; cbn [fst snd]; [eapply Forall_impl; [|exact F]; intros; now apply sofar_more|exact Logic.I].
Qed.
Lemma sofar_here l0 ev : sofar l0 ev l0.
Proof. exists [], ev. now rewrite ?app_nil_r. Qed.
Lemma trace_write {A} pos c l0 (d : W A) : trace (dwrite pos (c, l0) d) l0 [].
Proof.
  split; unfold dwrite; cbn [fst snd].
  - apply Forall_forall. intros x Hx. apply in_map_iff in Hx as (s & <- & _). apply sofar_here.
  - destruct (snd d); cbn [snd]; [now rewrite ?app_nil_r|apply sofar_here|exact Logic.I].
Qed.
Definition spec_visits (rs : list rspec) : list event := flat_map (fun name => [EVisit Typecheck name; EVisit Expand name]) (map r_name rs).
Lemma vars_trace op rs : Forall spec_ok rs -> forall fuel first pos c l0, (length rs < fuel)%nat -> trace (dyn_vars S debug L fuel op first pos (specs_text rs) (c, l0)) l0 (spec_visits rs).
Proof.
  induction 1 as [|r rs [Hc Hs] F IH]; intros fuel first pos c l0 Hf; (destruct fuel as [|fuel]; [cbn in Hf; lia|]); cbn [dyn_vars].
  - change (specs_text []) with (@nil N). rewrite varlist_nil. cbn. split; [constructor|]. cbn. now rewrite ?app_nil_r.
  - rewrite varlist_cons by assumption. rewrite parse_trusted_small by assumption. cbn [bind dlift]. rewrite dbind_ret. cbv beta iota.
    change (vs_name (spec_of r)) with (r_name r). cbn [dyn_visit logged]. destruct (dyn_visit ctx Typecheck (r_name r) c) as [v1 c1].
    change (spec_visits (r :: rs)) with ([EVisit Typecheck (r_name r); EVisit Expand (r_name r)] ++ spec_visits rs).
    destruct (is_maxlen _ && is_composite _).
    + split; cbn [fst snd]; [constructor|]. apply sofar_more. exists [EVisit Typecheck (r_name r)], [EVisit Expand (r_name r)]. now split.
    + destruct (dyn_visit ctx Expand (r_name r) c1) as [v2 c2]. rewrite <- app_assoc. cbn [app].
      assert (X : trace (dbind (dwrite pos (c2, l0 ++ [EVisit Typecheck (r_name r); EVisit Expand (r_name r)]) (visit_value S debug (spec_of r) op first v2))
        (fun first c0 => dyn_vars S debug L fuel op first (pos + (blen (rspec_text r) + 1)) (specs_text rs) c0)) (l0 ++ [EVisit Typecheck (r_name r); EVisit Expand (r_name r)]) ([] ++ spec_visits rs)).
      { apply trace_bind; [apply trace_write|]. intros a c3. apply IH. cbn in Hf. lia. }
      cbn [app] in X. destruct X as [X1 X2]. split.
      * eapply Forall_impl; [|exact X1]. intros x Hx. now apply (sofar_later l0 [EVisit Typecheck (r_name r); EVisit Expand (r_name r)]).
      * destruct (snd _) as [a c3|e c3|]; [now rewrite X2, <- app_assoc|now apply (sofar_later l0 [EVisit Typecheck (r_name r); EVisit Expand (r_name r)])|exact Logic.I].
Qed.
Lemma loop_trace T : Tok T -> forall l f pos c l0, no_brace l -> (length l + length (template_text T) < f)%nat ->
  trace (dyn_loop S debug L f pos (l ++ template_text T) (c, l0)) l0 (visits T).
Proof.
  induction 1 as [|p T [Hp Hs] HT IH]; intros l f pos c0 l0 Hl Hf.
  - cbn [template_text flat_map] in *. rewrite app_nil_r in *. destruct f as [|f]; [lia|]. cbn [dyn_loop].
    destruct l as [|c l]; [split; [constructor|cbn; now rewrite ?app_nil_r]|]. rewrite chunks_lit by (assumption || discriminate). cbn [dlift]. rewrite dbind_ret. cbv beta iota.
    change (visits []) with (@nil event ++ []). apply trace_bind; [apply trace_write|]. intros a c1. destruct f as [|f]; [cbn in Hf; lia|]. cbn [dyn_loop]. rewrite chunks_nil. cbn [dlift]. rewrite dbind_ret. split; cbn [fst snd dret]; [apply Forall_nil|now rewrite ?app_nil_r].
  - destruct p as [s|o rs].
    + rewrite template_cons in *. cbn [part_text] in *. rewrite app_length in Hf. rewrite app_assoc. apply (IH (l ++ s)); [|rewrite app_length; lia].
      unfold no_brace. rewrite none_app. apply andb_true_intro. split; [assumption|now apply lit_no_brace].
    + destruct Hp as [Hn F]. pose proof (body_nonempty o rs Hn F) as Hb. pose proof (body_no_rbrace o rs F) as Hr. cbn [small_part] in Hs.
      pose proof (small_specs rs F Hs) as Fs. pose proof (specs_len rs Fs) as Hsl.
      rewrite template_expr in *. cbn [length] in Hf. rewrite app_length in Hf. cbn [length] in Hf.
      assert (EX : forall f pos c l0, (length (template_text T) < f)%nat -> trace (dyn_loop S debug L (Datatypes.S f) pos (LBRACE :: body_text o rs ++ RBRACE :: template_text T) (c, l0)) l0 (visits (Expr o rs :: T))).
      { intros f' pos' c' l' Hf'. cbn [dyn_loop]. rewrite chunks_expr by assumption. cbn [dlift]. rewrite dbind_ret. cbv beta iota.
        unfold dyn_expr. rewrite decompose_eq by assumption. cbn [dlift]. rewrite !dbind_ret. cbv beta iota zeta.
        replace (visits (Expr o rs :: T)) with (spec_visits rs ++ visits T) by (unfold visits, spec_visits, template_names; cbn [flat_map part_names]; now rewrite flat_map_app).
        apply trace_bind; [|intros a c2; apply (IH []); [reflexivity|assumption]].
        rewrite <- (app_nil_r (spec_visits rs)). apply trace_bind; [apply vars_trace; [assumption|cbn [Nat.add]; lia]|].
        intros a c2. destruct (Nat.eqb a _); [split; [constructor|cbn; now rewrite ?app_nil_r]|split; [constructor|exact Logic.I]]. }
      destruct f as [|f]; [lia|]. destruct l as [|c l].
      * cbn [app]. apply EX. cbn in Hf. lia.
      * destruct f as [|f]; [cbn in Hf; lia|]. remember (Datatypes.S f) as f1. cbn [dyn_loop]. rewrite chunks_lit_expr by (assumption || discriminate). cbn [dlift]. rewrite dbind_ret. cbv beta iota.
        change (visits (Expr o rs :: T)) with ([] ++ visits (Expr o rs :: T)). apply trace_bind; [apply trace_write|]. intros a c2. rewrite app_nil_r. subst f1. apply EX. cbn [length] in Hf. lia.
Qed.
Lemma drun_trace {Wr} (w : Wr -> str -> wstep Wr) chunks e l0 ev : trace (chunks, e) l0 ev -> forall st st' r o, drun w st chunks e = (st', r, o) ->
  match o with Some (c, l) => sofar l0 ev l /\ (r = Ok tt -> l = l0 ++ ev) /\ r <> Panic | None => r = Panic end.
Proof.
  induction chunks as [|[[s p] [c l]] chunks IH]; intros [F E] st st' r o; cbn [drun fst snd] in *.
  - destruct e as [[] [c l]|e [c l]|]; intros [= <- <- <-]; cbn [snd] in *; auto.
    + subst l. repeat split; auto; [|discriminate]. exists ev, []. now rewrite ?app_nil_r.
    + repeat split; auto; discriminate.
  - inversion F as [|x y F1 F2]; subst. destruct (w st s) as [st1|st1].
    + apply IH. split; assumption.
    + intros [= <- <- <-]. cbn [snd] in F1. repeat split; auto; discriminate.
Qed.
Lemma log_ok {Wr} (w : Wr -> str -> wstep Wr) st T c st' r o : Tok T -> expand_dynamic S debug L w st (template_text T) (c, []) = (st', r, o) ->
  match o with
  | Some (c', log) => exists seen rest, visits T = seen ++ rest /\ log = EStart :: seen ++ [EEnd] /\ (r = Ok tt -> rest = []) /\ r <> Panic
  | None => r = Panic
  end.
Proof.
  intros HT. unfold expand_dynamic. cbn [dyn_start dyn_end logged app].
  pose proof (loop_trace T HT [] (1 + length (template_text T)) 0 (dyn_start ctx c) [EStart] eq_refl ltac:(cbn; lia)) as X. cbn [app] in X.
  destruct (dyn_loop _ _ _ _ _ _ _) as [chunks e]. cbn [fst snd]. destruct (drun w st chunks e) as [[st1 r1] o1] eqn:E.
  pose proof (drun_trace w chunks e _ _ X _ _ _ _ E) as Y. destruct o1 as [[c1 l1]|]; intros [= <- <- <-].
  - destruct Y as ((seen & rest & E1 & ->) & Y2 & Y3). exists seen, rest. repeat split; auto.
    intros Hr. specialize (Y2 Hr). apply app_inv_head in Y2. rewrite E1 in Y2. rewrite <- (app_nil_r seen) in Y2 at 1. now apply app_inv_head in Y2.
  - exact Y.
Qed.
End Log.
