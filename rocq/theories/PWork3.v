(** * The work of normalization and resolution (proofs only), part 3: the worst case. *)
From Verif Require PNorm8.
From Verif Require Import Base Chars Rfc3986 CompSpec RfcResolve PctSpec NormSpec RawSpec WorkSpec MValidate MTrusted MFormat MPct MPath MTypes MNormalize MWork PBase PScan PValidate PTypes PPath PPath2 PPath3 PPath4 PPath5 PPct PPct2 PResolve PComps PNorm3 PNorm7 PRaw PExp11 PWork PWork2.
Open Scope nat_scope.

Definition nm : seg := (true, lit "a").
Definition up2 : seg := (true, lit "..").
Definition fam (k : nat) : list seg := repeat nm (8 * k) ++ [up2].
Lemma astep_nm lv post fl : 8 <= lv -> astep (lv, post, fl) nm = (lv + 1, post ++ [nm], fl).
Proof. intros H. unfold astep. change (from_segment (snd nm)) with Normal. cbv iota. destruct (Nat.ltb_spec lv 8); [lia|reflexivity]. Qed.
Lemma arun_more n : forall lv post fl, 8 <= lv -> arun (repeat nm n) (lv, post, fl) = (lv + n, post ++ repeat nm n, fl).
Proof.
  induction n as [|n IH]; intros lv post fl H.
  - cbn. now rewrite app_nil_r, Nat.add_0_r.
  - change (arun (repeat nm (S n)) (lv, post, fl)) with (arun (repeat nm n) (astep (lv, post, fl) nm)). rewrite astep_nm by exact H. rewrite IH by lia. rewrite <- app_assoc. f_equal. f_equal. lia.
Qed.
Lemma arun_app a b st : arun (a ++ b) st = arun b (arun a st).
Proof. apply fold_left_app. Qed.
Lemma arun_fam k : exists lv, arun (fam (S k)) (0, [], true) = (lv, fam k, true).
Proof.
  unfold fam. replace (8 * S k) with (8 + 8 * k) by lia. rewrite repeat_app, <- app_assoc, !arun_app.
  change (arun (repeat nm 8) (0, [], true)) with (8, @nil seg, false). rewrite arun_more by lia. eexists. reflexivity.
Qed.
Lemma fam_length k : length (fam k) = 8 * k + 1.
Proof. unfold fam. rewrite app_length, repeat_length. reflexivity. Qed.
Lemma fam_text k : length (join (fam k)) = 16 * k + 3.
Proof.
  unfold fam. rewrite join_app, app_length. change (length (join [up2])) with 3. f_equal. replace (16 * k) with (2 * (8 * k)) by lia.
  induction (8 * k) as [|n IH]; [reflexivity|]. change (join (repeat nm (S n))) with (seg_str nm ++ join (repeat nm n)). rewrite app_length, IH. change (length (seg_str nm)) with 2. lia.
Qed.
Lemma fam_cost k : forall fuel, k < fuel -> 12 * k * k <= loop_cost fuel (fam k) true.
Proof.
  induction k as [|k IH]; intros fuel H; [lia|]. destruct fuel as [|fuel]; [lia|]. cbn [loop_cost].
  destruct (arun_fam k) as (lv & EA).
  assert (ED : exists t, fam (S k) = nm :: t). { unfold fam. replace (8 * S k) with (S (8 * k + 7)) by lia. cbn [repeat app]. eauto. }
  destruct ED as (t & ED). assert (EC := scan_cost_eq (fam (S k))). rewrite fam_length, fam_text in EC. rewrite ED in *. cbn [orb negb drop_dots]. change (dotty nm) with false. cbv iota. rewrite EA.
  specialize (IH fuel ltac:(lia)). lia.
Qed.
Lemma fam_wf k : wfl (fam k).
Proof.
  apply lead_wfl; unfold lead_all, names_ok, fam; apply Forall_app; split; try (constructor; [reflexivity|constructor]); apply Forall_forall; intros g H; apply repeat_spec in H; subst; reflexivity.
Qed.
Lemma fam_each k : join (fam k) = slash_each (repeat (lit "a") (8 * k) ++ [lit ".."]).
Proof. unfold fam. induction (8 * k) as [|n IH]; [reflexivity|]. cbn [repeat app]. change (join (nm :: repeat nm n ++ [up2])) with (seg_str nm ++ join (repeat nm n ++ [up2])). rewrite IH. reflexivity. Qed.
Lemma fam_path S mode auth k p : pwf p -> flat p = join (fam k) -> opaque_path mode auth p = false -> outs (fmt_write_normalize S mode auth p) <> None ->
  12 * k * k <= snd (t_path S mode auth p).
Proof.
  intros Wp F Op O. assert (Wl := fam_wf k). assert (Lf := fam_text k).
  destruct (t_ignorable_ok (1 + p_len p) p Wp) as (p1 & w & E1 & W1 & T & Hw). { rewrite p_len_flat. lia. }
  assert (F1 : flat p1 = flat p). { assert (X : exists r, flat p = SLASH :: r). { rewrite F. unfold fam. destruct (8 * k); cbn [repeat app]; eexists; reflexivity. } destruct X as (r & X). rewrite X in *. now apply trim_slash_inv in T. }
  assert (Ne : is_empty (flat p) = false). { rewrite F. destruct (join (fam k)); [cbn in Lf; lia|reflexivity]. }
  unfold t_path. unfold fmt_write_normalize in O. rewrite <- t_ignorable_fst, E1 in O. rewrite p_is_empty_ok in O |- * by exact Wp. rewrite lift_bind in O. rewrite tfree_ok. rewrite Ne in O |- *.
  assert (B : (match mode with MPreserve => true | _ => false end) && negb auth && negb (starts_with_slash p) = false).
  { rewrite starts_with_slash_ok by exact Wp. unfold opaque_path in Op. destruct mode; auto. }
  rewrite B in O |- *. unfold tlift. rewrite E1. cbn [fst snd lift] in O |- *. rewrite lift_bind in O || rewrite wret_bind in O. rewrite tbind_ok. cbn [fst snd].
  rewrite p_is_empty_ok in O |- * by exact W1. rewrite lift_bind in O. rewrite tfree_ok, F1. rewrite F1 in O. rewrite Ne in O |- *.
  assert (LA : lead_all (fam k)). { unfold lead_all, fam. apply Forall_app. split; [|repeat constructor]. apply Forall_forall. intros g H. apply repeat_spec in H. now subst. }
  assert (F2 : flat p1 = join (fam k)) by congruence.
  destruct (t_loop_ok S mode auth (1 + p_len p1) p1 None (fam k) true W1 F2 Wl (or_intror (or_introl LA))) as [_ EQ].
  assert (Q : snd (t_loop S mode auth (1 + p_len p1) p1 None true) = loop_cost (1 + p_len p1) (fam k) true).
  { apply EQ. intros K. apply O. apply none_bind. now left. }
  assert (C := fam_cost k (1 + p_len p1)). rewrite p_len_flat, F2, fam_text in *. specialize (C ltac:(lia)).
  assert (G : forall B (f : option (ptn * option bool) -> W B * nat), loop_cost (1 + (16 * k + 3)) (fam k) true <= snd (tbind (t_loop S mode auth (1 + (16 * k + 3)) p1 None true) f)).
  { intros B0 f. rewrite <- Q. unfold tbind. destruct (snd (fst (t_loop _ _ _ _ _ _ _))); cbn [snd]; lia. }
  match goal with |- context[tbind (t_loop S mode auth (1 + (16 * k + 3)) p1 None true) ?f] => specialize (G _ f) end. lia.
Qed.

Definition bad (k : nat) : str := lit "a://h" ++ slash_each (repeat (lit "a") (8 * k) ++ [lit ".."]).
Definition bad_comps (k : nat) : comps := mkC (Some (lit "a")) (Some (lit "h")) (join (fam k)) None None.
Lemma bad_reads S k : reads S (bad k) (bad_comps k).
Proof.
  split; [|unfold bad, bad_comps; cbn [c_s c_a c_p c_q c_f]; rewrite fam_each; cbn; now rewrite app_nil_r].
  assert (X : reads S (lit "a://h") (mkC (Some (lit "a")) (Some (lit "h")) [] None None)) by (destruct S; apply PNorm8.reads_of_major; vm_compute; reflexivity).
  destruct X as ((X1 & X2 & X3 & X4 & X5) & _). repeat split; auto. cbn [c_a c_p bad_comps]. rewrite fam_each. apply slash_each_abempty.
  apply Forall_app. split; [|constructor; [|constructor]].
  - apply Forall_forall. intros n H. apply repeat_spec in H. subst n. apply segment_scan. destruct S; reflexivity.
  - apply segment_scan. destruct S; reflexivity.
Qed.
Lemma bad_new S k : new S TIri (bad k) = Ok (bad k).
Proof. apply new_ok. eapply reads_iri; [apply bad_reads|reflexivity]. Qed.
Lemma bad_work S k : exists n, normalize (bad k) = Ok n /\ 12 * k * k <= path_work S n.
Proof.
  assert (R := bad_reads S k). destruct (norm_spec S false (bad k) _ R eq_refl) as (n & T & E & N & _ & D & _).
  exists n. split; [exact E|]. unfold norm_input, normalize, input_from in E. rewrite (reads_major S _ _ R) in E. cbn [bind bad_comps c_s c_a c_p c_q c_f] in E. injection E as <-.
  unfold path_work. cbn [n_path n_mode n_authority set_mode is_some]. apply fam_path; auto.
  - exact I.
  - unfold flat, from_single_path. cbn [front back]. apply app_nil_r.
  - intros K. unfold display, fmt_normalized, text in D. cbn [n_path n_mode n_authority n_scheme n_query n_fragment set_mode is_some case_pct_normalization] in D.
    match type of D with match snd ?w with _ => _ end = _ => assert (Z : outs w = None) end.
    { apply none_bind. right. intros. apply none_bind. right. intros. apply none_bind. right. intros. apply none_bind. left. exact K. }
    unfold outs in Z. match type of D with match snd ?w with _ => _ end = _ => destruct w as [o [a| |]] end; cbn [snd] in *; discriminate.
Qed.
Lemma work_superlinear S c : exists i n, new S TIri i = Ok i /\ normalize i = Ok n /\ c * length i < path_work S n.
Proof.
  exists (bad (2 * c + 1)). destruct (bad_work S (2 * c + 1)) as (n & E & L). exists n. split; [apply bad_new|]. split; [exact E|].
  assert (LB : length (bad (2 * c + 1)) = 16 * (2 * c + 1) + 8). { unfold bad. rewrite <- fam_each, app_length, fam_text. change (length (lit "a://h")) with 5. lia. }
  rewrite LB. nia.
Qed.

(** ** Instances *)
Lemma name_is n : from_segment n = Normal -> ~ single_dot n /\ ~ double_dot n.
Proof. apply from_segment_normal. Qed.
Lemma no_slash_is n : forallb (fun c => negb (N.eqb 47 c)) n = true -> no_slash n.
Proof. apply no_slash_none. Qed.
Ltac seg_tac := first [apply no_slash_is; vm_compute; reflexivity | apply name_is; vm_compute; reflexivity].
Lemma ex_pieces : pieces (lit "/b/../c") [lit ""; lit "b"; lit ".."; lit "c"] /\ names [lit ""; lit "b"; lit ".."; lit "c"] 3.
Proof.
  split.
  - apply (pieces_more (lit "") (lit "b/../c")); [seg_tac|]. apply (pieces_more (lit "b") (lit "../c")); [seg_tac|]. apply (pieces_more (lit "..") (lit "c")); [seg_tac|]. apply pieces_one. seg_tac.
  - apply (names_name _ _ 2); try seg_tac. apply (names_name _ _ 1); try seg_tac. apply names_dot; [right; now apply from_segment_dotdot|]. apply (names_name _ _ 0); try seg_tac. constructor.
Qed.
Lemma ex_plain : pieces (lit "/b/c") [lit ""; lit "b"; lit "c"] /\ dot_free [lit ""; lit "b"; lit "c"].
Proof.
  split.
  - apply (pieces_more (lit "") (lit "b/c")); [seg_tac|]. apply (pieces_more (lit "b") (lit "c")); [seg_tac|]. apply pieces_one. seg_tac.
  - repeat constructor; seg_tac.
Qed.
Lemma ex_pre : pre_transform (mkC (Some (lit "a")) (Some (lit "h")) (lit "/b/x") None None) (mkC None None (lit "../c") None None) (mkC (Some (lit "a")) (Some (lit "h")) (lit "/b/../c") None None).
Proof.
  apply (pt_rel_path (mkC (Some (lit "a")) (Some (lit "h")) (lit "/b/x") None None) (mkC None None (lit "../c") None None)); try reflexivity; try discriminate.
  apply (merge_last _ _ _ (lit "/b") (lit "x")); [intros [_ K]; discriminate|reflexivity|seg_tac].
Qed.
