(** * The expansion of one variable (C28, C29): visitors. *)
From Verif Require Import Base Chars Rfc3986 Utf8 PctSpec EncodeSpec MValidate MTrusted MFormat MSearch MPct MEncode MTemplate MMaybePct MExpand TemplateSpec ExpandSpec.
From Verif Require Import PBase PScan PSearch PPct PPct2 PPath2 PEncode PEncode2 PTmpl1 PTmpl3 PExp1 PExp2 PExp3.

Lemma vcd_character S c : vcd c = true -> character_char S c = true.
Proof.
  intros H. unfold character_char, unreserved. unfold vcd, vc in H.
  destruct (ALPHA c) eqn:E1; [reflexivity|]. destruct (DIGIT c) eqn:E2; [reflexivity|]. cbn [orb] in *.
  destruct (N.eqb_spec c 95) as [->|]; [now destruct S|]. destruct (N.eqb_spec c 46) as [->|]; [now destruct S|discriminate].
Qed.
Lemma ur_vcd S s : scan vcd s = true -> enc_UR S s = s.
Proof.
  induction s as [|c r Hc IH|u l r IH| |u] using scan_ind; intros H; [reflexivity| | |discriminate|rewrite scan_pct1 in H; discriminate].
  - rewrite scan_cons in H by assumption. bdestr. rewrite ur_raw by assumption. now rewrite vcd_character, IH.
  - rewrite scan_pct in H. bdestr. change (PCT :: u :: l :: r) with (37 :: u :: l :: r). rewrite ur_triplet by assumption. now rewrite IH.
Qed.
Lemma ur_name S s : crate_varname s -> enc_UR S s = s.
Proof. intros H. apply ur_vcd. apply name_vcd. now apply name_iff. Qed.
Lemma vcd_scalar s : scan vcd s = true -> all_scalar s = true.
Proof.
  induction s as [|c r Hc IH|u l r IH| |u] using scan_ind; intros H; [reflexivity| | |discriminate|rewrite scan_pct1 in H; discriminate].
  - rewrite scan_cons in H by assumption. bdestr. cbn [all_scalar forallb]. apply andb_true_intro. split; [|now apply IH].
    unfold vcd, vc, ALPHA, DIGIT, between in H. unfold is_scalar. apply orb_true_intro. left. apply N.ltb_lt. lia.
  - rewrite scan_pct in H. bdestr. cbn [all_scalar forallb]. pose proof (hex_ascii u H). pose proof (hex_ascii l H1).
    assert (A : forall c, c < 128 -> is_scalar c = true) by (intros c Hc; unfold is_scalar; apply orb_true_intro; left; apply N.ltb_lt; lia).
    rewrite (A u), (A l) by assumption. now apply IH.
Qed.
Lemma name_scalar s : crate_varname s -> all_scalar s = true.
Proof. intros H. apply vcd_scalar, name_vcd. now apply name_iff. Qed.

(** ** One value *)
Lemma oppr_row o : OpProps_from_op (op_of o) = mkOP (w_first (op_row o)) (w_sep (op_row o)) (w_named (op_row o)) (w_ifemp (op_row o)) (w_reserved (op_row o)).
Proof. now destruct o. Qed.
Lemma named_open o : w_named (op_row o) = true -> w_reserved (op_row o) = false.
Proof. now destruct o. Qed.
Lemma calm_display d s : shows d s -> calm_value d -> d = display s /\ calm s.
Proof.
  intros (H1 & H2 & SC) (s' & E & Hc). destruct d as [l e]. cbn [fst snd] in *. subst l e. cbn [concat] in H2. rewrite app_nil_r in H2. subst s'. now split.
Qed.
Lemma escape_ok S debug o d s : shows d s -> (w_reserved (op_row o) = true -> calm_value d) ->
  outs (escape_write S debug d (w_reserved (op_row o))) = Some (enc S o s, tt).
Proof.
  intros Hd Hc. unfold enc. destruct (w_reserved (op_row o)) eqn:E.
  - destruct (calm_display d s Hd (Hc eq_refl)) as [-> C]. apply escape_calm; [assumption|]. apply Hd.
  - unfold escape_write. now apply pe_ok.
Qed.
Lemma display_shows s : all_scalar s = true -> shows (display s) s.
Proof. intros H. repeat split; auto. cbn. apply app_nil_r. Qed.

Lemma maxlen_ok S debug o r d s : shows d s -> tame debug o r (VString d) ->
  outs (escape_write_with_maxlen S debug d (w_reserved (op_row o)) (match mod_of (r_mod r) with MMaxLen n => Some n | _ => None end)) =
  Some (enc S o (prefix_of (r_mod r) s), tt).
Proof.
  intros Hd HT. unfold escape_write_with_maxlen, enc. cbn [tame] in HT. destruct (w_reserved (op_row o)) eqn:E.
  - assert (G : calm_value d /\ N.of_nat (blen (concat (fst d))) <= usize_max ->
      outs (process_percent_encoded_best_effort debug (maxlen_frag S debug) (USIZE - 1) d) = Some (enc_UR S s, tt)).
    { intros [C L]. destruct (calm_display d s Hd C) as [-> C']. apply maxlen_calm; [assumption|apply Hd|]. cbn [display fst concat] in L. now rewrite app_nil_r in L. }
    destruct (r_mod r) as [|ds|]; cbn [mod_of prefix_of]; auto.
    destruct HT as [[C L]|(s' & E1 & Hp & Ha & Hl)].
    * destruct (calm_display d s Hd C) as [-> C']. cbn [display fst concat] in L. rewrite app_nil_r in L.
      rewrite firstn_all2 by (pose proof (len_le_blen s); lia). apply maxlen_calm; [assumption|apply Hd|assumption].
    * destruct Hd as (H1 & H2 & SC). destruct d as [l e]. cbn [fst snd] in *. subst l e. cbn [concat] in H2. rewrite app_nil_r in H2. subst s'.
      now apply maxlen_plain.
  - destruct (r_mod r) as [|ds|]; cbn [mod_of prefix_of]; [now apply pe_ok|now apply truncate_ok|now apply pe_ok].
Qed.
Lemma maxlen_clean S debug o r d :
  let x := escape_write_with_maxlen S debug d (w_reserved (op_row o)) (match mod_of (r_mod r) with MMaxLen n => Some n | _ => None end) in
  w_named (op_row o) = true -> clean x.
Proof.
  intros x Hn. apply named_open in Hn. subst x. unfold escape_write_with_maxlen. rewrite Hn. destruct (mod_of (r_mod r)); try apply pe_clean.
  apply clean_bind; [apply truncate_clean|]. intros _ [].
Qed.
Definition opening (o : rop) (first : bool) : str := if first then w_first (op_row o) else w_sep (op_row o).
Lemma enc_U_nil S s : enc_U S s = [] -> s = [].
Proof.
  destruct s as [|c s]; [reflexivity|]. unfold enc_U, encode. cbn [flat_map]. intros H. apply app_eq_nil in H as [H _]. destruct (unreserved S c); [discriminate|].
  pose proof (utf8_nonempty c). destruct (utf8 c); [contradiction|discriminate].
Qed.
Lemma visit_string_kept S debug o r first d kept : crate_spec r ->
  outs (escape_write_with_maxlen S debug d (w_reserved (op_row o)) (match mod_of (r_mod r) with MMaxLen n => Some n | _ => None end)) = Some (enc S o kept, tt) ->
  outs (visit_string S debug (spec_of r) (op_of o) first d) = Some (opening o first ++ rfc_string S o (r_name r) kept, false).
Proof.
  intros [Hn _] E. pose proof (maxlen_clean S debug o r d) as Hc. cbv zeta in Hc.
  unfold visit_string. rewrite oppr_row. cbn [op_first op_sep op_named op_ifemp op_allow_reserved vs_name vs_modifier spec_of].
  replace (match mod_of (r_mod r) with MMaxLen n => Some n | _ => None end) with
    (match mod_of (r_mod r) with MNone | MExplode => None | MMaxLen n => Some n end) in E, Hc by now destruct (mod_of (r_mod r)).
  set (x := escape_write_with_maxlen _ _ _ _ _) in *.
  eapply outs_bind with (a := tt); [apply outs_write|]. cbv beta. unfold rfc_string.
  destruct (w_named (op_row o)) eqn:En.
  - rewrite ur_name by assumption. specialize (Hc eq_refl). unfold enc in *. rewrite (named_open o En) in *. eapply outs_bind with (a := tt); [apply outs_write|]. cbv beta.
    pose proof (outs_clean x _ _ Hc E) as Hx. destruct kept as [|c k].
    + cbn [is_empty]. assert (Ef : fst x = []) by (apply Hx; reflexivity). unfold prefix_once. rewrite Ef.
      eapply outs_quiet; [eapply outs_then; exact E|]. cbv beta iota. eapply outs_then. apply outs_write.
    + cbn [is_empty]. replace (prefix_once (Some (lit "=")) x) with (write (lit "=") >> x >> wret false).
      * rewrite <- (app_nil_r (lit "=" ++ _)). eapply outs_bind; [eapply outs_bind with (a := tt); [apply outs_write|]; eapply outs_then; exact E|]. cbv beta iota. reflexivity.
      * unfold prefix_once. destruct (fst x) eqn:Ef; [|reflexivity]. assert (E0 : enc_U S (c :: k) = []) by now apply Hx. apply enc_U_nil in E0. discriminate.
  - eapply outs_quiet; [apply outs_ret|]. cbv beta. cbn [prefix_once]. rewrite <- (app_nil_r (enc S o kept)). eapply outs_bind; [eapply outs_then; exact E|]. cbv beta iota. reflexivity.
Qed.
Lemma visit_string_ok S debug o r first d s : crate_spec r -> shows d s -> tame debug o r (VString d) ->
  outs (visit_string S debug (spec_of r) (op_of o) first d) = Some (opening o first ++ rfc_string S o (r_name r) (prefix_of (r_mod r) s), false).
Proof. intros Hr Hd HT. apply visit_string_kept; [assumption|]. now apply maxlen_ok. Qed.
