(** * Exactly when expansions panic (C28, C29). *)
From Verif Require Import Base Chars Rfc3986 Utf8 PctSpec EncodeSpec MValidate MTrusted MFormat MSearch MPct MEncode MTemplate MMaybePct MExpand TemplateSpec ExpandSpec.
From Verif Require Import PBase PScan PSearch PPct PPct2 PEncode PEncode2 PPath2 PTmpl1 PTmpl2 PTmpl3 PTmpl5 PExp1 PExp2 PExp3 PExp4 PExp5 PExp6 PExp7 PExp9 PExp10.

(** ** Computations that do not return *)
Lemma none_bind {A B} (x : W A) (f : A -> W B) : outs x = None \/ (forall a, outs (f a) = None) -> outs (wbind x f) = None.
Proof.
  intros H. destruct x as [o [a| |]]; cbn [wbind]; [|reflexivity|reflexivity]. destruct H as [H|H]; [discriminate|]. specialize (H a).
  destruct (f a) as [o' [b| |]]; [discriminate|reflexivity|reflexivity].
Qed.
Lemma none_text {A} (x : W A) : outs x = None <-> text x = Panic.
Proof. destruct x as [o [a| |]]; unfold text; cbn; split; congruence. Qed.
Lemma none_each {A} (visit : bool * bool -> A -> W (bool * bool)) l x : In x l -> (forall st, outs (visit st x) = None) -> forall st, outs (visit_each visit st l) = None.
Proof.
  induction l as [|y l IH]; [intros []|]. intros [->|H] Hx st; cbn [visit_each]; apply none_bind; [left; apply Hx|right; intros a; now apply IH].
Qed.
Section Panic.
Variables (S : Spec) (debug : bool) (ctx : Ctx).
Definition stuck (o : rop) (r : rspec) : Prop := forall first, outs (visit_value S debug (spec_of r) (op_of o) first (ctx (r_name r))) = None.
Lemma stuck_vars o rs r : Forall crate_spec rs -> In r rs -> stuck o r -> forall fuel first, outs (expand_vars fuel S debug ctx (op_of o) first (specs_text rs)) = None.
Proof.
  induction 1 as [|x rs Hx F IH]; [intros []|]. intros Hi Hs fuel first. destruct fuel as [|fuel]; [reflexivity|]. cbn [expand_vars].
  rewrite varlist_cons, parse_b by assumption. destruct (small_b x); [|reflexivity]. cbn [bind]. rewrite lift_bind. cbv beta iota.
  apply none_bind. destruct Hi as [->|Hi]; [left; apply Hs|right; intros a; now apply IH].
Qed.
Lemma stuck_expr o rs r : rs <> [] -> Forall crate_spec rs -> In r rs -> stuck o r -> text (expand_expr S debug ctx (body_text o rs)) = Panic.
Proof.
  intros Hn F Hi Hs. apply none_text. unfold expand_expr. rewrite decompose_eq by assumption. rewrite lift_bind. cbv beta iota. now apply stuck_vars with (r := r).
Qed.
Lemma stuck_parts T o rs r : Forall crate_part T -> In (Expr o rs) T -> In r rs -> stuck o r -> parts_out S debug ctx T = Panic.
Proof.
  induction 1 as [|p T Hp HT IH]; [intros []|]. intros [->|Hi] Hr Hs; cbn [parts_out].
  - destruct Hp as [Hn F]. cbn [part_out]. now rewrite (stuck_expr o rs r).
  - rewrite (IH Hi Hr Hs). destruct (part_out S debug ctx p) as [a|[]|]; reflexivity.
Qed.
Lemma stuck_panics T o rs r : Forall crate_part T -> In (Expr o rs) T -> In r rs -> stuck o r ->
  expand_new debug ctx (template_text T) = Ok tt -> expand_to_string S debug ctx (template_text T) = Panic.
Proof.
  intros HT Hi Hr Hs E. unfold expand_to_string. rewrite E. cbn [bind]. rewrite (expanded_fmt_parts S debug ctx T HT). rewrite (stuck_parts T o rs r) by assumption. reflexivity.
Qed.
End Panic.

(** ** Prefixes without "+" and "#" *)
Lemma write_exact S debug n c : all_scalar c = true -> n <> 0 ->
  let used := if is_empty c then 0 else N.of_nat (last_position (N.to_nat n) c) + 1 in
  outs (truncate_write S debug n c) =
  if debug && (n <? used) then None else Some (enc_U S (firstn (N.to_nat n) c), if used <=? n then n - used else n + (usize_max + 1) - used).
Proof.
  intros SC Hn used. unfold truncate_write. replace (n =? 0) with false by lia.
  destruct (take_spec c n 0 None) as [T1 T2]. destruct (take_chars n 0 c None) as [l t]. cbn [fst snd] in *. subst t.
  replace (n =? 0) with false in T2 by lia. cbn [orb] in T2.
  assert (E : match l with Some i => i + 1 | None => 0 end = used) by (subst l; unfold used; destruct (is_empty c); lia).
  rewrite E. clear E T2. unfold usize_sub. pose proof (pe_outs S CUnreserve (firstn (N.to_nat n) c) (unreserved S) (all_scalar_firstn _ _ SC) (v_unreserve S)) as P.
  destruct (N.leb_spec used n) as [L|L].
  - replace (n <? used) with false by lia. rewrite andb_false_r. eapply outs_then. exact P.
  - replace (n <? used) with true by lia. rewrite andb_true_r. destruct debug; [apply none_bind; now right|]. eapply outs_then. exact P.
Qed.
Lemma keep_exact S debug l : forall n, all_scalar (concat l) = true ->
  outs (truncate_chunks S debug n l) = option_map (fun k => (enc_U S k, tt)) (keep debug n l).
Proof.
  induction l as [|c l IH]; intros n SC; [reflexivity|]. cbn [keep]. destruct (N.eqb_spec n 0) as [->|Hn]; [rewrite truncate_zero; reflexivity|].
  cbn [concat truncate_chunks] in *. rewrite all_scalar_app in SC. bdestr. pose proof (write_exact S debug n c H Hn) as E. cbv zeta in E.
  set (used := if is_empty c then 0 else _) in *. destruct (debug && (n <? used)); [apply none_bind; now left|].
  set (m := if used <=? n then _ else _) in *. specialize (IH m H0). destruct (keep debug m l) as [k|]; cbn [option_map] in *.
  - rewrite enc_U_app. eapply outs_bind; [exact E|exact IH].
  - destruct (truncate_write S debug n c) as [o [a| |]]; try discriminate. cbn [outs] in E. injection E as _ ->. cbn [wbind].
    destruct (truncate_chunks S debug m l) as [o' [b| |]]; [discriminate|reflexivity|reflexivity].
Qed.
Lemma escape_none S debug o r d :
  outs (escape_write_with_maxlen S debug d (w_reserved (op_row o)) (match mod_of (r_mod r) with MMaxLen n => Some n | _ => None end)) = None ->
  forall first, outs (visit_string S debug (spec_of r) (op_of o) first d) = None.
Proof.
  intros H first. unfold visit_string. rewrite oppr_row. cbn [op_first op_sep op_named op_ifemp op_allow_reserved vs_name vs_modifier spec_of].
  replace (match mod_of (r_mod r) with MMaxLen n => Some n | _ => None end) with
    (match mod_of (r_mod r) with MNone | MExplode => None | MMaxLen n => Some n end) in H by now destruct (mod_of (r_mod r)).
  set (x := escape_write_with_maxlen _ _ _ _ _) in *. apply none_bind. right. intros _. apply none_bind. right. intros _. apply none_bind. left.
  unfold prefix_once. destruct (w_named (op_row o)); [|apply none_bind; now left]. destruct (fst x); [apply none_bind; now left|].
  apply none_bind. right. intros _. apply none_bind. now left.
Qed.
Section Open.
Variables (S : Spec) (debug : bool) (ctx : Ctx) (env : str -> sval).
Hypothesis Henv : supplies_env ctx env.
Lemma keep_escape o r d s : w_reserved (op_row o) = false -> shows d s ->
  outs (escape_write_with_maxlen S debug d (w_reserved (op_row o)) (match mod_of (r_mod r) with MMaxLen n => Some n | _ => None end)) =
  option_map (fun k => (enc S o k, tt)) (keep_value debug (r_mod r) d).
Proof.
  intros Hw Hd. unfold enc. rewrite Hw. unfold escape_write_with_maxlen, keep_value. destruct (r_mod r) as [|ds|]; cbn [mod_of option_map].
  - rewrite (proj1 (proj2 Hd)). now apply pe_ok.
  - destruct Hd as (H1 & H2 & SC). rewrite H1. change ([], Ret tt) with (wret tt). subst s. pose proof (keep_exact S debug (fst d) (decimal ds) SC) as E.
    destruct (keep debug (decimal ds) (fst d)) as [k|]; cbn [option_map] in *; [eapply outs_then; exact E|apply none_bind; now left].
  - rewrite (proj1 (proj2 Hd)). now apply pe_ok.
Qed.
Lemma open_tame o r v : w_reserved (op_row o) = false -> (forall d, v <> VString d) -> tame debug o r v.
Proof. intros Hw Hv. destruct v as [|d|l|l]; cbn [tame]; [exact I|now specialize (Hv d)| |]; intros E; congruence. Qed.
Theorem open_exact T : usable T -> open_template T -> fine env T ->
  (forall kept, (forall o l r d, In (Expr o l) T -> In r l -> ctx (r_name r) = VString d -> keep_value debug (r_mod r) d = Some (kept r)) ->
   expand_to_string S debug ctx (template_text T) = Ok (expansion (kept_value S kept) env T)) /\
  (forall o l r d, In (Expr o l) T -> In r l -> ctx (r_name r) = VString d -> keep_value debug (r_mod r) d = None ->
   expand_to_string S debug ctx (template_text T) = Panic).
Proof using Henv.
  intros HT Ho Hf. assert (HC : forall o l r, In (Expr o l) T -> In r l -> crate_spec r).
  { intros o l r H1 H2. unfold usable in HT. rewrite Forall_forall in HT. destruct (HT _ H1) as [[_ F] _]. rewrite Forall_forall in F. now apply F. }
  split.
  - intros kept Hk. apply expands_gen with (env := env); auto. intros o l r H1 H2. pose proof (Ho o l H1) as Hw. pose proof (HC o l r H1 H2) as Hr.
    unfold good. pose proof (Henv (r_name r)) as He. destruct (ctx (r_name r)) as [|d|vl|vl] eqn:Ec.
    + intros first. pose proof (visit_value_ok S debug o r Hr first _ _ He (open_tame o r VUndefined Hw ltac:(intros ?; discriminate))) as X. specialize (X (Hf o l r H1 H2)).
      rewrite X. destruct (env (r_name r)); try reflexivity. inversion He.
    + intros first. inversion He as [|d' s Hd E1 E2| |]; subst d'. cbn [defined negb visit_value kept_value]. rewrite andb_false_r. apply visit_string_kept; [assumption|].
      rewrite (keep_escape o r d s Hw Hd). rewrite (Hk o l r d H1 H2 Ec). reflexivity.
    + intros first. pose proof (visit_value_ok S debug o r Hr first _ _ He (open_tame o r (VList vl) Hw ltac:(intros ?; discriminate))) as X. specialize (X (Hf o l r H1 H2)).
      rewrite X. destruct (env (r_name r)); try reflexivity. inversion He.
    + intros first. pose proof (visit_value_ok S debug o r Hr first _ _ He (open_tame o r (VAssoc vl) Hw ltac:(intros ?; discriminate))) as X. specialize (X (Hf o l r H1 H2)).
      rewrite X. destruct (env (r_name r)); try reflexivity. inversion He.
  - intros o l r d H1 H2 Ec Hk. apply (stuck_panics S debug ctx T o l r); auto.
    + eapply Forall_impl; [|exact HT]. now intros p [].
    + intros first. rewrite Ec. cbn [visit_value]. pose proof (Henv (r_name r)) as He. rewrite Ec in He. inversion He as [|d' s Hd E1 E2| |]; subst d'.
      apply escape_none. rewrite (keep_escape o r d s (Ho o l H1) Hd). now rewrite Hk.
    + now apply (typechecks debug ctx env Henv T HT).
Qed.
End Open.
Lemma keep_release l : forall n, exists k, keep false n l = Some k.
Proof.
  induction l as [|c l IH]; intros n; cbn [keep]; [now exists []|]. destruct (n =? 0); [now exists []|]. cbn [andb].
  destruct (IH (if (if is_empty c then 0 else N.of_nat (last_position (N.to_nat n) c) + 1) <=? n then n - (if is_empty c then 0 else N.of_nat (last_position (N.to_nat n) c) + 1) else n + (usize_max + 1) - (if is_empty c then 0 else N.of_nat (last_position (N.to_nat n) c) + 1))) as [k ->].
  eexists. reflexivity.
Qed.
Theorem release_open S ctx env T : supplies_env ctx env -> usable T -> open_template T -> expand_to_string S false ctx (template_text T) <> Panic.
Proof.
  intros He HT Ho. destruct (typechecks false ctx env He T HT) as (H1 & H2 & H3).
  destruct (expand_new false ctx (template_text T)) as [[]|e|] eqn:E; [|unfold expand_to_string; rewrite E; discriminate|contradiction].
  set (kept := fun r => match ctx (r_name r) with VString d => match keep_value false (r_mod r) d with Some k => k | None => [] end | _ => [] end).
  rewrite (proj1 (open_exact S false ctx env He T HT Ho (proj1 H1 eq_refl)) kept); [discriminate|].
  intros o l r d _ _ Ec. unfold kept. rewrite Ec. unfold keep_value. destruct (r_mod r) as [|ds|]; try reflexivity.
  now destruct (keep_release (fst d) (decimal ds)) as [k ->].
Qed.

(** ** "+" and "#": values that begin with a character that is not ASCII *)
Lemma clen_big c : 128 <= c -> (2 <= clen c)%nat.
Proof. intros H. unfold clen. replace (c <? 128) with false by lia. destruct (c <? 2048); [lia|]. destruct (c <? 65536); lia. Qed.
Lemma push_big debug c r : 128 <= c -> push_encoded debug db_empty (c :: r) = Ok ((clen c - 1)%nat, Undecodable [], db_empty).
Proof.
  intros Hc. pose proof (clen_big c Hc) as L. unfold push_encoded. change (Nat.modulo (length (db_encoded db_empty)) 3) with 0%nat. cbn [push_loop].
  replace (c =? PCT) with false by (unfold PCT; lia). cbn [Nat.eqb negb]. change (write_and_pop db_empty (length (db_encoded db_empty))) with (@Ok Empty_set _ (@nil N, db_empty)).
  cbn [bind]. unfold sub_p. destruct (Nat.ltb_spec (0 + clen c) 1); [lia|]. reflexivity.
Qed.
Lemma from_big c r : 128 <= c -> str_from (c :: r) (clen c - 1) = Panic.
Proof.
  intros Hc. pose proof (clen_big c Hc) as L. unfold str_from. cbn [str_split_at]. destruct (clen c - 1)%nat as [|m] eqn:E; [lia|].
  destruct (Nat.ltb_spec (Datatypes.S m) (clen c)); [reflexivity|lia].
Qed.
Lemma outs_bind_eq {A B} (x : W A) (f : A -> W B) :
  outs (wbind x f) = match outs x with Some (o, a) => option_map (fun '(o', b) => (o ++ o', b)) (outs (f a)) | None => None end.
Proof.
  destruct x as [o [a| |]]; cbn [wbind outs]; [|reflexivity|reflexivity]. destruct (f a) as [o' [b| |]]; cbn; [now rewrite concat_app|reflexivity|reflexivity].
Qed.
Lemma big_loop {St} debug (f : St -> Frag -> W (St + unit)) k st c r : 128 <= c ->
  outs (decompose_loop debug f (Datatypes.S k) st db_empty (c :: r)) =
  match outs (f st (InvalidUtf8PctTriplets [])) with Some (o, inr u) => Some (o, inr u) | _ => None end.
Proof.
  intros Hc. pose proof (clen_big c Hc) as L. cbn [decompose_loop is_empty]. rewrite push_big, lift_bind by assumption. cbv beta iota.
  destruct (Nat.eqb_spec (clen c - 1) 0); [lia|]. unfold output_as_undecodable, andthen. cbn [length Nat.modulo Nat.divmod fst Nat.sub firstn Nat.ltb Nat.leb].
  rewrite !outs_bind_eq. destruct (outs (f st (InvalidUtf8PctTriplets []))) as [[o [st'|u]]|]; [| |reflexivity].
  - cbn [wret outs option_map concat]. rewrite from_big by assumption. reflexivity.
  - cbn [wret outs option_map concat]. now rewrite !app_nil_r.
Qed.
Lemma big_process {St} debug (f : St -> Frag -> W (St + unit)) st c r : 128 <= c ->
  outs (process_percent_encoded_best_effort debug f st (display (c :: r))) =
  match outs (f st (InvalidUtf8PctTriplets [])) with Some (o, inr u) => Some (o, tt) | _ => None end.
Proof.
  intros Hc. unfold process_percent_encoded_best_effort. cbn [fst snd display decompose_chunks]. unfold decompose_write_str. cbn [Nat.mul Nat.add].
  rewrite !outs_bind_eq, big_loop by assumption. destruct (outs (f st (InvalidUtf8PctTriplets []))) as [[o [st'|u]]|]; [reflexivity| |reflexivity].
  cbn [wret outs option_map concat]. now rewrite !app_nil_r.
Qed.
Lemma plain_calm s : ~ In 37 s -> ~ begins_nonascii s -> calm s.
Proof.
  intros Hp Hb. destruct s as [|c r]; [constructor|]. rewrite <- (app_nil_r (c :: r)). apply calm_plain; [|exact Hp|now left|constructor].
  destruct (N.lt_ge_cases c 128); [assumption|]. exfalso. apply Hb. exists c, r. split; auto.
Qed.
Lemma begins_dec s : begins_nonascii s \/ ~ begins_nonascii s.
Proof.
  destruct s as [|c r]; [right; intros (c & r & H & _); discriminate|]. destruct (N.lt_ge_cases c 128) as [L|L].
  - right. intros (c' & r' & H & L'). injection H as <- <-. lia.
  - left. exists c, r. split; auto.
Qed.
Lemma escape_big S debug s : begins_nonascii s -> outs (escape_write S debug (display s) true) = None.
Proof. intros (c & r & -> & Hc). unfold escape_write. rewrite big_process by assumption. reflexivity. Qed.
Lemma maxlen_big S debug n s : begins_nonascii s -> n <> 0 -> outs (process_percent_encoded_best_effort debug (maxlen_frag S debug) n (display s)) = None.
Proof.
  intros (c & r & -> & Hc) Hn. rewrite big_process by assumption. unfold maxlen_frag. replace (n =? 0) with false by lia.
  change (N.of_nat (length (@nil N) / 3)) with 0. rewrite N.min_0_r. unfold usize_sub. replace (0 <=? n) with true by lia. reflexivity.
Qed.
Lemma maxlen_zero S debug s : all_scalar s = true -> ~ In 37 s -> outs (process_percent_encoded_best_effort debug (maxlen_frag S debug) 0 (display s)) = Some ([], tt).
Proof.
  intros SC Hp. destruct (begins_dec s) as [(c & r & -> & Hc)|Hb].
  - rewrite big_process by assumption. reflexivity.
  - rewrite maxlen_plain; auto.
    + destruct s as [|c r]; [now left|right]. exists c, r. repeat split. destruct (N.lt_ge_cases c 128); [assumption|]. exfalso. apply Hb. exists c, r. split; auto.
    + intros _. unfold last_position. cbn. lia.
Qed.
Lemma maxlen_over S n s : ~ In 37 s -> ~ begins_nonascii s -> n <> 0 -> n < N.of_nat (last_position (N.to_nat n) s) ->
  outs (process_percent_encoded_best_effort true (maxlen_frag S true) n (display s)) = None.
Proof.
  intros Hp Hb Hn L. destruct s as [|c r]; [unfold last_position in L; rewrite firstn_nil in L; cbn in L; lia|].
  assert (Hc : c < 128) by (destruct (N.lt_ge_cases c 128); [assumption|]; exfalso; apply Hb; exists c, r; split; auto).
  unfold process_percent_encoded_best_effort. cbn [fst snd display decompose_chunks]. unfold decompose_write_str. apply none_bind. left. apply none_bind. left.
  replace (2 * (1 + length (c :: r)))%nat with (Datatypes.S (Datatypes.S (2 * length (c :: r)))) by lia.
  assert (FS : find_split (c :: r) PCT = None).
  { unfold find_split. change PCT with 37. rewrite split_first_none_app; [reflexivity|]. apply forallb_forall. intros y Hy. destruct (N.eqb_spec 37 y); [subst; contradiction|reflexivity]. }
  remember (Datatypes.S (2 * length (c :: r))) as k1 eqn:Hk1. cbn [decompose_loop is_empty]. unfold push_encoded. cbn [db_encoded db_empty length Nat.modulo Nat.divmod fst Nat.sub]. fold db_empty.
  rewrite push_plain by (assumption || (intros ->; apply Hp; now left)). rewrite lift_bind. cbv beta iota. cbn [Nat.eqb].
  change (flush db_empty) with (@Ok Empty_set _ (@None (list N * DecoderBuffer))). rewrite lift_bind. cbv beta iota. rewrite wret_bind. cbv beta iota. rewrite FS. cbn [is_empty andb].
  apply none_bind. left. unfold maxlen_frag. replace (n =? 0) with false by lia.
  destruct (take_spec (c :: r) n 0 None) as [T1 T2]. destruct (take_chars n 0 (c :: r) None) as [l t]. cbn [fst snd] in *. subst l t.
  replace (n =? 0) with false by lia. cbn [orb is_empty]. apply none_bind. left. unfold usize_sub. destruct (N.leb_spec (0 + N.of_nat (last_position (N.to_nat n) (c :: r))) n); [lia|reflexivity].
Qed.

(** ** The values of a [SimpleContext] *)
Definition one (v : sval) : Value :=
  match v with
  | Undef => VUndefined
  | Str s => VString (display s)
  | Lst l => VList (map display l)
  | Assc l => VAssoc (map (fun '(k, v) => (display k, display v)) l)
  end.
Lemma simple_one h k x : current h k x -> sc_visit (sc_run h) k = one (sval_of x).
Proof. intros Hc. apply current_get in Hc. unfold sc_get in Hc. unfold sc_visit. rewrite Hc. now destruct x as [[]|]. Qed.
Section Exact.
Variables (S : Spec) (debug : bool) (ctx : Ctx) (env : str -> sval).
Hypothesis Henv : supplies_env ctx env.
Hypothesis Hone : forall k, ctx k = one (env k).
Lemma item_none vs o st s : w_reserved (op_row o) = true -> begins_nonascii s -> outs (visit_item S debug vs (op_of o) st (display s)) = None.
Proof.
  intros Hw Hb. unfold visit_item. destruct st as [first zero]. rewrite oppr_row. cbn [op_allow_reserved op_first op_sep op_named]. rewrite Hw.
  apply none_bind. right. intros e. apply none_bind. right. intros _. apply none_bind. left. now apply escape_big.
Qed.
Lemma entry_none vs o st k v : w_reserved (op_row o) = true -> begins_nonascii k \/ begins_nonascii v -> outs (visit_entry S debug vs (op_of o) st (display k, display v)) = None.
Proof.
  intros Hw Hb. assert (Hn : w_named (op_row o) = false) by (destruct o; try discriminate Hw; reflexivity).
  unfold visit_entry. destruct st as [first zero]. rewrite oppr_row. cbn [op_allow_reserved op_first op_sep op_named]. rewrite Hw, Hn.
  apply none_bind. right. intros e. destruct Hb as [Hb|Hb].
  - pose proof (escape_big S debug k Hb) as E. apply none_bind. left. destruct zero.
    + apply none_bind. right. intros _. destruct e; [apply none_bind; now left|]. apply none_bind. right. intros _. apply none_bind. now left.
    + destruct e; (apply none_bind; right; intros _; apply none_bind; now left).
  - apply none_bind. right. intros _. apply none_bind. left. now apply escape_big.
Qed.
Lemma not_panics_calm l : Forall no_percent l -> ~ Exists begins_nonascii l -> Forall calm_value (map display l).
Proof.
  induction 1 as [|s l [Hp _] F IH]; intros H; cbn [map]; constructor.
  - exists s. split; [reflexivity|]. apply plain_calm; [assumption|]. intros Hb. apply H. now left.
  - apply IH. intros He. apply H. now right.
Qed.
Lemma not_panics_calm2 l : Forall (fun e => no_percent (fst e) /\ no_percent (snd e)) l -> ~ Exists (fun e => begins_nonascii (fst e) \/ begins_nonascii (snd e)) l ->
  Forall (fun e => calm_value (fst e) /\ calm_value (snd e)) (map (fun '(k, v) => (display k, display v)) l).
Proof.
  induction 1 as [|[k v] l [[H1 _] [H2 _]] F IH]; intros H; cbn [map]; constructor.
  - cbn [fst snd] in *. split; [exists k|exists v]; (split; [reflexivity|]); apply plain_calm; auto; intros Hb; apply H; left; cbn; auto.
  - apply IH. intros He. apply H. now right.
Qed.
Lemma starts_of s : ~ begins_nonascii s -> starts_ascii (fun _ => true) s.
Proof.
  intros Hb. destruct s as [|c r]; [now left|right]. exists c, r. repeat split. destruct (N.lt_ge_cases c 128); [assumption|]. exfalso. apply Hb. exists c, r. split; auto.
Qed.
Lemma var_exact o r : crate_spec r -> misused (env (r_name r)) r = false -> (w_reserved (op_row o) = true -> no_percents (env (r_name r))) ->
  (panics_value debug o (r_mod r) (env (r_name r)) /\ stuck S debug ctx o r) \/
  (~ panics_value debug o (r_mod r) (env (r_name r)) /\ good S debug ctx env (crate_value S) o r).
Proof using Henv Hone.
  intros Hr Hm Hp. pose proof (Henv (r_name r)) as He. unfold stuck, good. rewrite (Hone (r_name r)) in *. destruct (env (r_name r)) as [|s|l|l]; cbn [one panics_value no_percents] in *.
  - right. split; [easy|]. intros first. now apply visit_value_ok.
  - assert (Hd : shows (display s) s) by now inversion He.
    assert (G : tame debug o r (VString (display s)) -> forall first, outs (visit_value S debug (spec_of r) (op_of o) first (VString (display s))) =
      Some (if defined (Str s) then opening o first ++ crate_value S o r (Str s) else [], first && negb (defined (Str s)))) by (intros Ht first; now apply visit_value_ok).
    cbn [visit_value] in *. unfold panics_string. cbn [tame] in G. destruct (w_reserved (op_row o)) eqn:Hw.
    + specialize (Hp eq_refl). destruct Hp as [Hp HL]. assert (L : N.of_nat (blen (concat (fst (display s)))) <= usize_max) by (unfold display; cbn [fst concat]; now rewrite app_nil_r).
      destruct (begins_dec s) as [Hb|Hb].
      * assert (Q : (exists ds, r_mod r = Prefix ds /\ decimal ds = 0) \/ match r_mod r with Prefix ds => decimal ds <> 0 | _ => True end).
        { destruct (r_mod r) as [|ds|]; auto. destruct (N.eq_dec (decimal ds) 0); [left; eauto|now right]. }
        destruct Q as [(ds & E & Z)|Q].
        -- rewrite E. right. split; [intros [H _]; contradiction|]. intros first. cbn [defined negb crate_value]. rewrite andb_false_r.
           apply visit_string_kept; [assumption|]. rewrite E. cbn [mod_of prefix_of]. rewrite Z, Hw. unfold escape_write_with_maxlen, enc. rewrite Hw. apply maxlen_zero; [apply Hd|assumption].
        -- left. split; [destruct (r_mod r); auto|]. apply escape_none. rewrite Hw. unfold escape_write_with_maxlen. apply maxlen_big; [assumption|].
           destruct (r_mod r); cbn [mod_of]; [discriminate|assumption|discriminate].
      * destruct (r_mod r) as [|ds|] eqn:E.
        -- right. split; [assumption|]. apply G. intros _. split; [|assumption]. exists s. split; [reflexivity|now apply plain_calm].
        -- destruct (N.eq_dec (decimal ds) 0) as [Z|Z].
           ++ right. split; [intros [H _]; contradiction|]. apply G. right. exists s. repeat split; auto; [now apply starts_of|]. intros _. rewrite Z. unfold last_position. cbn. lia.
           ++ destruct debug.
              ** destruct (N.lt_ge_cases (decimal ds) (N.of_nat (last_position (N.to_nat (decimal ds)) s))) as [O|O].
                 --- left. split; [split; auto|]. apply escape_none. rewrite E, Hw. cbn [mod_of]. unfold escape_write_with_maxlen. now apply maxlen_over.
                 --- right. split; [intros [_ [H|[_ H]]]; [contradiction|lia]|]. apply G. right. exists s. repeat split; auto. now apply starts_of.
              ** right. split; [intros [_ [H|[H _]]]; [contradiction|discriminate]|]. apply G. right. exists s. repeat split; auto; [now apply starts_of|discriminate].
        -- right. split; [assumption|]. apply G. intros _. split; [|assumption]. exists s. split; [reflexivity|now apply plain_calm].
    + clear Hp. destruct (r_mod r) as [|ds|] eqn:E; [right; split; [easy|apply G; discriminate]| |right; split; [easy|apply G; discriminate]].
      destruct (keep debug (decimal ds) [s]) as [k|] eqn:K.
      * right. split.
        -- intros (-> & Hn & Hs & L). cbn [keep] in K. replace (decimal ds =? 0) with false in K by lia. replace (is_empty s) with false in K by now destruct s.
           destruct (N.ltb_spec (decimal ds) (N.of_nat (last_position (N.to_nat (decimal ds)) s) + 1)); [discriminate|lia].
        -- apply G. right. right. exists s. split; [reflexivity|]. intros D. subst debug. cbn [keep] in K. destruct (N.eqb_spec (decimal ds) 0) as [Z|Z]; [now left|right].
           destruct s as [|c s]; [unfold last_position; rewrite firstn_nil; cbn; lia|]. cbn [is_empty andb] in K.
           destruct (N.ltb_spec (decimal ds) (N.of_nat (last_position (N.to_nat (decimal ds)) (c :: s)) + 1)); [discriminate|lia].
      * left. split.
        -- cbn [keep] in K. destruct (N.eqb_spec (decimal ds) 0) as [Z|Z]; [discriminate|]. destruct debug; [|cbn [andb option_map keep] in K; discriminate].
           destruct s as [|c s]; [cbn [is_empty andb] in K; destruct (N.ltb_spec (decimal ds) 0); [lia|discriminate]|]. cbn [is_empty andb] in K.
           destruct (N.ltb_spec (decimal ds) (N.of_nat (last_position (N.to_nat (decimal ds)) (c :: s)) + 1)); [|discriminate]. repeat split; auto; [discriminate|lia].
        -- apply escape_none. rewrite (keep_escape S debug o r (display s) s Hw Hd). rewrite E. cbn [keep_value display fst]. now rewrite K.
  - destruct (w_reserved (op_row o)) eqn:Hw.
    + specialize (Hp eq_refl). destruct (Exists_dec begins_nonascii l) as [Hx|Hx].
      { intros s. destruct s as [|c s]; [right; intros (c & r' & H & _); discriminate|]. destruct (c <? 128) eqn:L; [apply N.ltb_lt in L; right|apply N.ltb_ge in L; left; exists c, s; split; auto].
        intros (c' & r' & H & L'). injection H as <- <-. lia. }
      * left. split; [auto|]. intros first. cbn [visit_value]. apply none_bind. left. apply Exists_exists in Hx as (s & Hi & Hb).
        apply none_each with (x := display s); [now apply in_map|]. intros st. now apply item_none.
      * right. split; [intros [_ H]; contradiction|]. intros first. apply visit_value_ok; auto. cbn [tame]. intros _. now apply not_panics_calm.
    + right. split; [intros [H _]; discriminate|]. intros first. apply visit_value_ok; auto. cbn [tame]. congruence.
  - destruct (w_reserved (op_row o)) eqn:Hw.
    + specialize (Hp eq_refl). destruct (Exists_dec (fun e => begins_nonascii (fst e) \/ begins_nonascii (snd e)) l) as [Hx|Hx].
      { assert (D : forall s, {begins_nonascii s} + {~ begins_nonascii s}).
        { intros s. destruct s as [|c s]; [right; intros (c & r' & H & _); discriminate|]. destruct (c <? 128) eqn:L; [apply N.ltb_lt in L; right|apply N.ltb_ge in L; left; exists c, s; split; auto].
          intros (c' & r' & H & L'). injection H as <- <-. lia. }
        intros [k v]. cbn [fst snd]. destruct (D k); [left; now left|]. destruct (D v); [left; now right|right; tauto]. }
      * left. split; [auto|]. intros first. cbn [visit_value]. apply none_bind. left. apply Exists_exists in Hx as ([k v] & Hi & Hb).
        apply none_each with (x := (display k, display v)); [change (display k, display v) with ((fun '(k, v) => (display k, display v)) (k, v)); now apply in_map|].
        intros st. now apply entry_none.
      * right. split; [intros [_ H]; contradiction|]. intros first. apply visit_value_ok; auto. cbn [tame]. intros _. now apply not_panics_calm2.
    + right. split; [intros [H _]; discriminate|]. intros first. apply visit_value_ok; auto. cbn [tame]. congruence.
Qed.
Lemma dec_list {A} (P Q : A -> Prop) l : (forall x, In x l -> P x \/ Q x) -> (exists x, In x l /\ P x) \/ forall x, In x l -> Q x.
Proof.
  induction l as [|y l IH]; intros H; [right; intros x []|]. destruct (H y (or_introl eq_refl)) as [Hy|Hy]; [left; exists y; split; [now left|assumption]|].
  destruct IH as [(x & Hi & Hx)|Hq]; [intros x Hx; apply H; now right|left; exists x; split; [now right|assumption]|right]. intros x [<-|Hi]; auto.
Qed.
Theorem one_exact T : usable T -> fine env T -> no_percents_reserved env T ->
  (expand_to_string S debug ctx (template_text T) = Panic <-> panics_somewhere debug env T) /\
  (~ panics_somewhere debug env T -> expand_to_string S debug ctx (template_text T) = Ok (crate_expansion S env T)).
Proof using Henv Hone.
  intros HT Hf Hp. assert (HC : forall o l r, In (Expr o l) T -> In r l -> crate_spec r).
  { intros o l r H1 H2. unfold usable in HT. rewrite Forall_forall in HT. destruct (HT _ H1) as [[_ F] _]. rewrite Forall_forall in F. now apply F. }
  assert (HP : Forall crate_part T) by (eapply Forall_impl; [|exact HT]; now intros p []).
  assert (HN : expand_new debug ctx (template_text T) = Ok tt) by now apply (typechecks debug ctx env Henv T HT).
  assert (X : forall o l r, In (Expr o l) T -> In r l -> _) by (intros o l r H1 H2; exact (var_exact o r (HC o l r H1 H2) (Hf o l r H1 H2) (Hp o l r H1 H2))).
  assert (G : ~ panics_somewhere debug env T -> expand_to_string S debug ctx (template_text T) = Ok (crate_expansion S env T)).
  { intros Hn. apply expands_gen with (env := env); auto. intros o l r H1 H2. destruct (X o l r H1 H2) as [[Hb _]|[_ Hg]]; [|exact Hg]. exfalso. apply Hn. exists o, l, r. auto. }
  split; [|exact G]. split.
  - intros E.
    assert (Dec : panics_somewhere debug env T \/ ~ panics_somewhere debug env T).
    { destruct (dec_list (fun p => exists o l r, p = Expr o l /\ In r l /\ panics_value debug o (r_mod r) (env (r_name r)))
                         (fun p => forall o l r, p = Expr o l -> In r l -> ~ panics_value debug o (r_mod r) (env (r_name r))) T) as [(p & Hi & o & l & r & -> & H2 & H3)|H].
      - intros [s|o l] Hi; [right; intros; discriminate|].
        destruct (dec_list (fun r => panics_value debug o (r_mod r) (env (r_name r))) (fun r => ~ panics_value debug o (r_mod r) (env (r_name r))) l) as [(r & H2 & H3)|H].
        + intros r Hr. destruct (X o l r Hi Hr) as [[Hb _]|[Hb _]]; auto.
        + left. exists o, l, r. auto.
        + right. intros o' l' r [= <- <-] Hr. now apply H.
      - left. exists o, l, r. auto.
      - right. intros (o & l & r & H1 & H2 & H3). now apply (H _ H1 o l r eq_refl H2). }
    destruct Dec as [D|D]; [exact D|]. rewrite (G D) in E. discriminate.
  - intros (o & l & r & H1 & H2 & H3). destruct (X o l r H1 H2) as [[_ Hs]|[Hb _]]; [|contradiction]. now apply (stuck_panics S debug ctx T o l r).
Qed.
End Exact.
Theorem simple_exact S debug h env T : Forall scalar_op h -> (forall k, exists x, current h k x /\ env k = sval_of x) ->
  usable T -> fine env T -> no_percents_reserved env T ->
  (expand_to_string S debug (sc_visit (sc_run h)) (template_text T) = Panic <-> panics_somewhere debug env T) /\
  (~ panics_somewhere debug env T -> expand_to_string S debug (sc_visit (sc_run h)) (template_text T) = Ok (crate_expansion S env T)).
Proof.
  intros F He. apply one_exact; [now apply simple_context_env|]. intros k. destruct (He k) as (x & Hc & ->). now apply simple_one.
Qed.

(** ** Max-lengths that do not fit in 16 bits *)
Section Big.
Variables (debug : bool) (ctx : Ctx) (env : str -> sval).
Hypothesis Henv : supplies_env ctx env.
Lemma big_vars rs : Forall crate_spec rs -> (forall r, In r rs -> misused (env (r_name r)) r = false) -> forall fuel pos, (length rs < fuel)%nat ->
  typecheck_vars fuel ctx pos (specs_text rs) = if forallb small_b rs then Ok (pos + blen (heads rs))%nat else Panic.
Proof using Henv.
  induction 1 as [|r rs Hc F IH]; intros Hm fuel pos Hf; (destruct fuel as [|fuel]; [cbn in Hf; lia|]); cbn [typecheck_vars].
  - change (specs_text []) with (@nil N). rewrite varlist_nil. cbn [tlift bind forallb]. f_equal. cbn. lia.
  - rewrite varlist_cons, parse_b by assumption. cbn [forallb]. destruct (small_b r); cbn [bind tlift andb]; [|reflexivity].
    cbn [vs_name spec_of]. rewrite (misused_eq ctx env Henv r), Hm by now left. rewrite IH; [|intros x Hx; apply Hm; now right|cbn in Hf; lia].
    destruct (forallb small_b rs); [|reflexivity]. f_equal. unfold heads. cbn [flat_map]. rewrite !blen_app. change (blen (lit ",")) with 1%nat. lia.
Qed.
Lemma specs_len' rs : Forall crate_spec rs -> (length rs <= length (specs_text rs))%nat.
Proof.
  induction 1 as [|r rs Hc F IH]; [cbn; lia|]. pose proof (spec_nonempty r Hc) as Hn. destruct rs as [|r' rs].
  - unfold specs_text. cbn [map TemplateSpec.join]. destruct (rspec_text r); [contradiction|cbn; lia].
  - rewrite specs_cons. rewrite app_length. cbn [length] in *. lia.
Qed.
Lemma big_tcs T : Forall crate_part T -> fine env T -> forall pos, (exists p, tcs ctx pos T = Ok p /\ Forall small_part T) \/ (tcs ctx pos T = Panic /\ ~ Forall small_part T).
Proof using Henv.
  induction 1 as [|p T Hp HT IH]; intros Hf pos; [left; exists pos; split; [reflexivity|constructor]|].
  assert (Hf' : fine env T) by (intros o rs r H; apply (Hf o rs r); now right). destruct p as [s|o rs]; cbn [tcs].
  - destruct (IH Hf' (pos + blen s)%nat) as [(p & E & F)|[E F]]; [left; exists p; split; [exact E|constructor; [exact I|exact F]]|right; split; [exact E|]]. intros X. inversion X. contradiction.
  - destruct Hp as [Hn F]. rewrite big_vars; [|assumption|intros r Hr; apply (Hf o rs r); [now left|assumption]|pose proof (specs_len' rs F); lia].
    destruct (forallb small_b rs) eqn:E; cbn [bind].
    + assert (SM : Forall small_spec rs) by (apply Forall_forall; intros r Hr; apply small_b_iff; rewrite forallb_forall in E; now apply E).
      rewrite heads_len by assumption. replace (Nat.eqb _ _) with true.
      2:{ symmetry. apply Nat.eqb_eq. unfold body_text. rewrite blen_app, op_len. unfold specs_text. lia. }
      match goal with |- context [tcs ctx ?p T] => destruct (IH Hf' p) as [(p' & E' & F')|[E' F']] end.
      * left. exists p'. split; [exact E'|]. constructor; [exact SM|exact F'].
      * right. split; [exact E'|]. intros X. inversion X. contradiction.
    + right. split; [reflexivity|]. intros X. inversion X as [|? ? SM _]; subst. cbn [small_part] in SM.
      assert (forallb small_b rs = true) by (apply forallb_forall; intros r Hr; apply small_b_iff; rewrite Forall_forall in SM; now apply SM). congruence.
Qed.
Theorem big_panics T : Forall crate_part T -> fine env T -> (expand_new debug ctx (template_text T) = Panic <-> ~ Forall small_part T).
Proof using Henv.
  intros HT Hf. rewrite expand_new_parts by assumption. destruct (big_tcs T HT Hf 0%nat) as [(p & -> & F)|[-> F]]; cbn [bind]; split; intros; auto; try discriminate; contradiction.
Qed.
End Big.

(** ** The example *)
Open Scope string_scope. Open Scope N_scope. Open Scope list_scope.
Lemma exact_hypotheses : let h := [Insert (lit "x") (SString [97; 233; 98])] in let env := fun k => sval_of (sc_get (sc_run h) k) in
  let T o m := [Expr o [mkR (lit "x") m]] in
  Forall scalar_op h /\ (forall k, exists x, current h k x /\ env k = sval_of x) /\
  (forall o m, m = NoMod \/ m = Prefix (lit "2") \/ m = Prefix (lit "3") -> usable (T o m) /\ fine env (T o m) /\ no_percents_reserved env (T o m)) /\
  panics_somewhere true env (T Simple (Prefix (lit "3"))) /\ ~ panics_somewhere true env (T Simple (Prefix (lit "2"))) /\
  ~ panics_somewhere true env (T Plus NoMod) /\ ~ panics_somewhere true env (T Plus (Prefix (lit "3"))).
Proof.
  intros h env T. assert (E : env (lit "x") = Str [97; 233; 98]) by (vm_compute; reflexivity).
  split; [repeat constructor|]. split; [intros k; exists (sc_get (sc_run h) k); split; [now apply current_iff|reflexivity]|].
  clearbody env. clear h. assert (E' : env [120] = Str [97; 233; 98]) by exact E. split; [|split; [|split; [|split]]].
  - intros o m Hm. split; [|split].
    + unfold usable. assert (R : Forall rfc_part (T o m)).
      { apply Forall_cons; [|apply Forall_nil]. split; [discriminate|]. apply Forall_cons; [|apply Forall_nil]. split; [apply word_name; [reflexivity|discriminate]|]. destruct Hm as [-> | [-> | ->]]; [exact Logic.I|now apply one_digit|now apply one_digit]. }
      assert (A : all_ascii (template_text (T o m)) = true) by (destruct Hm as [-> | [-> | ->]], o; reflexivity).
      pose proof (all_ascii_parts _ A) as A'. rewrite Forall_forall in *. intros p Hp. apply rfc_part_crate; auto.
    + intros o' l r [HH|[]] Hr; injection HH as <- <-; destruct Hr as [<-|[]]; cbn [r_name]; rewrite ?E, ?E'; destruct m; reflexivity.
    + intros o' l r [HH|[]] Hr _; injection HH as <- <-; destruct Hr as [<-|[]]. cbn [r_name]. rewrite ?E, ?E'. cbn [no_percents]. split; [|apply N.leb_le; vm_compute; reflexivity].
      cbn [In]. intros [H|[H|[H|[]]]]; discriminate H.
  - exists Simple, [mkR (lit "x") (Prefix (lit "3"))], (mkR (lit "x") (Prefix (lit "3"))). split; [now left|]. split; [now left|]. cbn [r_name r_mod]. rewrite ?E, ?E'.
    cbn [panics_value]. unfold panics_string. split; [reflexivity|]. split; [discriminate|]. split; [discriminate|]. vm_compute. discriminate.
  - intros (o' & l & r & [HH|[]] & Hr & H). injection HH as <- <-. destruct Hr as [<-|[]]. cbn [r_name r_mod] in H. rewrite ?E, ?E' in H. cbn [panics_value] in H. unfold panics_string in H.
    destruct H as (_ & _ & _ & H). vm_compute in H. now apply H.
  - intros (o' & l & r & [HH|[]] & Hr & H). injection HH as <- <-. destruct Hr as [<-|[]]. cbn [r_name r_mod] in H. rewrite ?E, ?E' in H. cbn [panics_value] in H. unfold panics_string in H. cbn [op_row w_reserved] in H.
    destruct H as (c & r & HH & L). injection HH as <- <-; lia.
  - intros (o' & l & r & [HH|[]] & Hr & H). injection HH as <- <-. destruct Hr as [<-|[]]. cbn [r_name r_mod] in H. rewrite ?E, ?E' in H. cbn [panics_value] in H. unfold panics_string in H. cbn [op_row w_reserved] in H.
    destruct H as (_ & [(c & r & HH & L)|[_ L]]); [injection HH as <- <-; lia|]. vm_compute in L. discriminate L.
Qed.
(** ** [VarName::new] *)
Lemma varname_exact s : (crate_varname s /\ VarName_new s = Ok s) \/ (~ crate_varname s /\ VarName_new s = Err (mkTE InvalidExpression 0)).
Proof.
  unfold VarName_new. rewrite validate_varname_eq. destruct (name_b s) eqn:E; [left|right]; (split; [|reflexivity]).
  - now apply name_iff.
  - intros H. apply name_iff in H. congruence.
Qed.
