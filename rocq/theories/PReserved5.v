(** * Every expansion (C28, C29). *)
From Verif Require Import Base Chars Rfc3986 Utf8 PctSpec EncodeSpec MValidate MTrusted MFormat MSearch MPct MEncode MTemplate MMaybePct MExpand TemplateSpec ExpandSpec ReservedSpec.
From Verif Require Import PBase PScan PSearch PPct PPct2 PPath2 PEncode PEncode2 PTmpl1 PTmpl2 PTmpl3 PTmpl5 PExp1 PExp2 PExp3 PExp4 PExp5 PExp6 PExp11 PReserved1 PReserved2 PReserved3 PReserved4.

Lemma some_bind {A B} (x : W A) (f : A -> W B) o a y : outs x = Some (o, a) -> outs (f a) = y -> outs (wbind x f) = option_map (fun '(o', b) => (o ++ o', b)) y.
Proof. intros H <-. now rewrite outs_bind_eq, H. Qed.
Lemma quiet_bind {A B} (x : W A) (f : A -> W B) a y : outs x = Some ([], a) -> outs (f a) = y -> outs (wbind x f) = y.
Proof. intros H <-. rewrite outs_bind_eq, H. destruct (outs (f a)) as [[o b]|]; reflexivity. Qed.
(** ** One variable *)
Section Value.
Variables (S : Spec) (debug : bool) (o : rop) (r : rspec).
Hypothesis Hr : crate_spec r.
Section Reserved.
Hypothesis Hw : w_reserved (op_row o) = true.
Lemma reserved_row : w_named (op_row o) = false /\ w_sep (op_row o) = lit ",".
Proof using Hw. destruct o; try discriminate; split; reflexivity. Qed.
Lemma string_exact first d s : shows d s ->
  outs (visit_string S debug (spec_of r) (op_of o) first d) = option_map (fun t => (opening o first ++ t, false)) (limited_text S debug (r_mod r) d).
Proof using Hw.
  intros Hd. pose proof (maxlen_limited S debug o r d s Hw Hd) as E. destruct (limited_text S debug (r_mod r) d) as [t|]; cbn [option_map] in *; [|now apply escape_none].
  unfold visit_string. rewrite oppr_row. cbn [op_first op_sep op_named op_ifemp op_allow_reserved vs_name vs_modifier spec_of]. rewrite (proj1 reserved_row).
  replace (match mod_of (r_mod r) with MMaxLen n => Some n | _ => None end) with
    (match mod_of (r_mod r) with MNone | MExplode => None | MMaxLen n => Some n end) in E by now destruct (mod_of (r_mod r)).
  set (x := escape_write_with_maxlen _ _ _ _ _) in *. eapply outs_bind with (a := tt); [apply outs_write|]. cbv beta. eapply outs_quiet; [apply outs_ret|]. cbv beta. cbn [prefix_once].
  rewrite <- (app_nil_r t). eapply outs_bind; [eapply outs_then; exact E|]. cbv beta iota. reflexivity.
Qed.
Definition lead (first zero : bool) : str := if zero then opening o first else lit ",".
Lemma item_exact first zero d s : (forall ds, r_mod r <> Prefix ds) -> shows d s -> (zero = false -> first = false) ->
  outs (visit_item S debug (spec_of r) (op_of o) (first, zero) d) = option_map (fun t => (lead first zero ++ t, (false, false))) (whole_text S debug d).
Proof using Hw.
  intros Hm Hd Hz. unfold visit_item. rewrite oppr_row. cbn [op_first op_sep op_named op_ifemp op_allow_reserved vs_name vs_modifier]. destruct reserved_row as [-> ->]. rewrite Hw.
  eapply quiet_bind; [now apply explode_ok|]. cbv beta.
  assert (L : outs (if zero then write (if first then w_first (op_row o) else lit ",") >> wret tt else if is_explode_mod (r_mod r) then write (lit ",") else write (lit ",")) = Some (lead first zero, tt)).
  { unfold lead, opening. destruct zero; [|destruct (is_explode_mod _); apply outs_write]. eapply outs_then. rewrite (proj2 reserved_row). apply outs_write. }
  erewrite some_bind; [|exact L|reflexivity]. cbv beta. rewrite outs_bind_eq, (escape_whole S debug d s Hd). destruct (whole_text S debug d) as [t|]; [|reflexivity]. cbn [option_map].
  rewrite outs_ret. cbn [option_map]. rewrite app_nil_r. destruct zero; [reflexivity|]. now rewrite Hz.
Qed.
Definition entry_text (e : W unit * W unit) : option str :=
  match whole_text S debug (fst e), whole_text S debug (snd e) with
  | Some k, Some v => Some (k ++ (if is_explode_mod (r_mod r) then lit "=" else lit ",") ++ v)
  | _, _ => None
  end.
Lemma entry_exact first zero e k v : (forall ds, r_mod r <> Prefix ds) -> shows (fst e) k -> shows (snd e) v -> (zero = false -> first = false) ->
  outs (visit_entry S debug (spec_of r) (op_of o) (first, zero) e) = option_map (fun t => (lead first zero ++ t, (false, false))) (entry_text e).
Proof using Hw.
  intros Hm Hk Hv Hz. destruct e as [dk dv]. cbn [fst snd] in *. unfold visit_entry, entry_text. rewrite oppr_row. cbn [op_first op_sep op_named op_ifemp op_allow_reserved vs_name vs_modifier fst snd].
  destruct reserved_row as [-> ->]. rewrite Hw. eapply quiet_bind; [now apply explode_ok|]. cbv beta.
  pose proof (escape_whole S debug dk k Hk) as Ek. pose proof (escape_whole S debug dv v Hv) as Ev.
  set (x := escape_write S debug dk true) in *. set (y := escape_write S debug dv true) in *.
  assert (G : forall a b : str, outs (write a >> x >> write b) = option_map (fun t => (a ++ t ++ b, tt)) (whole_text S debug dk)).
  { intros a b. erewrite some_bind; [|apply outs_write|reflexivity]. cbv beta. rewrite outs_bind_eq, Ek. destruct (whole_text S debug dk) as [t|]; [|reflexivity]. cbn [option_map]. rewrite outs_write. reflexivity. }
  set (eqs := if is_explode_mod (r_mod r) then lit "=" else lit ","). rewrite outs_bind_eq.
  match goal with |- context [outs ?z] => assert (L : outs z = option_map (fun t => (lead first zero ++ t ++ eqs, tt)) (whole_text S debug dk)) end.
  { unfold lead, opening, eqs. rewrite (proj2 reserved_row). destruct zero; [|destruct (is_explode_mod _); apply G].
    rewrite <- G. destruct (is_explode_mod _); rewrite ?wret_bind; reflexivity. }
  rewrite L. destruct (whole_text S debug dk) as [kt|]; [|reflexivity]. cbn [option_map]. rewrite outs_bind_eq, Ev. destruct (whole_text S debug dv) as [vt|]; [|reflexivity]. cbn [option_map].
  rewrite outs_ret. cbn [option_map]. rewrite app_nil_r, <- !app_assoc. destruct zero; [reflexivity|]. now rewrite Hz.
Qed.
Lemma each_exact {A} (visit : bool * bool -> A -> W (bool * bool)) (g : A -> option str) ds :
  (forall d, In d ds -> outs (visit (false, false) d) = option_map (fun t => (lit "," ++ t, (false, false))) (g d)) ->
  outs (visit_each visit (false, false) ds) = option_map (fun ts => (flat_map (fun t => lit "," ++ t) ts, (false, false))) (all_some (map g ds)).
Proof using.
  induction ds as [|d ds IH]; intros H; cbn [visit_each map all_some]; [reflexivity|]. rewrite outs_bind_eq, (H d) by now left. destruct (g d) as [t|]; [|reflexivity]. cbn [option_map].
  rewrite IH by (intros x Hx; apply H; now right). destruct (all_some (map g ds)) as [ts|]; [|reflexivity]. cbn [option_map flat_map]. now rewrite <- app_assoc.
Qed.
Lemma list_exact {A} (visit : bool * bool -> A -> W (bool * bool)) (g : A -> option str) first d ds :
  (forall fz x, In x (d :: ds) -> (snd fz = false -> fst fz = false) -> outs (visit fz x) = option_map (fun t => (lead (fst fz) (snd fz) ++ t, (false, false))) (g x)) ->
  outs (wdo (first, _) <- visit_each visit (first, true) (d :: ds) ; wret first) = option_map (fun t => (opening o first ++ t, false)) (option_map (TemplateSpec.join (lit ",")) (all_some (map g (d :: ds)))).
Proof using.
  intros H. cbn [visit_each map all_some]. rewrite outs_bind_eq, outs_bind_eq. rewrite (H (first, true) d) by (now left || discriminate). cbn [fst snd lead].
  destruct (g d) as [t|]; [|reflexivity]. cbn [option_map]. rewrite (each_exact visit g ds) by (intros x Hx; apply (H (false, false) x); [now right|reflexivity]).
  destruct (all_some (map g ds)) as [ts|]; [|reflexivity]. cbn [option_map]. rewrite outs_ret. cbn [option_map]. rewrite app_nil_r. rewrite join_cons. now rewrite <- app_assoc.
Qed.
Lemma forall2_shows ds l d : Forall2 shows ds l -> In d ds -> exists s, shows d s.
Proof using. induction 1 as [|x y ds l Hx F IH]; [intros []|]. intros [->|Hd]; eauto. Qed.
Lemma forall2_shows2 ds l e : Forall2 (fun d e => shows (fst d) (fst e) /\ shows (snd d) (snd e)) ds l -> In e ds -> exists k v, shows (fst e) k /\ shows (snd e) v.
Proof using. induction 1 as [|x y ds l Hx F IH]; [intros []|]. intros [->|Hd]; [|auto]. destruct Hx. eauto. Qed.
End Reserved.
Lemma value_exact first v x : supplies v x -> misused x r = false ->
  outs (visit_value S debug (spec_of r) (op_of o) first v) =
  if defined x then option_map (fun t => (opening o first ++ t, false)) (written S debug o r v x) else Some ([], first).
Proof using Hr.
  intros Hs Hm. unfold written. destruct (w_reserved (op_row o)) eqn:Hw.
  - destruct Hs as [|d s Hd|ds l F|ds l F]; cbn [visit_value].
    + reflexivity.
    + cbn [defined]. now apply string_exact with (s := s).
    + cbn [defined]. destruct F as [|d s ds l Hd F]; [reflexivity|]. cbn [length Nat.eqb negb].
      assert (Hp : forall n, r_mod r <> Prefix n) by (intros n E; unfold misused in Hm; rewrite E in Hm; discriminate).
      apply list_exact. intros [fi z] x Hx Hz. cbn [fst snd] in *. assert (X : exists s', shows x s') by (destruct Hx as [<-|Hx]; [eauto|eapply forall2_shows; eassumption]).
      destruct X as [s' X]. now apply item_exact with (s := s').
    + cbn [defined]. destruct F as [|d s ds l Hd F]; [reflexivity|]. cbn [length Nat.eqb negb].
      assert (Hp : forall n, r_mod r <> Prefix n) by (intros n E; unfold misused in Hm; rewrite E in Hm; discriminate).
      apply (list_exact (visit_entry S debug (spec_of r) (op_of o)) entry_text). intros [fi z] x Hx Hz. cbn [fst snd] in *.
      assert (X : exists k v, shows (fst x) k /\ shows (snd x) v) by (destruct Hx as [<-|Hx]; [destruct Hd; eauto|eapply forall2_shows2; eassumption]).
      destruct X as (k & v & X1 & X2). now apply entry_exact with (k := k) (v := v).
  - assert (G : (forall d, v <> VString d) -> outs (visit_value S debug (spec_of r) (op_of o) first v) =
      if defined x then Some (opening o first ++ crate_value S o r x, false) else Some ([], first)).
    { intros Hv. rewrite (visit_value_ok S debug o r Hr first v x Hs (open_tame debug o r v Hw Hv) Hm). destruct (defined x); cbn [negb]; [now rewrite andb_false_r|now rewrite andb_true_r]. }
    destruct Hs as [|d s Hd|ds l F|ds l F]; try (apply G; discriminate). cbn [defined visit_value].
    pose proof (keep_escape S debug o r d s Hw Hd) as E. destruct (keep_value debug (r_mod r) d) as [k|]; cbn [option_map] in *; [now apply visit_string_kept|now apply escape_none].
Qed.
End Value.

(** ** Templates *)
Lemma all_some_map {A B} (g : A -> option B) (h : A -> B) l : (forall x, In x l -> g x = Some (h x)) -> all_some (map g l) = Some (map h l).
Proof. induction l as [|x l IH]; intros H; cbn [map all_some]; [reflexivity|]. rewrite H, IH; [reflexivity|intros y Hy; apply H; now right|now left]. Qed.
Lemma all_some_none {A B} (g : A -> option B) l : all_some (map g l) = None -> exists x, In x l /\ g x = None.
Proof.
  induction l as [|x l IH]; cbn [map all_some]; [discriminate|]. destruct (g x) eqn:E; [|intros _; exists x; split; [now left|assumption]].
  destruct (all_some (map g l)); [discriminate|]. intros _. destruct IH as (y & Hy & Ey); [reflexivity|]. exists y. split; [now right|assumption].
Qed.
Lemma all_some_in {A B} (g : A -> option B) l b : all_some (map g l) = Some b -> forall x, In x l -> exists y, g x = Some y.
Proof.
  revert b. induction l as [|x l IH]; cbn [map all_some]; [intros _ _ x []|]. intros b H. destruct (g x) eqn:E; [|discriminate]. destruct (all_some (map g l)); [|discriminate].
  intros y [<-|Hy]; [eauto|]. eapply IH; eauto.
Qed.
Theorem written_exact S debug ctx env T : supplies_env ctx env -> usable T -> fine env T ->
  expand_to_string S debug ctx (template_text T) = match written_template S debug ctx env T with Some s => Ok s | None => Panic end.
Proof.
  intros He HT Hf.
  assert (HC : forall o l r, In (Expr o l) T -> In r l -> crate_spec r).
  { intros o l r H1 H2. unfold usable in HT. rewrite Forall_forall in HT. destruct (HT _ H1) as [[_ F] _]. rewrite Forall_forall in F. now apply F. }
  set (wr := fun o r => written S debug o r (ctx (r_name r)) (env (r_name r))).
  set (value := fun (o : rop) (r : rspec) (_ : sval) => match wr o r with Some t => t | None => [] end).
  unfold written_template. destruct (all_some _) as [ts|] eqn:EA; cbn [option_map].
  - assert (HE : forall o l, In (Expr o l) T -> exists t, written_expression S debug ctx env o l = Some t).
    { intros o l Hi. destruct (all_some_in _ _ _ EA _ Hi) as [t Ht]. eauto. }
    assert (HV : forall o l r, In (Expr o l) T -> In r l -> defined (env (r_name r)) = true -> wr o r = Some (value o r (env (r_name r)))).
    { intros o l r Hi Hr Hd. destruct (HE o l Hi) as [t Ht]. unfold written_expression in Ht. match type of Ht with context [all_some ?z] => destruct (all_some z) as [vs|] eqn:EV end; [|discriminate].
      destruct (all_some_in _ _ _ EV r) as [y Hy]; [apply filter_In; split; assumption|]. unfold value. change (wr o r = Some y) in Hy. rewrite Hy. reflexivity. }
    rewrite (expands_gen S debug ctx env He value T HT).
    + f_equal. rewrite (all_some_map _ (fun p => match p with Lit s => s | Expr o l => expression value env o l end)) in EA.
      * injection EA as <-. unfold expansion. apply flat_map_concat_map.
      * intros p Hp. destruct p as [s|o l]; [reflexivity|]. unfold written_expression. rewrite (all_some_map _ (fun r => value o r (env (r_name r)))); [reflexivity|].
        intros r Hi. apply filter_In in Hi as [Hi Hd]. now apply (HV o l r).
    + intros o l r H1 H2 first. rewrite (value_exact S debug o r (HC o l r H1 H2) first _ _ (He (r_name r)) (Hf o l r H1 H2)).
      destruct (defined (env (r_name r))) eqn:Hd; cbn [negb]; [|now rewrite andb_true_r]. rewrite andb_false_r. fold (wr o r). now rewrite (HV o l r H1 H2 Hd).
    + assumption.
  - destruct (all_some_none _ _ EA) as (p & Hp & Ep). destruct p as [s|o l]; [discriminate|]. unfold written_expression in Ep. match type of Ep with context [all_some ?z] => destruct (all_some z) as [vs|] eqn:EV end; [discriminate|].
    destruct (all_some_none _ _ EV) as (r & Hi & Er). apply filter_In in Hi as [Hi Hd]. apply (stuck_panics S debug ctx T o l r).
    + eapply Forall_impl; [|exact HT]. now intros q [].
    + assumption.
    + assumption.
    + intros first. rewrite (value_exact S debug o r (HC o l r Hp Hi) first _ _ (He (r_name r)) (Hf o l r Hp Hi)). rewrite Hd, Er. reflexivity.
    + now apply (typechecks debug ctx env He T HT).
Qed.
