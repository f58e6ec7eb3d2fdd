(** * The expansion of lists and associative arrays, expressions and templates (C28, C29). *)
From Verif Require Import Base Chars Rfc3986 Utf8 PctSpec EncodeSpec MValidate MTrusted MFormat MSearch MPct MEncode MTemplate MMaybePct MExpand TemplateSpec ExpandSpec.
From Verif Require Import PBase PScan PSearch PPct PPct2 PPath2 PEncode PEncode2 PTmpl1 PTmpl3 PExp1 PExp2 PExp3 PExp4.

Lemma join_cons sep x r : TemplateSpec.join sep (x :: r) = x ++ flat_map (fun y => sep ++ y) r.
Proof.
  revert x. induction r as [|y r IH]; intros x; [cbn; now rewrite app_nil_r|]. change (TemplateSpec.join sep (x :: y :: r)) with (x ++ sep ++ TemplateSpec.join sep (y :: r)).
  rewrite IH. cbn [flat_map]. now rewrite <- app_assoc.
Qed.
Lemma flat_map_map {A B C} (f : B -> list C) (g : A -> B) l : flat_map f (map g l) = flat_map (fun x => f (g x)) l.
Proof. induction l as [|x l IH]; cbn; [reflexivity|now rewrite IH]. Qed.
Lemma each_ok {A X} (visit : bool * bool -> A -> W (bool * bool)) (R : A -> X -> Prop) g ds l :
  (forall d x, R d x -> outs (visit (false, false) d) = Some (g x, (false, false))) -> Forall2 R ds l ->
  outs (visit_each visit (false, false) ds) = Some (flat_map g l, (false, false)).
Proof.
  intros H. induction 1 as [|d x ds l Hd F IH]; cbn [visit_each flat_map]; [apply outs_ret|]. eapply outs_bind; [now apply H|]. exact IH.
Qed.
Section Value.
Variables (S : Spec) (debug : bool) (o : rop) (r : rspec).
Hypothesis Hr : crate_spec r.
Let sep := w_sep (op_row o).
Lemma explode_ok : (forall ds, r_mod r <> Prefix ds) -> outs (is_explode (spec_of r)) = Some ([], is_explode_mod (r_mod r)).
Proof. unfold is_explode, spec_of. cbn [vs_modifier]. intros H. destruct (r_mod r) as [|ds|]; [reflexivity|destruct (H ds eq_refl)|reflexivity]. Qed.
Definition item_ok (d : W unit) (x : str) : Prop := shows d x /\ (w_reserved (op_row o) = true -> calm_value d).
Definition entry_ok (d : W unit * W unit) (x : str * str) : Prop := item_ok (fst d) (fst x) /\ item_ok (snd d) (snd x).
Lemma item_escape d x : item_ok d x -> outs (escape_write S debug d (w_reserved (op_row o))) = Some (enc S o x, tt).
Proof. intros [H1 H2]. now apply escape_ok. Qed.
Lemma name_escape : w_named (op_row o) = true -> outs (escape_write S debug (display (r_name r)) (w_reserved (op_row o))) = Some (enc_U S (r_name r), tt).
Proof.
  intros Hn. rewrite escape_ok with (s := r_name r); [unfold enc; now rewrite named_open|apply display_shows, name_scalar; apply Hr|].
  intros X. rewrite named_open in X by assumption. discriminate.
Qed.
Lemma outs_eq {A} (x : W A) o1 o2 a : outs x = Some (o1, a) -> o1 = o2 -> outs x = Some (o2, a).
Proof. now intros H <-. Qed.
Definition item_rest (x : str) : str :=
  (if is_explode_mod (r_mod r) then sep ++ (if w_named (op_row o) then enc_U S (r_name r) ++ lit "=" else []) else lit ",") ++ enc S o x.
Lemma item_next d x : (forall ds, r_mod r <> Prefix ds) -> item_ok d x ->
  outs (visit_item S debug (spec_of r) (op_of o) (false, false) d) = Some (item_rest x, (false, false)).
Proof using Hr.
  intros Hm Hd. unfold visit_item. rewrite oppr_row. cbn [op_first op_sep op_named op_ifemp op_allow_reserved vs_name vs_modifier].
  eapply outs_quiet; [now apply explode_ok|]. cbv beta. unfold item_rest.
  eapply outs_bind with (a := tt); [|cbv beta; eapply outs_then; now apply item_escape].
  destruct (w_named (op_row o)) eqn:En, (is_explode_mod (r_mod r)) eqn:Ee; try apply outs_write.
  - fold sep. eapply outs_bind with (a := tt); [apply outs_write|]. cbv beta. eapply outs_bind with (a := tt); [now apply name_escape|]. cbv beta. apply outs_write.
  - rewrite app_nil_r. apply outs_write.
Qed.
Definition item_first (x : str) : str :=
  (if w_named (op_row o) then r_name r ++ lit "=" else []) ++ enc S o x.
Lemma item_start first d x : (forall ds, r_mod r <> Prefix ds) -> item_ok d x ->
  outs (visit_item S debug (spec_of r) (op_of o) (first, true) d) = Some (opening o first ++ item_first x, (false, false)).
Proof using Hr.
  intros Hm Hd. unfold visit_item. rewrite oppr_row. cbn [op_first op_sep op_named op_ifemp op_allow_reserved vs_name vs_modifier].
  eapply outs_quiet; [now apply explode_ok|]. cbv beta. unfold item_first. rewrite app_assoc.
  eapply outs_bind with (a := tt); [|cbv beta; eapply outs_then; now apply item_escape].
  eapply outs_bind with (a := tt); [apply outs_write|]. cbv beta. destruct (w_named (op_row o)); [|apply outs_ret].
  eapply outs_bind with (a := tt); apply outs_write.
Qed.
Lemma enc_open x : w_named (op_row o) = true -> enc S o x = enc_U S x.
Proof. intros H. unfold enc. now rewrite named_open. Qed.
Lemma flat_map_ext' {A B} (f g : A -> list B) l : (forall x, f x = g x) -> flat_map f l = flat_map g l.
Proof. intros H. induction l as [|x l IH]; cbn; [reflexivity|now rewrite H, IH]. Qed.
Lemma list_text x l : crate_list S o (r_name r) (is_explode_mod (r_mod r)) (x :: l) = item_first x ++ flat_map item_rest l.
Proof using Hr.
  unfold crate_list, rfc_list, item_first, item_rest. destruct (w_named (op_row o)) eqn:En, (is_explode_mod (r_mod r)) eqn:Ee; cbn [andb].
  - rewrite enc_open by assumption. rewrite <- !app_assoc. do 3 f_equal. apply flat_map_ext'. intros y. rewrite enc_open by assumption. now rewrite <- !app_assoc.
  - cbn [map]. rewrite join_cons, flat_map_map. rewrite ur_name by apply Hr. now rewrite <- !app_assoc.
  - cbn [map]. rewrite join_cons, flat_map_map. cbn [app]. f_equal. apply flat_map_ext'. intros y. now rewrite app_nil_r.
  - cbn [map]. rewrite join_cons, flat_map_map. reflexivity.
Qed.
Lemma visit_list_ok first ds l : (forall n, r_mod r <> Prefix n) \/ l = [] -> Forall2 item_ok ds l ->
  outs (visit_value S debug (spec_of r) (op_of o) first (VList ds)) =
  Some (if Nat.eqb (length l) 0 then [] else opening o first ++ crate_list S o (r_name r) (is_explode_mod (r_mod r)) l, first && Nat.eqb (length l) 0).
Proof using Hr.
  intros Hm F. cbn [visit_value]. destruct F as [|d x ds l Hd F]; [cbn [length Nat.eqb]; rewrite andb_true_r; reflexivity|].
  destruct Hm as [Hm|]; [|discriminate]. cbn [length Nat.eqb visit_each]. rewrite list_text, app_assoc. rewrite andb_false_r.
  rewrite <- (app_nil_r (_ ++ flat_map item_rest l)). eapply outs_bind with (a := (false, false)).
  - eapply outs_bind with (a := (false, false)); [now apply item_start|]. cbv beta. eapply each_ok; [|exact F]. intros. now apply item_next.
  - cbv beta iota. apply outs_ret.
Qed.

(** Associative arrays. *)
Definition eqc : str := if is_explode_mod (r_mod r) then lit "=" else lit ",".
Definition entry_rest (e : str * str) : str :=
  (if is_explode_mod (r_mod r) then sep else lit ",") ++ enc S o (fst e) ++ eqc ++ enc S o (snd e).
Definition entry_first (e : str * str) : str :=
  (if w_named (op_row o) && negb (is_explode_mod (r_mod r)) then enc_U S (r_name r) ++ lit "=" else []) ++ enc S o (fst e) ++ eqc ++ enc S o (snd e).
Lemma entry_next d x : (forall ds, r_mod r <> Prefix ds) -> entry_ok d x ->
  outs (visit_entry S debug (spec_of r) (op_of o) (false, false) d) = Some (entry_rest x, (false, false)).
Proof using Hr.
  intros Hm [Hk Hv]. destruct d as [dk dv], x as [k v]. cbn [fst snd] in *. unfold visit_entry. rewrite oppr_row. cbn [op_first op_sep op_named op_ifemp op_allow_reserved vs_name vs_modifier].
  eapply outs_quiet; [now apply explode_ok|]. cbv beta. unfold entry_rest, eqc. cbn [fst snd].
  assert (E : forall a b : str, outs (write a >> escape_write S debug dk (w_reserved (op_row o)) >> write b) = Some (a ++ enc S o k ++ b, tt)).
  { intros a b. eapply outs_bind with (a := tt); [apply outs_write|]. cbv beta. eapply outs_bind with (a := tt); [now apply item_escape|]. cbv beta. apply outs_write. }
  rewrite (app_assoc (enc S o k)), (app_assoc _ (enc S o k ++ _)).
  eapply outs_bind with (a := tt); [|cbv beta; eapply outs_then; now apply item_escape].
  destruct (w_named (op_row o)) eqn:En, (is_explode_mod (r_mod r)) eqn:Ee; apply E.
Qed.
Lemma entry_start first d x : (forall ds, r_mod r <> Prefix ds) -> entry_ok d x ->
  outs (visit_entry S debug (spec_of r) (op_of o) (first, true) d) = Some (opening o first ++ entry_first x, (false, false)).
Proof using Hr.
  intros Hm [Hk Hv]. destruct d as [dk dv], x as [k v]. cbn [fst snd] in *. unfold visit_entry. rewrite oppr_row. cbn [op_first op_sep op_named op_ifemp op_allow_reserved vs_name vs_modifier].
  eapply outs_quiet; [now apply explode_ok|]. cbv beta. unfold entry_first, eqc. cbn [fst snd].
  assert (E : forall b : str, outs (escape_write S debug dk (w_reserved (op_row o)) >> write b) = Some (enc S o k ++ b, tt)).
  { intros b. eapply outs_bind with (a := tt); [now apply item_escape|]. cbv beta. apply outs_write. }
  rewrite (app_assoc (enc S o k)), (app_assoc _ (enc S o k ++ _)), (app_assoc (opening o first)).
  eapply outs_bind with (a := tt); [|cbv beta; eapply outs_then; now apply item_escape].
  eapply outs_bind with (a := tt); [apply outs_write|]. cbv beta.
  destruct (is_explode_mod (r_mod r)) eqn:Ee.
  - rewrite andb_false_r. apply E.
  - cbn [negb]. rewrite andb_true_r. eapply outs_bind with (a := tt); [|apply E]. destruct (w_named (op_row o)) eqn:En; [|apply outs_ret].
    eapply outs_bind with (a := tt); [now apply name_escape|]. cbv beta. apply outs_write.
Qed.
Lemma assoc_text x l : crate_assoc S o (r_name r) (is_explode_mod (r_mod r)) (x :: l) = entry_first x ++ flat_map entry_rest l.
Proof using Hr.
  assert (J : forall (sp : str) (g h : str * str -> str), (forall e, g e = h e) -> TemplateSpec.join sp (map g (x :: l)) = h x ++ flat_map (fun e => sp ++ h e) l).
  { intros sp g h H. cbn [map]. rewrite join_cons, flat_map_map. rewrite H. f_equal. apply flat_map_ext'. intros y. now rewrite H. }
  unfold crate_assoc, rfc_assoc, entry_first, entry_rest, eqc. destruct (w_named (op_row o)) eqn:En, (is_explode_mod (r_mod r)) eqn:Ee; cbn [andb negb].
  - apply (J _ _ (fun e => enc S o (fst e) ++ lit "=" ++ enc S o (snd e))). intros [k v]. cbn [fst snd]. now rewrite !enc_open.
  - rewrite <- !app_assoc. do 2 f_equal. rewrite (J _ _ (fun e => enc S o (fst e) ++ lit "," ++ enc S o (snd e))); [now rewrite <- !app_assoc|].
    intros [k v]. cbn [fst snd]. now rewrite !enc_open.
  - apply (J _ _ (fun e => enc S o (fst e) ++ lit "=" ++ enc S o (snd e))). now intros [k v].
  - apply (J _ _ (fun e => enc S o (fst e) ++ lit "," ++ enc S o (snd e))). now intros [k v].
Qed.
Lemma visit_assoc_ok first ds l : (forall n, r_mod r <> Prefix n) \/ l = [] -> Forall2 entry_ok ds l ->
  outs (visit_value S debug (spec_of r) (op_of o) first (VAssoc ds)) =
  Some (if Nat.eqb (length l) 0 then [] else opening o first ++ crate_assoc S o (r_name r) (is_explode_mod (r_mod r)) l, first && Nat.eqb (length l) 0).
Proof using Hr.
  intros Hm F. cbn [visit_value]. destruct F as [|d x ds l Hd F]; [cbn [length Nat.eqb]; rewrite andb_true_r; reflexivity|].
  destruct Hm as [Hm|]; [|discriminate]. cbn [length Nat.eqb visit_each]. rewrite assoc_text, app_assoc. rewrite andb_false_r.
  rewrite <- (app_nil_r (_ ++ flat_map entry_rest l)). eapply outs_bind with (a := (false, false)).
  - eapply outs_bind with (a := (false, false)); [now apply entry_start|]. cbv beta. eapply each_ok; [|exact F]. intros. now apply entry_next.
  - cbv beta iota. apply outs_ret.
Qed.
Lemma visit_value_ok first v x : supplies v x -> tame debug o r v -> misused x r = false ->
  outs (visit_value S debug (spec_of r) (op_of o) first v) =
  Some (if defined x then opening o first ++ crate_value S o r x else [], first && negb (defined x)).
Proof using Hr.
  intros Hs Ht Hm. destruct Hs as [|d s Hd|ds l F|ds l F].
  - cbn. now rewrite andb_true_r.
  - cbn [defined negb visit_value crate_value]. rewrite andb_false_r. now apply visit_string_ok.
  - rewrite visit_list_ok with (l := l).
    + cbn [defined crate_value]. destruct l; reflexivity.
    + unfold misused in Hm. destruct l as [|x l]; [now right|left]. intros n E. rewrite E in Hm. discriminate.
    + cbn [tame] in Ht. clear Hm. induction F as [|d x ds l Hd F IH]; constructor; [|apply IH; intros E; specialize (Ht E); now inversion Ht].
      split; [assumption|]. intros E. specialize (Ht E). now inversion Ht.
  - rewrite visit_assoc_ok with (l := l).
    + cbn [defined crate_value]. destruct l; reflexivity.
    + unfold misused in Hm. destruct l as [|x l]; [now right|left]. intros n E. rewrite E in Hm. discriminate.
    + cbn [tame] in Ht. clear Hm. induction F as [|d x ds l Hd F IH]; constructor; [|apply IH; intros E; specialize (Ht E); now inversion Ht].
      destruct Hd as [H1 H2]. split; (split; [assumption|]); intros E; specialize (Ht E); inversion Ht; tauto.
Qed.
End Value.
