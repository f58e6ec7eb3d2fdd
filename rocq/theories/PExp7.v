(** * Where the crate's expansion is that of RFC 6570 (C28); [SimpleContext] (C31). *)
From Verif Require Import Base Chars Rfc3986 Utf8 PctSpec EncodeSpec MValidate MTrusted MFormat MSearch MPct MEncode MTemplate MMaybePct MExpand TemplateSpec ExpandSpec.
From Verif Require Import PBase PScan PEncode PTmpl1 PTmpl2 PTmpl3 PExp1 PExp2 PExp3 PExp4 PExp5 PExp6.

Lemma u_vcd S s : scan vcd s = true -> ~ In 37 s -> enc_U S s = s.
Proof.
  induction s as [|c r Hc IH|u l r IH| |u] using scan_ind; intros H Hn; [reflexivity| |exfalso; apply Hn; now left|exfalso; apply Hn; now left|exfalso; apply Hn; now left].
  rewrite scan_cons in H by assumption. bdestr. unfold enc_U, encode in *. cbn [flat_map]. rewrite IH; [|assumption|intros X; apply Hn; now right].
  replace (unreserved S c) with true; [reflexivity|]. unfold unreserved. unfold vcd, vc in H.
  destruct (ALPHA c) eqn:E1; [reflexivity|]. destruct (DIGIT c) eqn:E2; [reflexivity|]. cbn [orb] in *.
  destruct (N.eqb_spec c 95) as [->|]; [now destruct S|]. destruct (N.eqb_spec c 46) as [->|]; [now destruct S|discriminate].
Qed.
Lemma u_name S s : crate_varname s -> ~ In 37 s -> enc_U S s = s.
Proof. intros H. apply u_vcd. apply name_vcd. now apply name_iff. Qed.
Lemma ifemp_text S o x : w_named (op_row o) = true -> (o = Semi -> x <> []) ->
  (if is_empty x then w_ifemp (op_row o) else lit "=" ++ enc S o x) = lit "=" ++ enc_U S x.
Proof.
  intros Hn Hx. destruct x as [|c x]; cbn [is_empty]; [|now rewrite enc_open].
  destruct o; try discriminate; [destruct (Hx eq_refl eq_refl)|reflexivity|reflexivity].
Qed.
Lemma join_ext {A} (sp : str) (g h : A -> str) l : (forall x, In x l -> g x = h x) -> TemplateSpec.join sp (map g l) = TemplateSpec.join sp (map h l).
Proof. intros H. f_equal. apply map_ext_in. exact H. Qed.
Lemma flat_map_in {A B} (f g : A -> list B) l : (forall x, In x l -> f x = g x) -> flat_map f l = flat_map g l.
Proof. induction l as [|x l IH]; intros H; cbn; [reflexivity|]. rewrite H by now left. rewrite IH; [reflexivity|]. intros; apply H; now right. Qed.
Lemma regular_value S o r v : crate_varname (r_name r) -> regular S o r v -> crate_value S o r v = rfc_value S o r v.
Proof.
  intros Hn Hr. destruct v as [|s|l|l]; try reflexivity; cbn [crate_value rfc_value].
  - unfold crate_list. cbn [regular] in Hr. destruct (w_named (op_row o)) eqn:En; cbn [andb]; [|reflexivity].
    destruct (is_explode_mod (r_mod r)) eqn:Ee; [|reflexivity]. destruct l as [|x l]; [reflexivity|].
    assert (Em : r_mod r = Explode) by (destruct (r_mod r); (discriminate || reflexivity)).
    destruct (Hr eq_refl Em) as [H1 H2]. unfold rfc_list. rewrite En. cbn [map]. rewrite join_cons, flat_map_map. rewrite ur_name by assumption.
    rewrite ifemp_text; [|assumption|intros Eo ->; apply (H1 Eo); now left]. rewrite <- !app_assoc. do 3 f_equal.
    apply flat_map_in. intros y Hy. rewrite ifemp_text; [|assumption|intros Eo ->; apply (H1 Eo); now right].
    rewrite u_name; [reflexivity|assumption|]. apply H2. destruct l; [destruct Hy|]. cbn. lia.
  - unfold crate_assoc. cbn [regular] in Hr. destruct (w_named (op_row o)) eqn:En; [|reflexivity]. specialize (Hr eq_refl).
    unfold rfc_assoc. rewrite En. destruct (r_mod r) as [|ds|]; cbn [is_explode_mod].
    + rewrite u_name, ur_name by assumption. rewrite <- app_assoc. do 2 f_equal. apply join_ext. intros [k x] _. now rewrite !enc_open.
    + rewrite u_name, ur_name by assumption. rewrite <- app_assoc. do 2 f_equal. apply join_ext. intros [k x] _. now rewrite !enc_open.
    + destruct Hr as [H1 H2]. apply join_ext. intros [k x] Hi. rewrite ifemp_text; [|assumption|].
      * f_equal. rewrite Forall_forall in H2. apply H2. apply in_map_iff. now exists (k, x).
      * intros Eo ->. apply (H1 Eo). apply in_map_iff. now exists (k, []).
Qed.
Lemma regular_expansion S env T : Forall crate_part T -> regular_template S env T -> crate_expansion S env T = rfc_expansion S env T.
Proof.
  intros HT Hr. unfold crate_expansion, rfc_expansion, expansion. apply flat_map_in. intros p Hp. destruct p as [s|o l]; [reflexivity|].
  unfold expression. rewrite Forall_forall in HT. specialize (HT _ Hp) as [_ HF]. rewrite Forall_forall in HF.
  replace (map (fun r => crate_value S o r (env (r_name r))) (filter (fun r => defined (env (r_name r))) l))
     with (map (fun r => rfc_value S o r (env (r_name r))) (filter (fun r => defined (env (r_name r))) l)); [reflexivity|].
  apply map_ext_in. intros r Hi. apply filter_In in Hi as [Hi _]. symmetry. apply regular_value; [apply (HF r Hi)|now apply (Hr o l r)].
Qed.
(** ** [SimpleContext] *)
Lemma get_remove k k' m : map_get k (map_remove k' m) = if seqb k k' then None else map_get k m.
Proof.
  induction m as [|[x v] m IH]; cbn [map_remove map_get]; [now destruct (seqb k k')|].
  destruct (seqb k' x) eqn:E1.
  - rewrite IH. apply seqb_eq in E1 as <-. destruct (seqb k k'); reflexivity.
  - cbn [map_get]. rewrite IH. destruct (seqb k k') eqn:E2; [|reflexivity]. apply seqb_eq in E2 as ->. now rewrite E1.
Qed.
Lemma seqb_refl k : seqb k k = true. Proof. now apply seqb_eq. Qed.
Lemma get_insert k k' v m : map_get k (map_insert k' v m) = if seqb k k' then Some v else map_get k m.
Proof. unfold map_insert. cbn [map_get]. rewrite get_remove. now destruct (seqb k k'). Qed.
Lemma name_new k : is_ok (VarName_new k) = true <-> crate_varname k.
Proof.
  unfold VarName_new. rewrite validate_varname_eq. rewrite name_iff. destruct (name_b k); cbn [bind is_ok]; split; intros H; (discriminate || reflexivity).
Qed.
Lemma insert_get m key v k : map_get k (fst (sc_insert m key v)) =
  if seqb k key && is_ok (VarName_new key) then (match v with SUndefined => None | _ => Some v end) else map_get k m.
Proof.
  unfold sc_insert. destruct (is_ok (VarName_new key)); cbn [negb]; [|now rewrite andb_false_r]. rewrite andb_true_r.
  destruct v; cbn [fst]; rewrite ?get_remove, ?get_insert; reflexivity.
Qed.
Lemma insert_old m key v : snd (sc_insert m key v) = if is_ok (VarName_new key) then map_get key m else None.
Proof. unfold sc_insert. destruct (is_ok (VarName_new key)); cbn [negb]; [|reflexivity]. now destruct v. Qed.
Lemma seqb_neq k k' : k <> k' -> seqb k k' = false.
Proof. intros H. destruct (seqb k k') eqn:E; [|reflexivity]. now apply seqb_eq in E. Qed.
Lemma current_get h k x : current h k x -> sc_get (sc_run h) k = x.
Proof.
  unfold sc_get. induction 1 as [k|h k|h k k' v x Hn Hc IH|h k v x Hn Hc IH|h k Hk|h k v Hk Hv]; cbn [sc_run]; try reflexivity; rewrite insert_get.
  - rewrite seqb_neq by assumption. exact IH.
  - replace (is_ok (VarName_new k)) with false; [now rewrite andb_false_r|]. symmetry. apply not_true_is_false. now rewrite name_new.
  - rewrite seqb_refl. now rewrite (proj2 (name_new k) Hk).
  - rewrite seqb_refl. rewrite (proj2 (name_new k) Hk). cbn [andb]. now destruct v.
Qed.
Lemma current_total h k : exists x, current h k x.
Proof.
  induction h as [|[k' v|] h [x IH]]; [exists None; constructor| |exists None; constructor].
  destruct (seqb k k') eqn:E.
  - apply seqb_eq in E as <-. destruct (is_ok (VarName_new k)) eqn:Ek.
    + apply name_new in Ek. destruct v; [exists None; now constructor|eexists; apply cur_def; (assumption || discriminate)..].
    + exists x. apply cur_invalid; [|assumption]. rewrite <- name_new. congruence.
  - exists x. constructor; [|assumption]. intros ->. now rewrite seqb_refl in E.
Qed.
Lemma current_iff h k x : current h k x <-> sc_get (sc_run h) k = x.
Proof.
  split; [apply current_get|]. intros H. destruct (current_total h k) as [y Hy]. pose proof (current_get _ _ _ Hy) as E. congruence.
Qed.
Lemma insert_returns h k v x : snd (sc_insert (sc_run h) k v) = x <-> (crate_varname k /\ current h k x) \/ (~ crate_varname k /\ x = None).
Proof.
  rewrite insert_old. destruct (is_ok (VarName_new k)) eqn:Ek.
  - apply name_new in Ek. rewrite current_iff. unfold sc_get. tauto.
  - assert (Hn : ~ crate_varname k) by (rewrite <- name_new; congruence). split; [intros <-; now right|]. intros [[H _]|[_ ->]]; [contradiction|reflexivity].
Qed.
Lemma scalar_get h : Forall scalar_op h -> forall k v, map_get k (sc_run h) = Some v -> scalar_value v.
Proof.
  induction 1 as [|op h Ho F IH]; intros k v; cbn [sc_run]; [discriminate|]. destruct op as [k' v'|]; [|discriminate]. rewrite insert_get.
  destruct (seqb k k' && is_ok (VarName_new k')); [|apply IH]. destruct v'; try discriminate; intros [= <-]; exact Ho.
Qed.
Lemma simple_supplies h : Forall scalar_op h -> forall k x, current h k x -> supplies (sc_visit (sc_run h) k) (sval_of x).
Proof.
  intros F k x Hc. apply current_get in Hc. unfold sc_get in Hc. unfold sc_visit. rewrite Hc. pose proof (scalar_get h F k) as Hs. rewrite Hc in Hs.
  destruct x as [[|s|l|l]|]; cbn [sval_of]; try constructor; specialize (Hs _ eq_refl); cbn [scalar_value] in Hs.
  - now apply display_shows.
  - clear Hc. induction Hs as [|s l H Hs IH]; cbn [map]; constructor; [now apply display_shows|assumption].
  - clear Hc. induction Hs as [|[a b] l [H1 H2] Hs IH]; cbn [map fst snd]; constructor; [split; now apply display_shows|assumption].
Qed.
