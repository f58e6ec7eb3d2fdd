(** * Counterexamples on templates (C27-C30). *)
From Verif Require Import Base Chars Rfc3986 Utf8 PctSpec EncodeSpec MValidate MTrusted MFormat MSearch MPct MEncode MTemplate MMaybePct MExpand TemplateSpec ExpandSpec.
From Verif Require Import PBase PScan PTmpl1 PTmpl2 PTmpl3 PExp7 PExp9.
Open Scope string_scope. Open Scope N_scope. Open Scope list_scope.

Lemma varchar_last s : varchar s -> s <> [] /\ last s 0 <> 46.
Proof.
  intros [(c & -> & Hc)|H].
  - split; [discriminate|]. cbn. intros ->. discriminate.
  - apply pct_encoded_iff in H as (u & l & -> & Hu & Hl). split; [discriminate|]. cbn. intros ->. discriminate.
Qed.
Lemma last_app a b : b <> [] -> last (a ++ b) 0 = last b 0.
Proof.
  intros Hb. induction a as [|c a IH]; [reflexivity|]. cbn [app]. rewrite <- IH. destruct (a ++ b) eqn:E; [|reflexivity].
  apply app_eq_nil in E as [_ ->]. contradiction.
Qed.
Lemma varname_last s : varname s -> last s 0 <> 46.
Proof.
  unfold varname. rewrite cat_iff. intros (a & b & -> & Ha & Hb). apply varchar_last in Ha as [H1 H2].
  assert (X : b = [] \/ b <> [] /\ last b 0 <> 46).
  { clear a H1 H2. induction Hb as [|x y Hx Hy IH]; [now left|right]. rewrite cat_iff in Hx. destruct Hx as (u & v & -> & Hu & Hv). apply varchar_last in Hv as [V1 V2].
    assert (W : u ++ v <> [] /\ last (u ++ v) 0 <> 46).
    { rewrite last_app by assumption. split; [|assumption]. intros E. apply app_eq_nil in E as [_ E]. contradiction. }
    destruct IH as [->|[I1 I2]]; [rewrite app_nil_r; assumption|]. rewrite last_app by assumption. split; [|assumption]. intros E. apply app_eq_nil in E as [_ E]. contradiction. }
  destruct X as [->|[X1 X2]]; [now rewrite app_nil_r|]. now rewrite last_app.
Qed.
Lemma rfc_variables s : rfc_template s -> all_ascii s = true -> exists names, template_variables true s = Ok names /\ Forall varname names.
Proof.
  intros (T & F & ->) Ha. apply all_ascii_parts in Ha. exists (template_names T). split.
  - apply variables_ok. apply Forall_forall. intros p Hp. rewrite Forall_forall in *. apply rfc_part_crate; auto.
  - unfold template_names. apply Forall_flat_map. eapply Forall_impl; [|exact F]. intros [l|o l] Hp; cbn [part_names]; [constructor|].
    destruct Hp as [_ Hp]. apply Forall_map. eapply Forall_impl; [|exact Hp]. intros r Hr. apply Hr.
Qed.
Lemma template_refuted : exists s1 s2 s3 s4,
  template_new s1 = Ok s1 /\ ~ rfc_template s1 /\
  template_new s2 = Ok s2 /\ ~ rfc_template s2 /\
  rfc_template s3 /\ (exists e, template_new s3 = Err e) /\
  template_new s4 = Panic.
Proof.
  exists (lit "{a.}"), (lit "{a:99999}"), [233], (lit "%a" ++ [233]). repeat split.
  - intros H. apply rfc_variables in H; [|reflexivity]. destruct H as (names & E & F). vm_compute in E. injection E as <-. inversion F as [|x y Hx]; subst.
    apply varname_last in Hx. now apply Hx.
  - intros H. apply rfc_variables in H; [|reflexivity]. destruct H as (names & E & F). vm_compute in E. discriminate.
  - exists [Lit [233]]. split; [|reflexivity]. repeat constructor. cbn [rfc_part]. apply star_one. right. left. exists 233. now split.
  - eexists. vm_compute. reflexivity.
Qed.
Lemma variables_refuted : exists s, template_new s = Ok s /\ forall debug, template_variables debug s = Panic.
Proof. exists (lit "{a:99999}"). split; [vm_compute; reflexivity|]. intros []; vm_compute; reflexivity. Qed.

Definition ins (v : SValue) : list sc_op := [Insert (lit "x") v].
Lemma one_name c : vc c = true -> varname [c].
Proof.
  intros H. unfold varname. apply cat_iff. exists [c], []. repeat split; [|constructor]. left. exists c. now split.
Qed.
Lemma pct_name u l : HEXDIG u = true -> HEXDIG l = true -> varname [37; u; l].
Proof.
  intros Hu Hl. unfold varname. apply cat_iff. exists [37; u; l], []. repeat split; [|constructor]. right. apply pct_encoded_iff. now exists u, l.
Qed.
Lemma one_expr o n m : varname n -> match m with Prefix ds => max_length ds | _ => True end -> Forall rfc_part [Expr o [mkR n m]].
Proof. intros Hn Hm. repeat constructor; auto. discriminate. Qed.
Lemma one_digit d : between 49 57 d = true -> max_length [d].
Proof. intros H. unfold max_length. apply cls_cat. exists d, []. repeat split; auto. apply reps_digits. split; [cbn; lia|reflexivity]. Qed.
Lemma expansion_refuted : exists h1 h2 h3 h4 h5,
  departs [Expr Semi [mkR (lit "x") Explode]] h1 (lit ";x=a;x=") (lit ";x=a;x") /\
  departs [Expr Ques [mkR (lit "%41") Explode]] h2 (lit "?%41=a&%2541=b") (lit "?%41=a&%41=b") /\
  departs [Expr Ques [mkR (lit "x") Explode]] h3 (lit "?%2541=b") (lit "?%41=b") /\
  departs [Expr Plus [mkR (lit "x") (Prefix (lit "1"))]] h4 (lit "a%20") (lit "a") /\
  departs [Expr Plus [mkR (lit "x") NoMod]] h5 (lit "%e3a") (lit "%e3%41a").
Proof.
  exists (ins (SList [lit "a"; []])), [Insert (lit "%41") (SList [lit "a"; lit "b"])], (ins (SAssoc [(lit "%41", lit "b")])), (ins (SString (lit "ab%20cd"))), (ins (SString (lit "%e3%41a"))).
  assert (X : varname (lit "x")) by now apply one_name.
  assert (Y : varname (lit "%41")) by now apply pct_name.
  assert (Z : max_length (lit "1")) by now apply one_digit.
  split; [|split; [|split; [|split]]]; (split; [apply one_expr; (exact Logic.I || assumption)|split; [intros []; vm_compute; reflexivity|split; [vm_compute; reflexivity|vm_compute; discriminate]]]).
Qed.
Lemma panic_refuted : exists t1 t2 t3 t4 h1 h2 h3 h4,
  panics_on true t1 h1 /\
  (forall debug, panics_on debug t2 h2) /\ (forall debug, panics_on debug t3 h3) /\ (forall debug, panics_on debug t4 h4) /\
  rfc_template t1 /\ rfc_template t2 /\ rfc_template t3.
Proof.
  exists (lit "{x:3}"), (lit "{+x}"), (lit "{+x}"), (lit "{x:99999}"), (ins (SString [233; 233; 233])), (ins (SString [233])), (ins (SString (lit "%ce%41%ce"))), (ins (SString (lit "a"))).
  assert (X : varname (lit "x")) by now apply one_name.
  assert (P : rfc_template (lit "{+x}")) by (exists [Expr Plus [mkR (lit "x") NoMod]]; split; [now apply one_expr|reflexivity]).
  split; [split; vm_compute; reflexivity|]. repeat (split; [intros []; split; vm_compute; reflexivity|]).
  split; [|now split]. exists [Expr Simple [mkR (lit "x") (Prefix (lit "3"))]]. split; [|reflexivity]. apply one_expr; [exact X|now apply one_digit].
Qed.

(** ** The example meets the hypotheses *)
Lemma word_name s : forallb vc s = true -> s <> [] -> varname s.
Proof.
  intros H Hn. destruct s as [|c s]; [contradiction|]. cbn [forallb] in H. bdestr. unfold varname.
  apply cat_iff. exists [c], s. split; [reflexivity|]. split; [left; exists c; now split|].
  clear c H Hn. induction s as [|d s IH]; [constructor|]. cbn [forallb] in H0. bdestr. change (d :: s) with ([d] ++ s). constructor; [|now apply IH].
  apply cat_iff. exists [], [d]. split; [reflexivity|]. split; [now left|]. left. exists d. now split.
Qed.
Ltac rfc_expr := split; [discriminate|]; repeat (apply Forall_cons; [split; [apply word_name; [reflexivity|discriminate]|first [exact Logic.I | now apply one_digit]]|]); apply Forall_nil.
Lemma example_hypotheses : usable example_template /\ Forall plain_op example_history /\ Forall scalar_op example_history /\
  let env := fun k => sval_of (sc_get (sc_run example_history) k) in
  (forall k, exists x, current example_history k x /\ env k = sval_of x) /\
  supplies_env (sc_visit (sc_run example_history)) env /\ tame_template true (sc_visit (sc_run example_history)) example_template /\
  fine env example_template /\ regular_template UriSpec env example_template.
Proof.
  assert (R : Forall rfc_part example_template).
  { unfold example_template. apply Forall_cons; [|apply Forall_cons; [rfc_expr|apply Forall_cons; [rfc_expr|apply Forall_cons; [rfc_expr|apply Forall_cons; [rfc_expr|apply Forall_nil]]]]].
    cbn [rfc_part]. change (lit "/m") with ([47] ++ [109]). apply star_app; apply star_one; left; eexists; split; reflexivity. }
  assert (U : usable example_template).
  { pose proof (all_ascii_parts example_template eq_refl) as A. unfold usable. rewrite Forall_forall in *. intros p Hp. apply rfc_part_crate; auto. }
  assert (P : Forall plain_op example_history).
  { assert (X : forall s, (all_ascii s && forallb (fun c => negb (c =? 37)) s && (N.of_nat (length s) <=? usize_max)) = true -> plain_text s).
    { intros s H. apply andb_true_iff in H. destruct H as [H H1]. apply andb_true_iff in H. destruct H as [H H0]. split; [exact H|]. split; [|now apply N.leb_le].
      intros Hi. pose proof (proj1 (forallb_forall _ _) H0 37 Hi) as Q. discriminate Q. }
    unfold example_history. apply Forall_cons; [|apply Forall_cons; [|apply Forall_cons; [|apply Forall_cons; [|apply Forall_nil]]]]; cbn [plain_op plain_value].
    - apply Forall_cons; [split; apply X; reflexivity|]. apply Forall_cons; [split; apply X; reflexivity|]. apply Forall_nil.
    - apply Forall_cons; [apply X; reflexivity|]. apply Forall_cons; [apply X; reflexivity|]. apply Forall_nil.
    - apply X; reflexivity.
    - apply X; reflexivity. }
  assert (Sc : Forall scalar_op example_history) by now apply plain_scalar.
  split; [exact U|]. split; [exact P|]. split; [exact Sc|]. intros env.
  assert (C : forall k, exists x, current example_history k x /\ env k = sval_of x).
  { intros k. exists (sc_get (sc_run example_history) k). split; [now apply current_iff|reflexivity]. }
  split; [exact C|]. split; [now apply simple_context_env|]. split; [now apply plain_tame|].
  assert (E1 : env (lit "hello") = Str (lit "Hello World!")) by (vm_compute; reflexivity).
  assert (E2 : env (lit "list") = Lst [lit "red"; lit "green"]) by (vm_compute; reflexivity).
  assert (E3 : env (lit "keys") = Assc [(lit "semi", lit ";"); (lit "dot", lit ".")]) by (vm_compute; reflexivity).
  assert (E4 : env (lit "undef") = Undef) by (vm_compute; reflexivity).
  assert (E5 : env (lit "empty") = Str []) by (vm_compute; reflexivity).
  clearbody env. clear C U P Sc R. vm_compute in E1, E2, E3, E4, E5.
  split; intros o l r Hi Hr; unfold example_template in Hi; cbn [In] in Hi;
  destruct Hi as [Hi|[Hi|[Hi|[Hi|[Hi|[]]]]]]; try discriminate; injection Hi as <- <-; cbn [In] in Hr;
  repeat (destruct Hr as [<-|Hr]; [cbn [r_name]; rewrite ?E1, ?E2, ?E3, ?E4, ?E5; first [reflexivity | exact Logic.I | cbn [regular]; intros Hw; try discriminate Hw]|]); try contradiction.
  cbn [r_mod]. split; [intros Ho; discriminate Ho|]. cbn [map fst]. apply Forall_cons; [vm_compute; reflexivity|]. apply Forall_cons; [vm_compute; reflexivity|]. apply Forall_nil.
Qed.
Lemma calm_example : calm (lit "a%e3%81%82/%E2%80b%") /\ forall S debug,
  expand_to_string S debug (fun _ => VString (display (lit "a%e3%81%82/%E2%80b%"))) (lit "{+x}") = Ok (lit "a%e3%81%82/%E2%80b%25").
Proof.
  split; [|intros [] []; vm_compute; reflexivity].
  assert (E : spelled (utf8 12354) (lit "%e3%81%82")).
  { change (utf8 12354) with [16 * 14 + 3; 16 * 8 + 1; 16 * 8 + 2]. apply (spelled_cons 101 51); [reflexivity|reflexivity|]. apply (spelled_cons 56 49); [reflexivity|reflexivity|]. apply (spelled_cons 56 50); [reflexivity|reflexivity|]. constructor. }
  assert (E2 : spelled [16 * 14 + 2; 16 * 8 + 0] (lit "%E2%80")).
  { apply (spelled_cons 69 50); [reflexivity|reflexivity|]. apply (spelled_cons 56 48); [reflexivity|reflexivity|]. constructor. }
  assert (P : forall c, (c =? 37) = false -> ~ In 37 [c]) by (intros c Hc [Hi|[]]; subst; discriminate).
  change (lit "a%e3%81%82/%E2%80b%") with ((97 :: []) ++ lit "%e3%81%82/%E2%80b%").
  apply calm_plain; [reflexivity|now apply P|right; eexists; reflexivity|].
  change (lit "%e3%81%82/%E2%80b%") with (lit "%e3%81%82" ++ lit "/%E2%80b%").
  apply (calm_char 12354); [reflexivity|exact E|].
  change (lit "/%E2%80b%") with ((47 :: []) ++ lit "%E2%80b%").
  apply calm_plain; [reflexivity|now apply P|right; eexists; reflexivity|].
  change (lit "%E2%80b%") with (lit "%E2%80" ++ [] ++ lit "b%").
  eapply calm_broken; [|exact E2|apply st_none; right; exists 98, [37]; repeat split|discriminate|].
  - right. exists 8210. split; [reflexivity|]. exists [146]. split; [reflexivity|]. split; discriminate.
  - change (lit "b%") with ((98 :: []) ++ [37]). apply calm_plain; [reflexivity|now apply P|right; eexists; reflexivity|].
    change [37] with ([] ++ [37] ++ []). apply (calm_broken []); [now left|constructor|apply st_pct; now left|discriminate|constructor].
Qed.
