(** * Corollaries and counterexamples on templates (C27-C31). *)
From Verif Require Import Base Chars Rfc3986 Utf8 PctSpec EncodeSpec MValidate MTrusted MFormat MSearch MPct MEncode MTemplate MMaybePct MExpand TemplateSpec ExpandSpec.
From Verif Require Import PBase PScan PSearch PEncode PEncode2 PTmpl1 PTmpl2 PTmpl3 PExp1 PExp2 PExp3 PExp4 PExp5 PExp6 PExp7 PExp8.

Lemma expands_rfc S debug ctx env T : supplies_env ctx env -> usable T -> tame_template debug ctx T -> fine env T -> regular_template S env T ->
  expand_to_string S debug ctx (template_text T) = Ok (rfc_expansion S env T).
Proof.
  intros He HT Ht Hf Hr. rewrite (expands S debug ctx env He T HT Ht Hf). f_equal. apply regular_expansion; [|assumption]. now apply usable_parts in HT.
Qed.
Lemma simple_tame debug ctx T : simple_template T -> tame_template debug ctx T.
Proof.
  intros H o l r Hi Hr. destruct (H o l r Hi Hr) as [H1 H2]. unfold tame. destruct (ctx (r_name r)) as [|d|ds|ds]; auto; try (rewrite H1; discriminate).
  destruct (r_mod r) as [|ds|]; try (rewrite H1; discriminate). destruct (H2 ds eq_refl).
Qed.
Lemma simple_fine env T : simple_template T -> fine env T.
Proof. intros H o l r Hi Hr. destruct (H o l r Hi Hr) as [_ H2]. unfold misused. destruct (r_mod r) as [|ds|]; auto. destruct (H2 ds eq_refl). Qed.
Lemma simple_usable T : Forall crate_part T -> simple_template T -> usable T.
Proof.
  intros F H. apply usable_parts. split; [assumption|]. apply Forall_forall. intros p Hp. destruct p as [s|o l]; [exact I|]. apply Forall_forall. intros r Hr.
  destruct (H o l r Hp Hr) as [_ H2]. unfold small_spec. destruct (r_mod r) as [|ds|]; auto. destruct (H2 ds eq_refl).
Qed.
Lemma expands_simple S debug ctx env T : supplies_env ctx env -> Forall crate_part T -> simple_template T ->
  expand_to_string S debug ctx (template_text T) = Ok (crate_expansion S env T).
Proof. intros He F H. apply (expands S debug ctx env He); [now apply simple_usable|now apply simple_tame|now apply simple_fine]. Qed.

Lemma plain_calm s : plain_text s -> calm s.
Proof.
  intros (Ha & Hn & _). destruct s as [|c s]; [constructor|]. rewrite <- (app_nil_r (c :: s)). apply calm_plain; [|assumption|now left|constructor].
  unfold all_ascii in Ha. cbn [forallb] in Ha. bdestr. unfold is_ascii in H. now apply N.ltb_lt.
Qed.
Lemma plain_ascii s : plain_text s -> Forall (fun c => c < 128) s.
Proof. intros (Ha & _). unfold all_ascii in Ha. rewrite forallb_forall in Ha. apply Forall_forall. intros x Hx. specialize (Ha x Hx). unfold is_ascii in Ha. now apply N.ltb_lt. Qed.
Lemma plain_display s : plain_text s -> calm_value (display s) /\ N.of_nat (blen (concat (fst (display s)))) <= usize_max.
Proof.
  intros H. split; [exists s; split; [reflexivity|now apply plain_calm]|]. cbn [display fst concat]. rewrite app_nil_r, (ascii_blen s) by now apply plain_ascii. apply H.
Qed.
Lemma plain_reserved debug n s : plain_text s -> tame_reserved debug n (display s).
Proof.
  intros H. right. exists s. split; [reflexivity|]. split; [apply H|]. split.
  - pose proof (plain_ascii s H) as Ha. destruct s as [|c s]; [now left|right]. inversion Ha; subst. eauto.
  - intros _. destruct s as [|c s]; [unfold last_position; rewrite firstn_nil; cbn; lia|].
    destruct (N.to_nat n) as [|m] eqn:En; [cbn; lia|].
    pose proof (last_ascii (Datatypes.S m) (c :: s) (proj1 H) ltac:(discriminate) ltac:(lia)). lia.
Qed.
Lemma plain_supplied h : Forall plain_op h -> forall k x, current h k (Some x) -> plain_value x.
Proof.
  induction 1 as [|op h Ho F IH]; intros k x Hc; inversion Hc; subst; eauto.
Qed.
Lemma plain_tame debug h T : Forall plain_op h -> tame_template debug (sc_visit (sc_run h)) T.
Proof.
  intros F o l r Hi Hr. unfold tame, sc_visit. destruct (map_get (r_name r) (sc_run h)) as [v|] eqn:E; [|exact I].
  assert (Hp : plain_value v) by (eapply plain_supplied; [exact F|]; apply current_iff; exact E).
  destruct v as [|s|l'|l']; [exact I| | |]; cbn [plain_value] in Hp.
  - destruct (r_mod r) as [|ds|].
    + intros _. now apply plain_display.
    + destruct (w_reserved (op_row o)); [now apply plain_reserved|]. left. cbn [display fst concat]. rewrite app_nil_r. apply Hp.
    + intros _. now apply plain_display.
  - intros _. apply Forall_forall. intros d Hd. apply in_map_iff in Hd as (s & <- & Hs). rewrite Forall_forall in Hp. apply plain_display. auto.
  - intros _. apply Forall_forall. intros d Hd. apply in_map_iff in Hd as ([k v] & <- & Hs). rewrite Forall_forall in Hp. specialize (Hp _ Hs) as [H1 H2].
    cbn [fst snd] in *. split; now apply plain_display.
Qed.
Lemma plain_scalar h : Forall plain_op h -> Forall scalar_op h.
Proof.
  assert (A : forall s, plain_text s -> all_scalar s = true) by (intros s (Ha & _); now apply ascii_scalar).
  intros F. eapply Forall_impl; [|exact F]. intros [k v|]; [|auto]. destruct v as [|s|l|l]; cbn; auto; intros Hl; (eapply Forall_impl; [|exact Hl]); auto.
  intros e [H1 H2]. split; auto.
Qed.
Lemma simple_context_env h env : Forall scalar_op h -> (forall k, exists x, current h k x /\ env k = sval_of x) -> supplies_env (sc_visit (sc_run h)) env.
Proof. intros F H k. destruct (H k) as (x & Hc & ->). now apply simple_supplies. Qed.
Lemma expands_plain S debug h env T : Forall plain_op h -> (forall k, exists x, current h k x /\ env k = sval_of x) -> usable T -> fine env T ->
  expand_to_string S debug (sc_visit (sc_run h)) (template_text T) = Ok (crate_expansion S env T).
Proof.
  intros F He HT Hf. apply (expands S debug _ env); auto; [|now apply plain_tame]. apply simple_context_env; [now apply plain_scalar|assumption].
Qed.
Lemma no_panic S debug ctx env T : supplies_env ctx env -> usable T -> tame_template debug ctx T -> expand_to_string S debug ctx (template_text T) <> Panic.
Proof.
  intros He HT Ht. destruct (fine_or env T) as [Hf|[n Hm]].
  - rewrite (expands S debug ctx env He T HT Ht Hf). discriminate.
  - destruct (typechecks debug ctx env He T HT) as (_ & H & _). unfold expand_to_string.
    rewrite (proj2 (H (mkTE UnexpectedValueType n))) by eauto. discriminate.
Qed.
Lemma agreement S debug ctx env T s : supplies_env ctx env -> usable T ->
  (expand_to_string S debug ctx (template_text T) = Ok s <-> fst (expand_dynamic_to_string S debug (dyn_of ctx) (template_text T) tt) = Ok s).
Proof.
  intros He HT. apply (static_dynamic S debug ctx env); [intros r; now apply misused_eq|assumption|]. now destruct (typechecks debug ctx env He T HT).
Qed.
Lemma dynamic_error S debug ctx env T n : supplies_env ctx env -> usable T ->
  fst (expand_dynamic_to_string S debug (dyn_of ctx) (template_text T) tt) = terr UnexpectedValueType n -> expand_to_string S debug ctx (template_text T) = terr UnexpectedValueType n.
Proof.
  intros He HT H. apply (static_error S debug ctx env) in H; [|intros r; now apply misused_eq|assumption].
  destruct (typechecks debug ctx env He T HT) as (_ & X & _). unfold expand_to_string. rewrite (proj2 (X (mkTE UnexpectedValueType n))) by eauto. reflexivity.
Qed.

Lemma current_unique h k : exists x, current h k x /\ forall y, current h k y -> y = x.
Proof. exists (sc_get (sc_run h) k). split; [now apply current_iff|]. intros y Hy. apply current_iff in Hy. now symmetry. Qed.
