(** * C73: interrupted output. *)
From Verif Require Import Base Chars Rfc3986 CompSpec RfcResolve NormSpec EditSpec MTrusted MFormat MWriters MEdit WriteSpec PWrite PInst.
Open Scope string_scope. Open Scope N_scope. Open Scope list_scope.

(** Whatever is displayed (a text [s]), whatever the writer does and wherever it returns an error: what it
    has accepted by then is the beginning of [s]; no panic; and [Ok] is returned only after all of [s]. *)
Theorem C73_interrupted : forall A Wr (d : W A) s (w : Wr -> str -> wstep Wr) st, text d = Ok s ->
  exists st' got rest r, run_display (recorded w) (st, []) d = ((st', got), r) /\ run_display w st d = (st', r) /\
    s = got ++ rest /\ (r = OOk /\ got = s \/ r = OErr).
Proof. exact @interrupted. Qed.
Print Assumptions C73_interrupted.
(** A writer that never fails gets all of it. *)
Theorem C73_uninterrupted : forall A Wr (d : W A) s (w : Wr -> str -> wstep Wr) st, text d = Ok s -> tireless w ->
  exists st', run_display w st d = (st', OOk) /\ run_display (recorded w) (st, []) d = ((st', s), OOk).
Proof. exact @uninterrupted. Qed.
Print Assumptions C73_uninterrupted.
(** Two references that differ only in the password: no writer, wherever it stops, sees a difference
    between their masked forms (neither in the text nor in the number and sizes of the pieces) ... *)
Theorem C73_masked : forall Wr S i i' C C' user pw pw' h o (w : Wr -> str -> wstep Wr) st, ~ In 58 user ->
  dissects S i C (Some (user_password user pw)) h o -> dissects S i' C' (Some (user_password user pw')) h o ->
  c_s C = c_s C' -> c_p C = c_p C' -> c_q C = c_q C' -> c_f C = c_f C' ->
  run_display w st (mask_display i) = run_display w st (mask_display i') /\
  run_display w st (angle_debug (mask_display i)) = run_display w st (angle_debug (mask_display i')).
Proof. exact mask_blind_run. Qed.
Print Assumptions C73_masked.
(** ... nor between their forms with replaced passwords, if the replacements are the same, even if a
    replacement fails or panics halfway. *)
Theorem C73_replaced : forall A Wr S i i' C C' user pw pw' h o (f f' : str -> W A) (w : Wr -> str -> wstep Wr) st, ~ In 58 user ->
  dissects S i C (Some (user_password user pw)) h o -> dissects S i' C' (Some (user_password user pw')) h o ->
  c_s C = c_s C' -> c_p C = c_p C' -> c_q C = c_q C' -> c_f C = c_f C' -> f pw = f' pw' ->
  run_display w st (replaced_display i f) = run_display w st (replaced_display i' f') /\
  run_display w st (angle_debug (replaced_display i f)) = run_display w st (angle_debug (replaced_display i' f')).
Proof. exact replaced_blind_run. Qed.
Print Assumptions C73_replaced.
(** A value whose own [Display] fails (a user's): [write_to_slice] reports an overflow whatever the size of
    the buffer; [try_append_to_string] panics although no allocation failed, leaving what was written. *)
Theorem C73_failing_value : forall A (d : W A), snd d = Fail ->
  (forall buf, fst (write_to_slice buf d) = Ok None) /\
  (forall alloc dest, (forall i, (i < length (fst d))%nat -> alloc i = true) ->
    try_append_to_string alloc dest d = (Panic, dest ++ concat (fst d))).
Proof. exact (fun A d H => conj (fun buf => failing_slice buf d H) (fun alloc dest Ha => failing_append alloc dest d H Ha)). Qed.
Print Assumptions C73_failing_value.

(** The hypotheses are met. *)
Definition C73_iri := lit "http://u:p@h/a?q".
Example C73_text : text (mask_display C73_iri) = Ok (lit "http://u:@h/a?q").
Proof. vm_compute. reflexivity. Qed.
Example C73_interrupted_instance := C73_interrupted unit nat (mask_display C73_iri) _ patient 2%nat C73_text.
Example C73_interrupted_ex : run_display (recorded patient) (2%nat, []) (mask_display C73_iri) = ((0%nat, lit "http://u:"), OErr) /\
  run_display (recorded patient) (3%nat, []) (mask_display C73_iri) = ((0%nat, lit "http://u:@h/a?q"), OOk).
Proof. vm_compute. auto. Qed.
Example C73_uninterrupted_instance := C73_uninterrupted unit unit (mask_display C73_iri) _ (fun _ _ => Cont tt) tt C73_text (fun _ _ => ex_intro _ tt eq_refl).
Lemma C73_dissects pw : pw = lit "p" \/ pw = lit "other" -> dissects UriSpec (lit "http://u:" ++ pw ++ lit "@h/a?q")
  (mkC (Some (lit "http")) (Some (lit "u:" ++ pw ++ lit "@h")) (lit "/a") (Some (lit "q")) None) (Some (user_password (lit "u") pw)) (lit "h") None.
Proof. intros [-> | ->]; ds. Qed.
Example C73_masked_instance := C73_masked nat UriSpec _ _ _ _ (lit "u") _ _ _ _ patient 1%nat ltac:(out)
  (C73_dissects _ (or_introl eq_refl)) (C73_dissects _ (or_intror eq_refl)) eq_refl eq_refl eq_refl eq_refl.
Example C73_replaced_instance := C73_replaced unit nat UriSpec _ _ _ _ (lit "u") _ _ _ _ (fun _ => ([lit "x"], Fail)) (fun _ => ([lit "x"], Fail)) patient 1%nat ltac:(out)
  (C73_dissects _ (or_introl eq_refl)) (C73_dissects _ (or_intror eq_refl)) eq_refl eq_refl eq_refl eq_refl eq_refl.
(** Without masking a writer that stops early has seen the password. *)
Example C73_unmasked : run_display (recorded patient) (3%nat, []) (replaced_display C73_iri write) = ((0%nat, lit "http://u:p@h/a?q"), OOk) /\
  run_display (recorded patient) (2%nat, []) (replaced_display C73_iri write) = ((0%nat, lit "http://u:p"), OErr).
Proof. vm_compute. auto. Qed.
Example C73_failing_instance := C73_failing_value unit (replaced_display C73_iri (fun _ => ([lit "x"], @Fail unit))) ltac:(ev).
