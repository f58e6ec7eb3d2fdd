(** * Proofs for C73. *)
From Verif Require Import Base Chars Rfc3986 CompSpec RfcResolve NormSpec EditSpec PBase MTrusted PTrusted PComps PTypes MFormat MWriters MEdit PEdit WriteSpec.

Lemma recorded_run {Wr} (w : Wr -> str -> wstep Wr) cs : forall st got e,
  exists st' more r, run (recorded w) (st, got) cs e = ((st', got ++ more), r) /\ run w st cs e = (st', r) /\
    (exists rest, concat cs = more ++ rest /\ (r = e /\ rest = [] \/ r = OErr)).
Proof.
  induction cs as [|c cs IH]; intros st got e; cbn [run].
  - exists st, [], e. rewrite app_nil_r. split; [reflexivity|]. split; [reflexivity|]. exists []. split; [reflexivity|auto].
  - unfold recorded at 1. cbn [fst snd]. destruct (w st c) as [st1|st1] eqn:E.
    + destruct (IH st1 (got ++ c) e) as (st' & more & r & H1 & H2 & rest & H3 & H4).
      exists st', (c ++ more), r. rewrite app_assoc. split; [exact H1|]. split; [exact H2|].
      exists rest. cbn [concat]. rewrite H3, app_assoc. auto.
    + exists st1, [], OErr. rewrite app_nil_r. split; [reflexivity|]. split; [reflexivity|]. exists (concat (c :: cs)). auto.
Qed.
Lemma recorded_any {A Wr} (d : W A) (w : Wr -> str -> wstep Wr) st :
  exists st' got r, run_display (recorded w) (st, []) d = ((st', got), r) /\ run_display w st d = (st', r) /\
    exists rest, concat (fst d) = got ++ rest /\ (r = end_of (snd d) /\ rest = [] \/ r = OErr).
Proof. destruct (recorded_run w (fst d) st [] (end_of (snd d))) as (st' & more & r & H). now exists st', more, r. Qed.
Lemma tireless_run {Wr} (w : Wr -> str -> wstep Wr) cs : tireless w -> forall st e, snd (run w st cs e) = e.
Proof.
  intros T. induction cs as [|c cs IH]; intros st e; cbn [run]; [reflexivity|].
  destruct (T st c) as [st' ->]. apply IH.
Qed.
Lemma text_ret {A} (d : W A) s : text d = Ok s -> exists a, snd d = Ret a /\ concat (fst d) = s.
Proof. unfold text. destruct (snd d) as [a| |]; [|discriminate|discriminate]. intros [= <-]. now exists a. Qed.

Lemma interrupted {A Wr} (d : W A) s (w : Wr -> str -> wstep Wr) st : text d = Ok s ->
  exists st' got rest r, run_display (recorded w) (st, []) d = ((st', got), r) /\ run_display w st d = (st', r) /\
    s = got ++ rest /\ (r = OOk /\ got = s \/ r = OErr).
Proof.
  intros H. destruct (text_ret d s H) as (a & E & T). destruct (recorded_any d w st) as (st' & got & r & H1 & H2 & rest & H3 & H4).
  exists st', got, rest, r. split; [exact H1|]. split; [exact H2|]. rewrite T in H3. split; [exact H3|].
  destruct H4 as [[-> ->]| ->]; [left|now right]. rewrite E. split; [reflexivity|]. now rewrite app_nil_r in H3.
Qed.
Lemma uninterrupted {A Wr} (d : W A) s (w : Wr -> str -> wstep Wr) st : text d = Ok s -> tireless w ->
  exists st', run_display w st d = (st', OOk) /\ run_display (recorded w) (st, []) d = ((st', s), OOk).
Proof.
  intros H T. destruct (text_ret d s H) as (a & E & Ht). destruct (recorded_any d w st) as (st' & got & r & H1 & H2 & rest & H3 & H4).
  pose proof (tireless_run w (fst d) T st (end_of (snd d))) as Er. unfold run_display in H2 at 1. rewrite H2 in Er. cbn [snd] in Er.
  rewrite E in Er, H4. cbn [end_of] in *. subst r. exists st'. split; [exact H2|].
  destruct H4 as [[_ ->]|H4]; [|discriminate]. rewrite app_nil_r in H3. now rewrite H1, <- H3, Ht.
Qed.

(** ** A [Display] that fails by itself *)
Lemma string_run alloc cs : forall dest n, (forall i, (i < length cs)%nat -> alloc (n + i)%nat = true) -> forall e,
  run (string_write alloc) (mkSW dest false n) cs e = (mkSW (dest ++ concat cs) false (n + length cs), e).
Proof.
  induction cs as [|c cs IH]; intros dest n H e; cbn [run concat length].
  - now rewrite app_nil_r, Nat.add_0_r.
  - unfold string_write at 1. cbn [sw_error sw_calls sw_buffer].
    pose proof (H 0%nat ltac:(cbn [length]; lia)) as H0. rewrite Nat.add_0_r in H0. rewrite H0.
    rewrite IH by (intros i Hi; replace (S n + i)%nat with (n + S i)%nat by lia; apply H; cbn [length]; lia).
    rewrite <- app_assoc. now replace (S n + length cs)%nat with (n + S (length cs))%nat by lia.
Qed.
Lemma failing_append {A} alloc dest (d : W A) : snd d = Fail -> (forall i, (i < length (fst d))%nat -> alloc i = true) ->
  try_append_to_string alloc dest d = (Panic, dest ++ concat (fst d)).
Proof.
  intros E H. unfold try_append_to_string, run_display. rewrite E. cbn [end_of].
  rewrite (string_run alloc (fst d) dest 0 H). reflexivity.
Qed.
Lemma cmp_err cs : forall s, snd (run cmp_write s cs OErr) = OErr.
Proof. induction cs as [|c cs IH]; intros s; cbn [run]; [reflexivity|]. destruct (cmp_write s c); [apply IH|reflexivity]. Qed.
Lemma failing_eq {A} s (d : W A) : snd d = Fail -> eq_str_display s d = Ok false.
Proof.
  intros E. unfold eq_str_display, run_display. rewrite E. cbn [end_of]. pose proof (cmp_err (fst d) s) as H.
  destruct (run cmp_write s (fst d) OErr) as [x r]. cbn [snd] in H. now subst r.
Qed.
Lemma slice_err cs : forall b, snd (run bytebuf_write b cs OErr) = OErr.
Proof. induction cs as [|c cs IH]; intros s; cbn [run]; [reflexivity|]. destruct (bytebuf_write s c); [apply IH|reflexivity]. Qed.
Lemma failing_slice {A} buf (d : W A) : snd d = Fail -> fst (write_to_slice buf d) = Ok None.
Proof.
  intros E. unfold write_to_slice, run_display. rewrite E. cbn [end_of]. pose proof (slice_err (fst d) ([], buf)) as H.
  destruct (run bytebuf_write ([], buf) (fst d) OErr) as [[x y] r]. cbn [snd] in H. now subst r.
Qed.

(** ** Passwords *)
Lemma masked_writes {A} s l m r st e (alt : W A) : s = l ++ m ++ r -> st = length l -> e = (length l + length m)%nat ->
  write_with_masked_password s st e alt =
    match snd alt with
    | Ret _ => ((l :: fst alt) ++ [r], Ret tt)
    | Fail => (l :: fst alt, Fail)
    | Pan => (l :: fst alt, Pan)
    end.
Proof.
  intros Es -> ->. unfold write_with_masked_password.
  assert (Hl : Nat.leb (length l + length m) (length s) = true) by (apply Nat.leb_le; rewrite Es, !app_length; lia).
  rewrite Hl.
  assert (E1 : slice_p s 0 (length l) = Ok l) by (exact (slice_front l (m ++ r) s _ Es eq_refl)).
  assert (E2 : slice_p s (length l + length m) (length s) = Ok r).
  { refine (slice_back (l ++ m) r s _ _ _); [now rewrite Es, <- app_assoc|now rewrite app_length]. }
  rewrite E1, E2. cbn [lift wbind wret write]. destruct alt as [o [a| |]]; cbn; [|reflexivity|reflexivity].
  now rewrite app_nil_r.
Qed.
Lemma replaced_writes (A : Type) S i C user pw h o (f : str -> W A) : dissects S i C (Some (user_password user pw)) h o -> ~ In 58 user ->
  replaced_display i f =
    let l := (osch (c_s C) ++ lit "//") ++ user ++ lit ":" in
    match snd (f pw) with
    | Ret _ => ((l :: fst (f pw)) ++ [tail_of C h o], Ret tt)
    | Fail => (l :: fst (f pw), Fail)
    | Pan => (l :: fst (f pw), Pan)
    end.
Proof.
  intros H Hc.
  assert (Ei : i = ((osch (c_s C) ++ lit "//") ++ user ++ lit ":") ++ pw ++ tail_of C h o)
    by (rewrite (dissects_render _ _ _ _ _ _ H); apply render_pw).
  unfold replaced_display. rewrite (range_pw _ _ _ _ _ _ _ H Hc). cbn [lift wbind wret].
  rewrite (slice_p_mid _ _ _ _ _ _ Ei eq_refl eq_refl). cbn [lift wbind wret].
  rewrite (masked_writes i _ pw _ _ _ (f pw) Ei eq_refl eq_refl). cbn zeta. destruct (snd (f pw)); reflexivity.
Qed.
Lemma mask_as_replaced S i C user pw h o : dissects S i C (Some (user_password user pw)) h o -> ~ In 58 user ->
  mask_display i = replaced_display i (fun _ => write []).
Proof.
  intros H Hc.
  assert (Ei : i = ((osch (c_s C) ++ lit "//") ++ user ++ lit ":") ++ pw ++ tail_of C h o)
    by (rewrite (dissects_render _ _ _ _ _ _ H); apply render_pw).
  unfold mask_display, replaced_display. rewrite (range_pw _ _ _ _ _ _ _ H Hc). cbn [lift wbind wret].
  rewrite (slice_p_mid _ _ _ _ _ _ Ei eq_refl eq_refl). cbn [lift wbind wret].
  destruct (write_with_masked_password i _ _ (write [])); reflexivity.
Qed.
Lemma tail_same C C' h o : c_p C = c_p C' -> c_q C = c_q C' -> c_f C = c_f C' -> tail_of C h o = tail_of C' h o.
Proof. intros E2 E3 E4. unfold tail_of. now rewrite E2, E3, E4. Qed.
Lemma replaced_blind (A : Type) S i i' C C' user pw pw' h o (f f' : str -> W A) : ~ In 58 user ->
  dissects S i C (Some (user_password user pw)) h o -> dissects S i' C' (Some (user_password user pw')) h o ->
  c_s C = c_s C' -> c_p C = c_p C' -> c_q C = c_q C' -> c_f C = c_f C' -> f pw = f' pw' ->
  replaced_display i f = replaced_display i' f'.
Proof.
  intros Hc H H' E1 E2 E3 E4 E. rewrite (replaced_writes A _ _ _ _ _ _ _ f H Hc), (replaced_writes A _ _ _ _ _ _ _ f' H' Hc).
  rewrite E, E1, (tail_same C C' h o E2 E3 E4). reflexivity.
Qed.
Lemma replaced_blind_run (A Wr : Type) S i i' C C' user pw pw' h o (f f' : str -> W A) (w : Wr -> str -> wstep Wr) st : ~ In 58 user ->
  dissects S i C (Some (user_password user pw)) h o -> dissects S i' C' (Some (user_password user pw')) h o ->
  c_s C = c_s C' -> c_p C = c_p C' -> c_q C = c_q C' -> c_f C = c_f C' -> f pw = f' pw' ->
  run_display w st (replaced_display i f) = run_display w st (replaced_display i' f') /\
  run_display w st (angle_debug (replaced_display i f)) = run_display w st (angle_debug (replaced_display i' f')).
Proof. intros. now rewrite (replaced_blind A S i i' C C' user pw pw' h o f f') by assumption. Qed.
Lemma mask_blind_run (Wr : Type) S i i' C C' user pw pw' h o (w : Wr -> str -> wstep Wr) st : ~ In 58 user ->
  dissects S i C (Some (user_password user pw)) h o -> dissects S i' C' (Some (user_password user pw')) h o ->
  c_s C = c_s C' -> c_p C = c_p C' -> c_q C = c_q C' -> c_f C = c_f C' ->
  run_display w st (mask_display i) = run_display w st (mask_display i') /\
  run_display w st (angle_debug (mask_display i)) = run_display w st (angle_debug (mask_display i')).
Proof.
  intros Hc H H' E1 E2 E3 E4. rewrite (mask_as_replaced _ _ _ _ _ _ _ H Hc), (mask_as_replaced _ _ _ _ _ _ _ H' Hc).
  now apply (replaced_blind_run unit Wr S i i' C C' user pw pw' h o).
Qed.
