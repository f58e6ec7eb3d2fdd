(** * What an expansion may contain (C42), proofs. *)
From Verif Require Import Base Chars Rfc3986 Utf8 PctSpec EncodeSpec MValidate MTrusted MFormat MSearch MPct MEncode MTemplate MMaybePct MExpand TemplateSpec ExpandSpec SafeSpec.
From Verif Require Import PBase PScan PSearch PPct PPct2 PEncode PEncode2 PPath2 PTmpl1 PTmpl2 PTmpl3 PExp4.

Lemma toks_mono f g s : (forall c, f c = true -> g c = true) -> toks f s -> toks g s.
Proof.
  intros H. induction 1 as [|a b Ha _ IH]; [constructor|]. apply star_cons; [|exact IH].
  destruct Ha as [(c & -> & Hc)|Ha]; [left; exists c; auto|now right].
Qed.
Lemma toks_cls ok s : forallb ok s = true -> toks ok s.
Proof.
  induction s as [|c s IH]; cbn [forallb]; intros H; [constructor|]. bdestr. change (c :: s) with ([c] ++ s). apply star_cons; [left; now exists c|now apply IH].
Qed.

(** Everything written is in [L], and what is returned satisfies [Q]. *)
Definition emits (ok : N -> bool) {A} (x : W A) (Q : A -> Prop) : Prop :=
  Forall (toks ok) (fst x) /\ forall a, snd x = Ret a -> Q a.
Section E.
Variable ok : N -> bool.
Lemma emits_bind {A B} (x : W A) (f : A -> W B) Q R : emits ok x Q -> (forall a, Q a -> emits ok (f a) R) -> emits ok (wbind x f) R.
Proof.
  intros [F H] Hf. destruct x as [o [a| |]]; cbn [wbind fst snd] in *.
  - destruct (Hf a (H a eq_refl)) as [F' H']. destruct (f a) as [o' r]. cbn [fst snd] in *. split; [now apply Forall_app|exact H'].
  - split; [exact F|discriminate].
  - split; [exact F|discriminate].
Qed.
Lemma emits_ret {A} (a : A) (Q : A -> Prop) : Q a -> emits ok (wret a) Q.
Proof. intros H. split; [constructor|]. now intros b [= <-]. Qed.
Lemma emits_panic {A} (Q : A -> Prop) : emits ok (@wpanic A) Q. Proof. split; [constructor|discriminate]. Qed.
Lemma emits_fail {A} (Q : A -> Prop) : emits ok (@wfail A) Q. Proof. split; [constructor|discriminate]. Qed.
Lemma emits_write s (Q : unit -> Prop) : toks ok s -> Q tt -> emits ok (write s) Q.
Proof. intros H HQ. split; [repeat constructor; exact H|now intros []]. Qed.
Lemma emits_lift {A} (x : may A) (Q : A -> Prop) : (forall a, x = Ok a -> Q a) -> emits ok (lift x) Q.
Proof. destruct x as [a|[]|]; intros H; [now apply emits_ret, H|apply emits_panic]. Qed.
Lemma emits_text {A} (x : W A) Q : emits ok x Q -> toks ok (concat (fst x)).
Proof. intros [F _]. induction F; cbn [concat]; [constructor|now apply star_app]. Qed.
End E.
Lemma emits_mono f g {A} (x : W A) Q : (forall c, f c = true -> g c = true) -> emits f x Q -> emits g x Q.
Proof. intros H [F HQ]. split; [|exact HQ]. eapply Forall_impl; [|exact F]. intros s. now apply toks_mono. Qed.

(** ** Percent-encoding *)
Lemma pe_emits {A} S ctx ok (d : W A) : (forall c, is_valid_char S ctx c = true -> ok c = true) ->
  all_scalar (concat (fst d)) = true -> emits ok (PercentEncoded S ctx d) (fun _ => True).
Proof.
  intros Hok Hs. split; [|auto]. unfold PercentEncoded. cbn [fst]. apply Forall_forall. intros x Hx.
  apply in_flat_map in Hx as (s & Hi & Hx). unfold filter_str in Hx. apply in_flat_map in Hx as (c & Hc & Hx).
  assert (Sc : is_scalar c = true). { unfold all_scalar in Hs. rewrite forallb_forall in Hs. apply Hs. apply in_concat. now exists s. }
  unfold filter_char in Hx. destruct (is_valid_char S ctx c) eqn:E.
  - destruct Hx as [<-|[]]. apply star_one. left. exists c. auto.
  - apply in_map_iff in Hx as (b & <- & Hb). apply star_one. right. pose proof (utf8_bytes c Sc) as B. unfold bytes in B. rewrite Forall_forall in B.
    rewrite triplet_upper by now apply B. apply triplet_pct. now apply B.
Qed.
Lemma take_in n : forall i s la, incl (snd (take_chars n i s la)) s.
Proof.
  intros i s. revert n i. induction s as [|c s IH]; intros n i la; cbn [take_chars]; [intros x []|].
  destruct (n =? 0); [intros x []|]. specialize (IH (n - 1) (i + N.of_nat (clen c)) (Some i)).
  destruct (take_chars _ _ s _) as [l t]. cbn [snd] in *. intros x [->|H]; [now left|right; now apply IH].
Qed.
Lemma scalar_incl a b : incl a b -> all_scalar b = true -> all_scalar a = true.
Proof. unfold all_scalar. rewrite !forallb_forall. auto. Qed.
Lemma sub_emits ok debug a b : emits ok (usize_sub debug a b) (fun _ => True).
Proof. unfold usize_sub. destruct (b <=? a); [now apply emits_ret|]. destruct debug; [apply emits_panic|now apply emits_ret]. Qed.
Lemma display_scalar s : all_scalar s = true -> all_scalar (concat (fst (display s))) = true.
Proof. intros H. unfold display. cbn [fst concat]. now rewrite app_nil_r. Qed.

Lemma truncate_emits S debug l : forall n, all_scalar (concat l) = true -> emits (unreserved S) (truncate_chunks S debug n l) (fun _ => True).
Proof.
  induction l as [|s l IH]; intros n Hs; cbn [truncate_chunks]; [now apply emits_ret|].
  cbn [concat] in Hs. unfold all_scalar in Hs. rewrite forallb_app' in Hs. bdestr.
  apply emits_bind with (Q := fun _ => True); [|intros a _; now apply IH]. unfold truncate_write. destruct (n =? 0); [now apply emits_ret|].
  pose proof (take_in n 0 s None) as Hi. destruct (take_chars n 0 s None) as [la t]. cbn [snd] in Hi.
  eapply emits_bind; [apply pe_emits|intros _ _; apply sub_emits].
  - intros c. now rewrite v_unreserve.
  - apply display_scalar. eapply scalar_incl; eassumption.
Qed.

(** ** The decoder for the reserved operators *)
(** "%", then two hexadecimal digits, again and again, possibly cut off. *)
Definition tri (e : list N) : Prop :=
  forall i x, nth_error e i = Some x -> if Nat.eqb (Nat.modulo i 3) 0 then x = 37 else is_hexdigit x = true.
Lemma tri_nil : tri []. Proof. intros i x H. now destruct i. Qed.
Lemma tri_snoc e x : tri e -> (if Nat.eqb (Nat.modulo (length e) 3) 0 then x = 37 else is_hexdigit x = true) -> tri (e ++ [x]).
Proof.
  intros H Hx i y E. destruct (Nat.lt_ge_cases i (length e)) as [L|L].
  - rewrite nth_error_app1 in E by assumption. now apply H.
  - rewrite nth_error_app2 in E by assumption. destruct (i - length e)%nat as [|k] eqn:D; cbn in E; [|now destruct k]. injection E as <-.
    now replace i with (length e) by lia.
Qed.
Lemma tri_firstn e n : tri e -> tri (firstn n e).
Proof.
  intros H i x E. apply H. rewrite <- (firstn_skipn n e). rewrite nth_error_app1; [exact E|]. apply nth_error_Some. congruence.
Qed.
Lemma tri_skipn e k : tri e -> tri (skipn (k * 3) e).
Proof.
  intros H i x E. destruct (Nat.le_gt_cases (length e) (k * 3)) as [L|L]; [rewrite skipn_all2 in E by assumption; now destruct i|].
  specialize (H (k * 3 + i)%nat x). rewrite Nat.add_comm, Nat.mod_add in H by discriminate. apply H.
  rewrite <- (firstn_skipn (k * 3) e). rewrite nth_error_app2; rewrite firstn_length_le by lia; [|lia].
  now replace (i + k * 3 - k * 3)%nat with i by lia.
Qed.
Lemma mod3_step n : Nat.modulo (Datatypes.S (Datatypes.S (Datatypes.S n))) 3 = Nat.modulo n 3.
Proof. replace (Datatypes.S (Datatypes.S (Datatypes.S n))) with (n + 1 * 3)%nat by lia. now apply Nat.mod_add. Qed.
Lemma tri_toks ok n : forall e, (length e <= n)%nat -> tri e -> Nat.modulo (length e) 3 = 0%nat -> toks ok e.
Proof.
  induction n as [|n IH]; intros e Hn H M.
  - destruct e; [constructor|cbn in Hn; lia].
  - destruct e as [|a [|b [|c e]]]; cbn [length] in *; [constructor|discriminate|discriminate|]. rewrite mod3_step in M.
    change (a :: b :: c :: e) with ([a; b; c] ++ e). apply star_cons.
    + right. apply pct_encoded_iff. exists b, c. pose proof (H 0%nat a eq_refl) as E0. pose proof (H 1%nat b eq_refl). pose proof (H 2%nat c eq_refl). cbn in *. now subst.
    + apply IH; [lia| |exact M]. exact (tri_skipn (a :: b :: c :: e) 1 H).
Qed.
Lemma tri_hex e k : tri e -> Nat.modulo k 3 <> 0%nat -> (length e <= k + 1)%nat -> forallb is_hexdigit (skipn k e) = true.
Proof.
  intros H Hk L. apply forallb_forall. intros x Hx. apply In_nth_error in Hx as [i E].
  destruct (Nat.le_gt_cases (length e) k) as [L'|L']; [rewrite skipn_all2 in E by assumption; now destruct i|].
  assert (E' : nth_error e (k + i) = Some x).
  { rewrite <- (firstn_skipn k e). rewrite nth_error_app2; rewrite firstn_length_le by lia; [|lia]. now replace (k + i - k)%nat with i by lia. }
  assert (i = 0)%nat by (assert (k + i < length e)%nat by (apply nth_error_Some; congruence); lia). subst i.
  rewrite Nat.add_0_r in E'. specialize (H _ _ E'). destruct (Nat.eqb_spec (Nat.modulo k 3) 0); [contradiction|exact H].
Qed.
Definition dbok (db : DecoderBuffer) : Prop := tri (db_encoded db).
Lemma pop_ok db n w db' : dbok db -> write_and_pop db n = Ok (w, db') ->
  tri w /\ w = firstn n (db_encoded db) /\ (Nat.modulo n 3 = 0%nat \/ n = length (db_encoded db) -> dbok db').
Proof.
  intros H. unfold write_and_pop, sub_p. destruct (Nat.ltb_spec (length (db_encoded db)) n) as [L|L]; cbn [bind]; [discriminate|].
  destruct (Nat.eqb_spec (length (db_encoded db) - n) 0) as [Z|Z]; intros E; injection E as <- <-; (split; [now apply tri_firstn|split; [reflexivity|]]).
  - intros _. apply tri_nil.
  - intros [M|M]; [|lia]. unfold dbok. cbn [db_encoded]. apply Nat.mod_divides in M as [k ->]; [|discriminate]. rewrite Nat.mul_comm. now apply tri_skipn.
Qed.
Lemma pop_all db w db' : dbok db -> write_and_pop db (length (db_encoded db)) = Ok (w, db') -> w = db_encoded db /\ dbok db'.
Proof. intros H E. destruct (pop_ok _ _ _ _ H E) as (_ & -> & H'). split; [now rewrite firstn_all|apply H'; now right]. Qed.
Lemma push_len debug db x db' : push_single debug db x = Ok db' -> db_encoded db' = db_encoded db ++ [x].
Proof.
  unfold push_single. destruct (Nat.leb 12 _); [discriminate|]. destruct (Nat.eqb _ 0); [|now intros [= <-]].
  destruct (get_at _ _) as [u|[]|]; cbn [bind]; try discriminate. destruct (debug && _); [discriminate|].
  destruct (hexdigits_to_byte _ _) as [d|[]|]; cbn [bind]; try discriminate. now intros [= <-].
Qed.
Definition result_ok (r : PushResult) : Prop :=
  match r with
  | NeedMoreBytes => True
  | Decoded w _ => tri w /\ Nat.modulo (length w) 3 = 0%nat
  | Undecodable w => tri w
  end.
Lemma push_loop_ok debug s : forall db inc consumed n r db', dbok db -> inc = Nat.modulo (length (db_encoded db)) 3 ->
  push_loop debug db inc consumed s = Ok (n, r, db') -> result_ok r /\ dbok db'.
Proof.
  induction s as [|c s IH]; intros db inc consumed n r db' H Hi; cbn [push_loop].
  - intros [= <- <- <-]. now split.
  - assert (U : forall k, (do (w, db) <- write_and_pop db (length (db_encoded db)); do n <- k; Ok (n, Undecodable w, db)) = Ok (n, r, db') -> result_ok r /\ dbok db').
    { intros k. destruct (write_and_pop db _) as [[w d]|[]|] eqn:E; cbn [bind]; try discriminate. destruct k as [m|[]|]; cbn [bind]; try discriminate.
      intros X; injection X as <- <- <-. destruct (pop_all _ _ _ H E) as [-> H']. now split. }
    destruct (Nat.eqb_spec inc 0) as [Z|Z].
    + destruct (N.eqb_spec c PCT) as [->|]; cbn [negb]; [|apply U]. destruct (push_single debug db PCT) as [d|[]|] eqn:E; cbn [bind]; try discriminate.
      pose proof (push_len _ _ _ _ E) as L. apply IH.
      * unfold dbok. rewrite L. apply tri_snoc; [exact H|]. rewrite <- Hi, Z. reflexivity.
      * rewrite L, app_length. cbn [length]. rewrite Z in Hi. symmetry. rewrite Nat.add_mod, <- Hi by discriminate. reflexivity.
    + destruct (is_hexdigit c) eqn:Hc; cbn [negb]; [|apply U]. destruct (push_single debug db c) as [d|[]|] eqn:E; cbn [bind]; try discriminate.
      pose proof (push_len _ _ _ _ E) as L.
      assert (Hd : dbok d). { unfold dbok. rewrite L. apply tri_snoc; [exact H|]. rewrite <- Hi. destruct (Nat.eqb_spec inc 0); [contradiction|exact Hc]. }
      assert (Hm : Nat.modulo (length (db_encoded d)) 3 = Nat.modulo (inc + 1) 3).
      { rewrite L, app_length. cbn [length]. rewrite Nat.add_mod, <- Hi by discriminate. reflexivity. }
      destruct (Nat.eqb_spec inc 1) as [Z1|Z1]; [apply IH; [exact Hd|rewrite Hm, Z1; reflexivity]|].
      assert (Z2 : inc = 2%nat) by (pose proof (Nat.mod_upper_bound (length (db_encoded db)) 3 ltac:(discriminate)); lia). subst inc. rewrite Z2 in *. change (Nat.modulo (2 + 1) 3) with 0%nat in Hm.
      destruct (utf8_error (db_decoded d)) as [[v e]|].
      * destruct (negb (Nat.eqb v 0)); [discriminate|]. destruct e as [k|]; [|apply IH; [exact Hd|now rewrite Hm]].
        destruct (Nat.eqb k 0); [discriminate|]. destruct (write_and_pop d (k * 3)) as [[w d']|[]|] eqn:P; cbn [bind]; try discriminate.
        intros X; injection X as <- <- <-. destruct (pop_ok _ _ _ _ Hd P) as (T & _ & H'). split; [exact T|apply H'; left; apply Nat.mod_mul; discriminate].
      * destruct (from_utf8 (db_decoded d)) as [[|ch l]|]; try discriminate.
        destruct (write_and_pop d _) as [[w d']|[]|] eqn:P; cbn [bind]; try discriminate.
        intros X; injection X as <- <- <-. destruct (pop_all _ _ _ Hd P) as [-> H']. split; [|exact H']. cbn [result_ok]. now split.
Qed.
Lemma push_ok debug db s n r db' : dbok db -> push_encoded debug db s = Ok (n, r, db') -> result_ok r /\ dbok db'.
Proof. intros H E. unfold push_encoded in E. now eapply push_loop_ok; [| |exact E]. Qed.

(** The fragments given to the output function. *)
Definition frag_ok (f : Frag) : Prop :=
  match f with
  | NoPctStr s => all_scalar s = true
  | FStrayPercent => True
  | FChar s _ => tri s /\ Nat.modulo (length s) 3 = 0%nat
  | InvalidUtf8PctTriplets s => tri s /\ Nat.modulo (length s) 3 = 0%nat
  end.
Lemma hex_scalar s : forallb is_hexdigit s = true -> all_scalar s = true.
Proof.
  unfold all_scalar. rewrite !forallb_forall. intros H x Hx. specialize (H x Hx).
  assert (x < 128) by (revert H; unfold is_hexdigit, is_digit, between; intros; bdestr; lia).
  unfold is_scalar. rewrite (proj2 (N.ltb_lt x 55296)) by lia. reflexivity.
Qed.
Section Proc.
Context {St : Type}.
Variables (debug : bool) (ok : N -> bool) (f : St -> Frag -> W (St + unit)).
Hypothesis Hf : forall st fr, frag_ok fr -> emits ok (f st fr) (fun _ => True).
Notation em x := (emits ok x (fun _ => True)).
Lemma andthen_em {A} (x : W (A + unit)) k : em x -> (forall a, em (k a)) -> em (andthen x k).
Proof. intros H Hk. unfold andthen. eapply emits_bind; [exact H|]. intros [a|u] _; [apply Hk|now apply emits_ret]. Qed.
Lemma len_mod (w : list N) : Nat.modulo (length w - Nat.modulo (length w) 3) 3 = 0%nat.
Proof.
  pose proof (Nat.div_mod (length w) 3 ltac:(discriminate)) as D. replace (length w - Nat.modulo (length w) 3)%nat with (length w / 3 * 3)%nat by lia.
  now apply Nat.mod_mul.
Qed.
Lemma head_ok (w : list N) : tri w -> frag_ok (InvalidUtf8PctTriplets (firstn (length w - Nat.modulo (length w) 3) w)).
Proof. intros H. cbn [frag_ok]. split; [now apply tri_firstn|]. rewrite firstn_length_le by lia. apply len_mod. Qed.
Lemma tail_ok (w : list N) : tri w -> frag_ok (NoPctStr (skipn (length w - Nat.modulo (length w) 3 + 1) w)).
Proof.
  intros H. cbn [frag_ok]. apply hex_scalar. pose proof (Nat.mod_upper_bound (length w) 3 ltac:(discriminate)). apply tri_hex; [exact H| |].
  - rewrite Nat.add_mod, len_mod by discriminate. discriminate.
  - lia.
Qed.
Lemma undecodable_em st w : tri w -> em (output_as_undecodable debug f st w).
Proof.
  intros H. unfold output_as_undecodable. apply andthen_em; [apply Hf, head_ok, H|]. intros st1.
  destruct (Nat.ltb 0 _); [|now apply emits_ret]. apply andthen_em; [now apply Hf|]. intros st2.
  destruct (Nat.ltb 1 _); [|now apply emits_ret]. destruct (debug && _); [apply emits_panic|]. apply Hf, tail_ok, H.
Qed.
Lemma str_from_scalar s n r : all_scalar s = true -> str_from s n = Ok r -> all_scalar r = true.
Proof.
  revert n r. unfold str_from. induction s as [|c s IH]; intros n r H.
  - destruct n; cbn [str_split_at bind]; [now intros [= <-]|discriminate].
  - destruct n as [|n]; cbn [str_split_at]; [cbn [bind]; now intros [= <-]|].
    destruct (Nat.ltb _ _); [discriminate|]. unfold all_scalar in *. cbn [forallb] in H. bdestr.
    specialize (IH (Datatypes.S n - clen c)%nat r). destruct (str_split_at s _) as [[a b]|[]|]; cbn [bind] in *; try discriminate. now apply IH.
Qed.
Definition okpair (x : St * DecoderBuffer + unit) : Prop := match x with inl (_, db) => dbok db | inr _ => True end.
Lemma loop_em fuel : forall st db rest, dbok db -> all_scalar rest = true -> emits ok (decompose_loop debug f fuel st db rest) okpair.
Proof using Hf.
  induction fuel as [|fuel IH]; intros st db rest Hd Hs; cbn [decompose_loop]; [apply emits_panic|].
  destruct (is_empty rest); [now apply emits_ret|].
  apply emits_bind with (Q := fun x : nat * PushResult * DecoderBuffer => result_ok (snd (fst x)) /\ dbok (snd x)).
  { apply emits_lift. intros [[n r] d] E. exact (push_ok _ _ _ _ _ _ Hd E). }
  intros [[n r] d] [Hr Hd1]. cbn [fst snd] in Hr, Hd1. destruct (Nat.eqb n 0).
  - apply emits_bind with (Q := fun x : option (list N * DecoderBuffer) => match x with Some (w, d) => tri w /\ dbok d | None => True end).
    { apply emits_lift. intros [[w d']|] E; [|exact I]. unfold flush in E. destruct (is_empty _); [discriminate|].
      destruct (write_and_pop d _) as [[w2 d2]|[]|] eqn:P; cbn [bind] in E; try discriminate. injection E as <- <-.
      destruct (pop_all _ _ _ Hd1 P) as [-> H']. now split. }
    intros fl Hfl.
    apply emits_bind with (Q := fun x : St * DecoderBuffer * str + unit => match x with inl (_, d, s) => dbok d /\ all_scalar s = true | inr _ => True end).
    { destruct fl as [[w d']|]; [|now apply emits_ret]. destruct Hfl as [Ht Hd2]. eapply emits_bind; [apply undecodable_em, Ht|].
      intros [st'|u] _; [|now apply emits_ret]. apply emits_bind with (Q := fun s => all_scalar s = true).
      - apply emits_lift. intros s. now apply str_from_scalar.
      - intros s Hs'. apply emits_ret. now split. }
    intros [[[st' d'] s]|u] H; [|now apply emits_ret]. destruct H as [Hd3 Hs3].
    assert (F : let '(p, q) := match find_split s PCT with Some p => p | None => (s, []) end in all_scalar p = true /\ all_scalar q = true).
    { unfold find_split. destruct (split_first (N.eqb PCT) s) as [[[p x] q]|] eqn:E.
      - apply split_first_some in E as (-> & _). unfold all_scalar in *. rewrite forallb_app' in Hs3. cbn [forallb] in *. bdestr. split; [assumption|now apply andb_true_intro].
      - now split. }
    destruct (match find_split s PCT with Some p => p | None => (s, []) end) as [p q]. destruct F as [Fp Fq].
    destruct (debug && is_empty p); [apply emits_panic|]. eapply emits_bind; [apply Hf; exact Fp|]. intros [st2|u] _; [now apply IH|now apply emits_ret].
  - apply emits_bind with (Q := fun _ => True).
    { destruct r as [|w c|w]; cbn [result_ok] in Hr; [now apply emits_ret|now apply Hf|now apply undecodable_em]. }
    intros [st'|u] _; [|now apply emits_ret]. apply emits_bind with (Q := fun s => all_scalar s = true).
    + apply emits_lift. intros s. now apply str_from_scalar.
    + intros s Hs'. now apply IH.
Qed.
Lemma chunks_em l : forall st db, dbok db -> all_scalar (concat l) = true -> emits ok (decompose_chunks debug f st db l) okpair.
Proof using Hf.
  induction l as [|s l IH]; intros st db Hd Hs; cbn [decompose_chunks]; [now apply emits_ret|].
  cbn [concat] in Hs. unfold all_scalar in Hs. rewrite forallb_app' in Hs. bdestr. eapply emits_bind; [apply loop_em; assumption|].
  intros [[st' d]|u] Hp; [now apply IH|now apply emits_ret].
Qed.
Lemma process_em st v : all_scalar (concat (fst v)) = true -> em (process_percent_encoded_best_effort debug f st v).
Proof using Hf.
  intros Hs. unfold process_percent_encoded_best_effort. eapply emits_bind; [apply chunks_em; [apply tri_nil|exact Hs]|].
  intros [[st' d]|u] Hd; [|now apply emits_ret]. cbn [okpair] in Hd. destruct v as [cs [u| |]]; cbn [fst snd] in *; [|apply emits_fail|apply emits_panic].
  apply emits_bind with (Q := fun x : option (list N * DecoderBuffer) => match x with Some (w, d) => tri w | None => True end).
  { apply emits_lift. intros [[w d']|] E; [|exact I]. unfold flush in E. destruct (is_empty _); [discriminate|].
    destruct (write_and_pop d _) as [[w2 d2]|[]|] eqn:P; cbn [bind] in E; try discriminate. injection E as <- <-.
    now destruct (pop_all _ _ _ Hd P) as [-> H']. }
  intros [[w d']|] Hw; [|now apply emits_ret]. eapply emits_bind; [|intros; now apply emits_ret].
  apply andthen_em; [apply Hf, head_ok, Hw|]. intros st1. apply andthen_em; [destruct (Nat.ltb 0 _); [now apply Hf|now apply emits_ret]|].
  intros st2. destruct (Nat.ltb 1 _); [apply Hf, tail_ok, Hw|now apply emits_ret].
Qed.
End Proc.

(** ** Escaping *)
Lemma char_tri ok s : tri s -> Nat.modulo (length s) 3 = 0%nat -> toks ok s.
Proof. intros. now apply (tri_toks ok (length s)). Qed.
Lemma stray_tok ok : toks ok (lit "%25").
Proof. apply star_one. right. apply pct_encoded_iff. exists 50, 53. repeat split. Qed.
Lemma escape_frag_em S st fr : frag_ok fr -> emits (character_char S) (escape_frag S st fr) (fun _ => True).
Proof.
  intros H. unfold escape_frag. eapply emits_bind; [|intros; now apply emits_ret]. destruct fr as [s| |s c|s]; cbn [frag_ok] in H.
  - apply pe_emits; [intros c; now rewrite v_character|now apply display_scalar].
  - apply emits_write; [apply stray_tok|exact I].
  - apply emits_write; [now apply char_tri|exact I].
  - apply emits_write; [now apply char_tri|exact I].
Qed.
Lemma maxlen_frag_em S debug n fr : frag_ok fr -> emits (character_char S) (maxlen_frag S debug n fr) (fun _ => True).
Proof.
  intros H. unfold maxlen_frag. destruct (n =? 0); [now apply emits_ret|]. destruct fr as [s| |s c|s]; cbn [frag_ok] in H.
  - pose proof (take_in n 0 s None) as Hi. destruct (take_chars n 0 s None) as [[k|] t]; [|apply emits_panic]. cbn [snd] in Hi.
    eapply emits_bind; [apply sub_emits|]. intros m _. eapply emits_bind; [|intros; now apply emits_ret].
    apply pe_emits; [intros c; now rewrite v_character|]. apply display_scalar. eapply scalar_incl; eassumption.
  - eapply emits_bind; [apply sub_emits|]. intros m _. eapply emits_bind; [|intros; now apply emits_ret]. apply emits_write with (Q := fun _ => True); [apply stray_tok|exact I].
  - eapply emits_bind; [apply sub_emits|]. intros m _. eapply emits_bind; [|intros; now apply emits_ret]. apply emits_write with (Q := fun _ => True); [now apply char_tri|exact I].
  - eapply emits_bind; [apply sub_emits|]. intros m _. eapply emits_bind; [|intros; now apply emits_ret]. apply emits_write with (Q := fun _ => True); [|exact I].
    destruct H as [T M]. apply char_tri; [now apply tri_firstn|]. rewrite firstn_length_le; [apply Nat.mod_mul; discriminate|].
    pose proof (Nat.div_mod (length s) 3 ltac:(discriminate)). rewrite M in *. lia.
Qed.
(** The characters an operator leaves as they are. *)
Definition kept (S : Spec) (o : Operator) : N -> bool := if op_allow_reserved (OpProps_from_op o) then character_char S else unreserved S.
Section Vis.
Variables (S : Spec) (debug : bool) (o : Operator).
Notation allow := (op_allow_reserved (OpProps_from_op o)).
Lemma escape_em v : scal v -> emits (kept S o) (escape_write S debug v allow) (fun _ => True).
Proof.
  intros H. unfold escape_write, kept. destruct allow.
  - apply process_em; [intros; now apply escape_frag_em|exact H].
  - apply pe_emits; [intros c; now rewrite v_unreserve|exact H].
Qed.
Lemma escape_max_em v m : scal v -> emits (kept S o) (escape_write_with_maxlen S debug v allow m) (fun _ => True).
Proof.
  intros H. unfold escape_write_with_maxlen, kept. destruct allow.
  - apply process_em; [intros; now apply maxlen_frag_em|exact H].
  - destruct m as [n|].
    + eapply emits_bind; [now apply truncate_emits|]. intros. split; [constructor|auto].
    + apply pe_emits; [intros c; now rewrite v_unreserve|exact H].
Qed.
End Vis.

(** ** Visitors *)
(** The characters that the expansion of one expression may contain: those kept, and the ones the operator
    itself writes. *)
Lemma kept_may S o c : kept S (op_of o) c = true -> may_contain S o c = true.
Proof. unfold kept, may_contain. intros H. destruct o; cbn [op_of OpProps_from_op op_allow_reserved op_row w_reserved] in *; now rewrite H. Qed.
Lemma op_fields o : op_first (OpProps_from_op (op_of o)) = w_first (op_row o) /\ op_sep (OpProps_from_op (op_of o)) = w_sep (op_row o).
Proof. now destruct o. Qed.
Section Vis2.
Variables (S : Spec) (debug : bool) (o : rop) (vs : VarSpec).
Hypothesis Hname : crate_varname (vs_name vs).
Notation ok := (may_contain S o).
Notation em x := (emits ok x (fun _ => True)).
Lemma own s : incl s (w_first (op_row o) ++ w_sep (op_row o) ++ lit ",=") -> toks ok s.
Proof.
  intros H. apply toks_cls. apply forallb_forall. intros c Hc. unfold may_contain. apply orb_true_intro. right. apply existsb_exists. exists c. split; [now apply H|apply N.eqb_refl].
Qed.
Lemma name_toks : toks ok (vs_name vs).
Proof.
  assert (V : forall x, varchar x -> (cls ok <|> pct_encoded) x).
  { intros x [(c & -> & Hc)|Hx]; [left|now right]. exists c. split; [reflexivity|].
    assert (U : unreserved S c = true).
    { unfold unreserved. destruct (ALPHA c); [reflexivity|]. destruct (DIGIT c); [reflexivity|]. cbn [orb] in *. apply N.eqb_eq in Hc as ->. reflexivity. }
    unfold may_contain. rewrite U. destruct (w_reserved (op_row o)); [|reflexivity]. unfold character_char. now rewrite U. }
  destruct Hname as (a & b & -> & Ha & Hb). apply star_cons; [now apply V|]. induction Hb as [|x y Hx _ IH]; [constructor|]. apply star_cons; [|exact IH].
  destruct Hx as [->|Hx]; [|now apply V]. left. exists 46. split; [reflexivity|]. unfold may_contain. destruct o, S; reflexivity.
Qed.
Lemma op_toks : toks ok (op_first (OpProps_from_op (op_of o))) /\ toks ok (op_sep (OpProps_from_op (op_of o))) /\ toks ok (lit ",") /\ toks ok (lit "=") /\
  toks ok (op_ifemp (OpProps_from_op (op_of o))).
Proof.
  destruct (op_fields o) as [-> ->]. repeat split; apply own; intros c Hc; try (apply in_or_app; now left).
  - apply in_or_app; right; apply in_or_app; now left.
  - apply in_or_app; right; apply in_or_app; right. cbn in *. tauto.
  - apply in_or_app; right; apply in_or_app; right. cbn in *. tauto.
  - apply in_or_app; right; apply in_or_app; right. destruct o; cbn in *; tauto.
Qed.
Lemma wr s (H : toks ok s) : em (write s). Proof. now apply emits_write. Qed.
Lemma rt {A} (a : A) : em (wret a). Proof. now apply emits_ret. Qed.
Lemma sq {A B} (x : W A) (f : A -> W B) : em x -> (forall a, em (f a)) -> em (wbind x f).
Proof. intros H Hf. eapply emits_bind; [exact H|]. intros a _. apply Hf. Qed.
Lemma esc v : scal v -> em (escape_write S debug v (op_allow_reserved (OpProps_from_op (op_of o)))).
Proof. intros H. eapply emits_mono; [apply kept_may|now apply escape_em]. Qed.
Lemma display_scal s : all_scalar s = true -> scal (display s).
Proof. intros H. unfold scal. now apply display_scalar. Qed.
Hint Resolve wr rt esc name_toks : em.
Ltac go := repeat first [apply sq; [|intros ?] | apply wr | apply rt | apply esc].
Lemma string_em first v : scal v -> em (visit_string S debug vs (op_of o) first v).
Proof using Hname.
  intros H. destruct op_toks as (O1 & O2 & O3 & O4 & O5). unfold visit_string. apply sq; [apply wr; now destruct first|intros _].
  apply sq; [destruct (op_named _); [apply wr, name_toks|apply rt]|intros _]. apply sq.
  - pose proof (emits_mono _ _ _ _ (kept_may S o) (escape_max_em S debug (op_of o) v (match vs_modifier vs with MNone | MExplode => None | MMaxLen n => Some n end) H)) as E.
    unfold prefix_once. destruct (op_named _); [|apply sq; [exact E|intros; apply rt]].
    destruct (fst (escape_write_with_maxlen _ _ _ _ _)); [apply sq; [exact E|intros; apply rt]|].
    apply sq; [now apply wr|intros _]. apply sq; [exact E|intros; apply rt].
  - intros u. apply sq; [destruct u; [now apply wr|apply rt]|intros; apply rt].
Qed.
Lemma explode_em : em (is_explode vs).
Proof. unfold is_explode. destruct (vs_modifier vs); try apply rt. apply emits_panic. Qed.
Lemma item_em st v : scal v -> em (visit_item S debug vs (op_of o) st v).
Proof using Hname.
  intros H. destruct op_toks as (O1 & O2 & O3 & O4 & O5). unfold visit_item. destruct st as [first zero]. apply sq; [apply explode_em|intros e].
  apply sq; [|intros _; apply sq; [now apply esc|intros; apply rt]]. destruct zero.
  - apply sq; [apply wr; now destruct first|intros _]. destruct (op_named _); [|apply rt]. apply sq; [apply wr, name_toks|intros _; now apply wr].
  - destruct (op_named _), e; try (now apply wr). apply sq; [now apply wr|intros _]. apply sq; [|intros _; now apply wr].
    apply esc, display_scal, PExp4.name_scalar, Hname.
Qed.
Lemma entry_em st e : scal (fst e) -> scal (snd e) -> em (visit_entry S debug vs (op_of o) st e).
Proof using Hname.
  intros H1 H2. destruct op_toks as (O1 & O2 & O3 & O4 & O5). unfold visit_entry. destruct st as [first zero], e as [k v]. cbn [fst snd] in *. apply sq; [apply explode_em|intros e].
  pose proof (esc k H1) as K. pose proof (esc (display (vs_name vs)) (display_scal _ (PExp4.name_scalar _ Hname))) as D.
  apply sq; [|intros _; apply sq; [now apply esc|intros; apply rt]]. destruct zero.
  - apply sq; [apply wr; now destruct first|intros _]. destruct e.
    + apply sq; [exact K|intros _; now apply wr].
    + apply sq; [destruct (op_named _); [|apply rt]; apply sq; [exact D|intros _; now apply wr]|intros _]. apply sq; [exact K|intros _; now apply wr].
  - destruct (op_named _), e; (apply sq; [now apply wr|intros _]; apply sq; [exact K|intros _; now apply wr]).
Qed.
Lemma value_em first v : scalar_val v -> em (visit_value S debug vs (op_of o) first v).
Proof using Hname.
  intros H. destruct v as [|d|l|l]; cbn [visit_value scalar_val] in *.
  - apply rt.
  - now apply string_em.
  - apply sq; [|intros []; apply rt]. generalize (first, true) as st. induction H as [|d l Hd _ IH]; intros st; cbn [visit_each]; [apply rt|].
    apply sq; [now apply item_em|exact IH].
  - apply sq; [|intros []; apply rt]. generalize (first, true) as st. induction H as [|d l [Hk Hd] _ IH]; intros st; cbn [visit_each]; [apply rt|].
    apply sq; [now apply entry_em|exact IH].
Qed.
End Vis2.

(** ** Expressions and templates *)
Lemma literal_char S c : literal_ascii c = true -> character_char S c = true.
Proof.
  intros H. assert (L : c < 127) by (revert H; unfold literal_ascii, between; intros; bdestr; lia).
  apply (sweep_impl literal_ascii (character_char S)); [destruct S; vm_compute; reflexivity| |exact H]. unfold is_ascii. apply N.ltb_lt. lia.
Qed.
Section Top.
Variables (S : Spec) (debug : bool) (ctx : Ctx).
Hypothesis Hctx : forall name, scalar_val (ctx name).
Lemma vars_em o rs : Forall crate_spec rs -> forall fuel first, emits (may_contain S o) (expand_vars fuel S debug ctx (op_of o) first (specs_text rs)) (fun _ => True).
Proof using Hctx.
  induction 1 as [|r rs Hc F IH]; intros fuel first; (destruct fuel as [|fuel]; [apply emits_panic|]); cbn [expand_vars].
  - change (specs_text []) with (@nil N). rewrite varlist_nil, lift_bind. now apply emits_ret.
  - rewrite varlist_cons, parse_b by assumption. destruct (small_b r); cbn [bind]; [|apply emits_panic]. rewrite lift_bind. cbv beta iota.
    eapply emits_bind; [|intros; apply IH]. apply value_em; [apply Hc|apply Hctx].
Qed.
Lemma expr_em o rs : rs <> [] -> Forall crate_spec rs -> emits (may_contain S o) (expand_expr S debug ctx (body_text o rs)) (fun _ => True).
Proof using Hctx. intros Hn F. unfold expand_expr. rewrite decompose_eq by assumption. rewrite lift_bind. cbv beta iota. now apply vars_em. Qed.
Lemma lit_em s : star crate_literals s -> toks (character_char S) s.
Proof.
  apply star_impl. intros x [(c & -> & Hc)|Hx]; [left|now right]. exists c. split; [reflexivity|].
  apply literal_char, Hc.
Qed.
Lemma may_char o c : may_contain S o c = true -> character_char S c = true.
Proof.
  unfold may_contain. intros H. apply orb_prop in H as [H|H].
  - destruct (w_reserved (op_row o)); [exact H|]. unfold character_char. now rewrite H.
  - apply existsb_exists in H as (x & Hx & E). apply N.eqb_eq in E as <-.
    assert (forallb (character_char S) (w_first (op_row o) ++ w_sep (op_row o) ++ lit ",=") = true) as F by (destruct S, o; reflexivity).
    rewrite forallb_forall in F. now apply F.
Qed.
Lemma loop_all T : Forall crate_part T -> forall l f, star crate_literals l -> emits (character_char S) (expanded_loop f S debug ctx (l ++ template_text T)) (fun _ => True).
Proof using Hctx.
  induction 1 as [|p T Hp HT IH]; intros l f Hl.
  - cbn [template_text flat_map] in *. rewrite app_nil_r in *. destruct f as [|f]; [apply emits_panic|]. cbn [expanded_loop].
    destruct l as [|c l]; [rewrite chunks_nil, lift_bind; now apply emits_ret|]. rewrite chunks_lit by (discriminate || now apply lit_no_brace). rewrite lift_bind. cbv beta iota.
    eapply emits_bind; [apply emits_write with (Q := fun _ => True); [now apply lit_em|exact I]|intros _ _].
    destruct f as [|f]; [apply emits_panic|]. cbn [expanded_loop]. rewrite chunks_nil, lift_bind. now apply emits_ret.
  - destruct p as [s|o rs].
    + rewrite template_cons. cbn [part_text]. rewrite app_assoc. apply IH. now apply star_app.
    + destruct Hp as [Hn F]. pose proof (body_nonempty o rs Hn F) as Hb. pose proof (body_no_rbrace o rs F) as Hr. rewrite template_expr.
      assert (EX : forall f, emits (character_char S) (expanded_loop f S debug ctx (LBRACE :: body_text o rs ++ RBRACE :: template_text T)) (fun _ => True)).
      { intros f'. destruct f' as [|f']; [apply emits_panic|]. cbn [expanded_loop]. rewrite chunks_expr by assumption. rewrite lift_bind. cbv beta iota.
        eapply emits_bind; [eapply emits_mono; [apply may_char|now apply expr_em]|]. intros _ _. apply (IH [] f'). constructor. }
      destruct l as [|c l]; [apply EX|]. destruct f as [|f]; [apply emits_panic|]. cbn [expanded_loop].
      rewrite chunks_lit_expr by (discriminate || now apply lit_no_brace). rewrite lift_bind. cbv beta iota.
      eapply emits_bind; [apply emits_write with (Q := fun _ => True); [now apply lit_em|exact I]|intros _ _]. apply EX.
Qed.
End Top.

(** ** One string variable of an operator other than "+" and "#" *)
Section One.
Variables (S : Spec) (debug : bool) (ctx : Ctx).
Hypothesis Hctx : forall name, scalar_val (ctx name).
Theorem expansion_safe t : template_new t = Ok t -> toks (character_char S) (concat (fst (expanded_fmt S debug ctx t))).
Proof using Hctx.
  rewrite accepts. intros (T & F & ->). eapply emits_text. apply (loop_all S debug ctx Hctx T F []). constructor.
Qed.
Theorem expression_safe o rs t : t = template_text [Expr o rs] -> rs <> [] -> Forall crate_spec rs ->
  toks (may_contain S o) (concat (fst (expanded_fmt S debug ctx t))).
Proof using Hctx.
  intros -> Hn F. rewrite template_expr. unfold expanded_fmt. cbn [expanded_loop Nat.add]. rewrite chunks_expr by (now apply body_nonempty || now apply body_no_rbrace).
  rewrite lift_bind. cbv beta iota. apply emits_text with (Q := fun _ => True). eapply emits_bind; [now apply expr_em|]. intros _ _.
  change (template_text []) with (@nil N). destruct (length _) as [|n]; [apply emits_panic|]. cbn [expanded_loop]. rewrite chunks_nil, lift_bind. now apply emits_ret.
Qed.
End One.

(** ** [TryFrom<Expanded>] *)
Lemma try_from_ok S debug t ctx tmpl s : expand_to_string S debug ctx tmpl = Ok s ->
  (forall r, try_from_expanded S debug t ctx tmpl = Ok r <-> r = s /\ new S t s = Ok s) /\
  try_from_expanded S debug t ctx tmpl <> Panic.
Proof.
  unfold expand_to_string, try_from_expanded. destruct (expand_new debug ctx tmpl) as [[]|e|]; cbn [bind]; try discriminate.
  destruct (text _) as [x|[]|]; cbn [tlift]; try discriminate. intros [= ->].
  pose proof (PTypes.new_recognizes S t s) as R. pose proof (PTypes.new_ok S t s) as K. split.
  - intros r. split; [|now intros [-> H]]. intros H. unfold new in *. destruct (validate S t s) as [[]| |]; try discriminate. injection H as <-. auto.
  - unfold new. pose proof (PAscii.validate_np S t s). now destruct (validate S t s).
Qed.
