(** * The decomposition of reserved values (C28, C29): UTF-8 errors and the decoder buffer. *)
From Verif Require Import Base Chars Rfc3986 Utf8 PctSpec EncodeSpec MValidate MTrusted MFormat MSearch MPct MEncode MTemplate MMaybePct MExpand TemplateSpec ExpandSpec.
From Verif Require Import PBase PScan PSearch PPct PPct2 PPath2 PEncode PEncode2 PTmpl1.

(** ** [utf8_error] on whole and truncated characters *)
Ltac bool_to b v := replace b with v by (unfold between; lia).
Lemma step_whole c : is_scalar c = true -> utf8_step (utf8 c) = inl (length (utf8 c)).
Proof.
  intros H. destruct (utf8_cases c H) as [(Hc&X)|[(a&b&X&?)|[(a&b&d&X&?)|(a&b&d&e&X&?)]]]; rewrite X; unfold utf8_step; cbn [length].
  - bool_to (c <? 128) true. reflexivity.
  - bool_to (a <? 128) false. bool_to (between 194 223 a) true. bool_to (between 128 191 b) true. reflexivity.
  - bool_to (a <? 128) false. bool_to (between 194 223 a) false. bool_to (between 224 239 a) true.
    replace ((a =? 224) && between 160 191 b || between 225 236 a && between 128 191 b || (a =? 237) && between 128 159 b || between 238 239 a && between 128 191 b) with true.
    2:{ unfold is_scalar, between in *. lia. }
    bool_to (between 128 191 d) true. reflexivity.
  - bool_to (a <? 128) false. bool_to (between 194 223 a) false. bool_to (between 224 239 a) false. bool_to (between 240 244 a) true.
    replace ((a =? 240) && between 144 191 b || between 241 243 a && between 128 191 b || (a =? 244) && between 128 143 b) with true.
    2:{ unfold is_scalar, between in *. lia. }
    bool_to (between 128 191 d) true. bool_to (between 128 191 e) true. reflexivity.
Qed.
Lemma error_whole c : is_scalar c = true -> utf8_error (utf8 c) = None.
Proof.
  intros H. unfold utf8_error. cbn [Nat.add]. pose proof (utf8_nonempty c) as Hn. pose proof (step_whole c H) as E.
  cbn [utf8_error_loop]. destruct (utf8 c) as [|x r] eqn:Eu; [contradiction|]. rewrite E. rewrite skipn_all. reflexivity.
Qed.
Lemma step_truncated c bs rest : is_scalar c = true -> utf8 c = bs ++ rest -> rest <> [] -> bs <> [] -> utf8_step bs = inr None.
Proof.
  intros H E Hr Hb. destruct (utf8_cases c H) as [(Hc&X)|[(a&b&X&?)|[(a&b&d&X&?)|(a&b&d&e&X&?)]]]; rewrite X in E; clear X.
  - destruct bs as [|x [|y bs]]; [contradiction| |discriminate]. injection E as <- <-. contradiction.
  - destruct bs as [|x [|y [|z bs]]]; [contradiction| |injection E as <- <- <-; contradiction|discriminate]. injection E as <- _.
    unfold utf8_step. bool_to (a <? 128) false. bool_to (between 194 223 a) true. reflexivity.
  - assert (G : ((a =? 224) && between 160 191 b || between 225 236 a && between 128 191 b || (a =? 237) && between 128 159 b || between 238 239 a && between 128 191 b) = true).
    { unfold is_scalar, between in *. lia. }
    destruct bs as [|x [|y [|z [|t bs]]]]; [contradiction| | |injection E as <- <- <- <-; contradiction|discriminate];
    unfold utf8_step.
    + injection E as <- _. bool_to (a <? 128) false. bool_to (between 194 223 a) false. bool_to (between 224 239 a) true. reflexivity.
    + injection E as <- <- _. bool_to (a <? 128) false. bool_to (between 194 223 a) false. bool_to (between 224 239 a) true. rewrite G. reflexivity.
  - assert (G : ((a =? 240) && between 144 191 b || between 241 243 a && between 128 191 b || (a =? 244) && between 128 143 b) = true).
    { unfold is_scalar, between in *. lia. }
    destruct bs as [|x [|y [|z [|t [|t' bs]]]]]; [contradiction| | | |injection E as <- <- <- <- <-; contradiction|discriminate];
    unfold utf8_step; [injection E as <- _|injection E as <- <- _|injection E as <- <- <- _];
    bool_to (a <? 128) false; bool_to (between 194 223 a) false; bool_to (between 224 239 a) false; bool_to (between 240 244 a) true.
    + reflexivity.
    + rewrite G. reflexivity.
    + rewrite G. bool_to (between 128 191 d) true. reflexivity.
Qed.
Lemma error_truncated c bs rest : is_scalar c = true -> utf8 c = bs ++ rest -> rest <> [] -> bs <> [] -> utf8_error bs = Some (0%nat, None).
Proof.
  intros H E Hr Hb. pose proof (step_truncated c bs rest H E Hr Hb) as X. unfold utf8_error. cbn [Nat.add utf8_error_loop].
  destruct bs; [contradiction|]. now rewrite X.
Qed.
Lemma error_never b : 128 <= b <= 193 \/ 245 <= b -> utf8_error [b] = Some (0%nat, Some 1%nat).
Proof.
  intros H. unfold utf8_error. cbn [Nat.add length utf8_error_loop utf8_step].
  bool_to (b <? 128) false. bool_to (between 194 223 b) false. bool_to (between 224 239 b) false. bool_to (between 240 244 b) false. reflexivity.
Qed.

(** ** The buffer *)
Lemma pop_all e bs : write_and_pop (mkDB e bs) (length e) = Ok (e, db_empty).
Proof. unfold write_and_pop, sub_p. cbn [db_encoded]. rewrite Nat.ltb_irrefl. cbn [bind]. rewrite Nat.sub_diag. cbn [Nat.eqb]. now rewrite firstn_all. Qed.
Lemma spelled_length bs w : spelled bs w -> length w = (3 * length bs)%nat.
Proof. induction 1; cbn [length]; lia. Qed.
Lemma spelled_app a b u v : spelled a u -> spelled b v -> spelled (a ++ b) (u ++ v).
Proof. induction 1; cbn [app]; auto. intros. constructor; auto. Qed.
Lemma spelled_split a b w : spelled (a ++ b) w -> exists u v, w = u ++ v /\ spelled a u /\ spelled b v.
Proof.
  revert w. induction a as [|x a IH]; intros w H; cbn [app] in H; [exists [], w; repeat split; auto; constructor|].
  inversion H as [|? ? ? ? Hu Hl Hs]; subst. apply IH in Hs as (p & v & -> & H1 & H2). exists (37 :: u :: l :: p), v. repeat split; auto. now constructor.
Qed.
Lemma spelled_ascii bs w : spelled bs w -> Forall (fun c => c < 128) w.
Proof. induction 1 as [|u l bs w Hu Hl Hs IH]; [constructor|]. repeat constructor; auto; now apply hex_ascii. Qed.
Lemma ascii_blen w : Forall (fun c => c < 128) w -> blen w = length w.
Proof. induction 1 as [|c w H F IH]; cbn [blen length]; [reflexivity|]. rewrite IH. unfold clen. now rewrite (proj2 (N.ltb_lt _ _) H). Qed.
Lemma clen_ascii c : c < 128 -> clen c = 1%nat.
Proof. intros H. unfold clen. now rewrite (proj2 (N.ltb_lt _ _) H). Qed.
(** Room for one more triplet. *)
Definition room (bs : list N) : Prop := (length bs < 4)%nat.
Lemma push_pct debug e bs : spelled bs e -> room bs -> push_single debug (mkDB e bs) PCT = Ok (mkDB (e ++ [PCT]) bs).
Proof.
  intros H R. pose proof (spelled_length bs e H) as L. unfold push_single, room in *. cbn [db_encoded db_decoded].
  replace (Nat.leb 12 (length e)) with false by (symmetry; apply Nat.leb_gt; lia).
  rewrite app_length, L. cbn [length]. replace (3 * length bs + 1)%nat with (1 + length bs * 3)%nat by lia. rewrite Nat.mod_add by lia. reflexivity.
Qed.
Lemma push_upper debug e bs u : spelled bs e -> room bs -> push_single debug (mkDB (e ++ [PCT]) bs) u = Ok (mkDB (e ++ [PCT; u]) bs).
Proof.
  intros H R. pose proof (spelled_length bs e H) as L. unfold push_single, room in *. cbn [db_encoded db_decoded].
  rewrite !app_length, L. cbn [length]. replace (Nat.leb 12 (3 * length bs + 1)) with false by (symmetry; apply Nat.leb_gt; lia).
  replace (3 * length bs + 1 + 1)%nat with (2 + length bs * 3)%nat by lia. rewrite Nat.mod_add by lia. cbn [Nat.eqb].
  rewrite <- app_assoc. reflexivity.
Qed.
Lemma push_lower debug e bs u l : spelled bs e -> room bs -> is_hexdigit u = true -> is_hexdigit l = true ->
  push_single debug (mkDB (e ++ [PCT; u]) bs) l = Ok (mkDB (e ++ [PCT; u; l]) (bs ++ [bval u l])).
Proof.
  intros H R Hu Hl. pose proof (spelled_length bs e H) as L. unfold push_single, room in *. cbn [db_encoded db_decoded].
  rewrite !app_length, L. cbn [length]. replace (Nat.leb 12 (3 * length bs + 2)) with false by (symmetry; apply Nat.leb_gt; lia).
  replace (3 * length bs + 2 + 1)%nat with (0 + (length bs + 1) * 3)%nat by lia. rewrite Nat.mod_add by lia. cbn [Nat.eqb Nat.modulo Nat.divmod fst Nat.sub].
  replace (3 * length bs + 2 - 1)%nat with (length (e ++ [PCT])) by (rewrite app_length; cbn [length]; lia).
  change (e ++ [PCT; u]) with (e ++ [PCT] ++ [u]). rewrite app_assoc. rewrite get_at_app. cbn [bind]. rewrite Hu, Hl. cbn [andb negb]. rewrite andb_false_r.
  rewrite h2b by assumption. cbn [bind]. now rewrite <- !app_assoc.
Qed.

(** The rest of a triplet, with pending bytes. *)
Definition after_triplet (debug : bool) (db : DecoderBuffer) (after : nat) (r : str) : may (nat * PushResult * DecoderBuffer) :=
  match utf8_error (db_decoded db) with
  | None =>
      match from_utf8 (db_decoded db) with
      | Some (ch :: _) =>
          do (w, db) <- write_and_pop db (length (db_encoded db)) ;
          Ok (after, Decoded w ch, db)
      | _ => Panic
      end
  | Some (valid_up_to, error_len) =>
      if negb (Nat.eqb valid_up_to 0) then Panic
      else match error_len with
           | None => push_loop debug db 0 after r
           | Some skip =>
               if Nat.eqb skip 0 then Panic
               else do (w, db) <- write_and_pop db (skip * 3) ; Ok (after, Undecodable w, db)
           end
  end.
Lemma push_triplet debug e bs n u l r : spelled bs e -> room bs -> is_hexdigit u = true -> is_hexdigit l = true ->
  push_loop debug (mkDB e bs) 0 n (PCT :: u :: l :: r) = after_triplet debug (mkDB (e ++ [PCT; u; l]) (bs ++ [bval u l])) (n + 3) r.
Proof.
  intros H R Hu Hl. cbn [push_loop Nat.eqb]. rewrite N.eqb_refl. cbn [negb]. rewrite push_pct by assumption. cbn [bind push_loop Nat.eqb].
  rewrite Hu. cbn [negb]. rewrite push_upper by assumption. cbn [bind push_loop Nat.eqb]. rewrite Hl. cbn [negb]. rewrite push_lower by assumption. cbn [bind].
  rewrite (clen_ascii u), (clen_ascii l) by now apply hex_ascii. change (clen PCT) with 1%nat.
  replace (n + 1 + 1 + 1)%nat with (n + 3)%nat by lia. reflexivity.
Qed.
(** A truncated sequence stays in the buffer. *)
Lemma push_more debug c rest w' : is_scalar c = true -> forall bs2 bs1 w1 w2 n,
  utf8 c = bs1 ++ bs2 ++ rest -> rest <> [] -> spelled bs1 w1 -> spelled bs2 w2 ->
  push_loop debug (mkDB w1 bs1) 0 n (w2 ++ w') = push_loop debug (mkDB (w1 ++ w2) (bs1 ++ bs2)) 0 (n + length w2) w'.
Proof.
  intros Hc. induction bs2 as [|b bs2 IH]; intros bs1 w1 w2 n E Hr H1 H2.
  - inversion H2; subst. cbn [app length]. now rewrite !app_nil_r, Nat.add_0_r.
  - apply spelled_inv in H2 as (u & l & w & -> & -> & Hu & Hl & Hs).
    assert (R : room bs1).
    { pose proof (f_equal (@length N) E) as L. rewrite utf8_len, !app_length in L. cbn [length] in L. unfold room.
      assert (clen c <= 4)%nat. { unfold clen. destruct (c <? 128); [lia|]. destruct (c <? 2048); [lia|]. destruct (c <? 65536); lia. } lia. }
    cbn [app]. change 37 with PCT. rewrite push_triplet by assumption. unfold after_triplet. cbn [db_decoded db_encoded].
    rewrite (error_truncated c (bs1 ++ [bval u l]) (bs2 ++ rest)); [|assumption| | |].
    + cbn [Nat.eqb negb]. rewrite (IH (bs1 ++ [bval u l]) (w1 ++ [PCT; u; l]) w (n + 3)%nat).
      * rewrite <- !app_assoc. cbn [app length]. f_equal. lia.
      * now rewrite E, <- app_assoc.
      * assumption.
      * apply spelled_app; [assumption|]. constructor; auto. constructor.
      * assumption.
    + now rewrite E, <- app_assoc.
    + intros X. apply app_eq_nil in X as [_ X]. contradiction.
    + intros X. apply app_eq_nil in X as [_ X]. discriminate.
Qed.
Lemma last_byte c : exists bs b, utf8 c = bs ++ [b].
Proof. destruct (exists_last (utf8_nonempty c)) as (bs & b & E). eauto. Qed.
Lemma push_char debug c w r : is_scalar c = true -> spelled (utf8 c) w ->
  push_loop debug db_empty 0 0 (w ++ r) = Ok (length w, Decoded w c, db_empty).
Proof.
  intros Hc Hw. destruct (last_byte c) as (bs & b & E). rewrite E in Hw. apply spelled_split in Hw as (w1 & w2 & -> & H1 & H2).
  rewrite <- app_assoc. unfold db_empty. rewrite (push_more debug c [b] (w2 ++ r) Hc bs [] [] w1 0); [|assumption|discriminate|constructor|assumption].
  cbn [app Nat.add]. apply spelled_inv in H2 as (u & l & w & -> & -> & Hu & Hl & Hs). apply spelled_nil_inv in Hs as ->.
  assert (R : room bs).
  { pose proof (f_equal (@length N) E) as L. rewrite utf8_len, !app_length in L. cbn [length] in L. unfold room.
    assert (clen c <= 4)%nat. { unfold clen. destruct (c <? 128); [lia|]. destruct (c <? 2048); [lia|]. destruct (c <? 65536); lia. } lia. }
  cbn [app]. change 37 with PCT. rewrite push_triplet by assumption. unfold after_triplet. cbn [db_decoded db_encoded].
  rewrite <- E, error_whole by assumption.
  replace (from_utf8 (utf8 c)) with (Some [c]).
  2:{ symmetry. apply from_utf8_ok. cbn [all_scalar forallb]. rewrite Hc. split; [reflexivity|]. cbn. now rewrite app_nil_r. }
  rewrite pop_all. cbn [bind]. rewrite !app_length. reflexivity.
Qed.
Lemma push_never debug b w r : 128 <= b <= 193 \/ 245 <= b -> spelled [b] w ->
  push_loop debug db_empty 0 0 (w ++ r) = Ok (length w, Undecodable w, db_empty).
Proof.
  intros Hb Hw. apply spelled_inv in Hw as (u & l & w1 & -> & -> & Hu & Hl & Hs). apply spelled_nil_inv in Hs as ->. cbn [app]. change 37 with PCT. unfold db_empty.
  rewrite push_triplet; [|constructor|unfold room; cbn; lia|assumption|assumption]. unfold after_triplet. cbn [db_decoded db_encoded app].
  rewrite error_never by assumption. reflexivity.
Qed.
(** Truncated sequences with a stray tail. *)
Lemma truncated_room bs : truncated bs -> room bs.
Proof.
  intros [->|(c & Hc & rest & E & Hr & Hb)]; unfold room; [cbn; lia|].
  pose proof (f_equal (@length N) E) as L. rewrite utf8_len, !app_length in L.
  assert (clen c <= 4)%nat. { unfold clen. destruct (c <? 128); [lia|]. destruct (c <? 2048); [lia|]. destruct (c <? 65536); lia. }
  destruct rest; [contradiction|]. cbn [length] in L. lia.
Qed.
Lemma push_truncated debug bs w r : truncated bs -> spelled bs w ->
  push_loop debug db_empty 0 0 (w ++ r) = push_loop debug (mkDB w bs) 0 (length w) r.
Proof.
  intros [->|(c & Hc & rest & E & Hr & Hb)] Hw.
  - inversion Hw; subst. reflexivity.
  - unfold db_empty. rewrite (push_more debug c rest r Hc bs [] [] w 0); auto. constructor.
Qed.
Lemma push_tail_end debug bs w t n : spelled bs w -> room bs -> stray_tail [] t ->
  push_loop debug (mkDB w bs) 0 n t = Ok ((n + length t)%nat, NeedMoreBytes, mkDB (w ++ t) bs).
Proof.
  intros Hw R Ht. destruct Ht as [_|_|h Hh _].
  - cbn [push_loop length]. now rewrite app_nil_r, Nat.add_0_r.
  - cbn [push_loop Nat.eqb]. change (37 =? PCT) with true. cbn [negb]. rewrite push_pct by assumption. reflexivity.
  - cbn [push_loop Nat.eqb]. change (37 =? PCT) with true. cbn [negb]. rewrite push_pct by assumption. cbn [bind push_loop Nat.eqb].
    change (is_hexdigit h) with (HEXDIG h). rewrite Hh. cbn [negb]. rewrite push_upper by assumption. cbn [bind]. f_equal. f_equal. f_equal.
    change (clen 37) with 1%nat. rewrite (clen_ascii h) by now apply hex_ascii. cbn [length]. lia.
Qed.
Lemma push_tail debug bs w t c s n : spelled bs w -> room bs -> stray_tail (c :: s) t ->
  push_loop debug (mkDB w bs) 0 n (t ++ c :: s) = Ok ((n + length t)%nat, Undecodable (w ++ t), db_empty).
Proof.
  intros Hw R Ht. destruct Ht as [[Hs|(d & r & [= <- <-] & Hc & Hp)]|[Hs|(d & r & [= <- <-] & Hc & Hp)]|h Hh [Hs|(d & r & [= <- <-] & Hc & Hp)]]; try discriminate; bdestr.
  - cbn [app push_loop Nat.eqb]. change PCT with 37. rewrite Hp. cbn [negb]. cbn [db_encoded]. rewrite pop_all. cbn [bind].
    unfold sub_p. rewrite (clen_ascii c) by assumption. replace (Nat.ltb (n + 1) 1) with false by (symmetry; apply Nat.ltb_ge; lia). cbn [bind length].
    rewrite app_nil_r. do 3 f_equal. lia.
  - cbn [app push_loop Nat.eqb]. change (37 =? PCT) with true. cbn [negb]. rewrite push_pct by assumption. cbn [bind push_loop Nat.eqb].
    change (is_hexdigit c) with (HEXDIG c). rewrite Hp. cbn [negb db_encoded]. rewrite pop_all. cbn [bind].
    unfold sub_p. rewrite (clen_ascii c) by assumption. change (clen 37) with 1%nat.
    replace (Nat.ltb (n + 1 + 1) 1) with false by (symmetry; apply Nat.ltb_ge; lia). cbn [bind length]. do 3 f_equal. lia.
  - cbn [app push_loop Nat.eqb]. change (37 =? PCT) with true. cbn [negb]. rewrite push_pct by assumption. cbn [bind push_loop Nat.eqb].
    change (is_hexdigit h) with (HEXDIG h). rewrite Hh. cbn [negb]. rewrite push_upper by assumption. cbn [bind push_loop Nat.eqb].
    change (is_hexdigit c) with (HEXDIG c). rewrite Hp. cbn [negb db_encoded]. rewrite pop_all. cbn [bind].
    unfold sub_p. rewrite (clen_ascii c) by assumption. rewrite (clen_ascii h) by now apply hex_ascii. change (clen 37) with 1%nat.
    replace (Nat.ltb (n + 1 + 1 + 1) 1) with false by (symmetry; apply Nat.ltb_ge; lia). cbn [bind length]. do 3 f_equal. lia.
Qed.
Lemma push_plain debug c s : c < 128 -> c <> 37 -> push_loop debug db_empty 0 0 (c :: s) = Ok (0%nat, Undecodable [], db_empty).
Proof.
  intros H Hc. cbn [push_loop Nat.eqb]. change PCT with 37. rewrite (proj2 (N.eqb_neq c 37) Hc). cbn [negb db_encoded db_empty].
  unfold db_empty. change 0%nat with (length (@nil N)) at 2. rewrite (pop_all [] []). cbn [bind]. rewrite (clen_ascii c H). reflexivity.
Qed.
