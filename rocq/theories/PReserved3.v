(** * The reserved operators on any value (C28, C29): the loop. *)
From Verif Require Import Base Chars Rfc3986 Utf8 PctSpec EncodeSpec MValidate MTrusted MFormat MSearch MPct MEncode MTemplate MMaybePct MExpand TemplateSpec ExpandSpec ReservedSpec.
From Verif Require Import PBase PScan PSearch PPct PPct2 PPath2 PEncode PEncode2 PTmpl1 PExp1 PExp2 PExp3 PExp11 PReserved1 PReserved2.

(** ** Laws of [wbind] *)
Lemma bind_assoc {A B C} (x : W A) (f : A -> W B) (g : B -> W C) : wbind (wbind x f) g = wbind x (fun a => wbind (f a) g).
Proof.
  destruct x as [o [a| |]]; cbn [wbind]; [|reflexivity|reflexivity]. destruct (f a) as [o1 [b| |]]; cbn [wbind]; [|reflexivity|reflexivity].
  destruct (g b) as [o2 r]. now rewrite app_assoc.
Qed.
Lemma bind_ext {A B} (x : W A) (f g : A -> W B) : (forall a, f a = g a) -> wbind x f = wbind x g.
Proof. intros H. destruct x as [o [a| |]]; cbn [wbind]; [now rewrite H|reflexivity|reflexivity]. Qed.
Lemma bind_ret {A} (x : W A) : wbind x wret = x.
Proof. destruct x as [o [a| |]]; cbn [wbind wret]; [now rewrite app_nil_r|reflexivity|reflexivity]. Qed.
Section Loop.
Context {St : Type} (debug : bool) (f : St -> Frag -> W (St + unit)).
Definition frag_of (p : piece) : Frag :=
  match p with PPlain s => NoPctStr s | PStray => FStrayPercent | PWhole w => FChar w 0 | PBroken w => InvalidUtf8PctTriplets w end.
Fixpoint feed (st : St) (ps : list piece) : W (St + unit) :=
  match ps with [] => wret (inl st) | p :: r => andthen (f st (frag_of p)) (fun st => feed st r) end.
Definition run_pieces (st : St) (x : list piece * option str) : W (St * DecoderBuffer + unit) :=
  wdo r <- feed st (fst x) ;
  match r with
  | inr u => wret (inr u)
  | inl st => match snd x with None => wpanic | Some p => wret (inl (st, db_of p)) end
  end.
Lemma feed_app st a b : feed st (a ++ b) = andthen (feed st a) (fun st => feed st b).
Proof.
  revert st. induction a as [|p a IH]; intros st; cbn [app feed]; [unfold andthen; now rewrite wret_bind|].
  unfold andthen. rewrite bind_assoc. apply bind_ext. intros [st'|u]; [rewrite IH; reflexivity|now rewrite wret_bind].
Qed.
Lemma feed_one st p : feed st [p] = f st (frag_of p).
Proof. cbn [feed]. unfold andthen. transitivity (wbind (f st (frag_of p)) wret); [|apply bind_ret]. apply bind_ext. now intros [st'|u]. Qed.
Lemma run_prepend st ps x : run_pieces st (prepend ps x) = wdo r <- feed st ps ; match r with inr u => wret (inr u) | inl st => run_pieces st x end.
Proof.
  destruct x as [qs e]. unfold run_pieces. cbn [prepend fst snd]. rewrite feed_app. unfold andthen. rewrite bind_assoc. apply bind_ext. intros [st'|u]; [reflexivity|now rewrite wret_bind].
Qed.
Lemma output_feed st bs w t : spelled bs w -> tail t -> output_as_undecodable debug f st (w ++ t) = feed st (given_up (w ++ t)).
Proof.
  intros Hw Ht. unfold output_as_undecodable, given_up. rewrite (whole_eq bs w t), (mod_eq bs w t) by assumption.
  replace (length (w ++ t) - length t)%nat with (length w) by (rewrite app_length; lia).
  rewrite firstn_app, firstn_all, Nat.sub_diag. cbn [firstn]. rewrite app_nil_r. rewrite !skipn_app, skipn_all, skipn_all2 by lia.
  rewrite Nat.sub_diag. cbn [app skipn]. replace (length w + 1 - length w)%nat with 1%nat by lia.
  cbn [feed frag_of]. unfold andthen. apply bind_ext. intros [st1|u]; [|reflexivity].
  destruct Ht as [| |h Hh]; cbn [length Nat.ltb Nat.leb feed frag_of skipn]; [reflexivity| |].
  - unfold andthen. apply bind_ext. now intros [st2|u].
  - unfold andthen. apply bind_ext. intros [st2|u]; [|reflexivity]. cbn [Nat.eqb negb]. rewrite andb_false_r. symmetry. exact (feed_one st2 (PPlain [h])).
Qed.
Lemma output_feed' st q : pending q -> output_as_undecodable debug f st q = feed st (given_up q).
Proof. intros (bs & w & t & -> & Hw & Ht & _). now apply (output_feed st bs). Qed.
Lemma output_broken st bs w : spelled bs w -> output_as_undecodable debug f st w = feed st [PBroken w].
Proof.
  intros Hw. pose proof (output_feed st bs w [] Hw tl0) as H. unfold given_up in H. rewrite (whole_eq bs w []) in H by (assumption || constructor).
  rewrite !app_nil_r in H. rewrite skipn_all in H. exact H.
Qed.
(** Text without "%". *)
Lemma text_split s : forall acc, exists p q, match find_split s PCT with Some x => x | None => (s, []) end = (p, q) /\ s = p ++ q /\
  reads debug (Text acc) s = prepend [PPlain (acc ++ p)] (reads debug (Pend [] true) q).
Proof.
  induction s as [|c s IH]; intros acc; [exists [], []; rewrite (app_nil_r acc); repeat split|].
  unfold find_split in *. cbn [split_first]. change PCT with 37 in *. destruct (N.eqb_spec 37 c) as [<-|Hc].
  - exists [], (37 :: s). rewrite (app_nil_r acc). split; [reflexivity|]. split; [reflexivity|].
    change (reads debug (Text acc) (37 :: s)) with (prepend [PPlain acc] (reads debug (Pend [37] false) s)).
    change (reads debug (Pend [] true) (37 :: s)) with (prepend [] (reads debug (Pend [37] false) s)). now destruct (reads debug (Pend [37] false) s).
  - destruct (IH (acc ++ [c])) as (p & q & E1 & E2 & E3). exists (c :: p), q. split; [|split].
    + destruct (split_first (N.eqb 37) s) as [[[a x] b]|]; injection E1 as <- <-; reflexivity.
    + cbn [app]. now f_equal.
    + cbn [reads read_char]. replace (c =? 37) with false by lia. rewrite E3. rewrite <- app_assoc. now destruct (reads debug (Pend [] true) q).
Qed.
Lemma from_mid s1 c s2 : ascii s1 -> 128 <= c -> str_from (s1 ++ c :: s2) (length s1 + clen c - 1) = Panic.
Proof.
  intros Ha Hc. unfold str_from. replace (str_split_at (s1 ++ c :: s2) (length s1 + clen c - 1)) with (@Panic Empty_set (str * str)); [reflexivity|].
  symmetry. pose proof (clen_big c Hc) as L. induction Ha as [|a s1 H _ IH].
  - cbn [app length Nat.add]. pose proof (from_big c s2 Hc) as X. unfold str_from in X. destruct (str_split_at (c :: s2) (clen c - 1)) as [[? ?]|[]|]; [discriminate|reflexivity].
  - cbn [app length]. replace (Datatypes.S (length s1) + clen c - 1)%nat with (Datatypes.S (length s1 + clen c - 1)) by lia.
    cbn [str_split_at]. rewrite (clen_ascii a H). cbn [Nat.ltb Nat.leb]. replace (Datatypes.S (length s1 + clen c - 1) - 1)%nat with (length s1 + clen c - 1)%nat by lia. now rewrite IH.
Qed.
Lemma restart_reads c s : c < 128 -> reads debug (Pend [] true) (c :: s) = reads debug (restart c) s.
Proof.
  intros Hc. unfold restart. destruct (N.eqb_spec c 37) as [->|H].
  - change (reads debug (Pend [] true) (37 :: s)) with (prepend [] (reads debug (Pend [37] false) s)). now destruct (reads debug (Pend [37] false) s).
  - rewrite reads_cut by (cbn; lia). unfold cut_off. replace (c <? 128) with true by lia. replace (c =? 37) with false by lia. reflexivity.
Qed.
Definition weight (q s : str) : nat := (2 * length s + (if is_empty q then 0 else 1))%nat.
(** The output function does not look at the decoded character. *)
Hypothesis Hf : forall st w c c', f st (FChar w c) = f st (FChar w c').
Lemma loop_reads fuel : forall st q s, pending q -> (weight q s < fuel)%nat ->
  decompose_loop debug f fuel st (db_of q) s = run_pieces st (reads debug (Pend q true) s).
Proof using Hf.
  induction fuel as [|fuel IH]; intros st q s Hq Hfu; [lia|]. cbn [decompose_loop]. destruct s as [|c0 r0].
  { cbn [is_empty reads]. unfold run_pieces. cbn [fst snd feed]. now rewrite wret_bind. }
  cbn [is_empty]. set (s := c0 :: r0) in *. assert (Hs : (1 <= length s)%nat) by (cbn; lia).
  assert (AG : agree debug q 0 s (push_encoded debug (db_of q) s) (reads debug (Pend q true) s)).
  { unfold push_encoded. destruct Hq as (bs & w & t & -> & Hw & Ht & Hfit). unfold db_of. cbn [db_encoded]. rewrite (mod_eq bs w t), (octets_eq bs w t) by assumption.
    apply (push_agrees debug s bs w t 0 Hw Ht Hfit). }
  assert (W0 : forall s', (length s' < length s)%nat -> forall q', (weight q' s' < fuel)%nat).
  { intros s' L q'. unfold weight in *. destruct (is_empty q'), (is_empty q); lia. }
  clearbody s. destruct AG as [Ha Hp|s1 s2 w ch E Hn Ha|s1 s2 w bs q2 E Hn Ha Hw Hq2| |s1 c s2 E Ha Hp Hg].
  - rewrite lift_bind. cbv beta iota. replace (Nat.eqb (0 + length s) 0) with false by (symmetry; apply Nat.eqb_neq; lia). rewrite wret_bind. cbv beta iota.
    cbn [Nat.add]. rewrite <- (app_nil_r s) at 1. rewrite str_from_ascii by assumption. rewrite lift_bind.
    assert (F : (1 <= fuel)%nat) by (unfold weight in Hfu; destruct (is_empty q); lia). destruct fuel as [|fuel]; [lia|]. cbn [decompose_loop is_empty].
    unfold run_pieces. cbn [fst snd feed]. now rewrite wret_bind.
  - rewrite lift_bind. cbv beta iota. subst s. rewrite app_length in *. assert (L1 : (1 <= length s1)%nat) by (destruct s1; [contradiction|cbn; lia]).
    replace (Nat.eqb (0 + length s1) 0) with false by (symmetry; apply Nat.eqb_neq; lia). rewrite run_prepend, feed_one. cbn [frag_of]. rewrite (Hf st w ch 0).
    apply bind_ext. intros [st'|u]; [|reflexivity]. cbn [Nat.add]. rewrite str_from_ascii by assumption. rewrite lift_bind. change db_empty with (db_of []). apply IH; [apply pending_nil|apply W0; lia].
  - rewrite lift_bind. cbv beta iota. subst s. rewrite app_length in *. assert (L1 : (1 <= length s1)%nat) by (destruct s1; [contradiction|cbn; lia]).
    replace (Nat.eqb (0 + length s1) 0) with false by (symmetry; apply Nat.eqb_neq; lia). rewrite run_prepend. rewrite (output_broken st bs w Hw).
    apply bind_ext. intros [st'|u]; [|reflexivity]. cbn [Nat.add]. rewrite str_from_ascii by assumption. rewrite lift_bind. apply IH; [assumption|apply W0; lia].
  - unfold run_pieces. cbn [fst snd feed]. rewrite wret_bind. reflexivity.
  - rewrite lift_bind. cbv beta iota. subst s. rewrite app_length in *. cbn [length Nat.add] in *. pose proof (clen_pos c) as Hcl. unfold cut_off.
    destruct (Nat.eqb_spec (length s1 + clen c - 1) 0) as [Z|Z].
    + assert (L1 : length s1 = 0%nat) by lia. destruct s1 as [|? ?]; [|discriminate]. cbn [app length Nat.add Nat.eqb andb] in *. rewrite app_nil_r in *.
      assert (Hc : c < 128). { destruct (N.lt_ge_cases c 128) as [H|H]; [assumption|]. pose proof (clen_big c H). lia. }
      replace (c <? 128) with true by lia. change (flush db_empty) with (@Ok Empty_set _ (@None (list N * DecoderBuffer))). rewrite lift_bind. cbv beta iota. rewrite wret_bind. cbv beta iota.
      destruct (N.eqb_spec c 37) as [->|Hc37].
      * unfold find_split. cbn [split_first]. change (PCT =? 37) with true. cbv iota. cbn [is_empty]. rewrite andb_true_r. assert (D : debug = true \/ debug = false) by (destruct debug; auto). destruct D as [Ed|Ed].
        { rewrite Ed. unfold run_pieces. cbn [fst snd feed]. rewrite wret_bind. reflexivity. }
        match goal with |- (if debug then _ else ?X) = run_pieces st (if debug then _ else ?Y) => enough (HH : X = run_pieces st Y) by (revert HH; rewrite Ed; exact (fun H => H)) end.
        rewrite run_prepend, feed_one. cbn [frag_of]. apply bind_ext. intros [st'|u]; [|reflexivity]. change db_empty with (db_of []). rewrite IH; [|apply pending_nil|].
        -- rewrite restart_reads by assumption. reflexivity.
        -- unfold weight in *. cbn [is_empty length] in *. destruct q as [|? ?]; [|cbn [is_empty] in Hfu; lia]. discriminate.
      * destruct (text_split (c :: s2) []) as (p & sx & E1 & E2 & E3). rewrite E1. cbv beta iota.
        assert (Hp' : p <> []). { intros ->. cbn [app] in E2. subst sx. unfold find_split in E1. cbn [split_first] in E1. replace (PCT =? c) with false in E1 by (unfold PCT; lia).
          destruct (split_first (N.eqb PCT) s2) as [[[? ?] ?]|]; discriminate. }
        replace (is_empty p) with false by now destruct p. rewrite andb_false_r.
        replace (reads debug (Text [c]) s2) with (prepend [PPlain p] (reads debug (Pend [] true) sx)).
        2:{ cbn [app] in E3. rewrite <- E3. cbn [reads read_char]. replace (c =? 37) with false by lia. cbn [app]. now destruct (reads debug (Text [c]) s2). }
        rewrite run_prepend, feed_one. cbn [frag_of]. apply bind_ext. intros [st'|u]; [|reflexivity]. change db_empty with (db_of []). apply IH; [apply pending_nil|].
        apply W0. assert (L : length (c :: s2) = length (p ++ sx)) by now rewrite E2. rewrite app_length in L. cbn [length] in *. destruct p; [contradiction|cbn [length] in L; lia].
    + rewrite (output_feed' st) by assumption. destruct (N.ltb_spec c 128) as [Hc|Hc].
      * rewrite (clen_ascii c Hc) in *. assert (L1 : (1 <= length s1)%nat) by lia. replace (Nat.eqb (length s1) 0) with false by (symmetry; apply Nat.eqb_neq; lia). cbn [andb].
        rewrite run_prepend. apply bind_ext. intros [st'|u]; [|reflexivity]. replace (length s1 + 1 - 1)%nat with (length s1) by lia.
        rewrite str_from_ascii by assumption. rewrite lift_bind. change db_empty with (db_of []). rewrite IH; [|apply pending_nil|apply W0; cbn [length]; lia]. now rewrite restart_reads.
      * rewrite andb_false_r. unfold run_pieces. cbn [fst snd]. apply bind_ext. intros [st'|u]; [|reflexivity]. rewrite from_mid by assumption. reflexivity.
Qed.
End Loop.
