(** * The reserved operators on any value (C28, C29): the errors of [str::from_utf8]. *)
From Coq Require Import ZArith ZifyN Lia.
From Verif Require Import Base Chars Rfc3986 Utf8 PctSpec EncodeSpec MValidate MTrusted MFormat MSearch MPct MEncode MTemplate MMaybePct MExpand TemplateSpec ExpandSpec ReservedSpec.
From Verif Require Import PBase PScan PSearch PPct PPct2 PPath2 PEncode PEncode2 PTmpl1 PExp1.

Ltac divs := zify; Z.to_euclidean_division_equations; lia.
Lemma make2 a b : 194 <= a <= 223 -> 128 <= b <= 191 -> exists c, is_scalar c = true /\ utf8 c = [a; b].
Proof.
  intros Ha Hb. exists ((a - 192) * 64 + (b - 128)). split; [unfold is_scalar, between; lia|]. unfold utf8.
  replace (_ <? 128) with false by lia. replace (_ <? 2048) with true by lia.
  replace (((a - 192) * 64 + (b - 128)) / 64) with (a - 192) by divs. replace (((a - 192) * 64 + (b - 128)) mod 64) with (b - 128) by divs. f_equal; [lia|]. f_equal. lia.
Qed.
Lemma make3 a b d : (a = 224 /\ 160 <= b <= 191 \/ 225 <= a <= 236 /\ 128 <= b <= 191 \/ a = 237 /\ 128 <= b <= 159 \/ 238 <= a <= 239 /\ 128 <= b <= 191) -> 128 <= d <= 191 ->
  exists c, is_scalar c = true /\ utf8 c = [a; b; d].
Proof.
  intros Ha Hd. exists (((a - 224) * 64 + (b - 128)) * 64 + (d - 128)). split; [unfold is_scalar, between; lia|]. unfold utf8.
  replace (_ <? 128) with false by lia. replace (_ <? 2048) with false by lia. replace (_ <? 65536) with true by lia.
  assert (B : 128 <= b <= 191) by lia. assert (A : 224 <= a) by lia. clear Ha.
  replace ((((a - 224) * 64 + (b - 128)) * 64 + (d - 128)) / 4096) with (a - 224) by divs.
  replace ((((a - 224) * 64 + (b - 128)) * 64 + (d - 128)) / 64) with ((a - 224) * 64 + (b - 128)) by divs.
  replace (((a - 224) * 64 + (b - 128)) mod 64) with (b - 128) by divs. replace ((((a - 224) * 64 + (b - 128)) * 64 + (d - 128)) mod 64) with (d - 128) by divs.
  f_equal; [lia|]. f_equal; [lia|]. f_equal. lia.
Qed.
Lemma make4 a b d e : (a = 240 /\ 144 <= b <= 191 \/ 241 <= a <= 243 /\ 128 <= b <= 191 \/ a = 244 /\ 128 <= b <= 143) -> 128 <= d <= 191 -> 128 <= e <= 191 ->
  exists c, is_scalar c = true /\ utf8 c = [a; b; d; e].
Proof.
  intros Ha Hd He. exists ((((a - 240) * 64 + (b - 128)) * 64 + (d - 128)) * 64 + (e - 128)). split; [unfold is_scalar, between; lia|]. unfold utf8.
  replace (_ <? 128) with false by lia. replace (_ <? 2048) with false by lia. replace (_ <? 65536) with false by lia.
  assert (B : 128 <= b <= 191) by lia. assert (A : 240 <= a) by lia. clear Ha.
  replace (((((a - 240) * 64 + (b - 128)) * 64 + (d - 128)) * 64 + (e - 128)) / 262144) with (a - 240) by divs.
  replace (((((a - 240) * 64 + (b - 128)) * 64 + (d - 128)) * 64 + (e - 128)) / 4096) with ((a - 240) * 64 + (b - 128)) by divs.
  replace (((((a - 240) * 64 + (b - 128)) * 64 + (d - 128)) * 64 + (e - 128)) / 64) with (((a - 240) * 64 + (b - 128)) * 64 + (d - 128)) by divs.
  replace (((a - 240) * 64 + (b - 128)) mod 64) with (b - 128) by divs.
  replace ((((a - 240) * 64 + (b - 128)) * 64 + (d - 128)) mod 64) with (d - 128) by divs.
  replace (((((a - 240) * 64 + (b - 128)) * 64 + (d - 128)) * 64 + (e - 128)) mod 64) with (e - 128) by divs.
  f_equal; [lia|]. f_equal; [lia|]. f_equal; [lia|]. f_equal. lia.
Qed.
Definition mid3 (a x : N) : bool :=
  ((a =? 224) && between 160 191 x) || (between 225 236 a && between 128 191 x) || ((a =? 237) && between 128 159 x) || (between 238 239 a && between 128 191 x).
Definition mid4 (a x : N) : bool :=
  ((a =? 240) && between 144 191 x) || (between 241 243 a && between 128 191 x) || ((a =? 244) && between 128 143 x).
Lemma short c p r : is_scalar c = true -> utf8 c = p ++ r -> p <> [] -> r <> [] -> begins_char p.
Proof. intros Hc E Hp Hr. split; [assumption|]. right. exists c. split; [assumption|]. exists r. auto. Qed.
(** What one step says. *)
Definition step_says (b : list N) (x : nat + option nat) : Prop :=
  match x with
  | inl n => exists c, is_scalar c = true /\ n = length (utf8 c) /\ b = utf8 c ++ skipn n b
  | inr e => utf8_bad b e
  end.
Lemma no_lead a : 128 <= a <= 193 \/ 245 <= a -> forall c x, is_scalar c = true -> utf8 c <> a :: x.
Proof. intros H c x Hc E. destruct (utf8_cases c Hc) as [(Hl&X)|[(a'&b&X&?)|[(a'&b&d&X&?)|(a'&b&d&e&X&?)]]]; rewrite X in E; injection E as E _; lia. Qed.
(** A character that begins with [a; x]. *)
Lemma lead2 c a x r : is_scalar c = true -> utf8 c = a :: x :: r -> between 194 223 a = true /\ between 128 191 x = true /\ r = [] \/
  mid3 a x = true /\ (exists y, between 128 191 y = true /\ r = [y]) \/ mid4 a x = true /\ (exists y z, between 128 191 y = true /\ between 128 191 z = true /\ r = [y; z]).
Proof.
  intros Hc E. pose proof Hc as Hs. destruct (utf8_cases c Hc) as [(Hl&X)|[(a'&b&X&?)|[(a'&b&d&X&?)|(a'&b&d&e&X&?)]]]; rewrite X in E.
  - discriminate.
  - injection E as <- <- <-. left. unfold between. repeat split; lia.
  - injection E as <- <- <-. right. left. split; [unfold mid3, is_scalar, between in *; lia|]. exists d. split; [unfold between; lia|reflexivity].
  - injection E as <- <- <-. right. right. split; [unfold mid4, is_scalar, between in *; lia|]. exists d, e. repeat split; unfold between; lia.
Qed.
Ltac lia' := unfold mid3, mid4, between in *; lia.
Lemma step_ok b : b <> [] -> step_says b (utf8_step b).
Proof.
  destruct b as [|a r]; [contradiction|]. intros _. unfold utf8_step. destruct (N.ltb_spec a 128) as [L|L].
  { exists a. unfold utf8. replace (a <? 128) with true by lia. repeat split; unfold is_scalar; lia. }
  destruct (between 194 223 a) eqn:E2.
  { destruct (make2 a 128) as (c0 & Hc0 & U0); [lia'|lia|].
    assert (B1 : begins_char [a]) by (apply (short c0 [a] [128]); [assumption|exact U0|discriminate|discriminate]).
    destruct r as [|x r]; [now constructor|]. destruct (between 128 191 x) eqn:Ex.
    - destruct (make2 a x) as (c & Hc & U); [lia'|lia'|]. exists c. rewrite U. repeat split; assumption.
    - apply (bad_later _ [a] x r); [reflexivity|exact B1| |].
      + intros [_ [X|(c & Hc & rest & U & Hr & _)]]; [discriminate|]. cbn [app] in U. destruct (lead2 c a x rest Hc U) as [(A & B & C)|[(A & _)|(A & _)]]; [congruence|lia'|lia'].
      + intros c Hc U. destruct (lead2 c a x [] Hc U) as [(A & B & C)|[(A & y & B & C)|(A & y & z & B & B' & C)]]; congruence. }
  destruct (between 224 239 a) eqn:E3.
  { fold (mid3 a 160).
    assert (X : exists x0, mid3 a x0 = true) by (destruct (N.eqb_spec a 237); [exists 128; lia'|exists 160; lia']). destruct X as [x0 Hx0].
    destruct (make3 a x0 128) as (c0 & Hc0 & U0); [lia'|lia|].
    assert (B1 : begins_char [a]) by (apply (short c0 [a] [x0; 128]); [assumption|exact U0|discriminate|discriminate]).
    destruct r as [|x r]; [now constructor|]. fold (mid3 a x). destruct (mid3 a x) eqn:Ex.
    - destruct (make3 a x 128) as (c1 & Hc1 & U1); [lia'|lia|].
      assert (B2 : begins_char [a; x]) by (apply (short c1 [a; x] [128]); [assumption|exact U1|discriminate|discriminate]).
      destruct r as [|y r]; [now constructor|]. destruct (between 128 191 y) eqn:Ey.
      + destruct (make3 a x y) as (c & Hc & U); [lia'|lia'|]. exists c. rewrite U. repeat split; assumption.
      + apply (bad_later _ [a; x] y r); [reflexivity|exact B2| |].
        * intros [_ [X|(c & Hc & rest & U & Hr & _)]]; [discriminate|]. cbn [app] in U. destruct (lead2 c a x (y :: rest) Hc U) as [(A & B & C)|[(A & z & B & C)|(A & _)]]; [discriminate|injection C as -> ->; contradiction|lia'].
        * intros c Hc U. destruct (lead2 c a x [y] Hc U) as [(A & B & C)|[(A & z & B & C)|(A & z & z' & B & B' & C)]]; [discriminate|injection C as ->; congruence|discriminate].
    - apply (bad_later _ [a] x r); [reflexivity|exact B1| |].
      + intros [_ [X|(c & Hc & rest & U & Hr & _)]]; [discriminate|]. cbn [app] in U. destruct (lead2 c a x rest Hc U) as [(A & B & C)|[(A & _)|(A & _)]]; [lia'|congruence|lia'].
      + intros c Hc U. destruct (lead2 c a x [] Hc U) as [(A & B & C)|[(A & y & B & C)|(A & y & z & B & B' & C)]]; [lia'|congruence|discriminate]. }
  destruct (between 240 244 a) eqn:E4.
  { assert (X : exists x0, mid4 a x0 = true) by (destruct (N.eqb_spec a 244); [exists 128; lia'|exists 144; lia']). destruct X as [x0 Hx0].
    destruct (make4 a x0 128 128) as (c0 & Hc0 & U0); [lia'|lia|lia|].
    assert (B1 : begins_char [a]) by (apply (short c0 [a] [x0; 128; 128]); [assumption|exact U0|discriminate|discriminate]).
    destruct r as [|x r]; [now constructor|]. fold (mid4 a x). destruct (mid4 a x) eqn:Ex.
    - destruct (make4 a x 128 128) as (c1 & Hc1 & U1); [lia'|lia|lia|].
      assert (B2 : begins_char [a; x]) by (apply (short c1 [a; x] [128; 128]); [assumption|exact U1|discriminate|discriminate]).
      destruct r as [|y r]; [now constructor|]. destruct (between 128 191 y) eqn:Ey.
      + destruct (make4 a x y 128) as (c2 & Hc2 & U2); [lia'|lia'|lia|].
        assert (B3 : begins_char [a; x; y]) by (apply (short c2 [a; x; y] [128]); [assumption|exact U2|discriminate|discriminate]).
        destruct r as [|z r]; [now constructor|]. destruct (between 128 191 z) eqn:Ez.
        * destruct (make4 a x y z) as (c & Hc & U); [lia'|lia'|lia'|]. exists c. rewrite U. repeat split; assumption.
        * apply (bad_later _ [a; x; y] z r); [reflexivity|exact B3| |].
          -- intros [_ [X|(c & Hc & rest & U & Hr & _)]]; [discriminate|]. cbn [app] in U.
             destruct (lead2 c a x (y :: z :: rest) Hc U) as [(A & B & C)|[(A & t & B & C)|(A & t & t' & B & B' & C)]]; [discriminate|discriminate|injection C as -> -> ->; contradiction].
          -- intros c Hc U. destruct (lead2 c a x [y; z] Hc U) as [(A & B & C)|[(A & t & B & C)|(A & t & t' & B & B' & C)]]; [discriminate|discriminate|injection C as -> ->; congruence].
      + apply (bad_later _ [a; x] y r); [reflexivity|exact B2| |].
        * intros [_ [X|(c & Hc & rest & U & Hr & _)]]; [discriminate|]. cbn [app] in U.
          destruct (lead2 c a x (y :: rest) Hc U) as [(A & B & C)|[(A & z & B & C)|(A & z & z' & B & B' & C)]]; [discriminate|lia'|injection C as -> ->; congruence].
        * intros c Hc U. destruct (lead2 c a x [y] Hc U) as [(A & B & C)|[(A & z & B & C)|(A & z & z' & B & B' & C)]]; [discriminate|lia'|discriminate].
    - apply (bad_later _ [a] x r); [reflexivity|exact B1| |].
      + intros [_ [X|(c & Hc & rest & U & Hr & _)]]; [discriminate|]. cbn [app] in U. destruct (lead2 c a x rest Hc U) as [(A & B & C)|[(A & _)|(A & _)]]; [lia'|lia'|congruence].
      + intros c Hc U. destruct (lead2 c a x [] Hc U) as [(A & B & C)|[(A & y & B & C)|(A & y & z & B & B' & C)]]; [lia'|discriminate|congruence]. }
  apply (bad_first _ a r); [reflexivity|]. apply no_lead. lia'.
Qed.
(** [utf8_error]. *)
Lemma error_loop_says fuel : forall pos b, (length b < fuel)%nat ->
  match utf8_error_loop fuel pos b with
  | None => exists s, all_scalar s = true /\ b = utf8s s
  | Some (n, e) => exists s r, all_scalar s = true /\ b = utf8s s ++ r /\ n = (pos + length (utf8s s))%nat /\ r <> [] /\ utf8_bad r e
  end.
Proof.
  induction fuel as [|fuel IH]; intros pos b L; [lia|]. cbn [utf8_error_loop]. destruct b as [|a r]; [exists []; split; reflexivity|].
  pose proof (step_ok (a :: r) ltac:(discriminate)) as H. destruct (utf8_step (a :: r)) as [n|e].
  - destruct H as (c & Hc & -> & E). pose proof (utf8_nonempty c) as Hn. set (t := skipn (length (utf8 c)) (a :: r)) in *. clearbody t. rewrite E in L. rewrite E.
    assert (Lt : (length t < fuel)%nat) by (rewrite app_length in L; destruct (utf8 c); [contradiction|cbn [length] in L; lia]).
    specialize (IH (pos + length (utf8 c))%nat t Lt). destruct (utf8_error_loop fuel _ t) as [[n e]|].
    + destruct IH as (s & q & SC & -> & -> & Hq & HB). exists (c :: s), q. cbn [all_scalar forallb utf8s flat_map]. rewrite Hc. fold (utf8s s). rewrite app_length, <- app_assoc. repeat split; auto. lia.
    + destruct IH as (s & SC & ->). exists (c :: s). cbn [all_scalar forallb utf8s flat_map]. rewrite Hc. split; [assumption|reflexivity].
  - exists [], (a :: r). cbn [utf8s flat_map app length]. repeat split; auto; try lia. discriminate.
Qed.
Theorem error_says b :
  match utf8_error b with
  | None => exists s, all_scalar s = true /\ b = utf8s s
  | Some (n, e) => exists s r, all_scalar s = true /\ b = utf8s s ++ r /\ n = length (utf8s s) /\ r <> [] /\ utf8_bad r e
  end.
Proof. unfold utf8_error. pose proof (error_loop_says (1 + length b) 0 b ltac:(lia)) as H. destruct (utf8_error_loop _ 0 b) as [[n e]|]; exact H. Qed.

(** What the decoder relies on. *)
Lemma error_none bs : utf8_error bs = None -> bs <> [] -> exists ch r, from_utf8 bs = Some (ch :: r).
Proof.
  intros E Hn. pose proof (error_says bs) as H. rewrite E in H. destruct H as (s & SC & Hb). destruct s as [|ch r]; [now cbn in Hb|].
  exists ch, r. apply from_utf8_ok. split; assumption.
Qed.
Lemma utf8s_zero s : length (utf8s s) = 0%nat -> s = [].
Proof. destruct s as [|c s]; [reflexivity|]. cbn [utf8s flat_map]. rewrite app_length. pose proof (utf8_nonempty c). destruct (utf8 c); [contradiction|cbn; lia]. Qed.
Lemma begins_len b : begins_char b -> (1 <= length b <= 3)%nat.
Proof. intros [Hn Ht]. pose proof (truncated_room b Ht) as R. unfold room in R. destruct b; [contradiction|cbn [length] in *; lia]. Qed.
Lemma error_short bs : utf8_error bs = Some (0%nat, None) -> begins_char bs.
Proof.
  intros E. pose proof (error_says bs) as H. rewrite E in H. destruct H as (s & r & SC & Hb & L & Hr & HB). symmetry in L. apply utf8s_zero in L. subst s. cbn in Hb. subst r.
  now inversion HB.
Qed.
Lemma error_bad bs k : utf8_error bs = Some (0%nat, Some k) -> utf8_bad bs (Some k).
Proof.
  intros E. pose proof (error_says bs) as H. rewrite E in H. destruct H as (s & r & SC & Hb & L & Hr & HB). symmetry in L. apply utf8s_zero in L. subst s. cbn in Hb. now subst r.
Qed.
(** Nothing, one octet, or the beginning of a character. *)
Definition fit (bs : list N) : Prop := (length bs <= 1)%nat \/ begins_char bs.
Lemma fit_room bs : fit bs -> room bs.
Proof. unfold room. intros [H|H]; [lia|]. apply begins_len in H. lia. Qed.
Lemma begins_prefix p q : begins_char (p ++ q) -> p <> [] -> begins_char p.
Proof.
  intros [_ [E|(c & Hc & r & U & Hr & _)]] Hp; [apply app_eq_nil in E as [E _]; contradiction|]. rewrite <- app_assoc in U. apply (short c p (q ++ r)); auto.
  intros E. apply app_eq_nil in E as [_ E]. contradiction.
Qed.
Lemma bad_after bs b k : fit bs -> utf8_error (bs ++ [b]) = Some (0%nat, Some k) ->
  (1 <= k <= length (bs ++ [b]))%nat /\ (length (skipn k (bs ++ [b])) <= 1)%nat.
Proof.
  intros F E. apply error_bad in E. assert (L : (1 <= k <= length (bs ++ [b]))%nat).
  { inversion E as [|a r Eb Hn Ek|p x r Eb Hp _ _ Ek].
    - rewrite Eb. cbn [length]. lia.
    - rewrite Eb, app_length. apply begins_len in Hp. cbn [length]. lia. }
  split; [assumption|]. rewrite skipn_length. destruct F as [F|F]; [rewrite app_length in *; cbn [length] in *; lia|].
  enough (length bs <= k)%nat by (rewrite app_length; cbn [length]; lia).
  inversion E as [|a r Eb Hn Ek|p x r Eb Hp Hq _ Ek].
  - destruct bs as [|a' bs]; [cbn; lia|]. injection Eb as -> Eb. exfalso. destruct F as [_ [X|(c & Hc & rest & U & _)]]; [discriminate|]. now apply (Hn c (bs ++ rest)).
  - destruct (le_lt_dec (length bs) (length p)) as [?|Lt]; [assumption|]. exfalso. apply Hq.
    assert (X : exists q, bs = (p ++ [x]) ++ q).
    { assert (P : firstn (length p + 1) (bs ++ [b]) = p ++ [x]).
      { rewrite Eb. rewrite firstn_app. rewrite firstn_all2 by lia. replace (length p + 1 - length p)%nat with 1%nat by lia. reflexivity. }
      rewrite firstn_app in P. replace (length p + 1 - length bs)%nat with 0%nat in P by lia. cbn [firstn] in P. rewrite app_nil_r in P.
      exists (skipn (length p + 1) bs). rewrite <- P. symmetry. apply firstn_skipn. }
    destruct X as [q ->]. eapply begins_prefix; [exact F|]. intros X. apply app_eq_nil in X as [_ X]. discriminate.
Qed.
