(** * Construction and comparison of the string types (C38, C39). *)
From Verif Require Import Base Chars Rfc3986 Utf8 OrderSpec MValidate MTrusted MFormat MEncode MTemplate MMaybePct MTypes TemplateSpec ExpandSpec.
From Verif Require Import PBase PScan PSearch PPct PAscii PTypes PEncode PTmpl1 PTmpl2 PTmpl3 PExp1.

(** ** Construction *)
Lemma bytes_ok S t b s : try_from_bytes S t b = Ok s <-> all_scalar s = true /\ b = utf8s s /\ new S t s = Ok s.
Proof.
  unfold try_from_bytes. destruct (from_utf8 b) as [s'|] eqn:E.
  - apply from_utf8_ok in E as [E1 E2]. split.
    + intros X. assert (s' = s) by (unfold new in X; destruct (validate S t s'); congruence). subst. auto.
    + intros (H1 & H2 & H3). assert (F : from_utf8 b = Some s) by (apply from_utf8_ok; auto).
      assert (F' : from_utf8 b = Some s') by (apply from_utf8_ok; auto). rewrite F in F'. injection F' as ->. exact H3.
  - split; [discriminate|]. intros (H1 & H2 & _). assert (F : from_utf8 b = Some s) by (apply from_utf8_ok; auto). congruence.
Qed.
Lemma bytes_err S t b : (forall s, all_scalar s = true -> b = utf8s s -> try_from_bytes S t b = new S t s) /\
  ((forall s, all_scalar s = true -> b <> utf8s s) -> try_from_bytes S t b = Err InvalidUtf8).
Proof.
  split.
  - intros s H1 H2. unfold try_from_bytes. replace (from_utf8 b) with (Some s); [reflexivity|]. symmetry. apply from_utf8_ok. auto.
  - intros H. unfold try_from_bytes. destruct (from_utf8 b) as [s|] eqn:E; [|reflexivity]. apply from_utf8_ok in E as [E1 E2]. now apply (H s E1) in E2.
Qed.
Lemma string_ok S t s : (new S t s = Ok s -> try_from_string S t s = Ok s) /\
  (forall e, new S t s = Err e -> exists x, try_from_string S t s = Err x /\ ce_source x = s /\ ce_error x = e) /\ new S t s <> Panic.
Proof.
  pose proof (validate_np S t s) as Q. unfold try_from_string, new. destruct (validate S t s) as [u|e|]; [| |contradiction].
  - split; [reflexivity|]. split; [discriminate|discriminate].
  - split; [discriminate|]. split; [|discriminate]. intros e' X. injection X as <-. eexists. split; [reflexivity|]. now split.
Qed.
Lemma downcast_ok S from s : (new S from s = Ok s -> try_downcast S from s = Ok s /\ try_downcast_owned S from s = Ok s) /\
  (forall e, new S from s = Err e -> try_downcast S from s = Err e /\ exists x, try_downcast_owned S from s = Err x /\ ce_source x = s /\ ce_error x = e).
Proof.
  destruct (string_ok S from s) as (A & B & _). split.
  - intros H. split; [exact H|now apply A].
  - intros e H. split; [exact H|now apply B].
Qed.
Lemma upcast_ok debug S from to s : In (from, to) trivial_conv -> new S from s = Ok s -> upcast debug S to s = Ok s /\ new S to s = Ok s.
Proof.
  intros Hi H. assert (X : new S to s = Ok s).
  { destruct (ty_lang_hier S s) as (H1 & H2 & H3). cbn [In trivial_conv] in Hi.
    destruct Hi as [E|[E|[E|[E|[]]]]]; injection E as <- <-; auto. }
  split; [|exact X]. unfold upcast, new_unchecked_justified. unfold new in X. destruct (validate S to s); try discriminate. cbn. now rewrite andb_false_r.
Qed.

(** ** The place of a UTF-8 error *)
Lemma step_char c r : is_scalar c = true -> utf8_step (utf8 c ++ r) = inl (length (utf8 c)).
Proof.
  intros H. pose proof (step_whole c H) as W. destruct (utf8_cases c H) as [(Hc&X)|[(a&b&X&?)|[(a&b&d&X&?)|(a&b&d&e&X&?)]]]; rewrite X in *; cbn [app]; unfold utf8_step in *; cbn [length] in *.
  - bool_to (c <? 128) true. reflexivity.
  - bool_to (a <? 128) false. bool_to (between 194 223 a) true. bool_to (between 128 191 b) true. reflexivity.
  - revert W. bool_to (a <? 128) false. bool_to (between 194 223 a) false. bool_to (between 224 239 a) true.
    destruct (_ || _); [|discriminate]. destruct (between 128 191 d); [reflexivity|discriminate].
  - revert W. bool_to (a <? 128) false. bool_to (between 194 223 a) false. bool_to (between 224 239 a) false. bool_to (between 240 244 a) true.
    destruct (_ || _); [|discriminate]. destruct (between 128 191 d); [|discriminate]. destruct (between 128 191 e); [reflexivity|discriminate].
Qed.
Lemma utf8_4 c : 65536 <= c -> utf8 c = [240 + c / 262144; 128 + (c / 4096) mod 64; 128 + (c / 64) mod 64; 128 + c mod 64].
Proof. intros H. unfold utf8. bool_to (c <? 128) false. bool_to (c <? 2048) false. bool_to (c <? 65536) false. reflexivity. Qed.
Lemma utf8_3 c : 2048 <= c < 65536 -> utf8 c = [224 + c / 4096; 128 + (c / 64) mod 64; 128 + c mod 64].
Proof. intros H. unfold utf8. bool_to (c <? 128) false. bool_to (c <? 2048) false. bool_to (c <? 65536) true. reflexivity. Qed.
Lemma utf8_2 c : 128 <= c < 2048 -> utf8 c = [192 + c / 64; 128 + c mod 64].
Proof. intros H. unfold utf8. bool_to (c <? 128) false. bool_to (c <? 2048) true. reflexivity. Qed.
Lemma dm c q r k : c = k * q + r -> r < k -> c / k = q /\ c mod k = r.
Proof. intros -> H. split; symmetry; [apply N.div_unique with r|apply N.mod_unique with q]; lia. Qed.
Lemma step_valid b n : b <> [] -> utf8_step b = inl n -> exists c r, is_scalar c = true /\ b = utf8 c ++ r /\ n = length (utf8 c).
Proof.
  intros Hb. destruct b as [|a r]; [contradiction|]. cbn [utf8_step]. destruct (N.ltb_spec a 128) as [Ha|Ha].
  { intros X. injection X as <-. exists a, r. rewrite utf8_ascii_eq by exact Ha. split; [unfold is_scalar; lia|now split]. }
  destruct (between 194 223 a) eqn:E2.
  { destruct r as [|x r]; [discriminate|]. destruct (between 128 191 x) eqn:Ex; [|discriminate]. intros X. injection X as <-. unfold between in *.
    set (c := (a - 192) * 64 + (x - 128)). destruct (dm c (a - 192) (x - 128) 64) as [D1 D2]; [unfold c; lia|lia|].
    exists c, r. rewrite utf8_2 by (unfold c; lia). rewrite D1, D2. split; [unfold is_scalar; unfold c; lia|]. split; [|reflexivity]. cbn [app]. f_equal; [lia|]. f_equal. lia. }
  destruct (between 224 239 a) eqn:E3.
  { destruct r as [|x r]; [discriminate|]. destruct (_ || _) eqn:Eo; [|discriminate]. destruct r as [|y r]; [discriminate|]. destruct (between 128 191 y) eqn:Ey; [|discriminate].
    intros X. injection X as <-. unfold between in *. assert (Hx : 128 <= x <= 191) by lia.
    set (c := ((a - 224) * 64 + (x - 128)) * 64 + (y - 128)).
    destruct (dm c ((a - 224) * 64 + (x - 128)) (y - 128) 64) as [D1 D2]; [unfold c; lia|lia|].
    destruct (dm (c / 64) (a - 224) (x - 128) 64) as [D3 D4]; [rewrite D1; lia|lia|].
    assert (D5 : c / 4096 = c / 64 / 64) by (rewrite N.div_div by lia; reflexivity).
    exists c, r. rewrite utf8_3 by (unfold c; lia). rewrite D5, D3, D4, D2. split; [unfold is_scalar, between; unfold c; lia|]. split; [|reflexivity]. cbn [app]. f_equal; [lia|]. f_equal; [lia|]. f_equal. lia. }
  destruct (between 240 244 a) eqn:E4; [|discriminate].
  destruct r as [|x r]; [discriminate|]. destruct (_ || _) eqn:Eo; [|discriminate]. destruct r as [|y r]; [discriminate|]. destruct (between 128 191 y) eqn:Ey; [|discriminate].
  destruct r as [|z r]; [discriminate|]. destruct (between 128 191 z) eqn:Ez; [|discriminate].
  intros X. injection X as <-. unfold between in *. assert (Hx : 128 <= x <= 191) by lia.
  set (c := (((a - 240) * 64 + (x - 128)) * 64 + (y - 128)) * 64 + (z - 128)).
  destruct (dm c (((a - 240) * 64 + (x - 128)) * 64 + (y - 128)) (z - 128) 64) as [D1 D2]; [unfold c; lia|lia|].
  destruct (dm (c / 64) ((a - 240) * 64 + (x - 128)) (y - 128) 64) as [D3 D4]; [rewrite D1; lia|lia|].
  destruct (dm (c / 64 / 64) (a - 240) (x - 128) 64) as [D5 D6]; [rewrite D3; lia|lia|].
  assert (D7 : c / 4096 = c / 64 / 64) by (rewrite N.div_div by lia; reflexivity).
  assert (D8 : c / 262144 = c / 64 / 64 / 64) by (rewrite !N.div_div by lia; reflexivity).
  exists c, r. rewrite utf8_4 by (unfold c; lia). rewrite D8, D7, D5, D6, D4, D2. split; [unfold is_scalar, between; unfold c; lia|]. split; [|reflexivity].
  cbn [app]. f_equal; [lia|]. f_equal; [lia|]. f_equal; [lia|]. f_equal. lia.
Qed.
Lemma error_loop fuel : forall pos b, (length b < fuel)%nat ->
  match utf8_error_loop fuel pos b with
  | None => exists s, all_scalar s = true /\ b = utf8s s
  | Some (n, _) => exists s r, all_scalar s = true /\ b = utf8s s ++ r /\ n = (pos + length (utf8s s))%nat /\ r <> [] /\
      forall c t, is_scalar c = true -> r <> utf8 c ++ t
  end.
Proof.
  induction fuel as [|fuel IH]; intros pos b L; [lia|]. cbn [utf8_error_loop]. destruct b as [|x b']; [exists []; now split|].
  remember (x :: b') as b eqn:Eb. assert (Hb : b <> []) by (subst; discriminate).
  destruct (utf8_step b) as [n|e] eqn:E.
  - destruct (step_valid b n Hb E) as (c & r & Hc & H1 & Hn). pose proof (utf8_nonempty c) as Hne.
    assert (0 < length (utf8 c))%nat by (destruct (utf8 c); [contradiction|cbn; lia]).
    assert (Hs : skipn n b = r) by (rewrite H1, Hn, skipn_app, skipn_all, Nat.sub_diag; reflexivity). rewrite Hs.
    specialize (IH (pos + n)%nat r). rewrite H1, app_length in L. specialize (IH ltac:(lia)).
    destruct (utf8_error_loop fuel (pos + n) r) as [[m e]|].
    + destruct IH as (s & r' & A1 & A2 & A3 & A4 & A5). exists (c :: s), r'. split; [cbn; now rewrite Hc|]. cbn [utf8s flat_map]. change (flat_map utf8 s) with (utf8s s).
      split; [rewrite <- app_assoc, <- A2; exact H1|]. split; [rewrite app_length; lia|]. now split.
    + destruct IH as (s & A1 & A2). exists (c :: s). split; [cbn; now rewrite Hc|]. cbn [utf8s flat_map]. change (flat_map utf8 s) with (utf8s s). now rewrite <- A2.
  - exists [], b. split; [reflexivity|]. split; [reflexivity|]. split; [cbn; lia|]. split; [exact Hb|]. intros c t Hc X. rewrite X, step_char in E by exact Hc. discriminate.
Qed.
Lemma utf8_error_ok b :
  match utf8_error b with
  | None => exists s, all_scalar s = true /\ b = utf8s s
  | Some (n, _) => exists s r, all_scalar s = true /\ b = utf8s s ++ r /\ n = length (utf8s s) /\ r <> [] /\
      forall c t, is_scalar c = true -> r <> utf8 c ++ t
  end.
Proof. apply error_loop. lia. Qed.
Lemma utf8s_prefix s : forall t r, all_scalar s = true -> all_scalar t = true -> utf8s t = utf8s s ++ r -> exists u, t = s ++ u /\ r = utf8s u.
Proof.
  induction s as [|c s IH]; intros t r Hs Ht E; [exists t; now split|]. cbn [all_scalar forallb] in Hs. apply andb_true_iff in Hs as [Hc Hs].
  cbn [utf8s flat_map] in E. change (flat_map utf8 s) with (utf8s s) in E.
  destruct t as [|d t]. { cbn in E. symmetry in E. rewrite <- app_assoc in E. apply app_eq_nil in E as [E _]. now apply utf8_nonempty in E. }
  cbn [all_scalar forallb] in Ht. apply andb_true_iff in Ht as [Hd Ht]. cbn [utf8s flat_map] in E. change (flat_map utf8 t) with (utf8s t) in E. rewrite <- app_assoc in E.
  assert (c = d). { pose proof (candidate_ok c (utf8s s ++ r) Hc) as C1. pose proof (candidate_ok d (utf8s t) Hd) as C2. rewrite E, C1 in C2. exact C2. }
  subst d. apply app_inv_head in E. destruct (IH t r Hs Ht E) as (u & -> & ->). now exists u.
Qed.
Lemma template_bytes b :
  (forall s, all_scalar s = true -> b = utf8s s -> template_try_from_bytes b = template_new s) /\
  ((forall s, all_scalar s = true -> b <> utf8s s) -> exists s r, all_scalar s = true /\ b = utf8s s ++ r /\
     (forall c t, is_scalar c = true -> r <> utf8 c ++ t) /\ template_try_from_bytes b = terr TInvalidUtf8 (length (utf8s s))).
Proof.
  unfold template_try_from_bytes. pose proof (utf8_error_ok b) as Q. destruct (utf8_error b) as [[n e]|].
  - destruct Q as (s & r & A1 & A2 & -> & A4 & A5). split.
    + intros t Ht E. exfalso. rewrite E in A2. destruct (utf8s_prefix s t r A1 Ht A2) as (u & -> & ->). destruct u as [|c u]; [now apply A4|].
      unfold all_scalar in Ht. rewrite forallb_app in Ht. apply andb_true_iff in Ht as [_ Ht]. cbn [forallb] in Ht. apply andb_true_iff in Ht as [Hc _]. now apply (A5 c (utf8s u) Hc).
    + intros _. exists s, r. now repeat split.
  - destruct Q as (s & A1 & A2). split.
    + intros t Ht E. replace (from_utf8 b) with (Some t); [reflexivity|]. symmetry. apply from_utf8_ok. now split.
    + intros H. now apply H in A2.
Qed.
Lemma template_string s : (template_new s = Ok s -> template_try_from_string s = Ok s) /\
  (forall e, template_new s = Err e -> exists x, template_try_from_string s = Err x /\ ce_source x = s /\ ce_error x = e) /\
  (template_new s = Panic -> template_try_from_string s = Panic).
Proof.
  unfold template_try_from_string, template_new. destruct (validate_template_str s) as [u|e|]; cbn [bind].
  - split; [reflexivity|]. split; discriminate.
  - split; [discriminate|]. split; [|discriminate]. intros e' X. injection X as <-. eexists. split; [reflexivity|]. now split.
  - split; [discriminate|]. split; [discriminate|reflexivity].
Qed.

(** ** Comparison *)
Lemma cmp_refl a : bytes_cmp a a = Eq.
Proof. induction a as [|x a IH]; [reflexivity|]. cbn [bytes_cmp]. now rewrite N.compare_refl. Qed.
Lemma cmp_app a : forall b c, bytes_cmp (a ++ b) (a ++ c) = bytes_cmp b c.
Proof. induction a as [|x a IH]; intros b c; [reflexivity|]. cbn [app bytes_cmp]. now rewrite N.compare_refl. Qed.
Lemma cmp_swap a : forall b, bytes_cmp b a = CompOpp (bytes_cmp a b).
Proof. induction a as [|x a IH]; intros [|y b]; try reflexivity. cbn [bytes_cmp]. rewrite (N.compare_antisym x y). destruct (x ?= y); cbn [CompOpp]; auto. Qed.
Lemma cmp_eq a : forall b, bytes_cmp a b = Eq -> a = b.
Proof. induction a as [|x a IH]; intros [|y b]; try discriminate; [reflexivity|]. cbn [bytes_cmp]. destruct (N.compare_spec x y); try discriminate. intros Q. f_equal; auto. Qed.
Lemma cmp_char c d x y : is_scalar c = true -> is_scalar d = true -> c < d -> bytes_cmp (utf8 c ++ x) (utf8 d ++ y) = Lt.
Proof.
  intros Hc Hd H. destruct (utf8_cases c Hc) as [(Hc'&X)|[(a&b&X&?)|[(a&b&e&X&?)|(a&b&e&f&X&?)]]]; rewrite X; clear X;
  destruct (utf8_cases d Hd) as [(Hd'&X)|[(a'&b'&X&?)|[(a'&b'&e'&X&?)|(a'&b'&e'&f'&X&?)]]]; rewrite X; clear X; cbn [app bytes_cmp];
  repeat (match goal with |- context [N.compare ?u ?v] => destruct (N.compare_spec u v); try reflexivity; try (exfalso; lia) end).
Qed.
Lemma cmp_precedes s t : all_scalar s = true -> all_scalar t = true -> precedes s t -> str_cmp s t = Lt.
Proof.
  intros Hs Ht H. unfold str_cmp. destruct H as [s c t|s c d t u H]; rewrite !utf8s_app.
  - rewrite <- (app_nil_r (utf8s s)) at 1. rewrite cmp_app. cbn [utf8s flat_map]. pose proof (utf8_nonempty c). destruct (utf8 c); [contradiction|reflexivity].
  - rewrite cmp_app. cbn [utf8s flat_map]. unfold all_scalar in *. rewrite forallb_app in Hs, Ht. apply andb_true_iff in Hs as [_ Hs]. apply andb_true_iff in Ht as [_ Ht].
    cbn [forallb] in *. apply andb_true_iff in Hs as [Hs _]. apply andb_true_iff in Ht as [Ht _]. now apply cmp_char.
Qed.
Lemma trichotomy s : forall t, s = t \/ precedes s t \/ precedes t s.
Proof.
  induction s as [|c s IH]; intros [|d t].
  - now left.
  - right. left. apply (pre_prefix [] d t).
  - right. right. apply (pre_prefix [] c s).
  - destruct (N.lt_trichotomy c d) as [H|[<-|H]].
    + right. left. now apply (pre_char [] c d s t).
    + destruct (IH t) as [->|[H|H]]; [now left|right; left|right; right].
      * destruct H as [s c' t|s a b t u H]; [apply (pre_prefix (c :: s))|now apply (pre_char (c :: s))].
      * destruct H as [s' c' t'|s' a b t' u H]; [apply (pre_prefix (c :: s'))|now apply (pre_char (c :: s'))].
    + right. right. now apply (pre_char [] d c t s).
Qed.
Lemma utf8s_inj s t : all_scalar s = true -> all_scalar t = true -> utf8s s = utf8s t -> s = t.
Proof.
  intros Hs Ht E. assert (A : from_utf8 (utf8s s) = Some s) by (apply from_utf8_ok; now split). assert (B : from_utf8 (utf8s s) = Some t) by (apply from_utf8_ok; now split). congruence.
Qed.
Lemma order_ok s t : all_scalar s = true -> all_scalar t = true ->
  (ri_cmp s t = Lt <-> precedes s t) /\ (ri_cmp s t = Eq <-> s = t) /\ (ri_cmp s t = Gt <-> precedes t s) /\
  ri_partial_cmp s t = Some (ri_cmp s t) /\ (ri_eq s t = true <-> s = t).
Proof.
  intros Hs Ht. unfold ri_cmp, ri_partial_cmp. assert (E : forall u v, all_scalar u = true -> all_scalar v = true -> precedes u v -> str_cmp v u = Gt).
  { intros u v Hu Hv H. unfold str_cmp. rewrite cmp_swap. fold (str_cmp u v). now rewrite cmp_precedes. }
  assert (R : forall u, str_cmp u u = Eq) by (intros u; apply cmp_refl).
  assert (Q : str_cmp s t = Eq -> s = t) by (intros X; apply cmp_eq in X; now apply utf8s_inj).
  split; [|split; [|split; [|split; [reflexivity|]]]].
  - split; [|now apply cmp_precedes]. intros X. destruct (trichotomy s t) as [->|[H|H]]; [rewrite R in X; discriminate|exact H|]. rewrite (E t s) in X; auto; discriminate.
  - split; [exact Q|now intros ->].
  - split; [|now apply E]. intros X. destruct (trichotomy s t) as [->|[H|H]]; [rewrite R in X; discriminate| |exact H]. rewrite (cmp_precedes s t) in X; auto; discriminate.
  - unfold ri_eq, str_eq. rewrite seqb_eq. split; [now apply utf8s_inj|now intros ->].
Qed.
Lemma byte_lt c : is_scalar c = true -> Forall (fun b => b < 255) (utf8 c).
Proof. intros H. destruct (utf8_cases c H) as [(Hc&X)|[(a&b&X&?)|[(a&b&d&X&?)|(a&b&d&e&X&?)]]]; rewrite X; repeat (apply Forall_cons; [lia|]); apply Forall_nil. Qed.
Lemma utf8s_lt s : all_scalar s = true -> Forall (fun b => b < 255) (utf8s s).
Proof. induction s as [|c s IH]; intros H; [apply Forall_nil|]. cbn [all_scalar forallb] in H. apply andb_true_iff in H as [Hc H]. cbn [utf8s flat_map]. apply Forall_app. split; [now apply byte_lt|now apply IH]. Qed.
(** Collecting what the hasher gets, the strings that follow each other can be told apart. *)
Lemma feed_inj a : forall b x y, Forall (fun b => b < 255) a -> Forall (fun b => b < 255) b -> a ++ 255 :: x = b ++ 255 :: y -> a = b /\ x = y.
Proof.
  induction a as [|c a IH]; intros [|d b] x y Ha Hb E.
  - now injection E.
  - injection E as E _. apply Forall_inv in Hb. lia.
  - injection E as E _. apply Forall_inv in Ha. lia.
  - injection E as <- E. apply Forall_inv_tail in Ha, Hb. destruct (IH b x y Ha Hb E) as [-> ->]. now split.
Qed.
Lemma hash_ok s t : all_scalar s = true -> all_scalar t = true ->
  (ri_eq s t = true -> forall (H : Type) (w : H -> list N -> H) st, ri_hash w st s = ri_hash w st t) /\
  ((forall (H : Type) (w : H -> list N -> H) st, ri_hash w st s = ri_hash w st t) -> ri_eq s t = true).
Proof.
  intros Hs Ht. split.
  - intros E H w st. destruct (order_ok s t Hs Ht) as (_ & _ & _ & _ & Q). now rewrite (proj1 Q E).
  - intros E. apply (proj2 (proj2 (proj2 (proj2 (proj2 (order_ok s t Hs Ht)))))). specialize (E (list N) (fun a b => a ++ b) []). unfold ri_hash in E. cbn [app] in E.
    apply feed_inj in E as [E _]; [now apply utf8s_inj|now apply utf8s_lt|now apply utf8s_lt].
Qed.
