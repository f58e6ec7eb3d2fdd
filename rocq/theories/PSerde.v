From Verif Require Import Base Chars Rfc3986 CompSpec ErrSpec TemplateSpec TmplErrSpec BuildSpec MValidate MTrusted MFormat MError MTemplate MTypes MBuild MSerde SerdeSpec
  PBase PTypes PTypes2 PTypes3 PErr PTmpl2 PTmpl4 PBuild.
From Coq Require Import Lia.
Open Scope N_scope.

(** ** Decimal notation *)
Lemma fold_app v x y : fold_left (fun v c => v * 10 + (if c <? 58 then c - 48 else c - 87)) (x ++ y) v =
  fold_left (fun v c => v * 10 + (if c <? 58 then c - 48 else c - 87)) y (fold_left (fun v c => v * 10 + (if c <? 58 then c - 48 else c - 87)) x v).
Proof. apply fold_left_app. Qed.
Definition dig (c : N) := (48 <=? c) && (c <=? 57) = true.
Lemma value_snoc x c : dig c -> value_of 10 (x ++ [c]) = value_of 10 x * 10 + (c - 48).
Proof.
  intros D. unfold value_of. rewrite fold_app. cbn [fold_left]. unfold dig in D. apply andb_prop in D as [_ D]. apply N.leb_le in D.
  now rewrite (proj2 (N.ltb_lt c 58)) by lia.
Qed.
Lemma value_pos d : forall v, 0 < v -> 0 < fold_left (fun v c => v * 10 + (if c <? 58 then c - 48 else c - 87)) d v.
Proof. induction d as [|c d IH]; intros v P; [exact P|]. cbn [fold_left]. apply IH. lia. Qed.
Lemma nolead_pos d : d <> [] -> forallb (fun c => (48 <=? c) && (c <=? 57)) d = true -> starts_with (lit "0") d = false -> 0 < value_of 10 d.
Proof.
  destruct d as [|c d]; [congruence|]. intros _ D Z. unfold value_of. cbn [fold_left]. apply value_pos.
  cbn [forallb] in D. apply andb_prop in D as [D _]. apply andb_prop in D as [D1 D2]. apply N.leb_le in D1, D2.
  assert (c <> 48). { intros ->. vm_compute in Z. discriminate. }
  destruct (c <? 58) eqn:E; [lia|]. apply N.ltb_ge in E. lia.
Qed.
Lemma decimal_snoc n x c : decimal n (x ++ [c]) -> x <> [] -> dig c /\ decimal (n / 10) x /\ c = 48 + n mod 10 /\ 10 <= n.
Proof.
  intros (_ & D & V & Z) X. rewrite forallb_app in D. apply andb_prop in D as [Dx Dc]. cbn [forallb] in Dc. rewrite andb_true_r in Dc.
  rewrite value_snoc in V by exact Dc.
  assert (Z' : starts_with (lit "0") x = false).
  { destruct x as [|y x]; [congruence|]. destruct Z as [Z|Z].
    - apply (f_equal (@length N)) in Z. rewrite app_length in Z. cbn in Z. lia.
    - unfold starts_with in *. cbn [app] in Z. cbn [lit strip_prefix] in *. destruct (_ =? y); [destruct (x ++ [c]); discriminate|reflexivity]. }
  pose proof (nolead_pos x X Dx Z') as P.
  pose proof Dc as Dc'. apply andb_prop in Dc' as [D1 D2]. apply N.leb_le in D1, D2.
  assert (E : n / 10 = value_of 10 x /\ n mod 10 = c - 48).
  { subst n. split; [symmetry; apply (N.div_unique _ _ _ (c - 48)); lia | symmetry; apply (N.mod_unique _ _ (value_of 10 x)); lia]. }
  destruct E as [E1 E2]. split; [exact Dc|]. split; [|split].
  - split; [exact X|]. split; [exact Dx|]. split; [now rewrite E1|now right].
  - rewrite E2. lia.
  - lia.
Qed.
Lemma decimal_unique d : forall d' n, decimal n d -> decimal n d' -> d = d'.
Proof.
  induction d as [|c x IH] using rev_ind; intros d' n A B.
  - destruct A as [A _]. congruence.
  - destruct d' as [|y d'0] using rev_ind; [destruct B as [B _]; congruence|]. clear IHd'0.
    destruct x as [|a x].
    + destruct d'0 as [|b d'0].
      * destruct A as (_ & A & V & _), B as (_ & B & W & _). cbn [app forallb] in A, B. rewrite andb_true_r in A, B.
        cbn [app] in V, W. apply andb_prop in A as [A1 A2], B as [B1 B2]. apply N.leb_le in A1, A2, B1, B2.
        unfold value_of in V, W. cbn [fold_left] in V, W. rewrite (proj2 (N.ltb_lt _ _)) in V by lia. rewrite (proj2 (N.ltb_lt _ _)) in W by lia.
        cbn [app]. f_equal. lia.
      * apply decimal_snoc in B; [|discriminate]. destruct B as (_ & _ & _ & L).
        destruct A as (_ & A & V & _). cbn [app forallb] in A. rewrite andb_true_r in A. apply andb_prop in A as [A1 A2]. apply N.leb_le in A1, A2.
        cbn [app] in V. unfold value_of in V. cbn [fold_left] in V. rewrite (proj2 (N.ltb_lt _ _)) in V by lia. lia.
    + apply decimal_snoc in A; [|discriminate]. destruct A as (_ & A & Ec & L). destruct d'0 as [|b d'0].
      * exfalso. destruct B as (_ & B & V & _). cbn [app forallb] in B. rewrite andb_true_r in B. apply andb_prop in B as [A1 A2]. apply N.leb_le in A1, A2.
        cbn [app] in V. unfold value_of in V. cbn [fold_left] in V. rewrite (proj2 (N.ltb_lt _ _)) in V by lia. lia.
      * apply decimal_snoc in B; [|discriminate]. destruct B as (_ & B & Ed & _). f_equal; [now apply (IH _ (n / 10))|congruence].
Qed.
Lemma size_bound n : n < 10 ^ N.of_nat (S (N.size_nat n)).
Proof.
  assert (L : n < 2 ^ N.of_nat (N.size_nat n)).
  { destruct n as [|p]; [reflexivity|]. cbn [N.size_nat]. induction p as [p IH|p IH|]; cbn [Pos.size_nat].
    - rewrite Nat2N.inj_succ, N.pow_succ_r'. lia.
    - rewrite Nat2N.inj_succ, N.pow_succ_r'. lia.
    - cbn. lia. }
  eapply N.lt_le_trans; [exact L|]. transitivity (10 ^ N.of_nat (N.size_nat n)).
  - apply N.pow_le_mono_l. lia.
  - apply N.pow_le_mono_r; lia.
Qed.
Lemma usize_decimal n : decimal (N.of_nat n) (usize_dec n).
Proof.
  unfold usize_dec. destruct (to_digits_ok 10 ltac:(lia) (S (N.size_nat (N.of_nat n))) (N.of_nat n) []) as (d & E & L & V & C & Z); [apply size_bound|lia|].
  rewrite app_nil_r in E. rewrite E. split; [destruct d; [cbn in L; lia|discriminate]|]. split; [|split; assumption].
  apply forallb_forall. intros c I. destruct (C c I) as (x & X & ->). unfold digit_char. rewrite (proj2 (N.ltb_lt x 10)) by lia.
  apply andb_true_intro. split; apply N.leb_le; lia.
Qed.

(** ** Texts of template errors *)
Lemma template_display k n m : template_error_display (mkTE (kind k) n) = m <-> template_message k n m.
Proof.
  assert (K : template_error_str (kind k) = defect_text k) by (destruct k; reflexivity).
  unfold template_error_display, template_message. cbn [te_kind te_location]. rewrite K. split.
  - intros <-. exists (usize_dec n). split; [apply usize_decimal|reflexivity].
  - intros (d & D & ->). now rewrite (decimal_unique _ _ _ (usize_decimal n) D).
Qed.
Lemma template_messages s m : (exists e, template_new s = Err e /\ template_error_display e = m) <->
  exists k n, template_fault s k n /\ template_message k n m.
Proof.
  split.
  - intros (e & E & D). apply errors in E as (k & n & F & ->). exists k, n. split; [exact F|now apply template_display].
  - intros (k & n & F & M). exists (mkTE (kind k) n). split; [apply errors; eauto|now apply template_display].
Qed.

(** ** Deserialization *)
Lemma admits_lang S t s : new S t s = Ok s <-> admits S t s.
Proof. destruct t; cbn [admits]; try apply new_ok. apply absolute_new_exact. Qed.
Lemma blamed_new S t : reports (new S t) error_display (blamed S t).
Proof. destruct t; [apply absolute_reports|apply iri_reports|apply reference_reports|apply relative_reports|apply query_reports|apply fragment_reports]. Qed.
Lemma new_value S t s v : new S t s = Ok v -> v = s.
Proof. destruct (new_recognizes S t s) as [A B]. intros E. unfold new in E. destruct (validate S t s); cbn in E; congruence. Qed.
Lemma map_custom_ok S t s v : map_custom error_display (new S t s) = Ok v <-> v = s /\ admits S t v.
Proof.
  unfold map_custom. split.
  - destruct (new S t s) eqn:E; try discriminate. intros [= ->]. pose proof (new_value _ _ _ _ E) as ->. split; [reflexivity|now apply admits_lang].
  - intros [-> A]. apply admits_lang in A. now rewrite A.
Qed.
Lemma map_custom_err S t s x : map_custom error_display (new S t s) = Err x <-> exists m, blamed S t s m /\ x = Custom (iri_message m).
Proof.
  unfold map_custom. split.
  - destruct (new S t s) as [v|e|] eqn:E; try discriminate. intros [= <-]. exists (description e). split; [|reflexivity].
    apply (proj1 (blamed_new S t s (description e))). exists e. split; [exact E|reflexivity].
  - intros (m & B & ->). apply (proj2 (blamed_new S t s m)) in B as (e & E & D). rewrite E. f_equal. f_equal. exact D.
Qed.
Lemma map_custom_np S t s : map_custom error_display (new S t s) <> Panic.
Proof. unfold map_custom. pose proof (proj2 (proj2 (string_ok S t s))) as P. destruct (new S t s); congruence. Qed.
Lemma try_from_string_same S t s : map_custom (fun e => error_display (ce_error e)) (try_from_string S t s) = map_custom error_display (new S t s).
Proof. unfold try_from_string, new. destruct (validate S t s); reflexivity. Qed.
Lemma template_string_same s : map_custom (fun e => template_error_display (ce_error e)) (template_try_from_string s) = map_custom template_error_display (template_new s).
Proof. unfold template_try_from_string, template_new. destruct (validate_template_str s); reflexivity. Qed.

(** The owned visitors treat every text alike; the borrowed ones only take borrowed text. *)
Definition owned_result {E} (show : E -> str) (f : str -> res E str) (d : deserializer) : res serde_error str :=
  match d HintStr with
  | None => Err FormatError
  | Some (DBorrowedStr s) | Some (DStr s) | Some (DString s) => map_custom show (f s)
  | Some (DChar c) => map_custom show (f [c])
  | Some DOther => Err InvalidType
  end.
Definition borrowed_result {E} (show : E -> str) (f : str -> res E str) (d : deserializer) : res serde_error str :=
  match d HintString with
  | None => Err FormatError
  | Some (DBorrowedStr s) => map_custom show (f s)
  | Some _ => Err InvalidType
  end.
Lemma ri_string_result S t d : deserialize_ri_string S t d = owned_result error_display (new S t) d.
Proof. unfold deserialize_ri_string, deserialize_with, owned_result. destruct (d HintStr) as [[s|s|s|c|]|]; try reflexivity. apply try_from_string_same. Qed.
Lemma ri_str_result S t d : deserialize_ri_str S t d = borrowed_result error_display (new S t) d.
Proof. unfold deserialize_ri_str, deserialize_with, borrowed_result. destruct (d HintString) as [[s|s|s|c|]|]; reflexivity. Qed.
Lemma template_string_result d : deserialize_template_string d = owned_result template_error_display template_new d.
Proof. unfold deserialize_template_string, deserialize_with, owned_result. destruct (d HintStr) as [[s|s|s|c|]|]; try reflexivity. apply template_string_same. Qed.
Lemma template_str_result d : deserialize_template_str d = borrowed_result template_error_display template_new d.
Proof. unfold deserialize_template_str, deserialize_with, borrowed_result. destruct (d HintString) as [[s|s|s|c|]|]; reflexivity. Qed.

Lemma owned_is {E} (show : E -> str) f d r : (owned_result show f d = r) <->
  (d HintStr = None /\ r = Err FormatError) \/ (exists x s, d HintStr = Some x /\ carries x s /\ r = map_custom show (f s)) \/
  (exists x, d HintStr = Some x /\ (forall s, ~ carries x s) /\ r = Err InvalidType).
Proof.
  unfold owned_result. split.
  - intros <-. destruct (d HintStr) as [x|]; [right|left; auto]. destruct x as [s|s|s|c|]; try (left; eexists; eexists; split; [reflexivity|split; [constructor|reflexivity]]).
    right. eexists. split; [reflexivity|]. split; [intros s C; inversion C|reflexivity].
  - intros [[-> ->]|[(x & s & -> & C & ->)|(x & -> & N & ->)]]; [reflexivity| |].
    + destruct C; reflexivity.
    + destruct x; try reflexivity; exfalso; eapply N; constructor.
Qed.
Lemma borrowed_is {E} (show : E -> str) f d r : (borrowed_result show f d = r) <->
  (d HintString = None /\ r = Err FormatError) \/ (exists s, d HintString = Some (DBorrowedStr s) /\ r = map_custom show (f s)) \/
  (exists x, d HintString = Some x /\ (forall s, x <> DBorrowedStr s) /\ r = Err InvalidType).
Proof.
  unfold borrowed_result. split.
  - intros <-. destruct (d HintString) as [x|]; [right|left; auto]. destruct x as [s|s|s|c|]; try (right; eexists; split; [reflexivity|split; [discriminate|reflexivity]]).
    left. eauto.
  - intros [[-> ->]|[(s & -> & ->)|(x & -> & N & ->)]]; [reflexivity|reflexivity|].
    destruct x; try reflexivity. exfalso. now eapply N.
Qed.

Lemma c47_owned S t d v : deserialize_ri_string S t d = Ok v <-> exists x, d HintStr = Some x /\ carries x v /\ admits S t v.
Proof.
  rewrite ri_string_result. split.
  - intros H. apply owned_is in H as [[_ H]|[(x & s & E & C & H)|(x & _ & _ & H)]]; try discriminate.
    symmetry in H. apply map_custom_ok in H as [-> A]. eauto.
  - intros (x & E & C & A). apply owned_is. right. left. exists x, v. repeat split; auto. symmetry. apply map_custom_ok. auto.
Qed.
Lemma c47_owned_err S t d e : deserialize_ri_string S t d = Err e <->
  (d HintStr = None /\ e = FormatError) \/
  (exists x, d HintStr = Some x /\ (forall s, ~ carries x s) /\ e = InvalidType) \/
  (exists x s m, d HintStr = Some x /\ carries x s /\ blamed S t s m /\ e = Custom (iri_message m)).
Proof.
  rewrite ri_string_result. split.
  - intros H. apply owned_is in H as [[A H]|[(x & s & E & C & H)|(x & A & B & H)]].
    + left. split; congruence.
    + right. right. symmetry in H. apply map_custom_err in H as (m & B & ->). exists x, s, m. auto.
    + right. left. exists x. repeat split; auto. congruence.
  - intros [[A ->]|[(x & A & B & ->)|(x & s & m & A & B & C & ->)]]; apply owned_is.
    + left. auto.
    + right. right. eauto.
    + right. left. exists x, s. repeat split; auto. symmetry. apply map_custom_err. eauto.
Qed.
Lemma c47_borrowed S t d v : deserialize_ri_str S t d = Ok v <-> d HintString = Some (DBorrowedStr v) /\ admits S t v.
Proof.
  rewrite ri_str_result. split.
  - intros H. apply borrowed_is in H as [[_ H]|[(s & E & H)|(x & _ & _ & H)]]; try discriminate.
    symmetry in H. apply map_custom_ok in H as [-> A]. auto.
  - intros (E & A). apply borrowed_is. right. left. exists v. split; auto. symmetry. apply map_custom_ok. auto.
Qed.
Lemma c47_borrowed_err S t d e : deserialize_ri_str S t d = Err e <->
  (d HintString = None /\ e = FormatError) \/
  (exists x, d HintString = Some x /\ (forall s, x <> DBorrowedStr s) /\ e = InvalidType) \/
  (exists s m, d HintString = Some (DBorrowedStr s) /\ blamed S t s m /\ e = Custom (iri_message m)).
Proof.
  rewrite ri_str_result. split.
  - intros H. apply borrowed_is in H as [[A H]|[(s & E & H)|(x & A & B & H)]].
    + left. split; congruence.
    + right. right. symmetry in H. apply map_custom_err in H as (m & B & ->). exists s, m. auto.
    + right. left. exists x. repeat split; auto. congruence.
  - intros [[A ->]|[(x & A & B & ->)|(s & m & A & C & ->)]]; apply borrowed_is.
    + left. auto.
    + right. right. eauto.
    + right. left. exists s. repeat split; auto. symmetry. apply map_custom_err. eauto.
Qed.
Lemma c47_np S t d : deserialize_ri_string S t d <> Panic /\ deserialize_ri_str S t d <> Panic.
Proof.
  rewrite ri_string_result, ri_str_result. split; intros H.
  - apply owned_is in H as [[_ H]|[(x & s & _ & _ & H)|(x & _ & _ & H)]]; try discriminate. symmetry in H. now apply map_custom_np in H.
  - apply borrowed_is in H as [[_ H]|[(s & _ & H)|(x & _ & _ & H)]]; try discriminate. symmetry in H. now apply map_custom_np in H.
Qed.

(** Templates *)
Lemma tmap_ok s v : map_custom template_error_display (template_new s) = Ok v <-> v = s /\ crate_template v.
Proof.
  unfold map_custom. split.
  - destruct (template_new s) eqn:E; try discriminate. intros [= ->]. pose proof (new_id _ _ E) as ->. split; [reflexivity|now apply accepts].
  - intros [-> A]. apply accepts in A. now rewrite A.
Qed.
Lemma tmap_err s x : map_custom template_error_display (template_new s) = Err x <->
  exists k n m, template_fault s k n /\ template_message k n m /\ x = Custom m.
Proof.
  unfold map_custom. split.
  - destruct (template_new s) as [v|e|] eqn:E; try discriminate. intros [= <-].
    destruct (proj1 (template_messages s (template_error_display e))) as (k & n & F & M); [eauto|]. exists k, n, (template_error_display e). auto.
  - intros (k & n & m & F & M & ->). destruct (proj2 (template_messages s m)) as (e & -> & <-); [eauto|reflexivity].
Qed.
Lemma tmap_panic s : map_custom template_error_display (template_new s) = Panic <->
  exists T r, Forall crate_part T /\ s = template_text T ++ 37 :: r /\ TemplateSpec.cut r.
Proof. rewrite <- panics. unfold map_custom. destruct (template_new s); split; congruence. Qed.
Lemma c47_template d v : deserialize_template_string d = Ok v <-> exists x, d HintStr = Some x /\ carries x v /\ crate_template v.
Proof.
  rewrite template_string_result. split.
  - intros H. apply owned_is in H as [[_ H]|[(x & s & E & C & H)|(x & _ & _ & H)]]; try discriminate.
    symmetry in H. apply tmap_ok in H as [-> A]. eauto.
  - intros (x & E & C & A). apply owned_is. right. left. exists x, v. repeat split; auto. symmetry. apply tmap_ok. auto.
Qed.
Lemma c47_template_err d e : deserialize_template_string d = Err e <->
  (d HintStr = None /\ e = FormatError) \/
  (exists x, d HintStr = Some x /\ (forall s, ~ carries x s) /\ e = InvalidType) \/
  (exists x s k n m, d HintStr = Some x /\ carries x s /\ template_fault s k n /\ template_message k n m /\ e = Custom m).
Proof.
  rewrite template_string_result. split.
  - intros H. apply owned_is in H as [[A H]|[(x & s & E & C & H)|(x & A & B & H)]].
    + left. split; congruence.
    + right. right. symmetry in H. apply tmap_err in H as (k & n & m & B & M & ->). exists x, s, k, n, m. auto.
    + right. left. exists x. repeat split; auto. congruence.
  - intros [[A ->]|[(x & A & B & ->)|(x & s & k & n & m & A & B & C & M & ->)]]; apply owned_is.
    + left. auto.
    + right. right. eauto.
    + right. left. exists x, s. repeat split; auto. symmetry. apply tmap_err. eauto 6.
Qed.
Lemma c47_template_panic d : deserialize_template_string d = Panic <->
  exists x T r, d HintStr = Some x /\ Forall crate_part T /\ carries x (template_text T ++ 37 :: r) /\ TemplateSpec.cut r.
Proof.
  rewrite template_string_result. split.
  - intros H. apply owned_is in H as [[_ H]|[(x & s & E & C & H)|(x & _ & _ & H)]]; try discriminate.
    symmetry in H. apply tmap_panic in H as (T & r & P & -> & K). exists x, T, r. auto.
  - intros (x & T & r & E & P & C & K). apply owned_is. right. left. exists x, (template_text T ++ 37 :: r). repeat split; auto. symmetry. apply tmap_panic. eauto.
Qed.
(** The borrowed template: as the owned one given the same borrowed string, else a type error. *)
Lemma c47_template_borrowed d :
  (forall s, d HintString = Some (DBorrowedStr s) -> deserialize_template_str d = deserialize_template_string (fun _ => Some (DStr s))) /\
  (forall x, d HintString = Some x -> (forall s, x <> DBorrowedStr s) -> deserialize_template_str d = Err InvalidType) /\
  (d HintString = None -> deserialize_template_str d = Err FormatError).
Proof.
  rewrite template_str_result. split; [|split].
  - intros s E. rewrite template_string_result. unfold borrowed_result, owned_result. now rewrite E.
  - intros x E Nb. apply borrowed_is. right. right. eauto.
  - intros E. apply borrowed_is. auto.
Qed.

Lemma c47_roundtrip {R} (allowed : data -> Prop) (write : str -> R) read : faithful allowed write read ->
  (forall S t s, admits S t s -> deserialize_ri_string S t (read (serialize write s)) = Ok s /\
     ((forall d, allowed d -> exists x, d = DBorrowedStr x) -> deserialize_ri_str S t (read (serialize write s)) = Ok s)) /\
  (forall s, crate_template s -> deserialize_template_string (read (serialize write s)) = Ok s /\
     ((forall d, allowed d -> exists x, d = DBorrowedStr x) -> deserialize_template_str (read (serialize write s)) = Ok s)).
Proof.
  intros F. unfold serialize. split.
  - intros S t s A. split.
    + destruct (F s HintStr) as (d & E & C & _). apply c47_owned. eauto.
    + intros B. destruct (F s HintString) as (d & E & C & L). destruct (B d L) as (x & ->). inversion C; subst. apply c47_borrowed. auto.
  - intros s A. split.
    + destruct (F s HintStr) as (d & E & C & _). apply c47_template. eauto.
    + intros B. destruct (F s HintString) as (d & E & C & L). destruct (B d L) as (x & ->). inversion C; subst.
      rewrite (proj1 (c47_template_borrowed _) s E). apply c47_template. eexists. split; [reflexivity|]. split; [constructor|assumption].
Qed.
