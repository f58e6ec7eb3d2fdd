(** Proofs for C58: the two expansions of a template. *)
From Verif Require Import Base Chars Rfc3986 Utf8 EncodeSpec PctSpec MValidate MTrusted MFormat MSearch MPct MEncode MTemplate MMaybePct MExpand TemplateSpec ExpandSpec SafeSpec
  PBase PScan PHost PTrusted PPct PPct2 PPct3 PEncode PEncode2 PEncNorm PTmpl6.
From Coq Require Import Lia.
Open Scope string_scope. Open Scope N_scope. Open Scope list_scope.

(** Same ending, texts with the same URI, and one writes nothing exactly if the other does. *)
Definition wrel {A} (x y : W A) : Prop :=
  snd x = snd y /\ to_uri (concat (fst x)) = to_uri (concat (fst y)) /\ (fst x = [] <-> fst y = []).
Lemma to_uri_app a b : to_uri (a ++ b) = to_uri a ++ to_uri b.
Proof. unfold to_uri, encode. apply flat_map_app. Qed.
Lemma wrel_refl {A} (x : W A) : wrel x x.
Proof. repeat split; auto. Qed.
Lemma wrel_bind {A B} (x y : W A) (f g : A -> W B) : wrel x y -> (forall a, wrel (f a) (g a)) -> wrel (wbind x f) (wbind y g).
Proof.
  destruct x as [o e], y as [o' e']. intros (E & T & N) H. cbn [fst snd] in *. subst e'. destruct e as [a| |]; cbn [wbind].
  - specialize (H a). destruct (f a) as [p r], (g a) as [p' r']. destruct H as (E' & T' & N'). cbn [fst snd] in *. unfold wrel. cbn [fst snd]. rewrite !concat_app, !to_uri_app. split; [auto|]. split; [congruence|].
    split; intros X; apply app_eq_nil in X; destruct X as (X & Y); [apply N in X; apply N' in Y|apply N in X; apply N' in Y]; now rewrite X, Y.
  - repeat split; auto; apply N.
  - repeat split; auto; apply N.
Qed.
Lemma filter_char_ne S ctx c : filter_char S ctx c <> [].
Proof. unfold filter_char. destruct (is_valid_char S ctx c); [discriminate|]. unfold pct_encoded_char. destruct (utf8 c) eqn:E; [now elim (utf8_nonnil c)|discriminate]. Qed.
Lemma to_uri_ascii s : forallb is_ascii s = true -> to_uri s = s.
Proof.
  induction s as [|c s IH]; [reflexivity|]. cbn [forallb]. intros H. apply andb_prop in H. destruct H as (H & H'). unfold to_uri, encode. cbn [flat_map]. unfold is_ascii in H. rewrite H. cbn [app]. f_equal. exact (IH H').
Qed.
Lemma triplets_ascii bs : Forall (fun b => b < 256) bs -> forallb is_ascii (triplets bs) = true.
Proof.
  induction 1 as [|b bs H _ IH]; [reflexivity|]. cbn [triplets flat_map]. rewrite forallb_app. apply andb_true_intro. split; [|exact IH]. unfold triplet, is_ascii. cbn [forallb].
  destruct (hex_digit_facts (b / 16) (byte_div b H)) as (_ & _ & _ & _ & X). destruct (hex_digit_facts (b mod 16) (byte_mod b)) as (_ & _ & _ & _ & Y). apply N.ltb_lt in X, Y. now rewrite X, Y.
Qed.
Lemma valid_uri ctx c : ctx = CUnreserve \/ ctx = CCharacter -> is_ascii c = false -> is_valid_char UriSpec ctx c = false.
Proof. intros [-> | ->] H; unfold is_valid_char; now rewrite H. Qed.
Lemma valid_iri ctx c : ctx = CUnreserve \/ ctx = CCharacter -> is_ascii c = false -> is_valid_char IriSpec ctx c = true -> is_scalar c = true.
Proof.
  intros D H V. destruct D as [-> | ->]; [rewrite v_unreserve in V; eapply unreserved_scalar; eauto|]. rewrite v_character in V. unfold character_char in V. apply orb_prop in V. destruct V as [V|V].
  - apply orb_prop in V. destruct V as [V|V]; [eapply unreserved_scalar; eauto|]. unfold reserved, gen_delims, sub_delims, one_of, is_ascii in *. cbn [lit existsb] in V. cbn [N_of_ascii N_of_digits] in V. apply N.ltb_ge in H.
    exfalso. repeat (apply orb_prop in V; destruct V as [V|V]); try discriminate; repeat (apply orb_prop in V; destruct V as [V|V]; try discriminate); try (apply N.eqb_eq in V; subst c; cbn in H; lia).
  - cbn [iri_only] in V. unfold iprivate, between in V. unfold is_scalar, between. lia.
Qed.
Lemma filter_char_rel ctx c : ctx = CUnreserve \/ ctx = CCharacter -> to_uri (concat (filter_char IriSpec ctx c)) = to_uri (concat (filter_char UriSpec ctx c)).
Proof.
  intros D. unfold filter_char. destruct (is_ascii c) eqn:A.
  - assert (E : is_valid_char IriSpec ctx c = is_valid_char UriSpec ctx c) by (destruct D as [-> | ->]; unfold is_valid_char; now rewrite A). now rewrite E.
  - rewrite (valid_uri ctx c D A). destruct (is_valid_char IriSpec ctx c) eqn:V; [|reflexivity]. apply valid_iri in V; auto.
    assert (B : Forall (fun b => b < 256) (utf8 c)) by (apply Forall_forall; intros; now apply (utf8_byte c)). unfold pct_encoded_char. assert (U := uppers_triplets _ B). unfold uppers in U. rewrite U, (to_uri_ascii _ (triplets_ascii _ B)).
    unfold to_uri, encode. cbn [concat app flat_map]. unfold is_ascii in A. rewrite A. now rewrite app_nil_r.
Qed.
Lemma filter_str_rel ctx s : ctx = CUnreserve \/ ctx = CCharacter ->
  to_uri (concat (filter_str IriSpec ctx s)) = to_uri (concat (filter_str UriSpec ctx s)) /\ (filter_str IriSpec ctx s = [] <-> filter_str UriSpec ctx s = []).
Proof.
  intros D. split.
  - induction s as [|c s IH]; [reflexivity|]. unfold filter_str in *. cbn [flat_map]. rewrite !concat_app, !to_uri_app. rewrite IH. f_equal. now apply filter_char_rel.
  - destruct s as [|c s]; [easy|]. unfold filter_str. cbn [flat_map]. split; intros X; apply app_eq_nil in X; destruct X as (X & _); now apply filter_char_ne in X.
Qed.
Lemma enc_rel {A} ctx (d : W A) : ctx = CUnreserve \/ ctx = CCharacter -> wrel (PercentEncoded IriSpec ctx d) (PercentEncoded UriSpec ctx d).
Proof.
  intros D. unfold PercentEncoded, wrel. cbn [fst snd]. split; [reflexivity|]. induction (fst d) as [|s l (I1 & I2)]; [split; [reflexivity|easy]|]. cbn [flat_map]. destruct (filter_str_rel ctx s D) as (F1 & F2). rewrite !concat_app, !to_uri_app, I1, F1. split; [reflexivity|].
  split; intros X; apply app_eq_nil in X; destruct X as (X & Y); apply F2 in X; apply I2 in Y; now rewrite X, Y.
Qed.

Ltac rel := repeat (first [apply wrel_refl | apply enc_rel; auto; fail | apply wrel_bind; [|intros] | assumption
  | match goal with |- wrel (match ?x with _ => _ end) (match ?x with _ => _ end) => destruct x end
  | match goal with |- wrel (if ?x then _ else _) (if ?x then _ else _) => destruct x end
  | match goal with |- wrel (let '(_, _) := ?x in _) (let '(_, _) := ?x in _) => destruct x end
  | progress auto]).
Section Process.
Context {St : Type} (debug : bool) (f g : St -> Frag -> W (St + unit)) (H : forall st fr, wrel (f st fr) (g st fr)).
Lemma andthen_rel {A} (x y : W (A + unit)) (k k' : A -> W (A + unit)) : wrel x y -> (forall a, wrel (k a) (k' a)) -> wrel (andthen x k) (andthen y k').
Proof. intros X K. unfold andthen. rel. Qed.
Lemma undecodable_rel st w : wrel (output_as_undecodable debug f st w) (output_as_undecodable debug g st w).
Proof. unfold output_as_undecodable. apply andthen_rel; [apply H|]. intros. match goal with |- wrel (if ?x then _ else _) _ => destruct x end; [|apply wrel_refl]. apply andthen_rel; [apply H|]. intros. rel. Qed.
Lemma loop_rel fuel : forall st db rest, wrel (decompose_loop debug f fuel st db rest) (decompose_loop debug g fuel st db rest).
Proof.
  induction fuel as [|fuel IH]; intros; [apply wrel_refl|]. cbn [decompose_loop]. rel; try apply undecodable_rel; try apply H; try apply IH.
Qed.
Lemma chunks_rel l : forall st db, wrel (decompose_chunks debug f st db l) (decompose_chunks debug g st db l).
Proof. induction l as [|s l IH]; intros; [apply wrel_refl|]. cbn [decompose_chunks]. unfold decompose_write_str. apply wrel_bind; [apply loop_rel|]. intros. rel. Qed.
Lemma process_rel st v : wrel (process_percent_encoded_best_effort debug f st v) (process_percent_encoded_best_effort debug g st v).
Proof.
  unfold process_percent_encoded_best_effort. apply wrel_bind; [apply chunks_rel|]. intros. rel.
Qed.
End Process.
Lemma escape_rel debug v a : wrel (escape_write IriSpec debug v a) (escape_write UriSpec debug v a).
Proof. unfold escape_write. destruct a; [|apply enc_rel; auto]. apply process_rel. intros [] fr. unfold escape_frag. rel. Qed.
Lemma truncate_rel debug l : forall n, wrel (truncate_chunks IriSpec debug n l) (truncate_chunks UriSpec debug n l).
Proof. induction l as [|s l IH]; intros; [apply wrel_refl|]. cbn [truncate_chunks]. apply wrel_bind; auto. unfold truncate_write. rel. Qed.
Lemma maxlen_rel debug v a m : wrel (escape_write_with_maxlen IriSpec debug v a m) (escape_write_with_maxlen UriSpec debug v a m).
Proof.
  unfold escape_write_with_maxlen. destruct a; [|destruct m; [|apply enc_rel; auto]].
  - apply process_rel. intros st fr. unfold maxlen_frag. rel.
  - apply wrel_bind; [apply truncate_rel|]. intros. apply wrel_refl.
Qed.
Lemma once_rel p x y : wrel x y -> wrel (prefix_once p x) (prefix_once p y).
Proof.
  intros R. unfold prefix_once. destruct p as [p|]; [|rel]. destruct R as (E & T & N). assert (R : wrel x y) by (repeat split; auto; apply N). destruct (fst x) eqn:X, (fst y) eqn:Y; [rel|exfalso; assert (Z := proj1 N eq_refl); discriminate|exfalso; assert (Z := proj2 N eq_refl); discriminate|rel].
Qed.
Lemma each_rel {A} (f g : bool * bool -> A -> W (bool * bool)) l : (forall st a, wrel (f st a) (g st a)) -> forall st, wrel (visit_each f st l) (visit_each g st l).
Proof. intros H. induction l as [|a l IH]; intros; [apply wrel_refl|]. cbn [visit_each]. apply wrel_bind; auto. Qed.
Lemma visit_rel debug vs op first v : wrel (visit_value IriSpec debug vs op first v) (visit_value UriSpec debug vs op first v).
Proof.
  destruct v as [|d|l|l]; cbn [visit_value]; [apply wrel_refl| | |].
  - unfold visit_string. apply wrel_bind; [apply wrel_refl|]. intros _. apply wrel_bind; [apply wrel_refl|]. intros _. apply wrel_bind; [apply once_rel, maxlen_rel|]. intros. apply wrel_refl.
  - apply wrel_bind; [|intros; apply wrel_refl]. apply each_rel. intros [fi z] a. unfold visit_item. rel; apply escape_rel.
  - apply wrel_bind; [|intros; apply wrel_refl]. apply each_rel. intros [fi z] [k v]. unfold visit_entry. rel; apply escape_rel.
Qed.
Lemma vars_rel debug ctx op fuel : forall first rest, wrel (expand_vars fuel IriSpec debug ctx op first rest) (expand_vars fuel UriSpec debug ctx op first rest).
Proof.
  induction fuel as [|fuel IH]; intros; [apply wrel_refl|]. cbn [expand_vars]. apply wrel_bind; [apply wrel_refl|]. intros [[[n vs] r]|]; [|apply wrel_refl]. apply wrel_bind; [apply visit_rel|]. auto.
Qed.
Lemma expanded_rel debug ctx fuel : forall t, wrel (expanded_loop fuel IriSpec debug ctx t) (expanded_loop fuel UriSpec debug ctx t).
Proof.
  induction fuel as [|fuel IH]; intros; [apply wrel_refl|]. cbn [expanded_loop]. apply wrel_bind; [apply wrel_refl|]. intros [[[l|b] r]|]; [| |apply wrel_refl]; apply wrel_bind; auto; [apply wrel_refl|].
  unfold expand_expr. apply wrel_bind; [apply wrel_refl|]. intros [op vars]. apply vars_rel.
Qed.
Lemma toks_ascii s : toks (character_char UriSpec) s -> forallb is_ascii s = true.
Proof.
  induction 1 as [|a b Ha Hb IH]; [reflexivity|]. rewrite forallb_app, IH, andb_true_r. destruct Ha as [(c & -> & Hc)|(x & y & -> & Hx & Hy)].
  - cbn [forallb]. rewrite andb_true_r. unfold is_ascii. destruct (c <? 128) eqn:E; [reflexivity|]. rewrite <- v_character in Hc. rewrite valid_uri in Hc; auto. 
  - destruct Hy as (u & v & -> & (c & -> & Hc) & (d & -> & Hd)). rewrite Hx. rewrite hexdig_eq in Hc, Hd. apply hex_ascii in Hc, Hd. cbn [lit app forallb]. now rewrite Hc, Hd.
Qed.
Lemma two_expansions debug ctx t : (forall name, scalar_val (ctx name)) -> template_new t = Ok t ->
  match expand_to_string IriSpec debug ctx t with
  | Ok z => expand_to_string UriSpec debug ctx t = Ok (to_uri z)
  | x => expand_to_string UriSpec debug ctx t = x
  end.
Proof.
  intros Hc Ht. assert (R := expanded_rel debug ctx (1 + length t) t). fold (expanded_fmt IriSpec debug ctx t) in R. fold (expanded_fmt UriSpec debug ctx t) in R. destruct R as (E & T & _).
  assert (A := toks_ascii _ (expansion_safe UriSpec debug ctx Hc t Ht)). unfold expand_to_string. destruct (expand_new debug ctx t); cbn [bind]; auto. unfold text. rewrite <- E. destruct (snd (expanded_fmt IriSpec debug ctx t)); cbn [tlift]; auto.
  rewrite T. now rewrite to_uri_ascii.
Qed.
