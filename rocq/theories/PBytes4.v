(** * Proofs for C80: the byte-level builder (MBytes3.v) is the builder (MBuild.v). *)
From Coq Require Import Lia.
From Verif Require Import Base Chars Rfc3986 Utf8 CompSpec RfcResolve PctSpec NormSpec EditSpec SearchSpec MValidate MTrusted MFormat MWriters MSearch MPct MPath MNormalize MEdit MBuild MOffset MBytes MBytes3
  BuildSpec PSearch POffset POffset4 POffset5 POffset7 PBytes PPath PPath5 PNorm6 PPath2 PNorm3 PBuild2 PBuild3 PBuild4 PEdit PExact2.

Lemma y_from_prefixed_eq v v' c k s : c < 128 -> (forall x, v x = v' x) ->
  y_from_prefixed v c k s = match strip_ascii_char_prefix s c with None => Err k | Some r => v' r ;; Ok r end.
Proof.
  intros Hc Hv. pose proof (strip_eq s c Hc) as E. unfold y_from_prefixed. unfold b_strip_ascii_char_prefix in E. destruct (utf8s s) as [|b l].
  - injection E as <-. reflexivity.
  - destruct (b =? c); [|injection E as <-; reflexivity]. destruct (str_from s 1) as [r|[]|]; try discriminate. injection E as <-. cbn [MBytes.up bind]. now rewrite Hv.
Qed.

Section M.
Context (m : option memchr_crate) (Hm : sound m) (S : Spec).
Lemma wsim_then {A B} (x y : W A) (f g : W B) : wsim x y -> wsim f g -> wsim (x >> f) (y >> g).
Proof. intros H K. apply wsim_bind2; [exact H|]. intros _. exact K. Qed.
Lemma opt_pct (n : bool) s : wsim (if n then PctCaseNormalized S s else write s) (if n then o_PctCaseNormalized m S s else write s).
Proof. destruct n; [now apply pct_sim|apply wsim_refl]. Qed.
Lemma y_auth_sim a n : wsim (fmt_authority S a n) (y_fmt_authority m S a n).
Proof.
  unfold fmt_authority, y_fmt_authority. apply wsim_then; [|apply wsim_then].
  - destruct (ab_userinfo a) as [|u|u [p|]]; repeat (apply wsim_then); try apply wsim_refl; apply opt_pct.
  - destruct (ab_host a) as [h|[]]; try apply wsim_refl. destruct n; [now apply host_port_sim|apply wsim_refl].
  - apply wsim_refl.
Qed.
Lemma y_fmt_sim b abs : wsim (fmt_builder S b abs) (y_fmt_builder m S b abs).
Proof.
  unfold fmt_builder, y_fmt_builder. apply wsim_then; [apply wsim_refl|]. apply wsim_then; [|apply wsim_then; [|apply wsim_then]].
  - destruct (b_authority b); [|apply wsim_refl]. apply wsim_then; [apply wsim_refl|apply y_auth_sim].
  - destruct (b_normalize b); cbn [negb]; [|apply wsim_refl]. destruct (_ || _ || _); [now apply fmt_sim|now apply pct_sim].
  - destruct (b_query b); [|apply wsim_refl]. apply wsim_then; [apply wsim_refl|apply opt_pct].
  - destruct (b_fragment b); [|apply wsim_refl]. apply wsim_then; [apply wsim_refl|apply opt_pct].
Qed.
Lemma y_display_eq x t : text (built_display S x) = Ok t -> y_built_display m S x = built_display S x.
Proof. apply text_sim. apply y_fmt_sim. Qed.

Lemma contains_eq s : is_some (position (N.eqb COLON) (utf8s s)) = existsb (N.eqb COLON) s.
Proof.
  rewrite (position_split (N.eqb COLON) s) by (intros x H; apply N.eqb_eq in H; subst; reflexivity).
  induction s as [|c s IH]; [reflexivity|]. cbn [split_first existsb]. destruct (COLON =? c); [reflexivity|]. cbn [orb]. rewrite <- IH. now destruct (split_first (N.eqb COLON) s) as [[[? ?] ?]|].
Qed.
Lemma y_validate_authority_eq a : y_validate_authority_builder m S a = validate_authority_builder S a.
Proof.
  unfold y_validate_authority_builder, validate_authority_builder.
  assert (U : forall u, b_validate_userinfo S u = validate_userinfo S u) by (intros u; apply chars_eq).
  assert (E : (match ab_port a with PortString s => if negb (forallb is_digit (utf8s s)) then Err InvalidPort else Ok tt | _ => Ok tt end) =
              (match ab_port a with PortString s => if negb (all_digits s) then Err InvalidPort else Ok tt | _ => Ok tt end : res ErrorKind unit)).
  { destruct (ab_port a); try reflexivity. unfold all_digits. now rewrite (all_on_bytes is_digit digit_ascii). }
  rewrite E.
  destruct (ab_userinfo a) as [|u|u p]; rewrite ?U; destruct (ab_host a) as [h|]; rewrite ?(host_eq m Hm S); try reflexivity; rewrite contains_eq; destruct p; rewrite ?U; reflexivity.
Qed.
Lemma y_colon_eq p : y_colon_first m p = Ok (colon_first p).
Proof. unfold y_colon_first, colon_first. destruct m as [x|]; [rewrite prior_eq by exact Hm|]; reflexivity. Qed.
Lemma y_path_eq b : b_normalize b = false \/ pct_wf (b_path b) -> y_check_path m S b = check_path S b.
Proof.
  intros H. unfold y_check_path, check_path. cbv zeta. rewrite !y_colon_eq. cbn [bind]. destruct (b_normalize b).
  - destruct H as [H|H]; [discriminate|]. destruct (_ || _ || _); [|reflexivity].
    destruct (fmt_total S MDefault (is_some (b_authority b)) (from_single_path (b_path b))) as (X & E); [discriminate|apply pwf_single|now rewrite flat_single|].
    replace (o_from_path_to_display m S (from_single_path (b_path b)) MDefault (is_some (b_authority b))) with (from_path_to_display S (from_single_path (b_path b)) MDefault (is_some (b_authority b))); [reflexivity|].
    unfold o_from_path_to_display, from_path_to_display. rewrite (text_sim _ _ _ (fmt_sim m Hm S MDefault (is_some (b_authority b)) (from_single_path (b_path b))) (outs_text _ _ _ E)). reflexivity.
  - destruct (is_some (b_authority b)); [reflexivity|]. now destruct (is_some (b_scheme b) || starts_with [SLASH] (b_path b)).
Qed.
Lemma y_build_eq t b : b_normalize b = false \/ pct_wf (b_path b) -> y_build m S t b = build S t b.
Proof.
  intros H. unfold y_build, build. replace (y_validate_builder_for_iri_reference m S b) with (validate_builder_for_iri_reference S b); [reflexivity|].
  unfold y_validate_builder_for_iri_reference, validate_builder_for_iri_reference. rewrite (y_path_eq b H).
  replace (MBytes.up (check_path S b)) with (MBuild.up (check_path S b)) by (now destruct (check_path S b) as [|[]|]).
  assert (Q : forall q, b_validate_query S q = validate_query S q) by (intros q; apply chars_eq).
  assert (F : forall q, b_validate_fragment S q = validate_fragment S q) by (intros q; apply chars_eq).
  destruct (b_scheme b); rewrite ?scheme_eq; destruct (b_authority b); rewrite ?y_validate_authority_eq; destruct (b_query b); rewrite ?Q; destruct (b_fragment b); rewrite ?F; reflexivity.
Qed.
Lemma y_dedicated_eq debug t x i : text (built_display S x) = Ok i -> y_built_to_dedicated_string m S debug t x = built_to_dedicated_string S debug t x.
Proof.
  intros H. unfold y_built_to_dedicated_string, built_to_dedicated_string. rewrite (y_display_eq _ _ H), H. cbn [bind]. unfold new_unchecked_justified. rewrite (validate_eq m Hm). reflexivity.
Qed.
Lemma y_ensure_eq x : y_built_ensure m x = built_ensure x.
Proof.
  unfold y_built_ensure, built_ensure. destruct (is_some (b_authority (fst x))) eqn:A; [reflexivity|].
  pose proof (o_ensure_eq m Hm (mkInput [] None (PNeeds (from_single_path (b_path (fst x)))) None None MNone)) as H. cbn [pwf_input n_path] in H. apply H. apply pwf_single.
Qed.
End M.
Lemma y_from_eq m (Hm : sound m) S i C : reads S i C -> y_builder_from m i = builder_from i.
Proof.
  intros R. unfold y_builder_from, builder_from. rewrite (o_major_eq m Hm i (reads_scheme S i C R)). destruct (to_major i) as [[[[[s a] p] q] f]|[]|]; try reflexivity. cbn [bind].
  destruct a as [a|]; [|reflexivity]. destruct (auth_accessors m Hm a) as (b & -> & _ & Eu & Eh & _ & Ep). cbn [bind]. cbv zeta. rewrite Eu, Eh, Ep. reflexivity.
Qed.

(** ** The statements *)
Section M2.
Context (m : option memchr_crate) (Hm : sound m) (S : Spec).
Lemma y_exact debug t b : editable t = true -> values_ok b -> b_normalize b = false ->
  let C := requested b in let i := recompose (c_s C) (c_a C) (c_p C) (c_q C) (c_f C) in
  ((exists x, y_build m S t b = Ok x) <-> parts_ok S b /\ path_shape b /\ fits t C) /\
  (forall x, y_build m S t b = Ok x -> text (y_built_display m S x) = Ok i /\
     (new S t i = Ok i -> y_built_to_dedicated_string m S debug t x = Ok i) /\
     (new S t i <> Ok i -> y_built_to_dedicated_string m S debug t x = if debug then Panic else Ok i)).
Proof.
  intros E V N C i. rewrite (y_build_eq m Hm S t b (or_introl N)). destruct (build_exact debug S t b E V N) as [A B]. split; [exact A|]. intros x X. specialize (B x X). destruct B as (T & B).
  rewrite (y_dedicated_eq m Hm S debug t x _ T), (y_display_eq m Hm S x _ T). split; [exact T|exact B].
Qed.
Lemma y_norm_exact t b : editable t = true -> values_ok b -> b_normalize b = true -> pct_wf (b_path b) ->
  ((exists x, y_build m S t b = Ok x) <-> parts_ok S b /\ norm_shape b /\ fits t (requested b)) /\
  (forall x, y_build m S t b = Ok x -> exists T, comps_normal S (negb (defined (b_scheme b))) (requested b) T /\
    (~ collapses S b -> text (y_built_display m S x) = Ok (unparse T)) /\
    (collapses S b -> exists w, pct_normal S (b_path b) w /\ text (y_built_display m S x) = Ok (recompose None None w (c_q T) (c_f T)))).
Proof.
  intros E V N W. rewrite (y_build_eq m Hm S t b (or_intror W)). destruct (build_norm_exact S t b E V N W) as [A B]. split; [exact A|]. intros x X. destruct (B x X) as (T & N' & P & Q). exists T. split; [exact N'|]. split.
  - intros K. specialize (P K). now rewrite (y_display_eq m Hm S x _ P).
  - intros K. destruct (Q K) as (w & Hw & P'). exists w. split; [exact Hw|]. now rewrite (y_display_eq m Hm S x _ P').
Qed.
Lemma y_total t b : b_normalize b = false \/ pct_wf (b_path b) -> (exists x, y_build m S t b = Ok x) \/ (exists e, y_build m S t b = Err e).
Proof. intros H. rewrite (y_build_eq m Hm S t b H). destruct H; [now apply build_total|now apply build_norm_total]. Qed.
Lemma y_ensure b x y t : pct_wf (b_path b) -> y_build m S t b = Ok x -> path_normal S false (defined (option_map authority_text (b_authority b))) (b_path b) y ->
  exists r, y_built_ensure m x = Ok r /\ (r = true <-> ~ (b_authority b = None /\ starts_with (lit "//") y = true)).
Proof. intros W B N. rewrite (y_build_eq m Hm S t b (or_intror W)) in B. rewrite (y_ensure_eq m Hm). exact (built_ensure_ok S b x y t W B N). Qed.
Lemma y_from debug i C t : reads S i C -> editable t = true -> fits t C -> exists b x,
  y_builder_from m i = Ok b /\ y_build m S t b = Ok x /\ text (y_built_display m S x) = Ok i /\ y_built_to_dedicated_string m S debug t x = Ok i.
Proof.
  intros R E F. destruct (from_ok S i C R) as (b' & E' & _ & _ & _ & N). destruct (from_build debug S i C t R E F) as (b & x & Eb & B & T & D). rewrite E' in Eb. injection Eb as ->. exists b, x.
  rewrite (y_from_eq m Hm S i C R), (y_build_eq m Hm S t b (or_introl N)), (y_display_eq m Hm S x _ T), (y_dedicated_eq m Hm S debug t x _ T). auto.
Qed.
End M2.
Lemma y_prefixed S s :
  (forall f, s = lit "#" ++ f -> fragment S f -> y_from_prefixed (b_validate_fragment S) HASH InvalidFragment s = Ok f) /\
  ((forall f, s = lit "#" ++ f -> ~ fragment S f) -> exists e, y_from_prefixed (b_validate_fragment S) HASH InvalidFragment s = Err e) /\
  (forall q, s = lit "?" ++ q -> query S q -> y_from_prefixed (b_validate_query S) QMARK InvalidQuery s = Ok q) /\
  ((forall q, s = lit "?" ++ q -> ~ query S q) -> exists e, y_from_prefixed (b_validate_query S) QMARK InvalidQuery s = Err e).
Proof.
  rewrite (y_from_prefixed_eq _ (validate_fragment S)) by (try reflexivity; intros; apply chars_eq).
  rewrite (y_from_prefixed_eq _ (validate_query S)) by (try reflexivity; intros; apply chars_eq). exact (from_prefixed_ok S s).
Qed.
