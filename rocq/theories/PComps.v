(** * Grammar = recomposed components; accessors (proofs only). *)
From Verif Require Import Base Chars Rfc3986 CompSpec MValidate MTrusted PBase PScan PHost PAuth PValidate PTrusted.

Lemma q_opt_iff S x : q_opt S x <-> exists q, x = oq q /\ opt_in (query S) q.
Proof.
  split.
  - intros [-> |H]; [exists None; now split|]. apply tok_cat in H. destruct H as (q & -> & H).
    exists (Some q). now split.
  - intros ([q|] & -> & H); [right; apply tok_cat; exists q; now split | now left].
Qed.
Lemma f_opt_iff S x : f_opt S x <-> exists f, x = ofr f /\ opt_in (fragment S) f.
Proof.
  split.
  - intros [-> |H]; [exists None; now split|]. apply tok_cat in H. destruct H as (q & -> & H).
    exists (Some q). now split.
  - intros ([q|] & -> & H); [right; apply tok_cat; exists q; now split | now left].
Qed.

Lemma hier_part_iff S x : hier_part S x <-> exists a p, x = oauth a ++ p /\ opt_in (authority S) a /\
  match a with Some _ => path_abempty S p
  | None => (path_absolute S <|> path_rootless S <|> path_empty) p end.
Proof.
  split.
  - intros [H|H].
    + apply tok_cat in H. destruct H as (b & -> & (a & p & -> & Ha & Hp)).
      exists (Some a), p. now rewrite app_assoc.
    + exists None, x. now repeat split.
  - intros ([a|] & p & -> & Ha & Hp).
    + left. cbn [oauth]. rewrite <- app_assoc. apply tok_cat. eexists. split; [reflexivity|].
      now apply cat_intro.
    + right. exact Hp.
Qed.
Lemma relative_part_iff S x : relative_part S x <-> exists a p, x = oauth a ++ p /\ opt_in (authority S) a /\
  match a with Some _ => path_abempty S p
  | None => (path_absolute S <|> path_noscheme S <|> path_empty) p end.
Proof.
  split.
  - intros [H|H].
    + apply tok_cat in H. destruct H as (b & -> & (a & p & -> & Ha & Hp)).
      exists (Some a), p. now rewrite app_assoc.
    + exists None, x. now repeat split.
  - intros ([a|] & p & -> & Ha & Hp).
    + left. cbn [oauth]. rewrite <- app_assoc. apply tok_cat. eexists. split; [reflexivity|].
      now apply cat_intro.
    + right. exact Hp.
Qed.

Theorem IRI_comps S i : IRI S i <-> exists s a p q f,
  i = recompose (Some s) a p q f /\ components_ok S (Some s) a p q f.
Proof.
  unfold IRI. split.
  - intros (s & r & -> & Hs & Hr). apply tok_cat in Hr. destruct Hr as (r' & -> & Hr).
    destruct Hr as (h & qf & -> & Hh & (q & f & -> & Hq & Hf)).
    apply hier_part_iff in Hh. destruct Hh as (a & p & -> & Ha & Hp).
    apply q_opt_iff in Hq. destruct Hq as (q' & -> & Hq). apply f_opt_iff in Hf. destruct Hf as (f' & -> & Hf).
    exists s, a, p, q', f'. split.
    + rewrite recompose_eq. cbn [osch]. now rewrite <- !app_assoc.
    + repeat split; auto; destruct a; auto.
  - intros (s & a & p & q & f & -> & Hs & Ha & Hq & Hf & Hp). rewrite recompose_eq. cbn [osch].
    rewrite <- app_assoc. apply cat_intro; [exact Hs|]. apply tok_cat. eexists. split; [reflexivity|].
    rewrite (app_assoc (oauth a)). apply cat_intro.
    + apply hier_part_iff. exists a, p. split; [reflexivity|]. split; auto; destruct a; auto.
    + apply cat_intro; [apply q_opt_iff; eauto | apply f_opt_iff; eauto].
Qed.
Theorem relative_comps S i : relative_ref S i <-> exists a p q f,
  i = recompose None a p q f /\ components_ok S None a p q f.
Proof.
  unfold relative_ref. split.
  - intros (h & qf & -> & Hh & (q & f & -> & Hq & Hf)).
    apply relative_part_iff in Hh. destruct Hh as (a & p & -> & Ha & Hp).
    apply q_opt_iff in Hq. destruct Hq as (q' & -> & Hq). apply f_opt_iff in Hf. destruct Hf as (f' & -> & Hf).
    exists a, p, q', f'. split.
    + rewrite recompose_eq. cbn [osch]. now rewrite <- !app_assoc.
    + repeat split; auto; destruct a; auto.
  - intros (a & p & q & f & -> & Hs & Ha & Hq & Hf & Hp). rewrite recompose_eq. cbn [osch app].
    rewrite (app_assoc (oauth a)). apply cat_intro.
    + apply relative_part_iff. exists a, p. split; [reflexivity|]. split; auto; destruct a; auto.
    + apply cat_intro; [apply q_opt_iff; eauto | apply f_opt_iff; eauto].
Qed.
Theorem reference_comps S i : IRI_reference S i <-> exists s a p q f,
  i = recompose s a p q f /\ components_ok S s a p q f.
Proof.
  split.
  - intros [H|H].
    + apply IRI_comps in H. destruct H as (s & a & p & q & f & H). exists (Some s), a, p, q, f. exact H.
    + apply relative_comps in H. destruct H as (a & p & q & f & H). exists None, a, p, q, f. exact H.
  - intros ([s|] & a & p & q & f & H); [left; apply IRI_comps; eauto 10 | right; apply relative_comps; eauto 10].
Qed.
Theorem absolute_comps S i : absolute_IRI S i <-> exists s a p q,
  i = recompose (Some s) a p q None /\ components_ok S (Some s) a p q None.
Proof.
  unfold absolute_IRI. split.
  - intros (s & r & -> & Hs & Hr). apply tok_cat in Hr. destruct Hr as (r' & -> & Hr).
    destruct Hr as (h & q & -> & Hh & Hq).
    apply hier_part_iff in Hh. destruct Hh as (a & p & -> & Ha & Hp).
    apply q_opt_iff in Hq. destruct Hq as (q' & -> & Hq).
    exists s, a, p, q'. split.
    + rewrite recompose_eq. cbn [osch ofr]. rewrite app_nil_r. now rewrite <- !app_assoc.
    + repeat split; auto; destruct a; auto.
  - intros (s & a & p & q & -> & Hs & Ha & Hq & Hf & Hp). rewrite recompose_eq. cbn [osch ofr].
    rewrite app_nil_r. rewrite <- app_assoc. apply cat_intro; [exact Hs|]. apply tok_cat. eexists. split; [reflexivity|].
    rewrite (app_assoc (oauth a)). apply cat_intro.
    + apply hier_part_iff. exists a, p. split; [reflexivity|]. split; auto; destruct a; auto.
    + apply q_opt_iff; eauto.
Qed.
Theorem absolute_code_comps S i : absolute_code S i <-> exists s a p q f,
  i = recompose (Some s) a p q f /\ components_ok S (Some s) a p q f /\ (f = None \/ f = Some []).
Proof.
  unfold absolute_code. split.
  - intros (s & r & -> & Hs & Hr). apply tok_cat in Hr. destruct Hr as (r' & -> & Hr).
    destruct Hr as (h & qf & -> & Hh & (q & f & -> & Hq & Hf)).
    apply hier_part_iff in Hh. destruct Hh as (a & p & -> & Ha & Hp).
    apply q_opt_iff in Hq. destruct Hq as (q' & -> & Hq).
    destruct Hf as [-> | ->].
    + exists s, a, p, q', None. split; [|split; [|now left]].
      * rewrite recompose_eq. cbn [osch ofr]. rewrite !app_nil_r. now rewrite <- !app_assoc.
      * repeat split; auto; destruct a; auto.
    + exists s, a, p, q', (Some []). split; [|split; [|now right]].
      * rewrite recompose_eq. cbn [osch ofr]. rewrite !app_nil_r. now rewrite <- !app_assoc.
      * repeat split; auto; try apply fragment_nil; destruct a; auto.
  - intros (s & a & p & q & f & -> & (Hs & Ha & Hq & Hf & Hp) & He). rewrite recompose_eq. cbn [osch].
    rewrite <- app_assoc. apply cat_intro; [exact Hs|]. apply tok_cat. eexists. split; [reflexivity|].
    rewrite (app_assoc (oauth a)). apply cat_intro.
    + apply hier_part_iff. exists a, p. split; [reflexivity|]. split; auto; destruct a; auto.
    + apply cat_intro; [apply q_opt_iff; eauto|]. destruct He as [-> | ->]; [now left | now right].
Qed.

(** Uniqueness: the components are determined by the string. *)
Theorem recompose_inj s a p q f s' a' p' q' f' :
  weak_ok s a p q -> weak_ok s' a' p' q' -> recompose s a p q f = recompose s' a' p' q' f' ->
  s = s' /\ a = a' /\ p = p' /\ q = q' /\ f = f'.
Proof.
  intros H H' E. pose proof (to_major_rec _ _ _ _ f H) as M. rewrite E, to_major_rec in M by assumption.
  now inversion M.
Qed.

(** ** Accessors *)
Section Acc.
Variables (s a : option str) (p : str) (q f : option str).
Hypothesis H : weak_ok s a p q.
Local Notation R := (recompose s a p q f).

Lemma extract_scheme_rec : extract_scheme R = s.
Proof. unfold extract_scheme. now rewrite scheme_colon_opt_rec. Qed.
Lemma extract_authority_rec : extract_authority R = a.
Proof. unfold extract_authority. rewrite scheme_colon_opt_rec by assumption. cbn [fst].
  now rewrite (ss_authority_rec s). Qed.
Lemma extract_path_rec : extract_path R = p.
Proof. unfold extract_path. rewrite scheme_colon_opt_rec by assumption. cbn [fst].
  rewrite (ss_authority_rec s) by assumption. cbn [fst]. rewrite until_query_rec; [reflexivity|apply H]. Qed.

Lemma front_no_qh : none qh (osch s ++ oauth a ++ p) = true.
Proof.
  destruct H as (Hs & Ha & Hp & Hq). rewrite !none_app, Hp, andb_true_r. apply andb_true_intro. split.
  - destruct s as [x|]; cbn [osch]; [|easy]. rewrite none_app. destruct Hs as [_ Hs].
    apply andb_true_intro. split; [|reflexivity]. eapply none_weaken; [|exact Hs]. intros c. unfold qh, cgd.
    destruct (c =? QMARK), (c =? HASH); rewrite ?orb_true_r; auto; discriminate.
  - destruct a as [x|]; cbn [oauth]; [|easy]. rewrite none_app. destruct Ha as [Ha _].
    apply andb_true_intro. split; [reflexivity|]. now apply sqh_weak_qh.
Qed.
Lemma front_no_hash : none (N.eqb HASH) (osch s ++ oauth a ++ p ++ oq q) = true.
Proof.
  rewrite !app_assoc, none_app, <- app_assoc. apply andb_true_intro. split.
  - eapply none_weaken; [|apply front_no_qh]. intros c Hc. apply N.eqb_eq in Hc. now subst.
  - destruct H as (_ & _ & _ & Hq). destruct q as [x|]; [|easy]. cbn [oq]. rewrite none_app. now rewrite Hq.
Qed.
Lemma extract_query_rec : extract_query R = Ok q.
Proof.
  unfold extract_query. rewrite recompose_eq.
  replace (osch s ++ oauth a ++ p ++ oq q ++ ofr f) with ((osch s ++ oauth a ++ p) ++ oq q ++ ofr f)
    by now rewrite <- !app_assoc.
  rewrite until_query_rec by apply front_no_qh. cbn [fst]. rewrite decompose_qf_rec by apply H. reflexivity.
Qed.
Lemma split_fragment_rec : split_fragment R = (recompose s a p q None, f).
Proof.
  unfold split_fragment. rewrite !recompose_eq. cbn [ofr]. rewrite app_nil_r.
  replace (osch s ++ oauth a ++ p ++ oq q ++ ofr f) with ((osch s ++ oauth a ++ p ++ oq q) ++ ofr f)
    by now rewrite <- !app_assoc.
  destruct f as [x|]; cbn [ofr].
  - rewrite (proj2 (find_split_hole_some _ HASH (osch s ++ oauth a ++ p ++ oq q) x)); [reflexivity|].
    split; [reflexivity | apply front_no_hash].
  - rewrite app_nil_r. now rewrite (proj2 (find_split_hole_none _ HASH)) by apply front_no_hash.
Qed.
Lemma extract_fragment_rec : extract_fragment R = f.
Proof. unfold extract_fragment. now rewrite split_fragment_rec. Qed.

Lemma extract_authority_offset_rec : extract_authority_and_offset R =
  match a with Some x => Some (x, (length (osch s) + 2)%nat) | None => None end.
Proof.
  unfold extract_authority_and_offset. rewrite scheme_colon_opt_rec by assumption.
  rewrite (ss_authority_rec s) by assumption. cbn [snd]. destruct a as [x|]; [|easy].
  destruct s as [y|]; cbn [osch]; [|easy]. rewrite app_length. do 2 f_equal. cbn [length lit]. lia.
Qed.
End Acc.

(** Variants for types with a mandatory scheme / without scheme. *)
Lemma scheme_colon_rec x a p q f : weak_ok (Some x) a p q ->
  scheme_colon (recompose (Some x) a p q f) = Ok (oauth a ++ p ++ oq q ++ ofr f, x).
Proof.
  intros [[_ Hx] _]. unfold scheme_colon. rewrite recompose_eq. cbn [osch]. rewrite <- app_assoc.
  rewrite (proj2 (find_split_hole_some _ COLON x (oauth a ++ p ++ oq q ++ ofr f))); [reflexivity|].
  split; [reflexivity|]. now apply cgd_split in Hx.
Qed.
Lemma extract_scheme_absolute_rec x a p q f : weak_ok (Some x) a p q ->
  extract_scheme_absolute (recompose (Some x) a p q f) = Ok x.
Proof. intros H. unfold extract_scheme_absolute. now rewrite scheme_colon_rec. Qed.
Lemma extract_authority_absolute_rec x a p q f : weak_ok (Some x) a p q ->
  extract_authority_absolute (recompose (Some x) a p q f) = Ok a.
Proof. intros H. unfold extract_authority_absolute. rewrite scheme_colon_rec by assumption. cbn [bind].
  now rewrite (ss_authority_rec (Some x)). Qed.
Lemma extract_path_absolute_rec x a p q f : weak_ok (Some x) a p q ->
  extract_path_absolute (recompose (Some x) a p q f) = Ok p.
Proof. intros H. unfold extract_path_absolute. rewrite scheme_colon_rec by assumption. cbn [bind].
  rewrite (ss_authority_rec (Some x)) by assumption. cbn [fst]. rewrite until_query_rec; [reflexivity|apply H]. Qed.
Lemma extract_authority_relative_rec a p q f : weak_ok None a p q ->
  extract_authority_relative (recompose None a p q f) = a.
Proof. intros H. unfold extract_authority_relative. rewrite recompose_eq. cbn [osch app].
  now rewrite (ss_authority_rec None). Qed.
Lemma extract_path_relative_rec a p q f : weak_ok None a p q ->
  extract_path_relative (recompose None a p q f) = p.
Proof. intros H. unfold extract_path_relative. rewrite recompose_eq. cbn [osch app].
  rewrite (ss_authority_rec None) by assumption. cbn [fst]. rewrite until_query_rec; [reflexivity|apply H]. Qed.
Lemma extract_query_absolute_rec d s a p q : weak_ok s a p q ->
  extract_query_absolute_iri d (recompose s a p q None) = Ok q.
Proof.
  intros H. unfold extract_query_absolute_iri. rewrite recompose_eq. cbn [ofr].
  replace (osch s ++ oauth a ++ p ++ oq q ++ []) with ((osch s ++ oauth a ++ p) ++ oq q ++ ofr None)
    by (cbn [ofr]; now rewrite <- !app_assoc).
  rewrite until_query_rec by exact (front_no_qh _ _ _ _ H). cbn [fst ofr].
  destruct q as [x|]; cbn [oq]; [|easy]. cbn [lit app]. rewrite app_nil_r. now rewrite andb_false_r.
Qed.

(** ** Authority *)
Definition oui (u : option str) := match u with Some x => x ++ lit "@" | None => [] end.
Definition oport (p : option str) := match p with Some x => lit ":" ++ x | None => [] end.
Lemma authority_comps S i : authority S i <-> exists u h p,
  i = authority_string u h p /\ opt_in (userinfo S) u /\ host S h /\ opt_in port p.
Proof.
  unfold authority. split.
  - intros (x & r & -> & Hx & (h & y & -> & Hh & Hy)).
    assert (exists u, x = oui u /\ opt_in (userinfo S) u) as (u & -> & Hu).
    { destruct Hx as [-> |(u & z & -> & Hu & ->)]; [now exists None | now exists (Some u)]. }
    assert (exists p, y = oport p /\ opt_in port p) as (p & -> & Hp).
    { destruct Hy as [-> |Hy]; [now exists None|]. apply tok_cat in Hy. destruct Hy as (p & -> & Hp). now exists (Some p). }
    exists u, h, p. auto.
  - intros (u & h & p & -> & Hu & Hh & Hp). unfold authority_string. apply cat_intro; [|apply cat_intro; auto].
    + destruct u as [u|]; [right; apply cat_intro; [auto|reflexivity] | now left].
    + destruct p as [p|]; [right; apply tok_cat; eauto | now left].
Qed.

(** What [decompose_authority] needs: host has no '@'; after the last ']' no ':' (trusted). *)
Definition host_shape (h : str) : Prop :=
  none (N.eqb AT) h = true /\
  (none (fun c => (c =? COLON) || (c =? RBRACK)) h = true \/ exists h', h = h' ++ [RBRACK]).
Lemma host_has_shape S h : host S h -> host_shape h.
Proof.
  intros H. split; [now apply host_no_at in H|]. destruct H as [H|[H|H]].
  - apply IP_literal_iff in H. destruct H as (m & -> & _). right. exists (LBRACK :: m). reflexivity.
  - left. apply IPv4_chars in H. destruct H as [H _]. eapply forallb_none_app; [|exact H]. intros c Hc.
    delim_cases Hc; reflexivity.
  - left. apply reg_name_scan in H. eapply scan_none; [|exact H]. intros c Hc.
    delim_cases Hc; destruct S; repeat split; try reflexivity; discriminate.
Qed.

Lemma decompose_authority_rec u h p :
  match u with Some x => none (N.eqb AT) x = true | None => True end ->
  host_shape h -> match p with Some x => forallb is_digit x = true | None => True end ->
  decompose_authority (authority_string u h p) =
  mkAuth (authority_string u h p) (length (oui u)) (length (oui u) + length h).
Proof.
  intros Hu [Hh Hs] Hp. unfold decompose_authority.
  assert (Hnp : none (N.eqb AT) (h ++ oport p) = true).
  { rewrite none_app, Hh. destruct p as [p|]; [|easy]. cbn [oport andb]. rewrite none_app. cbn [none lit forallb].
    eapply digits_none; [|exact Hp]. intros c Hc. apply N.eqb_eq in Hc. now subst. }
  assert (E : find_split_hole (authority_string u h p) AT =
     match u with Some x => Some (x, h ++ oport p) | None => None end).
  { unfold authority_string. fold (oport p). destruct u as [x|].
    - apply find_split_hole_some. split; [now rewrite <- app_assoc | exact Hu].
    - cbn [app]. now apply find_split_hole_none. }
  rewrite E. clear E.
  match goal with |- (let '(_, _) := ?X in _) = _ =>
    assert (EX : X = (h ++ oport p, length (oui u)));
    [ destruct u as [x|]; cbn [oui]; [now rewrite app_length|reflexivity] | rewrite EX; clear EX ] end.
  assert (L : length (authority_string u h p) = (length (oui u) + length h + length (oport p))%nat).
  { unfold authority_string. fold (oui u). fold (oport p). rewrite !app_length. lia. }
  cbv beta iota zeta. f_equal. rewrite L.
  assert (Hc : match rfind_split2 (h ++ oport p) COLON RBRACK with
     | Some (_, suffix) => if starts_with [COLON] suffix then length suffix else 0%nat
     | None => 0%nat end = length (oport p)).
  { unfold rfind_split2. destruct p as [p|]; cbn [oport lit app].
    - change (N_of_ascii ":") with COLON. rewrite split_last_app; [reflexivity| |reflexivity].
      eapply digits_none; [|exact Hp]. intros c Hc. delim_cases Hc; reflexivity.
    - rewrite app_nil_r. destruct Hs as [Hs|(h' & ->)].
      + now rewrite split_last_none_app.
      + rewrite split_last_app by reflexivity. reflexivity. }
  rewrite Hc. lia.
Qed.

Lemma nth_error_mid (a : str) c b : nth_error (a ++ c :: b) (length a) = Some c.
Proof. rewrite nth_error_app2 by lia. now rewrite Nat.sub_diag. Qed.

Lemma ac_rec u h p (A := mkAuth (authority_string u h p) (length (oui u)) (length (oui u) + length h)) :
  ac_userinfo A = Ok u /\ ac_host A = Ok h /\ ac_port A = Ok p.
Proof.
  unfold A. repeat split.
  - unfold ac_userinfo. cbn [host_start au_str]. destruct u as [x|]; cbn [oui]; [|reflexivity].
    rewrite app_length, Nat.add_comm. cbn [length lit Nat.add].
    unfold authority_string. rewrite <- !app_assoc. cbn [lit app].
    rewrite nth_error_mid. cbn iota. rewrite (slice_p_mid [] x (AT :: h ++ match p with Some x0 => lit ":" ++ x0 | None => [] end)); reflexivity.
  - unfold ac_host. cbn [host_start host_end au_str]. unfold authority_string. fold (oui u). fold (oport p).
    now apply (slice_p_mid (oui u) h (oport p)).
  - unfold ac_port. cbn [host_end au_str]. unfold authority_string. fold (oui u). fold (oport p).
    rewrite (app_assoc (oui u)). rewrite <- app_length. destruct p as [p|]; cbn [oport].
    + rewrite (app_length (oui u ++ h)). cbn [length lit app].
      destruct (Nat.eqb_spec (length (oui u ++ h)) (length (oui u ++ h) + S (length p))); [lia|].
      rewrite nth_error_mid. cbn iota.
      rewrite (slice_p_mid ((oui u ++ h) ++ [COLON]) p []); [reflexivity| | |].
      * rewrite app_nil_r. now rewrite <- (app_assoc (oui u ++ h)).
      * rewrite (app_length (oui u ++ h)). reflexivity.
      * rewrite (app_length (oui u ++ h)). cbn [length]. lia.
    + rewrite app_nil_r. now rewrite Nat.eqb_refl.
Qed.
