(** * Decomposition (proofs only). *)
From Verif Require Import Base Chars Rfc3986 CompSpec MValidate MTrusted PBase PScan PHost PAuth PValidate.

Ltac sfx P := match goal with |- context[split_first ?f ?x] => change (split_first f x) with (split_first P x) end.
Definition cgd (c : N) : bool := (c =? COLON) || (c =? SLASH) || (c =? QMARK) || (c =? HASH).
Definition osch (s : option str) := match s with Some x => x ++ lit ":" | None => [] end.
Definition oauth (a : option str) := match a with Some x => lit "//" ++ x | None => [] end.
Definition oq (q : option str) := match q with Some x => lit "?" ++ x | None => [] end.
Definition ofr (f : option str) := match f with Some x => lit "#" ++ x | None => [] end.

Lemma recompose_eq s a p q f : recompose s a p q f = osch s ++ oauth a ++ p ++ oq q ++ ofr f.
Proof. reflexivity. Qed.

(** What the trusted parser needs. *)
Definition abempty_shape (p : str) : Prop := p = [] \/ exists r, p = SLASH :: r.
Definition weak_ok (s a : option str) (p : str) (q : option str) : Prop :=
  match s with Some x => x <> [] /\ none cgd x = true | None => a = None -> first_is_colon p = false end /\
  match a with
  | Some x => none sqh x = true /\ abempty_shape p
  | None => starts_with [SLASH; SLASH] p = false
  end /\
  none qh p = true /\ match q with Some x => none (N.eqb HASH) x = true | None => True end.

Lemma cgd_split x : none cgd x = true <-> none (N.eqb COLON) x = true /\ none gd x = true.
Proof.
  induction x as [|c x IH]; [easy|]. rewrite !none_cons, !andb_true_iff, IH.
  unfold cgd, gd. rewrite (N.eqb_sym COLON c). destruct (c =? COLON), (c =? SLASH), (c =? QMARK), (c =? HASH); cbn; intuition congruence.
Qed.

Lemma components_weak S s a p q f : components_ok S s a p q f -> weak_ok s a p q.
Proof.
  intros (Hs & Ha & Hq & Hf & Hp). unfold weak_ok. repeat split.
  - destruct s as [x|].
    + cbn in Hs. split; [now apply scheme_no_colon in Hs|]. apply cgd_split. split.
      * now apply scheme_no_colon in Hs. * now apply scheme_no_gd.
    + intros ->. apply path_noauth_rel in Hp. tauto.
  - destruct a as [x|].
    + cbn in Ha. split; [now apply authority_none in Ha|]. apply path_abempty_scan in Hp.
      destruct Hp as [->|(r & -> & _)]; [now left|right; eauto].
    + destruct s; [apply path_noauth_abs in Hp | apply path_noauth_rel in Hp]; tauto.
  - destruct a as [x|]; [now apply abempty_no_qh in Hp|].
    destruct s; [apply path_noauth_abs in Hp | apply path_noauth_rel in Hp]; apply (path_no_qh S); tauto.
  - destruct q; [now apply query_no_hash in Hq | easy].
Qed.

Lemma oqf_head q f : oq q ++ ofr f = [] \/ exists c r, oq q ++ ofr f = c :: r /\ qh c = true.
Proof.
  destruct q as [q|]; [right; exists QMARK, (q ++ ofr f); auto|].
  destruct f as [f|]; [right; exists HASH, f; auto | now left].
Qed.

Lemma scheme_colon_opt_some x r : none cgd x = true -> scheme_colon_opt (x ++ COLON :: r) = (r, Some x).
Proof.
  intros H. unfold scheme_colon_opt, find_split4_hole. sfx cgd.
  rewrite (split_first_app cgd x COLON r) by auto. reflexivity.
Qed.
Lemma scheme_colon_opt_none r : (forall a c b, split_first cgd r = Some (a, c, b) -> c <> COLON) ->
  scheme_colon_opt r = (r, None).
Proof.
  intros H. unfold scheme_colon_opt, find_split4_hole.
  sfx cgd. destruct (split_first cgd r) as [[[a c] b]|] eqn:E; [|easy].
  specialize (H _ _ _ eq_refl). destruct (N.eqb_spec c COLON); [easy|reflexivity].
Qed.

Lemma split_first_weaken p q s a c b :
  (forall x, q x = true -> p x = true) ->
  split_first p s = Some (a, c, b) -> q c = true -> split_first q s = Some (a, c, b).
Proof.
  intros Hw H Hq. apply split_first_some in H. destruct H as (-> & Hn & Hc).
  apply split_first_app; auto. eapply none_weaken; eauto.
Qed.

Lemma no_colon_first p q f : first_is_colon p = false -> none qh p = true ->
  forall a c b, split_first cgd (p ++ oq q ++ ofr f) = Some (a, c, b) -> c <> COLON.
Proof.
  intros Hf Hn a c b H. destruct (split_first cgd p) as [[[a' c'] b']|] eqn:E.
  - pose proof E as E'. apply split_first_some in E. destruct E as (-> & Ha & Hc).
    rewrite <- app_assoc in H. cbn [app] in H. rewrite split_first_app in H by assumption.
    injection H as <- <- <-. intros ->.
    unfold first_is_colon, find_split2_hole in Hf.
    apply (split_first_weaken cgd (fun c => (c =? SLASH) || (c =? COLON))) in E'; auto.
    + rewrite E' in Hf. discriminate.
    + intros x. unfold cgd. destruct (x =? SLASH), (x =? COLON); cbn; auto; discriminate.
  - apply split_first_none in E. apply split_first_some in H. destruct H as (H & Ha & Hc).
    intros ->. destruct (oqf_head q f) as [Eq|(d & r & Eq & Hd)]; rewrite Eq in H.
    + rewrite app_nil_r in H. subst p. rewrite none_app, none_cons in E. bdestr. discriminate.
    + assert (Hdc : cgd d = true) by (unfold qh, cgd in *; destruct (d =? QMARK), (d =? HASH); rewrite ?orb_true_r; auto; discriminate).
      symmetry in H. apply (first_unique cgd) in H; auto. destruct H as (_ & <- & _). discriminate.
Qed.

Lemma scheme_colon_opt_rec s a p q f : weak_ok s a p q ->
  scheme_colon_opt (recompose s a p q f) = (oauth a ++ p ++ oq q ++ ofr f, s).
Proof.
  intros (Hs & Ha & Hp & Hq). rewrite recompose_eq. destruct s as [x|]; cbn [osch].
  - rewrite <- app_assoc. cbn [lit app]. apply scheme_colon_opt_some. tauto.
  - cbn [app]. apply scheme_colon_opt_none. destruct a as [x|]; cbn [oauth].
    + intros a c b H. cbn in H. now injection H as <- <- <-.
    + cbn [app]. apply no_colon_first; auto.
Qed.

Lemma path_tail_head p q f : abempty_shape p ->
  p ++ oq q ++ ofr f = [] \/ exists c r, p ++ oq q ++ ofr f = c :: r /\ sqh c = true.
Proof.
  intros [->|(r & ->)]; cbn [app].
  - destruct (oqf_head q f) as [E|(c & r & E & Hc)]; [now left|right; exists c, r; split; auto].
    unfold qh, sqh in *. destruct (c =? QMARK), (c =? HASH); rewrite ?orb_true_r; auto; discriminate.
  - right. eexists _, _. split; [reflexivity|reflexivity].
Qed.

Lemma ss_authority_rec s a p q f : weak_ok s a p q ->
  slash_slash_authority_opt (oauth a ++ p ++ oq q ++ ofr f) = (p ++ oq q ++ ofr f, a).
Proof.
  intros (_ & Ha & Hp & Hq). destruct a as [x|]; cbn [oauth].
  - destruct Ha as [Hx Hsh]. rewrite <- app_assoc. unfold slash_slash_authority_opt.
    rewrite (proj2 (strip_prefix_some [SLASH; SLASH] _ (x ++ p ++ oq q ++ ofr f))) by reflexivity.
    unfold find_split3. sfx sqh.
    destruct (path_tail_head p q f Hsh) as [E|(c & r & E & Hc)]; rewrite E.
    + now rewrite app_nil_r, split_first_none_app.
    + now rewrite split_first_app.
  - cbn [app]. unfold slash_slash_authority_opt.
    rewrite (proj2 (strip_prefix_none [SLASH; SLASH] _)); [reflexivity|].
    intros r H. cbn [app] in H. destruct p as [|c [|d p]]; cbn in H.
    + destruct (oqf_head q f) as [E|(c & r' & E & Hc)]; rewrite E in H; [easy|].
      injection H as -> _. discriminate.
    + injection H as -> H. destruct (oqf_head q f) as [E|(c & r' & E & Hc)]; rewrite E in H; [easy|].
      injection H as -> _. discriminate.
    + injection H as -> -> _. discriminate.
Qed.

Lemma until_query_rec p q f : none qh p = true ->
  until_query (p ++ oq q ++ ofr f) = (oq q ++ ofr f, p).
Proof.
  intros Hp. unfold until_query, find_split2. sfx qh.
  destruct (oqf_head q f) as [E|(c & r & E & Hc)]; rewrite E.
  - now rewrite app_nil_r, split_first_none_app.
  - now rewrite split_first_app.
Qed.

Lemma decompose_qf_rec q f : match q with Some x => none (N.eqb HASH) x = true | None => True end ->
  decompose_query_and_fragment (oq q ++ ofr f) = Ok (q, f).
Proof.
  intros Hq. destruct q as [q|]; cbn [oq].
  - cbn [app lit decompose_query_and_fragment]. change (N_of_ascii "?" =? QMARK) with true. cbn iota.
    destruct f as [f|]; cbn [ofr].
    + cbn [lit app]. change (N_of_ascii "#") with HASH.
      now rewrite (proj2 (find_split_hole_some _ HASH q f)).
    + rewrite app_nil_r. now rewrite (proj2 (find_split_hole_none _ HASH)).
  - destruct f as [f|]; reflexivity.
Qed.

(** ** The Splitter *)
Definition splitter_of (s a : option str) (p : str) (q f : option str) : Splitter :=
  mkSplitter
    (match s with Some x => Some (length x) | None => None end)
    (match a with Some x => Some (length (osch s) + 2 + length x)%nat | None => None end)
    (match q with Some _ => Some (length (osch s ++ oauth a ++ p) + 1)%nat | None => None end)
    (match f with Some _ => Some (length (osch s ++ oauth a ++ p ++ oq q) + 1)%nat | None => None end).

Lemma nonzero_pos n : (0 < n)%nat -> nonzero n = Some n.
Proof. destruct n; [lia|reflexivity]. Qed.

Lemma decompose_rec s a p q f : weak_ok s a p q ->
  decompose (recompose s a p q f) = Ok (splitter_of s a p q f).
Proof.
  intros H. unfold decompose. rewrite scheme_colon_opt_rec by assumption.
  rewrite (ss_authority_rec s) by assumption.
  rewrite until_query_rec by apply H. rewrite decompose_qf_rec by apply H. cbn [bind].
  assert (Hlen : length (recompose s a p q f) =
    (length (osch s) + length (oauth a) + length p + length (oq q) + length (ofr f))%nat).
  { rewrite recompose_eq, !app_length. lia. }
  unfold splitter_of. f_equal.
  replace (match q, f with
    | Some _, Some f0 => (nonzero (length (recompose s a p q f) - length (oq q ++ ofr f) + 1), nonzero (length (recompose s a p q f) - length f0))
    | Some _, None => (nonzero (length (recompose s a p q f) - length (oq q ++ ofr f) + 1), None)
    | None, Some _ => (None, nonzero (length (recompose s a p q f) - length (oq q ++ ofr f) + 1))
    | None, None => (None, None) end)
  with (match q with Some _ => Some (length (osch s ++ oauth a ++ p) + 1)%nat | None => None end,
        match f with Some _ => Some (length (osch s ++ oauth a ++ p ++ oq q) + 1)%nat | None => None end).
  2:{ rewrite Hlen, !app_length. destruct q as [q|], f as [f|]; cbn [oq ofr lit app length];
      rewrite ?app_length; cbn [length]; rewrite ?nonzero_pos by lia; f_equal; try reflexivity; f_equal; lia. }
  f_equal. f_equal.
  - destruct s as [x|]; [|easy]. destruct H as [[Hne _] _]. apply nonzero_pos. destruct x; [easy|cbn; lia].
  - destruct a as [x|]; [|easy]. rewrite nonzero_pos by lia. f_equal. rewrite Hlen, !app_length. cbn [oauth lit app length]. lia.
Qed.

Lemma slice_mid a b c : slice (a ++ b ++ c) (length a) (length a + length b) = Some b.
Proof.
  unfold slice. rewrite !app_length.
  destruct (Nat.leb_spec (length a) (length a + length b)); [|lia].
  destruct (Nat.leb_spec (length a + length b) (length a + (length b + length c))); [|lia].
  cbn [andb]. rewrite skipn_app, skipn_all, Nat.sub_diag. cbn [app skipn].
  replace (length a + length b - length a)%nat with (length b) by lia.
  rewrite firstn_app, Nat.sub_diag, firstn_all. cbn. now rewrite app_nil_r.
Qed.
Lemma slice_p_mid a b c x y s : s = a ++ b ++ c -> x = length a -> y = (length a + length b)%nat ->
  slice_p s x y = Ok b.
Proof. intros -> -> ->. unfold slice_p. now rewrite slice_mid. Qed.

Lemma scheme_slice x a p q f : slice_p (recompose (Some x) a p q f) 0 (length x) = Ok x.
Proof.
  apply (slice_p_mid [] x ([COLON] ++ oauth a ++ p ++ oq q ++ ofr f)); [|reflexivity|reflexivity].
  rewrite recompose_eq. cbn [osch]. now rewrite <- app_assoc.
Qed.
Lemma auth_slice s x p q f n m : n = (length (osch s) + 2)%nat -> m = (length (osch s) + 2 + length x)%nat ->
  slice_p (recompose s (Some x) p q f) n m = Ok x.
Proof.
  intros -> ->. apply (slice_p_mid (osch s ++ lit "//") x (p ++ oq q ++ ofr f)).
  - rewrite recompose_eq. cbn [oauth]. now rewrite <- !app_assoc.
  - rewrite app_length. reflexivity. - rewrite app_length. reflexivity.
Qed.
Lemma path_slice s a p q f n m : n = length (osch s ++ oauth a) -> m = length (osch s ++ oauth a ++ p) ->
  slice_p (recompose s a p q f) n m = Ok p.
Proof.
  intros -> ->. apply (slice_p_mid (osch s ++ oauth a) p (oq q ++ ofr f)).
  - rewrite recompose_eq. now rewrite <- !app_assoc. - reflexivity.
  - rewrite !app_length. lia.
Qed.
Lemma query_slice s a p x f n m : n = (length (osch s ++ oauth a ++ p) + 1)%nat ->
  m = length (osch s ++ oauth a ++ p ++ oq (Some x)) -> slice_p (recompose s a p (Some x) f) n m = Ok x.
Proof.
  intros -> ->. apply (slice_p_mid (osch s ++ oauth a ++ p ++ lit "?") x (ofr f)).
  - rewrite recompose_eq. cbn [oq]. now rewrite <- !app_assoc.
  - rewrite !app_length. cbn [length lit]. lia.
  - cbn [oq]. rewrite !app_length. cbn [length lit]. lia.
Qed.
Lemma frag_slice s a p q x n m : n = (length (osch s ++ oauth a ++ p ++ oq q) + 1)%nat ->
  m = length (recompose s a p q (Some x)) -> slice_p (recompose s a p q (Some x)) n m = Ok x.
Proof.
  intros -> ->. apply (slice_p_mid (osch s ++ oauth a ++ p ++ oq q ++ lit "#") x []).
  - rewrite recompose_eq. cbn [ofr]. rewrite app_nil_r. now rewrite <- !app_assoc.
  - rewrite !app_length. cbn [length lit]. lia.
  - rewrite recompose_eq. cbn [ofr]. rewrite !app_length. cbn [length lit]. lia.
Qed.

Section Splitter.
Variables (s a : option str) (p : str) (q f : option str).
Local Notation R := (recompose s a p q f).
Local Notation SP := (splitter_of s a p q f).

Lemma sp_scheme_rec : sp_scheme_str SP R = Ok s.
Proof.
  unfold sp_scheme_str. cbn [splitter_of scheme_end]. destruct s as [x|]; [|easy].
  cbn [opt_slice]. now rewrite scheme_slice.
Qed.
Lemma sp_authority_rec : sp_authority_str SP R = Ok a.
Proof.
  unfold sp_authority_str. cbn [splitter_of scheme_end authority_end].
  destruct a as [x|]; [|easy]. cbn [opt_slice]. rewrite auth_slice; auto.
  destruct s as [y|]; cbn [osch]; [rewrite app_length|]; cbn [length lit]; lia.
Qed.
Lemma sp_path_range_rec : sp_path_range SP (length R) = (length (osch s ++ oauth a), length (osch s ++ oauth a ++ p)).
Proof.
  unfold sp_path_range. cbn [splitter_of scheme_end authority_end query_start fragment_start]. f_equal.
  - rewrite app_length. destruct a as [x|]; cbn [oauth]; rewrite ?app_length; cbn [length lit]; [lia|].
    destruct s as [y|]; cbn [osch]; rewrite ?app_length; cbn [length lit]; lia.
  - destruct q as [x|]; [lia|]. cbn [oq]. rewrite app_nil_r.
    destruct f as [y|]; [lia|]. rewrite recompose_eq. cbn [oq ofr]. now rewrite !app_nil_r.
Qed.
Lemma sp_path_rec : sp_path_str SP R = Ok p.
Proof. unfold sp_path_str. rewrite sp_path_range_rec. now rewrite path_slice. Qed.
Lemma sp_path_empty_rec : sp_is_path_empty SP (length R) = is_empty p.
Proof.
  unfold sp_is_path_empty. rewrite sp_path_range_rec. rewrite app_assoc, (app_length (osch s ++ oauth a)).
  destruct p as [|c p']; cbn [length is_empty].
  - destruct (Nat.ltb_spec (length (osch s ++ oauth a)) (length (osch s ++ oauth a) + 0)); [lia|easy].
  - destruct (Nat.ltb_spec (length (osch s ++ oauth a)) (length (osch s ++ oauth a) + S (length p'))); [easy|lia].
Qed.
Lemma sp_query_rec : sp_query_str SP R = Ok q.
Proof.
  unfold sp_query_str. cbn [splitter_of query_start fragment_start].
  destruct q as [x|]; [|easy]. cbn [opt_slice]. rewrite query_slice; auto.
  destruct f as [y|]; [lia|]. rewrite recompose_eq. cbn [ofr]. now rewrite !app_nil_r.
Qed.
Lemma sp_fragment_rec : sp_fragment_str SP R = Ok f.
Proof.
  unfold sp_fragment_str. cbn [splitter_of fragment_start].
  destruct f as [x|]; [|easy]. cbn [opt_slice]. now rewrite frag_slice.
Qed.
Lemma sp_has_scheme_rec : sp_has_scheme SP = is_some s. Proof. now destruct s. Qed.
Lemma sp_has_authority_rec : sp_has_authority SP = is_some a. Proof. now destruct a. Qed.
Lemma sp_has_query_rec : sp_has_query SP = is_some q. Proof. now destruct q. Qed.

(** [split_into_major] is the tuple of the individual accessors. *)
Lemma major_eq (sp : Splitter) (r : str) : split_into_major sp r =
  (do x <- sp_scheme_str sp r ;
   do y <- opt_slice r (match authority_end sp with
      | Some e => Some ((match scheme_end sp with Some v => v + 1 | None => 0 end + 2)%nat, e) | None => None end) ;
   do w <- sp_fragment_str sp r ;
   do v <- sp_query_str sp r ;
   do u <- (let '(b, e) := sp_path_range sp (length r) in slice_p r b e) ;
   Ok (x, y, u, v, w)).
Proof.
  unfold split_into_major, sp_scheme_str, sp_fragment_str, sp_query_str, sp_path_range.
  destruct sp as [se ae qs fs]; cbn [scheme_end authority_end query_start fragment_start].
  destruct se, ae, qs, fs; reflexivity.
Qed.
Lemma split_major_rec : split_into_major SP R = Ok (s, a, p, q, f).
Proof.
  rewrite major_eq. rewrite sp_scheme_rec. cbn [bind].
  replace (opt_slice R _) with (@Ok Empty_set _ a).
  - cbn [bind]. rewrite sp_fragment_rec. cbn [bind]. rewrite sp_query_rec. cbn [bind].
    fold (sp_path_str SP R). now rewrite sp_path_rec.
  - symmetry. rewrite <- sp_authority_rec at 1. unfold sp_authority_str.
    destruct (authority_end SP); [|easy]. do 3 f_equal. destruct (scheme_end SP); lia.
Qed.
End Splitter.

Theorem to_major_rec s a p q f : weak_ok s a p q -> to_major (recompose s a p q f) = Ok (s, a, p, q, f).
Proof. intros H. unfold to_major. rewrite decompose_rec by assumption. cbn [bind]. apply split_major_rec. Qed.
