(** * Proofs for C77: normalization and resolution with byte offsets. *)
From Verif Require Import Base Chars Rfc3986 Utf8 CompSpec RfcResolve NormSpec SearchSpec MValidate MTrusted MFormat MWriters MSearch MPct MPath MNormalize MEdit MOffset
  PBase PSearch PTrusted PComps PPath PPath2 PPath5 PNorm6 PNorm7 PNorm8 POffset POffset2 POffset7 POffset4.

Lemma reads_scheme S i C : reads S i C -> forall r, scheme_colon_opt i <> (r, Some []).
Proof.
  intros [H ->] r E. rewrite scheme_colon_opt_rec in E by (eapply components_weak; exact H). injection E as _ E. destruct H as (H & _). rewrite E in H.
  destruct H as (a & b & Eq & (c & Ec & _) & _). subst a. discriminate.
Qed.
Lemma pwf_paths b r : pwf (from_paths_to_be_resolved b r).
Proof.
  unfold from_paths_to_be_resolved. destruct (starts_with _ r); [exact I|]. destruct (split_last _ b) as [[[a c] z]|] eqn:E; [|exact I].
  destruct r as [|d r]; [exact I|]. cbn [is_empty]. split; [discriminate|]. apply split_last_some in E. destruct E as (_ & _ & E). apply N.eqb_eq in E. subst c. now exists a.
Qed.
Definition pwf_input (n : NormalizationInput) : Prop := match n_path n with PNeeds p => pwf p | PDone _ => True end.
Lemma bind_ok {E A B} (x : res E A) (f : A -> res E B) y : (do a <- x ; f a) = Ok y -> exists a, x = Ok a /\ f a = Ok y.
Proof. destruct x; try discriminate. eauto. Qed.
Lemma create_pwf ri r bi b n : create_normalization_input ri r bi b = Ok n -> pwf_input n.
Proof.
  unfold create_normalization_input. set (t := if sp_has_scheme r then _ else _). clearbody t. intros H. apply bind_ok in H. destruct H as (path & Ep & H).
  repeat (apply bind_ok in H; destruct H as (? & _ & H)). injection H as <-. unfold pwf_input. cbn [n_path].
  destruct t; try (apply bind_ok in Ep; destruct Ep as (p & _ & Ep); injection Ep as <-; try exact I; apply pwf_single).
  apply bind_ok in Ep. destruct Ep as (p & _ & Ep). destruct (starts_with _ p); [injection Ep as <-; apply pwf_single|]. apply bind_ok in Ep. destruct Ep as (q & _ & Ep). injection Ep as <-. apply pwf_paths.
Qed.

Section M.
Context (m : option memchr_crate) (Hm : sound m).
Lemma o_paths_eq b r : o_from_paths_to_be_resolved m b r = Ok (from_paths_to_be_resolved b r).
Proof.
  unfold o_from_paths_to_be_resolved, from_paths_to_be_resolved. destruct (starts_with _ r); [reflexivity|]. rewrite rfs_eq by exact Hm. rewrite rposition_split, last_is1 by (apply ap1; reflexivity).
  destruct (split_last _ b) as [[[a c] z]|] eqn:E; [|reflexivity]. apply split_last_some in E. destruct E as (-> & _ & E). apply N.eqb_eq in E. subst c.
  rewrite (str_to_mid _ (a ++ [SLASH]) z); [reflexivity|now rewrite <- app_assoc|]. now rewrite blen_app.
Qed.
Lemma o_major_eq i : (forall r, scheme_colon_opt i <> (r, Some [])) -> o_to_major m i = to_major i.
Proof. intros H. destruct (splitters m Hm i H) as (s & a & p & q & f & Ei & Ec & Eb & _). unfold o_to_major, to_major. rewrite Ec, Eb. cbn [bind]. subst i. destruct (piece_major s a p q f) as [-> ->]. reflexivity. Qed.
Lemma splitter_flags l s a p q f : sp_has_scheme (splitter l s a p q f) = is_some s /\ sp_has_authority (splitter l s a p q f) = is_some a /\ sp_has_query (splitter l s a p q f) = is_some q.
Proof. now destruct s, a, q. Qed.
Lemma o_resolve_eq base ref : (forall r, scheme_colon_opt base <> (r, Some [])) -> (forall r, scheme_colon_opt ref <> (r, Some [])) -> o_resolve m base ref = resolve base ref.
Proof.
  intros HB HR. destruct (splitters m Hm base HB) as (s & a & p & q & f & Ei & Ec & Eb & _). destruct (splitters m Hm ref HR) as (s' & a' & p' & q' & f' & Ei' & Ec' & Eb' & _).
  unfold o_resolve, resolve. rewrite Ec, Eb, Ec', Eb'. cbn [bind]. subst base ref. clear - Hm. unfold o_create_normalization_input, create_normalization_input.
  destruct (piece_scheme s a p q f) as [-> ->], (piece_scheme s' a' p' q' f') as [-> ->], (piece_authority s a p q f) as [-> ->], (piece_authority s' a' p' q' f') as [-> ->].
  destruct (piece_path s a p q f) as [-> ->], (piece_path s' a' p' q' f') as [-> ->], (piece_query s a p q f) as [-> ->], (piece_query s' a' p' q' f') as [-> ->].
  destruct (piece_fragment s' a' p' q' f') as [-> ->]. rewrite (piece_path_empty s' a' p' q' f').
  destruct (splitter_flags blen s a p q f) as (_ & -> & _), (splitter_flags (@length N) s a p q f) as (_ & -> & _).
  destruct (splitter_flags blen s' a' p' q' f') as (-> & -> & ->), (splitter_flags (@length N) s' a' p' q' f') as (-> & -> & ->).
  cbn [bind]. rewrite o_paths_eq. reflexivity.
Qed.
Lemma o_normalize_eq keep i : (forall r, scheme_colon_opt i <> (r, Some [])) -> o_normalize m keep i = if keep then normalize_preserve i else normalize i.
Proof. intros H. unfold o_normalize, normalize, normalize_preserve, o_input_from, input_from. rewrite o_major_eq by exact H. now destruct keep. Qed.
End M.

(** ** The displayed text *)
Lemma fmt_normalized_sim m (Hm : sound m) S n : wsim (fmt_normalized S n) (o_fmt_normalized m S n).
Proof.
  unfold fmt_normalized, o_fmt_normalized. assert (O : forall c o, wsim match o with Some x => write [c] >> (if case_pct_normalization (n_mode n) then PctCaseNormalized S x else write x) | None => wret tt end
    match o with Some x => write [c] >> (if case_pct_normalization (n_mode n) then o_PctCaseNormalized m S x else write x) | None => wret tt end).
  { intros c [x|]; [|apply wsim_refl]. apply wsim_bind. intros _. destruct (case_pct_normalization _); [now apply pct_sim|apply wsim_refl]. }
  apply wsim_bind. intros _. apply wsim_bind. intros _. apply wsim_bind2.
  { destruct (n_authority n); [|apply wsim_refl]. apply wsim_bind. intros _. destruct (case_pct_normalization _); [now apply normalize_authority_sim|apply wsim_refl]. }
  intros _. apply wsim_bind2; [|intros; apply wsim_bind2; [apply O|intros; apply O]]. destruct (n_path n); [destruct (case_pct_normalization _); [now apply fmt_sim|apply wsim_refl]|now apply fmt_sim].
Qed.
Lemma text_sim {A} (x y : W A) t : wsim x y -> text x = Ok t -> y = x.
Proof. unfold wsim, text. destruct (snd x); try discriminate. auto. Qed.

(** ** The three-byte prefix *)
Lemma run_prefix chunks fin : fin <> OPanic -> forall buf, (length buf <= 3)%nat -> exists o, o <> OPanic /\ run o_prefix_write buf chunks fin = (firstn 3 (buf ++ utf8s (concat chunks)), o).
Proof.
  intros Hf. induction chunks as [|c r IH]; intros buf L; cbn [run concat].
  - exists fin. split; auto. cbn [utf8s flat_map]. rewrite app_nil_r, firstn_all2 by lia. reflexivity.
  - unfold o_prefix_write at 1. destruct (negb (is_empty c) && Nat.leb 3 (length buf)) eqn:E.
    + apply andb_prop in E. destruct E as [_ E]. apply Nat.leb_le in E. exists OErr. split; [discriminate|]. assert (X : length buf = 3%nat) by lia.
      rewrite firstn_app, <- X, Nat.sub_diag, firstn_O, app_nil_r, firstn_all. reflexivity.
    + destruct (IH (firstn 3 (buf ++ utf8s c))) as (o & Ho & ->); [apply firstn_le_length|]. exists o. split; auto. f_equal. rewrite utf8s_app, app_assoc. generalize (buf ++ utf8s c) (utf8s (concat r)). clear.
      intros x y. rewrite !firstn_app, firstn_firstn. f_equal. rewrite firstn_length. destruct (Nat.le_ge_cases 3 (length x)).
      * rewrite Nat.min_l by lia. replace (3 - length x)%nat with 0%nat by lia. reflexivity.
      * rewrite Nat.min_r by lia. reflexivity.
Qed.
Lemma first_three t : seqb (firstn 3 (utf8s t)) (lit "/./") = seqb (firstn 3 t) (lit "/./").
Proof.
  assert (St : forall n c, n < 128 -> exists b l, utf8 c = b :: l /\ (b =? n) = (c =? n) /\ (c = n -> l = [])).
  { intros n c Hn. destruct (first_byte c) as (b & l & E & F). exists b, l. split; [exact E|]. split; [now apply F|]. intros ->. unfold utf8 in E. rewrite (proj2 (N.ltb_lt _ _) Hn) in E. now injection E. }
  assert (One : forall (k : nat) n (w : list N) s, n < 128 -> (forall r, seqb (firstn k (utf8s r)) w = seqb (firstn k r) w) -> seqb (firstn (Datatypes.S k) (utf8s s)) (n :: w) = seqb (firstn (Datatypes.S k) s) (n :: w)).
  { intros k n w s Hn IH. destruct s as [|c s]; [reflexivity|]. destruct (St n c Hn) as (b & l & E & F & G). cbn [utf8s flat_map]. rewrite E. cbn [app firstn seqb]. rewrite F. destruct (c =? n) eqn:Ec; [|reflexivity].
    apply N.eqb_eq in Ec. rewrite (G Ec). cbn [app andb]. apply IH. }
  change (lit "/./") with [47; 46; 47]. apply One; [reflexivity|]. intros r. apply One; [reflexivity|]. intros r'. apply One; [reflexivity|]. intros r''. reflexivity.
Qed.
Lemma o_ensure_eq m (Hm : sound m) n : pwf_input n -> o_ensure_rfc3986_normalizable m n = ensure_rfc3986_normalizable n.
Proof.
  unfold pwf_input, o_ensure_rfc3986_normalizable, ensure_rfc3986_normalizable. destruct (is_some _); [reflexivity|]. destruct (n_path n) as [|p]; [reflexivity|]. intros W.
  destruct (fmt_none_ok UriSpec false p W) as (t & R & E); [intros X; discriminate|]. unfold o_ensure_rfc3986_normalizable_with_authority_absent, ensure_rfc3986_normalizable_with_authority_absent.
  pose proof (fmt_sim m Hm UriSpec MNone false p) as Sm. rewrite (text_sim _ _ _ Sm (outs_text _ _ _ E)). unfold outs in E. unfold run_display.
  destruct (fmt_write_normalize UriSpec MNone false p) as [cs [u| |]]; try discriminate. cbn [fst snd end_of].
  destruct (prefix_run cs []) as (o & Ho & ->); [cbn; lia|]. destruct (run_prefix cs OOk (fun e => match e with end) []) as (o' & Ho' & ->); [cbn; lia|]. cbn [app]. rewrite first_three.
  destruct Ho as [-> | ->], o'; try reflexivity; congruence.
Qed.

(** ** The statements of C77 *)
Section M2.
Context (m : option memchr_crate) (Hm : sound m).
Lemma c77_resolve S base ref : IRI S base -> IRI_reference S ref -> exists n t, resolve base ref = Ok n /\ display S n = Ok t /\
  o_resolve m base ref = Ok n /\ o_fmt_normalized m S n = fmt_normalized S n /\ o_ensure_rfc3986_normalizable m n = ensure_rfc3986_normalizable n.
Proof.
  intros HB HR. apply iri_reads in HB. destruct HB as (B & HB & D). apply reference_reads in HR. destruct HR as (R & HR). destruct (c10_resolution S base ref B R HB D HR) as (n & T & E & _ & _ & X).
  exists n, (unparse T). split; [exact E|]. split; [exact X|]. split; [rewrite o_resolve_eq; eauto using reads_scheme|]. split; [eapply text_sim; [now apply fmt_normalized_sim|exact X]|].
  apply o_ensure_eq; [exact Hm|]. unfold resolve in E. apply bind_ok in E. destruct E as (b & _ & E). apply bind_ok in E. destruct E as (r & _ & E). eapply create_pwf. exact E.
Qed.
Lemma c77_normalize S (keep : bool) i : IRI S i -> exists n t, (if keep then normalize_preserve i else normalize i) = Ok n /\ display S n = Ok t /\
  o_normalize m keep i = Ok n /\ o_fmt_normalized m S n = fmt_normalized S n /\ o_ensure_rfc3986_normalizable m n = ensure_rfc3986_normalizable n.
Proof.
  intros H. apply iri_reads in H. destruct H as (C & H & D). destruct (c15_components S keep i C H D) as (n & T & E & _ & _ & X).
  exists n, (unparse T). split; [exact E|]. split; [exact X|]. split; [rewrite o_normalize_eq; eauto using reads_scheme|]. split; [eapply text_sim; [now apply fmt_normalized_sim|exact X]|].
  apply o_ensure_eq; [exact Hm|]. assert (E' : (do n <- input_from i ; Ok (set_mode n (if keep then MPreserve else MDefault))) = Ok n) by (destruct keep; exact E).
  apply bind_ok in E'. destruct E' as (n0 & E0 & E'). injection E' as <-. unfold input_from in E0. apply bind_ok in E0. destruct E0 as ([[[[s a] p] q] f] & _ & E0). destruct s; [|discriminate]. injection E0 as <-. apply pwf_single.
Qed.
Lemma c77_major S i : IRI_reference S i -> o_to_major m i = to_major i.
Proof. intros H. apply reference_reads in H. destruct H as (C & H). apply o_major_eq; eauto using reads_scheme. Qed.
End M2.
