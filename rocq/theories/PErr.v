(** * Error messages of the validators (proofs only). *)
From Verif Require Import Base Chars Rfc3986 CompSpec MValidate MTrusted MError ErrSpec PBase PScan PHost PAuth PValidate.

Lemma lit_inj a b : lit a = lit b -> a = b.
Proof.
  revert b. induction a as [|c a IH]; intros [|d b] H; try discriminate; auto.
  cbn in H. injection H as H1 H2. f_equal; auto.
  rewrite <- (ascii_N_embedding c), H1. apply ascii_N_embedding.
Qed.
Lemma display_inj k m : error_display k = lit "invalid IRI: " ++ lit m -> description k = m.
Proof. unfold error_display. intros H. apply app_inv_head in H. now apply lit_inj. Qed.

(** ** Sequences of checks *)
Definition runs (x : vres) (l : list claim) : Prop :=
  (x = Ok tt /\ Forall fst l) \/ (exists k, x = Err k /\ first_bad l (description k)).

Lemma bad_not_all l m : first_bad l m -> ~ Forall fst l.
Proof. induction 1; intros F; inversion F; subst; cbn in *; auto. Qed.
Lemma bad_det l m m' : first_bad l m -> first_bad l m' -> m = m'.
Proof.
  intros H. revert m'. induction H as [P m l HP|P m l k HP Hb IH]; intros m' H'; inversion H'; subst; try contradiction; auto.
Qed.
Lemma runs_err x l m : runs x l -> ((exists k, x = Err k /\ description k = m) <-> first_bad l m).
Proof.
  intros [[-> F]|(k & -> & B)]; split.
  - intros (k & ? & _). discriminate.
  - intros B. now apply bad_not_all in B.
  - intros (k' & [= ->] & <-). exact B.
  - intros B'. exists k. split; auto. eapply bad_det; eauto.
Qed.
Lemma runs_one x (P : Prop) k : (x = Ok tt <-> P) -> (forall e, x = Err e -> e = k) -> x <> Panic -> runs x [(P, description k)].
Proof.
  intros H1 H2 H3. destruct x as [[]|e|]; [left|right|congruence].
  - split; auto. constructor; auto. cbn. now apply H1.
  - exists e. split; auto. rewrite (H2 _ eq_refl). apply fb_here. intros HP. apply H1 in HP. discriminate.
Qed.
Lemma bad_app l1 l2 m : Forall fst l1 -> first_bad l2 m -> first_bad (l1 ++ l2) m.
Proof. induction 1 as [|[P k] l HP HF IH]; auto. intros B. cbn. apply fb_next; auto. Qed.
Lemma bad_left l1 l2 m : first_bad l1 m -> first_bad (l1 ++ l2) m.
Proof. induction 1; cbn; constructor; auto. Qed.
Lemma runs_seq x y l1 l2 : runs x l1 -> runs y l2 -> runs (x ;; y) (l1 ++ l2).
Proof.
  intros [[-> F]|(k & -> & B)] Hy; cbn [bind].
  - destruct Hy as [[-> F']|(k & -> & B)].
    + left. split; auto. apply Forall_app; auto.
    + right. exists k. split; auto. now apply bad_app.
  - right. exists k. split; auto. now apply bad_left.
Qed.
Lemma runs_true x (P : Prop) m l : P -> runs x l -> runs x ((P, m) :: l).
Proof.
  intros HP [[-> F]|(k & -> & B)]; [left|right]; [split; auto|exists k; split; auto].
  now apply fb_next.
Qed.
Lemma check_runs b (P : Prop) k : (check b k = Ok tt <-> P) -> runs (check b k) [(P, description k)].
Proof.
  intros H. apply runs_one; auto.
  - intros e. unfold check. destruct b; congruence.
  - apply check_np.
Qed.

(** ** Error kinds of the leaves *)
Lemma ipv4_kind i e : validate_ipv4address i = Err e -> e = InvalidHost.
Proof.
  unfold validate_ipv4address. repeat (match goal with |- context [match ?x with _ => _ end] => destruct x end; try congruence).
Qed.
Lemma v6_kind fuel i n o e : v6_loop fuel i n o = Err e -> e = InvalidHost.
Proof.
  revert i n o. induction fuel as [|fuel IH]; intros i n o; cbn [v6_loop]; [discriminate|].
  destruct (is_empty i). { unfold v6_final, check. destruct (if o then _ else _); congruence. }
  unfold split_v6_addr_part, v6_final, check.
  destruct (find_split_hole i COLON) as [[p r]|].
  - destruct (Nat.leb 5 (blen p)); cbn [bind]; [congruence|].
    destruct (is_empty p).
    + destruct (strip_ascii_char_prefix r COLON); cbn [bind]; [|congruence].
      destruct o; [congruence|]. destruct (Nat.ltb 8 n); [congruence|]. apply IH.
    + destruct (negb (forallb is_hexdigit p)); cbn [bind]; [congruence|].
      destruct (strip_ascii_char_prefix r COLON); cbn [bind].
      * destruct o; [congruence|]. destruct (Nat.ltb 8 (n + 1)); [congruence|]. apply IH.
      * destruct (is_empty r); [congruence|]. destruct (Nat.ltb 8 (n + 1)); [congruence|]. apply IH.
  - destruct (Nat.leb 5 (blen i)).
    + destruct (validate_ipv4address i) eqn:E; cbn [bind].
      * destruct (if o then _ else _); congruence.
      * apply ipv4_kind in E. congruence.
      * discriminate.
    + destruct (forallb is_hexdigit i); cbn [bind]; [|congruence]. destruct (if o then _ else _); congruence.
Qed.
Lemma host_kind S i e : validate_host S i = Err e -> e = InvalidHost.
Proof.
  unfold validate_host, check. destruct (get_wrapped_inner i LBRACK RBRACK) as [m|].
  - destruct (match strip_ascii_char_prefix m 118 with Some r => Some r | None => strip_ascii_char_prefix m 86 end).
    + destruct (find_split_hole s DOT) as [[v a]|]; [|congruence].
      destruct (is_empty v || negb (forallb is_hexdigit v)); [congruence|].
      match goal with |- context [if ?b then _ else _] => destruct b end; congruence.
    + apply v6_kind.
  - match goal with |- context [if ?b then _ else _] => destruct b end; congruence.
Qed.

Lemma runs_host S i : runs (validate_host S i) [(host S i, "invalid host"%string)].
Proof. apply (runs_one _ _ InvalidHost); [apply validate_host_iff|apply host_kind|apply validate_host_np]. Qed.
Lemma runs_hostport S i : runs (validate_host S (pick_host i)) [(hostport S i, "invalid host"%string)].
Proof. apply (runs_one _ _ InvalidHost); [apply host_port_iff|apply host_kind|apply validate_host_np]. Qed.

(** ** avoids *)
Lemma avoids_none t s p : (forall c, p c = one_of t c) -> (avoids t s <-> none p s = true).
Proof.
  intros H. unfold avoids. induction s as [|c s IH]; [split; [reflexivity|intros _ c []]|].
  rewrite none_cons, andb_true_iff, negb_true_iff, <- IH. split.
  - intros A. split; [rewrite H; apply A; now left|]. intros d D. apply A. now right.
  - intros [A B] d [<-|D]; [now rewrite <- H|auto].
Qed.
Lemma avoids_at s : avoids "@" s <-> none (N.eqb AT) s = true.
Proof. apply avoids_none. intros c. cbn. rewrite orb_false_r, N.eqb_sym. reflexivity. Qed.
Lemma avoids_colon s : avoids ":" s <-> none (N.eqb COLON) s = true.
Proof. apply avoids_none. intros c. cbn. rewrite orb_false_r, N.eqb_sym. reflexivity. Qed.
Lemma avoids_hash s : avoids "#" s <-> none (N.eqb HASH) s = true.
Proof. apply avoids_none. intros c. cbn. rewrite orb_false_r, N.eqb_sym. reflexivity. Qed.
Lemma avoids_qh s : avoids "?#" s <-> none qh s = true.
Proof. apply avoids_none. intros c. cbn. rewrite orb_false_r. reflexivity. Qed.
Lemma avoids_sqh s : avoids "/?#" s <-> none sqh s = true.
Proof. apply avoids_none. intros c. cbn. rewrite orb_false_r, orb_assoc. reflexivity. Qed.

(** ** Authority *)
Lemma runs_authority S x l : authority_claims S x l -> runs (validate_authority S x) l.
Proof.
  unfold validate_authority. intros [[A ->]|(u & h & -> & A & ->)].
  - apply avoids_at in A. rewrite (proj2 (find_split_hole_none _ AT)) by auto. cbn [bind]. apply runs_hostport.
  - apply avoids_at in A. cbn [lit app]. change (N_of_ascii "@") with AT.
    rewrite (proj2 (find_split_hole_some _ AT u h)) by auto.
    assert (E : (do i <- (validate_userinfo S u;; Ok h); validate_host S (pick_host i))
      = (validate_userinfo S u ;; validate_host S (pick_host h))).
    { destruct (validate_userinfo S u); reflexivity. }
    change (runs (do i <- (validate_userinfo S u;; Ok h); validate_host S (pick_host i))
      ([(userinfo S u, description InvalidUserInfo)] ++ [(hostport S h, "invalid host"%string)])).
    rewrite E. apply runs_seq; [|apply runs_hostport].
    apply check_runs. apply validate_userinfo_iff.
Qed.
Lemma authority_claims_ex S x : exists l, authority_claims S x l.
Proof.
  destruct (find_split_hole x AT) as [[u h]|] eqn:E.
  - apply find_split_hole_some in E. destruct E as [-> E]. eexists. right. exists u, h. split; [reflexivity|].
    split; [now apply avoids_at|reflexivity].
  - apply find_split_hole_none in E. eexists. left. split; [now apply avoids_at|reflexivity].
Qed.

(** ** Paths *)
Lemma runs_abempty S p : runs (validate_path_abempty S p) [(path_abempty S p, "invalid path"%string)].
Proof.
  apply (runs_one _ _ InvalidPath); [apply validate_path_abempty_iff| |apply validate_path_abempty_np].
  intros e. unfold validate_path_abempty, check.
  repeat (match goal with |- context [match ?x with _ => _ end] => destruct x end; try congruence).
Qed.
Lemma runs_abs S p : strip_prefix [SLASH; SLASH] p = None ->
  runs (validate_path_absolute_authority_absent S p) [(abs_path S p, "invalid path"%string)].
Proof.
  intros H. apply (runs_one _ _ InvalidPath); [now apply path_abs_v| |now apply path_abs_np].
  intros e. unfold validate_path_absolute_authority_absent, check.
  repeat (match goal with |- context [match ?x with _ => _ end] => destruct x end; try congruence).
Qed.
Lemma runs_rel S p : strip_prefix [SLASH; SLASH] p = None ->
  runs (validate_path_relative_authority_absent S p) [(rel_path S p, "invalid path"%string)].
Proof.
  intros H. apply (runs_one _ _ InvalidPath); [now apply path_rel_v| |now apply path_rel_np].
  intros e. unfold validate_path_relative_authority_absent, check.
  repeat (match goal with |- context [match ?x with _ => _ end] => destruct x end; try congruence).
Qed.

(** ** Query and fragment *)
Definition qf_claims S (acc : bool) (q f : option str) : list claim :=
  [ (opt_in (query S) q, "invalid query"%string);
    (acc = true \/ f = None \/ f = Some [], "unexpected fragment"%string);
    (opt_in (fragment S) f, "invalid fragment"%string) ].

Lemma runs_frag S acc f : runs (if negb acc && negb (is_empty f) then Err UnexpectedFragment else validate_fragment S f)
  [ (acc = true \/ Some f = None \/ Some f = Some [], "unexpected fragment"%string); (fragment S f, "invalid fragment"%string) ].
Proof.
  destruct (negb acc && negb (is_empty f)) eqn:E.
  - right. exists UnexpectedFragment. split; auto. apply fb_here. apply andb_true_iff in E. destruct E as [E1 E2].
    intros [->|[D|[= ->]]]; discriminate.
  - apply runs_true.
    + destruct acc; [now left|]. right. right. destruct f; [auto|discriminate].
    + apply (check_runs _ _ InvalidFragment). apply validate_fragment_iff.
Qed.
Lemma runs_query S q : runs (validate_query S q) [(query S q, "invalid query"%string)].
Proof. apply (check_runs _ _ InvalidQuery). apply validate_query_iff. Qed.
Lemma runs_frag_none S acc : runs (if negb acc && negb (is_empty []) then Err UnexpectedFragment else validate_fragment S [])
  [ (acc = true \/ @None str = None \/ @None str = Some [], "unexpected fragment"%string); (opt_in (fragment S) None, "invalid fragment"%string) ].
Proof. cbn [is_empty negb]. rewrite andb_false_r. left. split; [apply validate_fragment_iff; constructor|].
  repeat apply Forall_cons; [cbn; auto|exact I|apply Forall_nil]. Qed.

Definition tail_of (q f : option str) : str :=
  match q with Some x => lit "?" ++ x | None => [] end ++ match f with Some x => lit "#" ++ x | None => [] end.
Definition split_of (q f : option str) (pre : str) : option (str * N * str) :=
  match q with
  | Some x => Some (pre, QMARK, x ++ match f with Some y => lit "#" ++ y | None => [] end)
  | None => match f with Some y => Some (pre, HASH, y) | None => None end
  end.
Lemma tail_split q f pre : none qh pre = true -> find_split2_hole (pre ++ tail_of q f) QMARK HASH = split_of q f pre.
Proof.
  intros H. unfold find_split2_hole. change (fun c => (c =? QMARK) || (c =? HASH)) with qh.
  unfold tail_of, split_of. destruct q as [q|]; [|destruct f as [f|]]; cbn [lit app].
  - rewrite split_first_app; auto.
  - rewrite split_first_app; auto.
  - rewrite app_nil_r. now rewrite split_first_none_app.
Qed.

Lemma runs_tail S acc q f : oavoids "#" q -> forall pre,
  runs (match split_of q f pre with Some (_, c, r) => validate_after_path S c r acc | None => Ok tt end) (qf_claims S acc q f).
Proof.
  intros Hq pre. unfold split_of, qf_claims. destruct q as [q|]; [|destruct f as [f|]].
  - unfold validate_after_path. rewrite N.eqb_refl. cbn [oavoids] in Hq. apply avoids_hash in Hq.
    change (runs (let '(mq, mf) := match find_split_hole (q ++ match f with Some y => lit "#" ++ y | None => [] end) HASH with
       | Some v => v | None => (q ++ match f with Some y => lit "#" ++ y | None => [] end, []) end in
       validate_query S mq ;; (if negb acc && negb (is_empty mf) then Err UnexpectedFragment else validate_fragment S mf))
      ([(query S q, "invalid query"%string)] ++ [(acc = true \/ f = None \/ f = Some [], "unexpected fragment"%string);
    (opt_in (fragment S) f, "invalid fragment"%string)])).
    destruct f as [f|].
    + cbn [lit app]. change (N_of_ascii "#") with HASH. rewrite (proj2 (find_split_hole_some _ HASH q f)) by auto.
      apply (runs_seq _ _ [_]); [apply runs_query|apply runs_frag].
    + rewrite app_nil_r. rewrite (proj2 (find_split_hole_none _ HASH)) by auto.
      apply (runs_seq _ _ [_]); [apply runs_query|apply runs_frag_none].
  - unfold validate_after_path. change (HASH =? QMARK) with false. cbv iota.
    change (runs (validate_query S [] ;; (if negb acc && negb (is_empty f) then Err UnexpectedFragment else validate_fragment S f))
      ([(opt_in (query S) None, "invalid query"%string)] ++ [(acc = true \/ Some f = None \/ Some f = Some [], "unexpected fragment"%string);
    (fragment S f, "invalid fragment"%string)])).
    apply (runs_seq _ _ [_]); [|apply runs_frag]. left. split; [apply validate_query_iff; constructor|repeat constructor].
  - left. split; auto. repeat apply Forall_cons; [exact I|cbn; auto|exact I|apply Forall_nil].
Qed.

(** ** What follows the scheme *)
Lemma runs_rest S pv (P : lang) acc r a p q f la :
  (forall x, strip_prefix [SLASH; SLASH] x = None -> runs (pv x) [(P x, "invalid path"%string)]) ->
  cut r a p q f -> match a with Some x => authority_claims S x la | None => la = [] end ->
  runs (validate_after_scheme S pv acc r)
    (la ++ (match a with Some _ => path_abempty S p | None => P p end, "invalid path"%string) :: qf_claims S acc q f).
Proof.
  intros Hpv (-> & Ha & Hp & Hq & Hs) Hla. unfold recompose. cbn [app].
  fold (tail_of q f). unfold validate_after_scheme. apply avoids_qh in Hp.
  assert (Hb : forall (o : str -> vres) pre lx, none qh pre = true -> runs (o pre) lx ->
     runs (do after_path <- match find_split2_hole (pre ++ tail_of q f) QMARK HASH with
        | Some (ap, c, rest) => o ap ;; Ok (Some (c, rest)) | None => o (pre ++ tail_of q f) ;; Ok None end ;
        match after_path with Some (first, rest) => validate_after_path S first rest acc | None => Ok tt end)
      (lx ++ qf_claims S acc q f)).
  { intros o pre lx Hn Ho. rewrite tail_split by auto.
    pose proof (runs_tail S acc q f Hq pre) as Ht.
    unfold split_of in *. destruct q as [q|]; [|destruct f as [f|]].
    - pose proof (runs_seq _ _ _ _ Ho Ht) as HH. destruct (o pre) as [[]| |]; exact HH.
    - pose proof (runs_seq _ _ _ _ Ho Ht) as HH. destruct (o pre) as [[]| |]; exact HH.
    - cbn [tail_of app]. unfold tail_of. cbn [app]. rewrite app_nil_r.
      pose proof (runs_seq _ _ _ _ Ho Ht) as HH. destruct (o pre) as [[]| |]; exact HH. }
  destruct a as [a|].
  - cbn [oavoids] in Ha. apply avoids_sqh in Ha. cbn [lit app]. change (N_of_ascii "/") with SLASH.
    change (strip_prefix [SLASH; SLASH] (SLASH :: SLASH :: a ++ p ++ tail_of q f)) with (Some (a ++ p ++ tail_of q f)).
    cbv iota. rewrite app_assoc.
    assert (Hn : none qh (a ++ p) = true). { rewrite none_app, Hp, (sqh_weak_qh _ Ha). reflexivity. }
    change ((path_abempty S p, "invalid path"%string) :: qf_claims S acc q f) with ([(path_abempty S p, "invalid path"%string)] ++ qf_claims S acc q f).
    rewrite app_assoc. apply (Hb (validate_authority_path_abempty S)); auto.
    assert (Hn' : none (N.eqb SLASH) a = true). { eapply none_weaken; [|exact Ha]. intros c Hc. apply N.eqb_eq in Hc. now subst. }
    assert (E : validate_authority_path_abempty S (a ++ p) = (validate_authority S a ;; validate_path_abempty S p)).
    { unfold validate_authority_path_abempty, find_split. destruct Hs as [->|(x & ->)].
      - rewrite app_nil_r. now rewrite split_first_none_app.
      - cbn [lit app]. change (N_of_ascii "/") with SLASH. now rewrite split_first_app. }
    rewrite E. apply runs_seq; [now apply runs_authority|apply runs_abempty].
  - subst la. cbn [app].
    assert (H0 : strip_prefix [SLASH; SLASH] p = None). { apply strip_prefix_none. exact Hs. }
    assert (H1 : strip_prefix [SLASH; SLASH] (p ++ tail_of q f) = None).
    { apply strip_prefix_none. intros x Hx. apply (Hs (skipn 2 p)). destruct p as [|c [|d p]].
      - cbn [app] in Hx. unfold tail_of in Hx. destruct q, f; discriminate.
      - cbn [app] in Hx. injection Hx as _ Hx. unfold tail_of in Hx. destruct q, f; discriminate.
      - cbn [app] in Hx. injection Hx as -> -> _. reflexivity. }
    rewrite H1. apply (Hb pv p [(P p, "invalid path"%string)]); auto.
Qed.

Lemma none_sqh a : none (N.eqb SLASH) a = true -> none qh a = true -> none sqh a = true.
Proof.
  induction a as [|c a IH]; auto. rewrite !none_cons, !andb_true_iff, !negb_true_iff. intros [A1 A2] [B1 B2].
  split; auto. unfold sqh, qh in *. rewrite N.eqb_sym in A1. rewrite A1. apply orb_false_iff in B1. destruct B1 as [B0 B1].
  now rewrite B0, B1.
Qed.
Lemma cut_ex r : exists a p q f, cut r a p q f.
Proof.
  assert (Ht : forall i, exists pre q f, i = pre ++ tail_of q f /\ none qh pre = true /\ oavoids "#" q).
  { intros i. destruct (split_first qh i) as [[[pre c] rest]|] eqn:E.
    - apply split_first_some in E. destruct E as (-> & Hn & Hc). apply orb_prop in Hc. destruct Hc as [Hc|Hc]; apply N.eqb_eq in Hc; subst c.
      + destruct (find_split_hole rest HASH) as [[q f]|] eqn:E.
        * apply find_split_hole_some in E. destruct E as [-> E]. exists pre, (Some q), (Some f). split; [reflexivity|].
          split; auto. now apply avoids_hash.
        * apply find_split_hole_none in E. exists pre, (Some rest), None. unfold tail_of. rewrite app_nil_r. split; [reflexivity|].
          split; auto. now apply avoids_hash.
      + exists pre, None, (Some rest). split; [reflexivity|]. split; auto. exact I.
    - apply split_first_none in E. exists i, None, None. unfold tail_of. cbn [app]. rewrite app_nil_r. repeat split; auto. }
  destruct (strip_prefix [SLASH; SLASH] r) as [i|] eqn:E.
  - apply strip_prefix_some in E. destruct (Ht i) as (pre & q & f & -> & Hn & Hq).
    assert (Hp : exists a p, pre = a ++ p /\ none sqh a = true /\ none qh p = true /\ (p = [] \/ exists x, p = lit "/" ++ x)).
    { destruct (split_first (N.eqb SLASH) pre) as [[[a c] b]|] eqn:E'.
      - apply split_first_some in E'. destruct E' as (-> & Ha & Hc). apply N.eqb_eq in Hc. subst c.
        rewrite none_app in Hn. apply andb_true_iff in Hn. destruct Hn as [H1 H2].
        exists a, (SLASH :: b). split; auto. split.
        + now apply none_sqh.
        + split; auto. right. now exists b.
      - apply split_first_none in E'. exists pre, []. rewrite app_nil_r. split; auto. split; [|split; auto].
        now apply none_sqh. }
    destruct Hp as (a & p & -> & Ha & Hp & Hs). exists (Some a), p, q, f. split.
    + rewrite E. unfold recompose. cbn [app lit]. rewrite <- app_assoc. reflexivity.
    + split; [now apply avoids_sqh|]. split; [now apply avoids_qh|]. split; auto.
  - destruct (Ht r) as (pre & q & f & Er & Hn & Hq). exists None, pre, q, f. split; [exact Er|].
    split; [exact I|]. split; [now apply avoids_qh|]. split; auto.
    intros x ->. rewrite strip_prefix_none in E. apply (E (x ++ tail_of q f)). rewrite Er. now rewrite app_assoc.
Qed.

Lemma claims_bad (allow : Prop) acc S q f la c m : (allow <-> acc = true) ->
  (first_bad (la ++ [c; (opt_in (query S) q, "invalid query"%string); (allow \/ f = None \/ f = Some [], "unexpected fragment"%string);
     (opt_in (fragment S) f, "invalid fragment"%string)]) m <->
   first_bad (la ++ c :: qf_claims S acc q f) m).
Proof.
  intros HA. assert (H : forall l1 (P Q : Prop) k l2 x, (P <-> Q) -> (first_bad (l1 ++ (P, k) :: l2) x <-> first_bad (l1 ++ (Q, k) :: l2) x)).
  { intros l1 P Q k l2 x HPQ. induction l1 as [|[R k'] l1 IH]; cbn [app].
    - split; intros B; inversion B; subst; try (apply fb_here; tauto); apply fb_next; tauto.
    - split; intros B; inversion B; subst; try (apply fb_here; tauto); apply fb_next; tauto. }
  specialize (H (la ++ [c; (opt_in (query S) q, "invalid query"%string)]) (allow \/ f = None \/ f = Some []) (acc = true \/ f = None \/ f = Some []) "unexpected fragment"%string
    [(opt_in (fragment S) f, "invalid fragment"%string)] m). rewrite <- !app_assoc in H. apply H. tauto.
Qed.

Lemma rest_blames S pv (P : lang) acc (allow : Prop) r m :
  (forall x, strip_prefix [SLASH; SLASH] x = None -> runs (pv x) [(P x, "invalid path"%string)]) -> (allow <-> acc = true) ->
  ((exists k, validate_after_scheme S pv acc r = Err k /\ description k = m) <-> blames_rest S P allow r m).
Proof.
  intros Hpv Hacc. split.
  - intros H. destruct (cut_ex r) as (a & p & q & f & C).
    assert (L : exists la, match a with Some x => authority_claims S x la | None => la = [] end).
    { destruct a as [a|]; [apply authority_claims_ex|now exists []]. }
    destruct L as [la L]. exists a, p, q, f, la. split; auto. split; auto.
    apply (claims_bad allow acc); auto. eapply runs_err; [eapply runs_rest; eauto|exact H].
  - intros (a & p & q & f & la & C & L & B). apply (claims_bad allow acc) in B; auto.
    eapply runs_err in B; [exact B|]. eapply runs_rest; eauto.
Qed.

(** ** Schemes *)
Lemma after_scheme_iff_split s r : after_scheme s r <-> exists x, find_split_hole s COLON = Some (x, r) /\ scheme x.
Proof.
  split.
  - intros (x & Hx & ->). exists x. split; auto. apply find_split_hole_some. split; [reflexivity|].
    apply scheme_no_colon in Hx. tauto.
  - intros (x & E & Hx). apply find_split_hole_some in E. destruct E as [-> _]. exists x. auto.
Qed.

Lemma common_blames S rule s m :
  (exists k, validate_uri_reference_common S s rule = Err k /\ description k = m) <->
  if is_relative_allowed rule then blames_reference S s m else blames_iri S (is_fragment_allowed rule = true) s m.
Proof.
  unfold validate_uri_reference_common.
  assert (HA : forall acc r, (exists k, validate_after_scheme S (validate_path_absolute_authority_absent S) acc r = Err k /\ description k = m)
     <-> blames_rest S (abs_path S) (acc = true) r m).
  { intros acc r. apply rest_blames; [apply runs_abs|tauto]. }
  assert (HR : (exists k, validate_relative_ref S s = Err k /\ description k = m) <-> blames_relative S s m).
  { apply rest_blames; [apply runs_rel|tauto]. }
  assert (HT : forall r, blames_rest S (abs_path S) (true = true) r m <-> blames_rest S (abs_path S) True r m).
  { intros r. rewrite <- (HA true). apply rest_blames; [apply runs_abs|tauto]. }
  assert (HE : forall k, (exists k', @Err ErrorKind unit k = Err k' /\ description k' = m) <-> m = description k).
  { intros k. split; [intros (k' & [= ->] & <-); auto|intros ->; eauto]. }
  destruct (find_split_hole s COLON) as [[x r]|] eqn:E.
  - pose proof E as E0. apply find_split_hole_some in E0. destruct E0 as [Es En].
    assert (Hc : ~ avoids ":" s). { intros A. specialize (A COLON). discriminate A. rewrite Es. apply in_or_app. right. now left. }
    destruct (is_err (validate_scheme x)) eqn:Ex.
    + assert (Hn : forall r', ~ after_scheme s r').
      { intros r' H. apply after_scheme_iff_split in H. destruct H as (x' & E' & Hx). rewrite E in E'. injection E' as <- <-.
        apply is_err_scheme in Hx. congruence. }
      destruct (is_relative_allowed rule).
      * rewrite HR. unfold blames_reference. split; [auto|]. intros [[_ H]|(r' & H & _)]; auto. now apply Hn in H.
      * rewrite HE. unfold blames_iri. split; [auto|]. intros [[H _]|[(_ & _ & H)|(r' & H & _)]]; auto; [easy|now apply Hn in H].
    + assert (Hx : scheme x) by now apply is_err_scheme.
      assert (Hn : forall r', after_scheme s r' <-> r' = r).
      { intros r'. rewrite after_scheme_iff_split. split; [|intros ->; eauto]. intros (x' & E' & _). congruence. }
      rewrite HA. unfold blames_iri, blames_reference. destruct rule; cbn [is_relative_allowed is_fragment_allowed].
      * split; [intros H; right; right; exists r; rewrite Hn; auto|].
        intros [[H _]|[(_ & H & _)|(r' & H & B)]]; [easy|exfalso; now apply (H r), Hn|]. apply Hn in H. now subst.
      * split; [intros H; right; right; exists r; rewrite Hn; auto|].
        intros [[H _]|[(_ & H & _)|(r' & H & B)]]; [easy|exfalso; now apply (H r), Hn|]. apply Hn in H. now subst.
      * rewrite HT. split; [intros H; right; exists r; rewrite Hn; auto|].
        intros [[H _]|(r' & H & B)]; [exfalso; now apply (H r), Hn|]. apply Hn in H. now subst.
  - apply find_split_hole_none in E.
    assert (Hn : forall r', ~ after_scheme s r').
    { intros r' H. apply after_scheme_iff_split in H. destruct H as (x' & E' & Hx). apply find_split_hole_none in E. congruence. }
    apply avoids_colon in E. destruct (is_relative_allowed rule).
    + rewrite HR. unfold blames_reference. split; [auto|]. intros [[_ H]|(r' & H & _)]; auto. now apply Hn in H.
    + rewrite HE. unfold blames_iri. split; [auto|]. intros [[_ H]|[(H & _)|(r' & H & _)]]; auto; [easy|now apply Hn in H].
Qed.

(** ** Summary *)
Lemma reports_unit (f : str -> vres) B :
  (forall s m, (exists k, f s = Err k /\ description k = m) <-> B s m) -> reports f error_display B.
Proof.
  intros H s m. rewrite <- H. split; intros (k & E & D); exists k; split; auto.
  - now apply display_inj.
  - unfold error_display. now rewrite D.
Qed.
Lemma new_err S t s k : new S t s = Err k <-> validate S t s = Err k.
Proof. unfold new. destruct (validate S t s); split; congruence. Qed.
Lemma new_reports S t B : reports (validate S t) error_display B -> reports (new S t) error_display B.
Proof.
  intros H s m. rewrite <- (H s m). split; intros (k & E & D); exists k; split; auto; now apply new_err.
Qed.
Lemma runs_reports (f : str -> vres) (L : lang) m0 : (forall s, runs (f s) [(L s, m0)]) ->
  reports f error_display (fun s m => ~ L s /\ m = m0).
Proof.
  intros H. apply reports_unit. intros s m. rewrite (runs_err _ _ m (H s)). split.
  - intros B. inversion B as [P k l N|P k l k2 HP HB]; subst; auto. inversion HB.
  - intros [N ->]. now apply fb_here.
Qed.

Theorem iri_reports S : reports (new S TIri) error_display (blames_iri S True).
Proof.
  apply new_reports, reports_unit. intros s m. etransitivity; [apply (common_blames S RAbsolute)|]. cbn [is_relative_allowed is_fragment_allowed].
  assert (H : forall r, blames_rest S (abs_path S) (true = true) r m <-> blames_rest S (abs_path S) True r m).
  { intros r. rewrite <- (rest_blames S _ (abs_path S) true (true = true) r m (runs_abs S)) by tauto. apply rest_blames; [apply runs_abs|tauto]. }
  unfold blames_iri. split; (intros [A|[A|(r & A & B)]]; [auto|auto|right; right; exists r; split; [exact A|now apply H]]).
Qed.
Theorem absolute_reports S : reports (new S TAbsolute) error_display (blames_iri S False).
Proof.
  apply new_reports, reports_unit. intros s m. etransitivity; [apply (common_blames S RAbsoluteWithoutFragment)|]. cbn [is_relative_allowed is_fragment_allowed].
  assert (H : forall r, blames_rest S (abs_path S) (false = true) r m <-> blames_rest S (abs_path S) False r m).
  { intros r. rewrite <- (rest_blames S _ (abs_path S) false (false = true) r m (runs_abs S)) by tauto. apply rest_blames; [apply runs_abs|]. split; [tauto|discriminate]. }
  unfold blames_iri. split; (intros [A|[A|(r & A & B)]]; [auto|auto|right; right; exists r; split; [exact A|now apply H]]).
Qed.
Theorem reference_reports S : reports (new S TReference) error_display (blames_reference S).
Proof. apply new_reports, reports_unit. intros s m. apply (common_blames S RAny). Qed.
Theorem relative_reports S : reports (new S TRelative) error_display (blames_relative S).
Proof. apply new_reports, reports_unit. intros s m. apply rest_blames; [apply runs_rel|tauto]. Qed.
Theorem query_reports S : reports (new S TQuery) error_display (fun s m => ~ query S s /\ m = "invalid query"%string).
Proof. apply new_reports, runs_reports, runs_query. Qed.
Theorem fragment_reports S : reports (new S TFragment) error_display (fun s m => ~ fragment S s /\ m = "invalid fragment"%string).
Proof. apply new_reports, runs_reports. intros s. apply (check_runs _ _ InvalidFragment). apply validate_fragment_iff. Qed.
Theorem authority_reports S : reports (validate_authority S) error_display (blames_authority S).
Proof.
  apply reports_unit. intros s m. split.
  - intros H. destruct (authority_claims_ex S s) as [l L]. exists l. split; auto. apply (runs_err _ _ m (runs_authority S s l L)). exact H.
  - intros (l & L & B). apply (runs_err _ _ m (runs_authority S s l L)). exact B.
Qed.
Theorem component_reports S :
  reports validate_scheme error_display (fun s m => ~ scheme s /\ m = "invalid scheme"%string) /\
  reports (validate_userinfo S) error_display (fun s m => ~ userinfo S s /\ m = "invalid userinfo"%string) /\
  reports (validate_host S) error_display (fun s m => ~ host S s /\ m = "invalid host"%string) /\
  reports (validate_reg_name S) error_display (fun s m => ~ (reg_name S s /\ ~ IPv4address s) /\ m = "invalid reg-name"%string) /\
  reports validate_port error_display (fun s m => ~ port s /\ m = "invalid port"%string) /\
  reports (validate_path S) error_display (fun s m => ~ path S s /\ m = "invalid path"%string) /\
  reports (validate_path_segment S) error_display (fun s m => ~ segment S s /\ m = "invalid path"%string).
Proof.
  split; [|split; [|split; [|split; [|split; [|split]]]]]; apply (runs_reports _ _); intros s.
  - apply (check_runs _ _ InvalidScheme), validate_scheme_iff.
  - apply (check_runs _ _ InvalidUserInfo), validate_userinfo_iff.
  - apply runs_host.
  - apply (check_runs _ (reg_name S s /\ ~ IPv4address s) InvalidRegName), validate_reg_name_iff.
  - apply (check_runs _ _ InvalidPort). rewrite check_ok, port_iff. tauto.
  - apply (check_runs _ _ InvalidPath), validate_path_iff.
  - apply (check_runs _ _ InvalidPath), validate_path_segment_iff.
Qed.
Lemma validate_port_iff s : validate_port s = Ok tt <-> port s.
Proof. unfold validate_port. rewrite check_ok, port_iff. tauto. Qed.
Lemma reports_unique (f : str -> res ErrorKind str) B s m m' : reports f error_display B -> B s m -> B s m' -> m = m'.
Proof.
  intros H X Y. apply H in X, Y. destruct X as (k & E & D), Y as (k' & E' & D'). rewrite E in E'. injection E' as ->.
  rewrite D in D'. apply app_inv_head in D'. now apply lit_inj.
Qed.
Definition ofrag (f : option str) : str := match f with Some y => lit "#" ++ y | None => [] end.
Lemma cut_unique r a p q f a' p' q' f' : cut r a p q f -> cut r a' p' q' f' -> a = a' /\ p = p' /\ q = q' /\ f = f'.
Proof.
  assert (T : forall p p' q q' f f', none qh p = true -> none qh p' = true -> oavoids "#" q -> oavoids "#" q' ->
     p ++ tail_of q f = p' ++ tail_of q' f' -> p = p' /\ q = q' /\ f = f').
  { clear. intros p p' q q' f f' Hp Hp' Hq Hq' E. pose proof (tail_split q f p Hp) as A. rewrite E, tail_split in A by auto.
    unfold split_of in A. destruct q as [q|], q' as [q'|]; cbn [oavoids] in *.
    - assert (Ep : p = p') by congruence.
      assert (A' : q' ++ ofrag f' = q ++ ofrag f) by (change (Some (p', QMARK, q' ++ ofrag f') = Some (p, QMARK, q ++ ofrag f)) in A; congruence).
      clear A. rename A' into A. split; auto. rewrite avoids_hash in Hq, Hq'.
      assert (F : forall x y, none (N.eqb HASH) x = true -> find_split_hole (x ++ ofrag y) HASH = match y with Some y => Some (x, y) | None => None end).
      { intros x y Hx. destruct y; [now apply find_split_hole_some|]. unfold ofrag. rewrite app_nil_r. now apply find_split_hole_none. }
      pose proof (F q f Hq) as B. rewrite <- A, F in B by auto.
      destruct f as [f|], f' as [f'|]; try discriminate; [now injection B as <- <-|]. unfold ofrag in A. rewrite !app_nil_r in A. now subst.
    - destruct f'; discriminate.
    - destruct f; discriminate.
    - destruct f as [f|], f' as [f'|]; try discriminate.
      + injection A as <- <-. auto.
      + unfold tail_of in E. cbn [app] in E. rewrite !app_nil_r in E. auto. }
  intros (-> & Ha & Hp & Hq & Hs) (E & Ha' & Hp' & Hq' & Hs').
  apply avoids_qh in Hp, Hp'. unfold recompose in E. cbn [app] in E. fold (tail_of q f) (tail_of q' f') in E.
  assert (N : forall p q f x, none qh p = true -> (forall x, p <> lit "//" ++ x) -> p ++ tail_of q f <> lit "//" ++ x).
  { clear. intros p q f x Hp Hs Hx. apply (Hs (skipn 2 p)). destruct p as [|c [|d p]].
    - cbn [app] in Hx. unfold tail_of in Hx. destruct q, f; discriminate.
    - cbn [app] in Hx. injection Hx as _ Hx. unfold tail_of in Hx. destruct q, f; discriminate.
    - cbn [app] in Hx. injection Hx as -> -> _. reflexivity. }
  destruct a as [a|], a' as [a'|]; cbn [oavoids] in *.
  - rewrite <- !app_assoc in E. apply app_inv_head in E. rewrite !app_assoc in E. apply avoids_sqh in Ha, Ha'.
    assert (M : forall a p, none sqh a = true -> none qh p = true -> none qh (a ++ p) = true).
    { intros. rewrite none_app, H0, sqh_weak_qh; auto. }
    apply T in E; auto. destruct E as (E & -> & ->).
    assert (W : forall a, none sqh a = true -> none (N.eqb SLASH) a = true).
    { intros x Hx. eapply none_weaken; [|exact Hx]. intros c Hc. apply N.eqb_eq in Hc. now subst. }
    assert (F : forall x y, none sqh x = true -> (y = [] \/ exists z, y = lit "/" ++ z) -> split_first (N.eqb SLASH) (x ++ y) = match y with c :: z => Some (x, c, z) | [] => None end).
    { intros x y Hx [->|(z & ->)]; [rewrite app_nil_r; rewrite split_first_none_app; auto|]. cbn [lit app]. change (N_of_ascii "/") with SLASH. now rewrite split_first_app; auto. }
    pose proof (F a p Ha Hs) as A. rewrite E, F in A by auto.
    destruct p as [|c p], p' as [|c' p']; try discriminate.
    + rewrite !app_nil_r in E. now subst.
    + injection A as <- <- <-. auto.
  - rewrite <- app_assoc in E. symmetry in E. now apply N in E.
  - rewrite <- app_assoc in E. now apply N in E.
  - apply T in E; auto.
Qed.

Lemma blames_unique S s m m' :
  (blames_iri S True s m -> blames_iri S True s m' -> m = m') /\
  (blames_iri S False s m -> blames_iri S False s m' -> m = m') /\
  (blames_reference S s m -> blames_reference S s m' -> m = m') /\
  (blames_relative S s m -> blames_relative S s m' -> m = m').
Proof.
  split; [|split; [|split]]; eapply reports_unique; [apply iri_reports|apply absolute_reports|apply reference_reports|apply relative_reports].
Qed.
