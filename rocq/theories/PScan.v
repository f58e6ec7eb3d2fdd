(** * Scanner characterisation of the star-shaped ABNF rules (proofs only). *)
From Verif Require Import Base Chars Rfc3986 MValidate PBase.

(** Proof-side scanner with a single predicate. *)
Definition both (pa pn : N -> bool) (c : N) : bool := if is_ascii c then pa c else pn c.
Definition scan (f : N -> bool) (s : str) : bool := satisfy_chars_with_pct_encoded f f s.

Arguments scan : simpl never.

Lemma satisfy_scan pa pn s : satisfy_chars_with_pct_encoded pa pn s = scan (both pa pn) s.
Proof.
  unfold scan. cut (forall n s, (length s <= n)%nat ->
    satisfy_chars_with_pct_encoded pa pn s =
    satisfy_chars_with_pct_encoded (both pa pn) (both pa pn) s); [eauto|].
  clear s; induction n as [|n IH]; intros [|c r] Hn; cbn in Hn; try lia; [easy..|].
  cbn [satisfy_chars_with_pct_encoded].
  replace (both pa pn c) with (if is_ascii c then pa c else pn c) by reflexivity.
  destruct (is_ascii c) eqn:Ha.
  - destruct (c =? PCT).
    + destruct r as [|u [|l r]]; try easy. cbn in Hn. rewrite IH by lia. reflexivity.
    + rewrite IH by lia. reflexivity.
  - rewrite IH by lia. reflexivity.
Qed.

Lemma scan_cons f c r : c <> PCT -> scan f (c :: r) = f c && scan f r.
Proof.
  intros H. unfold scan. cbn. destruct (N.eqb_spec c PCT); [contradiction|].
  destruct (is_ascii c), (f c); reflexivity.
Qed.
Lemma scan_pct f u l r : scan f (PCT :: u :: l :: r) = is_hexdigit u && is_hexdigit l && scan f r.
Proof. unfold scan. cbn. destruct (is_hexdigit u), (is_hexdigit l); reflexivity. Qed.
Lemma scan_pct0 f : scan f [PCT] = false. Proof. reflexivity. Qed.
Lemma scan_pct1 f u : scan f [PCT; u] = false.
Proof. unfold scan; cbn. now destruct (is_hexdigit u). Qed.

(** Induction along the scanner. *)
Lemma scan_ind (P : str -> Prop) :
  P [] ->
  (forall c r, c <> PCT -> P r -> P (c :: r)) ->
  (forall u l r, P r -> P (PCT :: u :: l :: r)) ->
  P [PCT] -> (forall u, P [PCT; u]) -> forall s, P s.
Proof.
  intros H0 H1 H3 Ha Hb s.
  cut (forall n s, (length s <= n)%nat -> P s); [eauto|]. clear s.
  induction n as [|n IH]; intros [|c r] Hn; cbn in Hn; try lia; auto.
  destruct (N.eq_dec c PCT) as [->|Hc].
  - destruct r as [|u [|l r]]; auto. apply H3, IH. cbn in Hn; lia.
  - apply H1, IH; auto; lia.
Qed.

Lemma scan_app f a b : scan f a = true -> scan f (a ++ b) = scan f b.
Proof.
  revert a. apply (scan_ind (fun a => scan f a = true -> scan f (a ++ b) = scan f b)); cbn [app].
  - easy.
  - intros c r Hc IH. rewrite !scan_cons by assumption. intros H; bdestr.
    match goal with H : f c = true |- _ => rewrite H end. cbn; auto.
  - intros u l r IH. rewrite !scan_pct. intros H; bdestr. rewrite IH by assumption.
    repeat match goal with H : is_hexdigit _ = true |- _ => rewrite H end. reflexivity.
  - now rewrite scan_pct0.
  - intros u. now rewrite scan_pct1.
Qed.

Lemma scan_app_true f a b : scan f a = true -> scan f b = true -> scan f (a ++ b) = true.
Proof. intros Ha Hb. now rewrite scan_app. Qed.

(** Splitting at a delimiter that is neither ['%'] nor a hex digit. *)
Lemma scan_delim f a c b : is_hexdigit c = false -> c <> PCT ->
  scan f (a ++ c :: b) = scan f a && f c && scan f b.
Proof.
  intros Hh Hp. revert a.
  apply (scan_ind (fun a => scan f (a ++ c :: b) = scan f a && f c && scan f b)); cbn [app].
  - now rewrite scan_cons.
  - intros x r Hx IH. rewrite !scan_cons, IH by assumption. now rewrite !andb_assoc.
  - intros u l r IH. rewrite !scan_pct, IH. now rewrite !andb_assoc.
  - rewrite scan_pct0. unfold scan; cbn. now rewrite Hh.
  - intros u. rewrite scan_pct1. unfold scan; cbn. rewrite Hh. now destruct (is_hexdigit u).
Qed.

Lemma scan_mono f g s : (forall c, f c = true -> g c = true) -> scan f s = true -> scan g s = true.
Proof.
  intros H. revert s. apply (scan_ind (fun s => scan f s = true -> scan g s = true)).
  - easy.
  - intros c r Hc IH. rewrite !scan_cons by assumption. intros E; bdestr.
    rewrite H by assumption; cbn; auto.
  - intros u l r IH. rewrite !scan_pct. intros E; bdestr. rewrite IH by assumption.
    repeat match goal with H : is_hexdigit _ = true |- _ => rewrite H end. reflexivity.
  - now rewrite scan_pct0.
  - intros u. now rewrite scan_pct1.
Qed.

Lemma scan_ext f g s : (forall c, f c = g c) -> scan f s = scan g s.
Proof.
  intros H. apply eq_true_iff_eq. split; apply scan_mono; intros c; now rewrite H.
Qed.

(** A string accepted by the scanner contains no character rejected by [f] other than ['%'] and hex
    digits. *)
Lemma scan_none f p s :
  (forall c, p c = true -> f c = false /\ is_hexdigit c = false /\ c <> PCT) ->
  scan f s = true -> none p s = true.
Proof.
  intros Hp. revert s. apply (scan_ind (fun s => scan f s = true -> none p s = true)).
  - easy.
  - intros c r Hc IH. rewrite scan_cons, none_cons by assumption. intros E; bdestr.
    destruct (p c) eqn:E; [|cbn; auto]. apply Hp in E. destruct E as [E _]. congruence.
  - intros u l r IH. rewrite scan_pct, !none_cons. intros E; bdestr.
    rewrite IH by assumption.
    destruct (p PCT) eqn:E1; [apply Hp in E1; destruct E1 as (_ & _ & E1); congruence|].
    destruct (p u) eqn:E2; [apply Hp in E2; destruct E2 as (_ & E2 & _); congruence|].
    destruct (p l) eqn:E3; [apply Hp in E3; destruct E3 as (_ & E3 & _); congruence|].
    reflexivity.
  - now rewrite scan_pct0.
  - intros u. now rewrite scan_pct1.
Qed.

Lemma scan_restrict f p s :
  scan f s = true -> none p s = true -> scan (fun c => f c && negb (p c)) s = true.
Proof.
  revert s. apply (scan_ind (fun s => scan f s = true -> none p s = true ->
                            scan (fun c => f c && negb (p c)) s = true)).
  - easy.
  - intros c r Hc IH. rewrite !scan_cons, none_cons by assumption. intros E E'; bdestr.
    rewrite IH by assumption.
    repeat match goal with H : _ = true |- _ => rewrite H | H : _ = false |- _ => rewrite H end.
    reflexivity.
  - intros u l r IH. rewrite !scan_pct, !none_cons. intros E E'; bdestr.
    rewrite IH by assumption.
    repeat match goal with H : is_hexdigit _ = true |- _ => rewrite H end. reflexivity.
  - now rewrite scan_pct0.
  - intros u. now rewrite scan_pct1.
Qed.

(** [pct_encoded] as a string shape. *)
Lemma pct_encoded_iff s : pct_encoded s <->
  exists u l, s = [PCT; u; l] /\ is_hexdigit u = true /\ is_hexdigit l = true.
Proof.
  unfold pct_encoded. rewrite tok_cat. split.
  - intros (b & -> & Hb). apply cls_cat in Hb. destruct Hb as (u & b' & -> & Hu & (l & -> & Hl)).
    exists u, l. auto.
  - intros (u & l & -> & Hu & Hl). exists [u; l]. split; [reflexivity|].
    apply cls_cat. exists u, [l]. repeat split; auto. exists l; auto.
Qed.

(** Star of "one allowed character or a percent-encoded triplet" is the scanner. *)
Lemma star_scan (A : lang) f s :
  (forall x, A x <-> (exists c, x = [c] /\ f c = true) \/ pct_encoded x) -> f PCT = false ->
  (star A s <-> scan f s = true).
Proof.
  intros HA Hf. split.
  - induction 1 as [|a b Ha Hb IH]; [easy|]. apply HA in Ha.
    destruct Ha as [(c & -> & Hc)|Ha].
    + cbn. rewrite scan_cons by congruence. now rewrite Hc.
    + apply pct_encoded_iff in Ha. destruct Ha as (u & l & -> & Hu & Hl).
      cbn. now rewrite scan_pct, Hu, Hl.
  - revert s. apply (scan_ind (fun s => scan f s = true -> star A s)).
    + intros _; constructor.
    + intros c r Hc IH. rewrite scan_cons by assumption. intros E; bdestr.
      change (c :: r) with ([c] ++ r). constructor; [apply HA; left; eauto | auto].
    + intros u l r IH. rewrite scan_pct. intros E; bdestr.
      change (PCT :: u :: l :: r) with ([PCT; u; l] ++ r).
      constructor; [apply HA; right; apply pct_encoded_iff; eauto | auto].
    + now rewrite scan_pct0.
    + intros u. now rewrite scan_pct1.
Qed.

(** ** Character classes: model = RFC, for every [c]. *)

Lemma ucschar_eq c : is_ucschar c = ucschar c.
Proof.
  unfold is_ucschar, ucschar, between.
  assert (H : c = 65536 * (c / 65536) + c mod 65536) by (apply N.div_mod; lia).
  assert (H2 : c mod 65536 < 65536) by (apply N.mod_lt; lia).
  set (q := c / 65536) in *. set (r := c mod 65536) in *. clearbody q r. subst c.
  apply eq_true_iff_eq. lia.
Qed.

Lemma ucschar_nonascii c : ucschar c = true -> is_ascii c = false.
Proof. rewrite <- ucschar_eq. unfold is_ucschar, is_ascii, between. lia. Qed.
Lemma iprivate_nonascii c : iprivate c = true -> is_ascii c = false.
Proof. unfold iprivate, is_ascii, between. lia. Qed.
Lemma iri_only_ascii S f c : (forall c, f c = true -> is_ascii c = false) ->
  is_ascii c = true -> iri_only S f c = false.
Proof.
  intros H Hc. destruct S; cbn; auto. destruct (f c) eqn:E; auto. apply H in E. congruence.
Qed.

Definition uns0 (c : N) : bool := ALPHA c || DIGIT c || one_of "-._~" c.
Lemma unreserved_ascii S c : is_ascii c = true -> unreserved S c = uns0 c.
Proof.
  intros H. unfold unreserved, uns0. rewrite (iri_only_ascii S ucschar) by (auto using ucschar_nonascii).
  apply orb_false_r.
Qed.
Lemma one_of_ascii t c : is_ascii c = false -> all_ascii (lit t) = true -> one_of t c = false.
Proof.
  unfold one_of, all_ascii. generalize (lit t). intros l Hc; induction l as [|x l IH]; cbn; [easy|].
  intros H; bdestr. rewrite IH by assumption.
  destruct (N.eqb_spec c x); [subst; congruence | reflexivity].
Qed.
Lemma unreserved_nonascii S c : is_ascii c = false ->
  unreserved S c = is_nonascii_char_unreserved S c.
Proof.
  intros H. unfold unreserved. rewrite (one_of_ascii "-._~") by easy.
  unfold ALPHA, DIGIT. replace (between 65 90 c) with false by (unfold between, is_ascii in *; lia).
  replace (between 97 122 c) with false by (unfold between, is_ascii in *; lia).
  replace (between 48 57 c) with false by (unfold between, is_ascii in *; lia).
  cbn. destruct S; cbn; auto. now rewrite ucschar_eq.
Qed.

Lemma sub_delims_ascii c : is_ascii c = false -> sub_delims c = false.
Proof. intros H; apply one_of_ascii; auto. Qed.

Definition f_pchar S c := unreserved S c || sub_delims c || (c =? COLON) || (c =? AT).
Definition f_pchar_slash S c := f_pchar S c || (c =? SLASH).
Definition f_regname S c := unreserved S c || sub_delims c.
Definition f_userinfo S c := unreserved S c || sub_delims c || (c =? COLON).
Definition f_fragment S c := f_pchar S c || (c =? SLASH) || (c =? QMARK).
Definition f_query S c := f_pchar S c || iri_only S iprivate c || (c =? SLASH) || (c =? QMARK).

Lemma const_nonascii c k : is_ascii c = false -> k < 128 -> (c =? k) = false.
Proof. unfold is_ascii. intros. apply N.eqb_neq. lia. Qed.

Ltac nonascii_side Hc :=
  rewrite ?(unreserved_nonascii _ _ Hc), ?(sub_delims_ascii _ Hc);
  rewrite ?(const_nonascii _ COLON Hc), ?(const_nonascii _ AT Hc), ?(const_nonascii _ SLASH Hc),
          ?(const_nonascii _ QMARK Hc) by reflexivity; rewrite ?orb_false_r.

Lemma pchar_ok S c : both is_ascii_pchar (is_nonascii_char_unreserved S) c = f_pchar S c.
Proof.
  unfold both, f_pchar. destruct (is_ascii c) eqn:Hc.
  - rewrite (unreserved_ascii _ _ Hc).
    apply (sweep_eq is_ascii_pchar (fun c => uns0 c || sub_delims c || (c =? COLON) || (c =? AT)));
      [vm_compute; reflexivity | assumption].
  - now nonascii_side Hc.
Qed.
Lemma pchar_slash_ok S c :
  both is_ascii_pchar_slash (is_nonascii_char_unreserved S) c = f_pchar_slash S c.
Proof.
  unfold both, f_pchar_slash, f_pchar. destruct (is_ascii c) eqn:Hc.
  - rewrite (unreserved_ascii _ _ Hc).
    apply (sweep_eq is_ascii_pchar_slash
      (fun c => uns0 c || sub_delims c || (c =? COLON) || (c =? AT) || (c =? SLASH)));
      [vm_compute; reflexivity | assumption].
  - now nonascii_side Hc.
Qed.
Lemma regname_ok S c : both is_ascii_regname (is_nonascii_regname S) c = f_regname S c.
Proof.
  unfold both, f_regname. destruct (is_ascii c) eqn:Hc.
  - rewrite (unreserved_ascii _ _ Hc).
    apply (sweep_eq is_ascii_regname (fun c => uns0 c || sub_delims c));
      [vm_compute; reflexivity | assumption].
  - now nonascii_side Hc.
Qed.
Lemma userinfo_ok S c :
  both is_ascii_userinfo_ipvfutureaddr (is_nonascii_userinfo S) c = f_userinfo S c.
Proof.
  unfold both, f_userinfo. destruct (is_ascii c) eqn:Hc.
  - rewrite (unreserved_ascii _ _ Hc).
    apply (sweep_eq is_ascii_userinfo_ipvfutureaddr (fun c => uns0 c || sub_delims c || (c =? COLON)));
      [vm_compute; reflexivity | assumption].
  - now nonascii_side Hc.
Qed.
Lemma fragment_ok S c : both is_ascii_frag_query (is_nonascii_fragment S) c = f_fragment S c.
Proof.
  unfold both, f_fragment, f_pchar. destruct (is_ascii c) eqn:Hc.
  - rewrite (unreserved_ascii _ _ Hc).
    apply (sweep_eq is_ascii_frag_query
      (fun c => uns0 c || sub_delims c || (c =? COLON) || (c =? AT) || (c =? SLASH) || (c =? QMARK)));
      [vm_compute; reflexivity | assumption].
  - now nonascii_side Hc.
Qed.
Lemma query_ok S c : both is_ascii_frag_query (is_nonascii_query S) c = f_query S c.
Proof.
  unfold both, f_query, f_pchar. destruct (is_ascii c) eqn:Hc.
  - rewrite (unreserved_ascii _ _ Hc).
    rewrite (iri_only_ascii S iprivate) by (auto using iprivate_nonascii). rewrite orb_false_r.
    apply (sweep_eq is_ascii_frag_query
      (fun c => uns0 c || sub_delims c || (c =? COLON) || (c =? AT) || (c =? SLASH) || (c =? QMARK)));
      [vm_compute; reflexivity | assumption].
  - nonascii_side Hc. unfold is_nonascii_query. now destruct S.
Qed.

Lemma f_pchar_pct S : f_pchar S PCT = false. Proof. now destruct S. Qed.
Lemma f_pchar_slash_pct S : f_pchar_slash S PCT = false. Proof. now destruct S. Qed.
Lemma f_regname_pct S : f_regname S PCT = false. Proof. now destruct S. Qed.
Lemma f_userinfo_pct S : f_userinfo S PCT = false. Proof. now destruct S. Qed.
Lemma f_fragment_pct S : f_fragment S PCT = false. Proof. now destruct S. Qed.
Lemma f_query_pct S : f_query S PCT = false. Proof. now destruct S. Qed.

(** ** Star rules as scanners. *)
Ltac star_tac f :=
  apply (star_scan _ f); [|auto using f_pchar_pct, f_pchar_slash_pct, f_regname_pct,
    f_userinfo_pct, f_fragment_pct, f_query_pct]; intros x;
  unfold pchar, alt, cls, tok, f_query, f_fragment, f_pchar_slash, f_pchar, f_regname, f_userinfo;
  split;
  [ intros H; repeat match type of H with
      | _ \/ _ => destruct H as [H|H]
      | exists _, _ => let c := fresh "c" in let Hc := fresh "Hc" in
          destruct H as (c & -> & Hc); left; exists c; split; [reflexivity|];
          rewrite Hc, ?orb_true_r; reflexivity
      | pct_encoded _ => right; exact H
      | _ = lit _ => subst; left; eexists; split; [reflexivity|]; cbn; rewrite ?orb_true_r; reflexivity
      end
  | intros [(c & -> & Hc)|H]; [|tauto];
    repeat match type of Hc with
    | _ || _ = true => apply orb_prop in Hc; destruct Hc as [Hc|Hc]
    end;
    repeat match goal with
    | E : (_ =? _) = true |- _ => apply N.eqb_eq in E; subst
    end; eauto 12 ].

Lemma segment_scan S s : segment S s <-> scan (f_pchar S) s = true.
Proof. unfold segment. star_tac (f_pchar S). Qed.
Lemma reg_name_scan S s : reg_name S s <-> scan (f_regname S) s = true.
Proof. unfold reg_name. star_tac (f_regname S). Qed.
Lemma userinfo_scan S s : userinfo S s <-> scan (f_userinfo S) s = true.
Proof. unfold userinfo. star_tac (f_userinfo S). Qed.
Lemma fragment_scan S s : fragment S s <-> scan (f_fragment S) s = true.
Proof. unfold fragment. star_tac (f_fragment S). Qed.
Lemma query_scan S s : query S s <-> scan (f_query S) s = true.
Proof. unfold query. star_tac (f_query S). Qed.

(** ** Paths *)
Definition f_nc S c := unreserved S c || sub_delims c || (c =? AT).

Lemma path_chars_scan S s : path_chars_ok S s = scan (f_pchar_slash S) s.
Proof. unfold path_chars_ok. rewrite satisfy_scan. apply scan_ext, pchar_slash_ok. Qed.

Lemma pchar_sub_slash S c : f_pchar S c = true -> f_pchar_slash S c = true.
Proof. unfold f_pchar_slash. now intros ->. Qed.

Lemma f_pchar_slash_char S : f_pchar_slash S SLASH = true.
Proof. unfold f_pchar_slash. now rewrite orb_true_r. Qed.
Lemma f_pchar_no_slash S : f_pchar S SLASH = false.
Proof. now destruct S. Qed.

Lemma slash_segs_scan S s : star (tok "/" +++ segment S) s <->
  s = [] \/ exists r, s = SLASH :: r /\ scan (f_pchar_slash S) r = true.
Proof.
  split.
  - induction 1 as [|a b Ha Hb IH]; [auto|]. right.
    apply tok_cat in Ha. destruct Ha as (x & -> & Hx). apply segment_scan in Hx.
    exists (x ++ b). split; [reflexivity|].
    apply (scan_mono _ (f_pchar_slash S)) in Hx; [|apply pchar_sub_slash].
    rewrite scan_app by assumption. destruct IH as [->|(r & -> & Hr)]; [reflexivity|].
    rewrite scan_cons by discriminate. now rewrite f_pchar_slash_char.
  - intros [->|(r & -> & Hr)]; [constructor|].
    cut (forall n r, (length r <= n)%nat -> scan (f_pchar_slash S) r = true ->
         star (tok "/" +++ segment S) (SLASH :: r)); [eauto|].
    clear r Hr. induction n as [|n IH]; intros r Hn Hr.
    + destruct r; [|cbn in Hn; lia]. change [SLASH] with ([SLASH] ++ []).
      constructor; [|constructor]. apply tok_cat. exists []. split; [reflexivity|constructor].
    + destruct (split_first (N.eqb SLASH) r) as [[[a c] b]|] eqn:E.
      * apply split_first_some in E. destruct E as (-> & Ha & Hc).
        apply N.eqb_eq in Hc. subst c.
        rewrite scan_delim in Hr by (reflexivity || discriminate). bdestr.
        change (SLASH :: a ++ SLASH :: b) with ((SLASH :: a) ++ SLASH :: b).
        constructor.
        -- apply tok_cat. exists a. split; [reflexivity|]. apply segment_scan.
           eapply scan_mono; [|eapply (scan_restrict _ (N.eqb SLASH)); eassumption].
           intros x. unfold f_pchar_slash. intros Hx; bdestr.
           match goal with H : (SLASH =? x) = false |- _ => rewrite N.eqb_sym in H; rewrite H in * end.
           now rewrite orb_false_r in *.
        -- apply IH; auto. rewrite app_length in Hn; cbn in Hn; lia.
      * apply split_first_none in E. rewrite <- (app_nil_r (SLASH :: r)).
        constructor; [|constructor]. apply tok_cat. exists r. split; [reflexivity|].
        apply segment_scan.
        eapply scan_mono; [|eapply (scan_restrict _ (N.eqb SLASH)); eassumption].
        intros x. unfold f_pchar_slash. intros Hx; bdestr.
        match goal with H : (SLASH =? x) = false |- _ => rewrite N.eqb_sym in H; rewrite H in * end.
        now rewrite orb_false_r in *.
Qed.

Lemma path_abempty_scan S s : path_abempty S s <->
  s = [] \/ exists r, s = SLASH :: r /\ scan (f_pchar_slash S) r = true.
Proof. apply slash_segs_scan. Qed.


Lemma pchar_nonempty S s : pchar S s -> s <> [].
Proof.
  unfold pchar, alt, cls, tok. intros H.
  repeat match type of H with _ \/ _ => destruct H as [H|H] end;
    try (destruct H as (c & -> & _); discriminate); try (subst; discriminate).
  apply pct_encoded_iff in H. destruct H as (u & l & -> & _). discriminate.
Qed.

Lemma segment_nz_scan S s : segment_nz S s <-> s <> [] /\ scan (f_pchar S) s = true.
Proof.
  split.
  - intros (a & b & -> & Ha & Hb). split.
    + apply pchar_nonempty in Ha. now destruct a.
    + apply segment_scan. now constructor.
  - intros [Hne Hs]. apply segment_scan in Hs. inversion Hs as [|a b Ha Hb]; subst; [easy|].
    exists a, b; auto.
Qed.

Definition f_ncs S c := unreserved S c || sub_delims c || (c =? AT).
Lemma segment_nc_star S s :
  star (cls (unreserved S) <|> pct_encoded <|> cls sub_delims <|> tok "@") s
  <-> scan (f_ncs S) s = true.
Proof.
  apply (star_scan _ (f_ncs S)); [|now destruct S]. intros x. unfold f_ncs, alt, cls, tok.
  split.
  - intros H. repeat match type of H with
      | _ \/ _ => destruct H as [H|H]
      end; try (destruct H as (c & -> & Hc); left; exists c; split; [reflexivity|];
          rewrite Hc, ?orb_true_r; reflexivity); [right; exact H|].
    subst. left; exists AT; split; [reflexivity|]. rewrite N.eqb_refl. apply orb_true_r.
  - intros [(c & -> & Hc)|H]; [|tauto].
    apply orb_prop in Hc. destruct Hc as [Hc|Hc]; [apply orb_prop in Hc; destruct Hc|].
    + left; eauto.
    + right; right; left; eauto.
    + apply N.eqb_eq in Hc; subst. right; right; right. reflexivity.
Qed.

Lemma segment_nz_nc_scan S s : segment_nz_nc S s <-> s <> [] /\ scan (f_ncs S) s = true.
Proof.
  split.
  - intros (a & b & -> & Ha & Hb). split.
    + assert (Hp : pchar S a) by (unfold pchar, alt in *; tauto).
      apply pchar_nonempty in Hp. now destruct a.
    + apply segment_nc_star. now constructor.
  - intros [Hne Hs]. apply segment_nc_star in Hs. inversion Hs as [|a b Ha Hb]; subst; [easy|].
    exists a, b; auto.
Qed.

Lemma ncs_pchar S c : f_ncs S c = true <-> f_pchar S c = true /\ c <> COLON.
Proof.
  unfold f_ncs, f_pchar. destruct (N.eqb_spec c COLON) as [->|Hc].
  - split; [destruct S; cbn; discriminate | now intros [_ H]].
  - rewrite orb_false_r. split; [auto | now intros [H _]].
Qed.

(** Scanner view of "segment-like head followed by [*( "/" segment )]". *)
Lemma scan_split_slash S s : scan (f_pchar_slash S) s = true ->
  exists a b, s = a ++ b /\ scan (f_pchar S) a = true /\ star (tok "/" +++ segment S) b /\
    (b = [] \/ exists r, b = SLASH :: r).
Proof.
  intros Hs. destruct (split_first (N.eqb SLASH) s) as [[[a c] b]|] eqn:E.
  - apply split_first_some in E. destruct E as (-> & Ha & Hc). apply N.eqb_eq in Hc. subst c.
    rewrite scan_delim in Hs by (reflexivity || discriminate). bdestr.
    exists a, (SLASH :: b). repeat split; auto.
    + eapply scan_mono; [|eapply (scan_restrict _ (N.eqb SLASH)); eassumption].
      intros x. unfold f_pchar_slash. intros Hx; bdestr.
      match goal with H : (SLASH =? x) = false |- _ => rewrite N.eqb_sym in H; rewrite H in * end.
      now rewrite orb_false_r in *.
    + apply slash_segs_scan. right; eauto.
    + right; eauto.
  - apply split_first_none in E. exists s, []. rewrite app_nil_r. repeat split; auto; [|constructor].
    eapply scan_mono; [|eapply (scan_restrict _ (N.eqb SLASH)); eassumption].
    intros x. unfold f_pchar_slash. intros Hx; bdestr.
    match goal with H : (SLASH =? x) = false |- _ => rewrite N.eqb_sym in H; rewrite H in * end.
    now rewrite orb_false_r in *.
Qed.

Lemma scan_cat_slash S a b : scan (f_pchar S) a = true -> star (tok "/" +++ segment S) b ->
  scan (f_pchar_slash S) (a ++ b) = true.
Proof.
  intros Ha Hb. apply scan_app_true.
  - eapply scan_mono; [apply pchar_sub_slash | exact Ha].
  - apply slash_segs_scan in Hb. destruct Hb as [->|(r & -> & Hr)]; [reflexivity|].
    rewrite scan_cons by discriminate. now rewrite f_pchar_slash_char.
Qed.

(** [path-absolute / path-rootless / path-empty] *)
Lemma path_noauth_abs S s : (path_absolute S <|> path_rootless S <|> path_empty) s <->
  scan (f_pchar_slash S) s = true /\ starts_with [SLASH; SLASH] s = false.
Proof.
  assert (Hns : forall s : str, starts_with [SLASH; SLASH] s = false <-> forall r, s <> SLASH :: SLASH :: r).
  { intros t. unfold starts_with. destruct (strip_prefix [SLASH; SLASH] t) as [r|] eqn:E.
    - apply strip_prefix_some in E. split; [easy|]. intros H. now apply H in E.
    - rewrite strip_prefix_none in E. split; [intros _ r Hr; now apply (E r) | easy]. }
  rewrite Hns. split.
  - intros [H|[H|H]].
    + apply tok_cat in H. destruct H as (b & -> & [Hb|Hb]).
      * red in Hb. subst b. split; [|discriminate]. cbn. rewrite scan_cons by discriminate.
        now rewrite f_pchar_slash_char.
      * destruct Hb as (x & y & -> & Hx & Hy). apply segment_nz_scan in Hx. destruct Hx as [Hne Hx].
        split.
        -- cbn. rewrite scan_cons by discriminate. rewrite f_pchar_slash_char. now apply scan_cat_slash.
        -- intros r Hr. destruct x as [|c x]; [easy|]. cbn in Hr. injection Hr as -> _.
           rewrite scan_cons, f_pchar_no_slash in Hx by discriminate. discriminate.
    + destruct H as (x & y & -> & Hx & Hy). apply segment_nz_scan in Hx. destruct Hx as [Hne Hx].
      split; [now apply scan_cat_slash|]. intros r Hr. destruct x as [|c x]; [easy|].
      cbn in Hr. injection Hr as -> _.
      rewrite scan_cons, f_pchar_no_slash in Hx by discriminate. discriminate.
    + unfold path_empty, eps in H. subst. split; [reflexivity | discriminate].
  - intros [Hs Hd]. destruct (scan_split_slash S s Hs) as (a & b & -> & Ha & Hb & Hor).
    destruct a as [|c a].
    + cbn [app] in *. destruct Hor as [->|(r & ->)]; [right; right; reflexivity|].
      left. apply tok_cat. exists r. split; [reflexivity|].
      rewrite scan_cons, f_pchar_slash_char in Hs by discriminate. cbn in Hs.
      destruct (scan_split_slash S r Hs) as (a' & b' & -> & Ha' & Hb' & Hor').
      destruct a' as [|c a'].
      * cbn [app] in *. destruct Hor' as [->|(r & ->)]; [left; reflexivity|].
        exfalso. now apply (Hd r).
      * right. apply cat_intro; auto. apply segment_nz_scan. split; [easy|auto].
    + right; left. apply cat_intro; auto. apply segment_nz_scan. split; [easy|auto].
Qed.

(** [path-absolute / path-noscheme / path-empty] *)
Definition first_is_colon (s : str) : bool :=
  match find_split2_hole s SLASH COLON with
  | Some (_, c, _) => negb (c =? SLASH)
  | None => false
  end.

Lemma path_noauth_rel S s : (path_absolute S <|> path_noscheme S <|> path_empty) s <->
  scan (f_pchar_slash S) s = true /\ starts_with [SLASH; SLASH] s = false /\ first_is_colon s = false.
Proof.
  split.
  - intros H. assert (Hp : (path_absolute S <|> path_rootless S <|> path_empty) s).
    { destruct H as [H|[H|H]]; [left; exact H | right; left | right; right; exact H].
      destruct H as (x & y & -> & Hx & Hy). exists x, y. repeat split; auto.
      apply segment_nz_nc_scan in Hx. destruct Hx as [Hne Hx]. apply segment_nz_scan. split; auto.
      eapply scan_mono; [|exact Hx]. intros c Hc. now apply ncs_pchar in Hc. }
    apply path_noauth_abs in Hp. destruct Hp as [Hs Hd]. repeat split; auto.
    unfold first_is_colon, find_split2_hole. destruct H as [H|[H|H]].
    + apply tok_cat in H. destruct H as (b & -> & _). reflexivity.
    + destruct H as (x & y & -> & Hx & Hy). apply segment_nz_nc_scan in Hx. destruct Hx as [Hne Hx].
      assert (Hn : none (fun c => (c =? SLASH) || (c =? COLON)) x = true).
      { eapply scan_none; [|exact Hx]. intros c Hc. apply orb_prop in Hc.
        destruct Hc as [Hc|Hc]; apply N.eqb_eq in Hc; subst c; destruct S; repeat split; easy. }
      apply slash_segs_scan in Hy. destruct Hy as [->|(r & -> & Hr)].
      * rewrite app_nil_r. now rewrite split_first_none_app.
      * rewrite split_first_app by easy. reflexivity.
    + unfold path_empty, eps in H. now subst.
  - intros (Hs & Hd & Hf).
    assert (Hp : (path_absolute S <|> path_rootless S <|> path_empty) s) by (apply path_noauth_abs; auto).
    destruct Hp as [H|[H|H]]; [left; exact H | right; left | right; right; exact H].
    destruct H as (x & y & -> & Hx & Hy). exists x, y. repeat split; auto.
    apply segment_nz_scan in Hx. destruct Hx as [Hne Hx]. apply segment_nz_nc_scan. split; auto.
    assert (Hx' := Hx).
    assert (HnS : none (N.eqb SLASH) x = true).
    { eapply scan_none; [|exact Hx]. intros c Hc. apply N.eqb_eq in Hc. subst c. destruct S; repeat split; easy. }
    assert (HnC : none (N.eqb COLON) x = true).
    { destruct (split_first (N.eqb COLON) x) as [[[a c] b]|] eqn:E; [|now apply split_first_none].
      apply split_first_some in E. destruct E as (-> & Ha & Hc). apply N.eqb_eq in Hc. subst c.
      exfalso. unfold first_is_colon, find_split2_hole in Hf. rewrite <- app_assoc in Hf. cbn in Hf.
      rewrite split_first_app in Hf; [discriminate| |reflexivity].
      rewrite none_app in HnS. apply andb_prop in HnS. destruct HnS as [HnS _].
      clear - Ha HnS. induction a as [|c a IH]; [easy|].
      rewrite none_cons in *. bdestr. rewrite IH by assumption.
      rewrite (N.eqb_sym c SLASH), (N.eqb_sym c COLON).
      repeat match goal with H : _ = false |- _ => rewrite H end. reflexivity. }
    eapply scan_mono; [|eapply (scan_restrict _ (N.eqb COLON)); [exact Hx | exact HnC]].
    intros c Hc. cbn in Hc. bdestr. apply ncs_pchar. split; auto. intros ->. discriminate.
Qed.

Lemma path_scan S s : path S s <-> scan (f_pchar_slash S) s = true.
Proof.
  split.
  - unfold path. intros [H|H].
    + apply path_abempty_scan in H. destruct H as [->|(r & -> & Hr)]; [reflexivity|].
      rewrite scan_cons by discriminate. now rewrite f_pchar_slash_char.
    + assert (Hd : (path_absolute S <|> path_noscheme S <|> path_empty) s \/
                   (path_absolute S <|> path_rootless S <|> path_empty) s).
      { unfold alt in *. tauto. }
      destruct Hd as [Hd|Hd]; [apply path_noauth_rel in Hd | apply path_noauth_abs in Hd]; tauto.
  - intros H. destruct (starts_with [SLASH; SLASH] s) eqn:E.
    + left. apply starts_with_iff in E. destruct E as (r & ->). apply path_abempty_scan. right.
      exists (SLASH :: r). split; [reflexivity|]. cbn in H.
      rewrite scan_cons, f_pchar_slash_char in H by discriminate. exact H.
    + assert (Hp : (path_absolute S <|> path_rootless S <|> path_empty) s) by (apply path_noauth_abs; auto).
      unfold path, alt in *. tauto.
Qed.
