(** * Which calls panic (proofs). *)
From Coq Require Import Lia.
From Verif Require Import Base Chars Rfc3986 Utf8 CompSpec PctSpec RfcResolve NormSpec EditSpec EncodeSpec HistSpec CallSpec MValidate MTrusted MTypes MFormat MWriters MPct MPath MNormalize MEdit MEncode MHist MCalls
  PBase PScan PHost PTrusted PComps PAuth PAscii PTypes PTypes2 PTypes3 PNorm PNorm2 PNorm3 PNorm4 PNorm5 PNorm6 PNorm7 PNorm8 PEdit PExact PEditNorm PEncode PEncode2 PHist.
Open Scope string_scope. Open Scope N_scope. Open Scope list_scope.

Lemma last_dec (u : str) : u = [] \/ exists x c, u = x ++ [c].
Proof. destruct u as [|a u]; [now left|right]. destruct (exists_last (l := a :: u)) as (x & c & E); [discriminate|eauto]. Qed.
Lemma v4_not_literal h : IPv4address h -> ~ IP_literal h.
Proof. intros H K. apply (v4_regname UriSpec) in H. apply IP_literal_iff in K. destruct K as (m & -> & _). apply reg_name_scan in H. cbn [app] in H. rewrite scan_cons in H by discriminate. discriminate. Qed.
Lemma parts_unique S C u h o u' h' o' : parts S C u h o -> parts S C u' h' o' -> (u, h, o) = (u', h', o').
Proof. intros (A & B & D & E) (A' & B' & D' & E'). rewrite A in A'. apply (authority_unique S); auto. congruence. Qed.
Lemma kind_editable t : editable (of_kind t) = true.
Proof. now destruct t. Qed.
Lemma kind_iri S t i : t = KAbsolute \/ t = KIri -> new S (of_kind t) i = Ok i -> IRI S i.
Proof.
  intros [-> | ->] V; cbn [of_kind] in V; [|now apply new_ok in V].
  assert (V2 := proj2 (upcast_ok true S TAbsolute TIri i (or_introl eq_refl) V)). now apply new_ok in V2.
Qed.
Lemma iri_defined S i C : IRI S i -> reads S i C -> defined (c_s C) = true.
Proof. intros I R. destruct (iri_reads S i I) as (D & RD & E). now rewrite (reads_unique _ _ _ _ R RD). Qed.
Lemma major_of S i C : reads S i C -> to_major i = Ok (c_s C, c_a C, c_p C, c_q C, c_f C).
Proof. intros [O ->]. exact (proj2 (recompose_valid S _ _ _ _ _ O)). Qed.

(** The accessors. *)
Lemma acc_other debug S t i C : t <> KAbsolute -> new S (of_kind t) i = Ok i -> reads S i C ->
  scheme_str (of_kind t) i = Ok (c_s C) /\ authority_str (of_kind t) i = Ok (c_a C) /\ path_str (of_kind t) i = Ok (c_p C) /\
  query_str debug (of_kind t) i = Ok (c_q C) /\ fragment_str (of_kind t) i = Ok (c_f C) /\
  query_ri debug S (of_kind t) i = Ok (c_q C) /\ fragment_ri debug S (of_kind t) i = Ok (c_f C).
Proof.
  intros Ht V R. destruct (accessors_all debug S (of_kind t) i) as (s & a & p & q & f & M & _ & X); [destruct t; cbn [of_kind]; auto; contradiction|exact V|].
  rewrite (major_of S i C R) in M. injection M as -> -> -> -> ->. exact X.
Qed.
Lemma odd_reads S j s a p q : absolute_IRI S j -> to_major j = Ok (Some s, a, p, q, None) -> components_ok S (Some s) a p q None ->
  reads S (j ++ lit "#") (mkC (Some s) a p q (Some [])).
Proof.
  intros V M O. assert (O' : components_ok S (Some s) a p q (Some [])).
  { destruct O as (A & B & D & E & F). repeat split; auto. apply fragment_scan. reflexivity. }
  split; [exact O'|]. assert (IR : IRI_reference S j) by (apply new_ok with (t := TReference); apply (upcast_ok true S TAbsolute TReference); [right; now left|]; apply absolute_new_exact; now left).
  assert (RM := reads_of_major S j _ _ _ _ _ (proj2 (new_ok S TReference j) IR) M). destruct RM as [_ RM]. rewrite RM. cbn [c_s c_a c_p c_q c_f]. rewrite !recompose_eq. cbn [ofr]. rewrite !app_nil_r, <- !app_assoc. reflexivity.
Qed.
Lemma acc_absolute debug S i C : new S TAbsolute i = Ok i -> reads S i C ->
  scheme_str TAbsolute i = Ok (c_s C) /\ authority_str TAbsolute i = Ok (c_a C) /\ path_str TAbsolute i = Ok (c_p C) /\
  (query_str debug TAbsolute i = Panic <-> debug = true /\ c_f C = Some [] /\ c_q C = None) /\
  (query_ri debug S TAbsolute i = Panic <-> debug = true /\ c_f C = Some []).
Proof.
  intros V R. apply absolute_new_exact in V. destruct V as [V|(j & -> & V)].
  - destruct (accessors_absolute debug S i V) as (s & a & p & q & M & _ & X1 & X2 & X3 & X4 & X5).
    rewrite (major_of S i C R) in M. injection M as E1 E2 E3 E4 E5. rewrite E1, E2, E3, E5, X1, X2, X3, X4, X5. do 3 (split; [reflexivity|]).
    split; split; try discriminate; intros (_ & K); [destruct K as (K & _)|]; discriminate.
  - destruct (absolute_odd debug S j V) as (s & a & p & q & M & O & _ & X1 & X2 & X3 & X4 & X5).
    assert (RJ := odd_reads S j s a p q V M O).
    rewrite (reads_unique _ _ _ _ R RJ). cbn [c_s c_a c_p c_q c_f]. rewrite X1, X2, X3, X4, X5. do 3 (split; [reflexivity|]).
    unfold odd_query. split; destruct debug, q; split; try discriminate; auto; intros K; decompose [and] K; discriminate.
Qed.
Lemma acc_any S t i C : new S (of_kind t) i = Ok i -> reads S i C ->
  scheme_str (of_kind t) i = Ok (c_s C) /\ authority_str (of_kind t) i = Ok (c_a C) /\ path_str (of_kind t) i = Ok (c_p C).
Proof.
  intros V R. assert (D : t = KAbsolute \/ t <> KAbsolute) by (destruct t; [now left|right; discriminate..]). destruct D as [-> | D].
  - destruct (acc_absolute true S i C V R) as (X1 & X2 & X3 & _). auto.
  - destruct (acc_other true S t i C D V R) as (X1 & X2 & X3 & _). auto.
Qed.

Lemma decode_total (b : list N) : (exists x, to_bytes b = Ok x) /\ (exists x, into_bytes b = Ok x) /\ (exists x, bytes_fragments b = Ok x) /\ (exists x, into_string b = Ok x).
Proof.
  destruct (into_bytes_exact b) as (o & E & _). destruct (bytes_fragments_ok b) as (fs & F & _).
  split; [|split; [eauto|split; [eauto|]]].
  - unfold to_bytes, try_non_allocating_decode. destruct (non_alloc (1 + length b) b) as [[H ->]|(p & a & u & l & r & E1 & Hu & Hl & Ha & E2 & E3 & E4 & E5 & ->)]; [lia| |]; cbn [bind]; eauto.
  - unfold into_string. rewrite E. cbn [bind]. eauto.
Qed.

Lemma components_total S i C : reads S i C ->
  match authority_components i with
  | None => True
  | Some a => exists u h r o, ac_userinfo a = Ok u /\ ac_host a = Ok h /\ ac_reg_name a = Ok r /\ ac_port a = Ok o
  end.
Proof.
  intros R. rewrite (authority_components_major S i _ _ _ _ _ (reads_reference _ _ _ R) (major_of S i C R)).
  destruct (c_a C) as [a|] eqn:E; [|exact I]. assert (Ha : authority S a) by (destruct R as [(_ & Ha & _) _]; rewrite E in Ha; exact Ha).
  destruct (authority_components_spec S a Ha) as (u & h & p & A & B & D & F & _). exists u, h. destruct F as [F|F]; [exists (Some h), p|exists None, p]; auto.
Qed.

(** [remove_password_inline] *)
Lemma remove_panics debug S t i C : new S (of_kind t) i = Ok i -> reads S i C ->
  (remove_password_inline debug S (of_kind t) i = Panic <-> panicking debug S t C CRemovePassword).
Proof.
  intros V R. assert (Ed := kind_editable t). destruct (password_cases S i C R) as [P|(user & pw & h & o & P & Hc)].
  - destruct P as [(_ & P)|[(h & o & P)|(u & h & o & P & Hc)]].
    + rewrite (proj1 (remove_pw_none debug S (of_kind t) i C R (or_introl P))). split; [discriminate|]. intros K. inversion K as [| |h o D Q|u c h o Q|u c h o D Q|]; subst; destruct Q as (Q & _); congruence.
    + assert (PP := proj2 P). rewrite (proj1 (remove_pw_none debug S (of_kind t) i C R (or_intror (ex_intro _ h (ex_intro _ o P))))). split; [discriminate|]. intros K.
      inversion K as [| |h' o' D Q|u c h' o' Q|u c h' o' D Q|]; subst; pose proof (parts_unique _ _ _ _ _ _ _ _ Q PP) as U; discriminate U.
    + destruct (last_dec u) as [-> | (x & c & ->)].
      * destruct (remove_empty debug S (of_kind t) i C h o Ed V P) as (N1 & N2).
        assert (ID : IP_literal h \/ ~ IP_literal h) by (destruct (ip_dec S h) as [[K|K]|[K _]]; [apply P|now left|right|now right]; now apply v4_not_literal).
        destruct ID as [L|L].
        -- destruct (N2 L) as (E & _). rewrite E. unfold broken. destruct debug; split; try discriminate; [intros _; apply (p_remove_empty true S t C h o); [reflexivity|apply P|exact L]|reflexivity|].
           intros K. inversion K as [| |h' o' D Q|u c h' o' Q|u c h' o' D Q|]; subst; try discriminate. pose proof (parts_unique _ _ _ _ _ _ _ _ Q (proj2 P)) as U. injection U as U _ _. now destruct u.
        -- destruct (N1 L) as (E & _). rewrite E. split; [discriminate|]. intros K. assert (PP := proj2 P).
           inversion K as [| |h' o' D Q HL|u c h' o' Q|u c h' o' D Q|]; subst; pose proof (parts_unique _ _ _ _ _ _ _ _ Q PP) as U; [injection U as -> _; contradiction|injection U as U _ _; now destruct u..].
      * destruct (remove_exact debug S (of_kind t) i C x c h o Ed V P Hc) as (N1 & N2). assert (P0 := P). assert (PP := proj2 P).
        assert (UD : userinfo S x \/ ~ userinfo S x) by (destruct (scan (f_userinfo S) x) eqn:E; [left; now apply userinfo_scan|right; intros K; apply userinfo_scan in K; congruence]).
        split.
        -- intros E. destruct (N.ltb_spec c 128) as [L|L]; [|now apply (p_remove_nonascii debug S t C x c h o (proj2 P0))].
           destruct UD as [U|U]; [destruct (proj1 (N1 L) U) as (E2 & _); congruence|]. destruct (proj2 (N1 L) U) as (E2 & _). destruct debug; [|congruence].
           now apply (p_remove_triplet true S t C x c h o eq_refl (proj2 P0)).
        -- intros K. inversion K as [| |h' o' D Q|u c' h' o' Q Hc' L|u c' h' o' D Q Hc' L HU|]; subst; pose proof (parts_unique _ _ _ _ _ _ _ _ Q PP) as U; injection U as U _ _.
           ++ now destruct x.
           ++ apply app_inj_tail in U. destruct U as (-> & ->). exact (N2 L).
           ++ apply app_inj_tail in U. destruct U as (-> & ->). exact (proj1 (proj2 (N1 L) HU)).
  - destruct (remove_pw_ok debug S (of_kind t) i C user pw h o Ed V P Hc) as (j & E & _). rewrite E. split; [discriminate|]. intros K. assert (PP := proj2 P).
    inversion K as [| |h' o' D Q|u c' h' o' Q Hc' L|u c' h' o' D Q Hc' L HU|]; subst; pose proof (parts_unique _ _ _ _ _ _ _ _ Q PP) as U; injection U as U _ _.
    + now destruct user.
    + exfalso. apply Hc'. rewrite U. unfold user_password. apply in_or_app. right. now left.
    + exfalso. apply Hc'. rewrite U. unfold user_password. apply in_or_app. right. now left.
Qed.

Lemma panic_iff {E A} (r : res E A) : is_panic r = true <-> r = Panic.
Proof. destruct r; cbn [is_panic]; split; congruence. Qed.
Lemma ok_iff {E A} (r : res E A) x (P : Prop) : r = Ok x -> ~ P -> (is_panic r = true <-> P).
Proof. intros -> H. cbn [is_panic]. split; [discriminate|tauto]. Qed.
Lemma false_iff (b : bool) (P : Prop) : b = false -> ~ P -> (b = true <-> P).
Proof. intros -> H. split; [discriminate|tauto]. Qed.

Lemma panics_exact debug S t i C c : new S (of_kind t) i = Ok i -> reads S i C -> has_call S t c ->
  (call_panics debug S t i c = true <-> panicking debug S t C c).
Proof.
  intros V R H. assert (Ed := kind_editable t). destruct (acc_any S t i C V R) as (A1 & A2 & A3).
  assert (NA : t <> KAbsolute -> fragment_str (of_kind t) i = Ok (c_f C) /\ fragment_ri debug S (of_kind t) i = Ok (c_f C)) by (intros D; destruct (acc_other debug S t i C D V R) as (_ & _ & _ & _ & X & _ & Y); auto).
  assert (Ref := reads_reference _ _ _ R).
  destruct c; cbn [has_call] in H; cbn [call_panics].
  - eapply ok_iff; [exact A1|]. intros K. inversion K.
  - eapply ok_iff; [exact A2|]. intros K. inversion K.
  - apply false_iff; [|intros K; inversion K]. assert (X := components_total S i C R). destruct (authority_components i) as [a|]; [|reflexivity].
    destruct X as (u & h & r & o & -> & -> & -> & ->). reflexivity.
  - eapply ok_iff; [exact A3|]. intros K. inversion K.
  - rewrite panic_iff. assert (D : t = KAbsolute \/ t <> KAbsolute) by (destruct t; [now left|right; discriminate..]). destruct D as [-> | D].
    + destruct (acc_absolute debug S i C V R) as (_ & _ & _ & X & _). cbn [of_kind]. rewrite X. split; [intros (D & E & F); now constructor|intros K; inversion K; auto].
    + destruct (acc_other debug S t i C D V R) as (_ & _ & _ & X & _). rewrite X. split; [discriminate|]. intros K. inversion K. contradiction.
  - rewrite panic_iff. assert (D : t = KAbsolute \/ t <> KAbsolute) by (destruct t; [now left|right; discriminate..]). destruct D as [-> | D].
    + destruct (acc_absolute debug S i C V R) as (_ & _ & _ & _ & X). cbn [of_kind]. rewrite X. split; [intros (D & E); now constructor|intros K; inversion K; auto].
    + destruct (acc_other debug S t i C D V R) as (_ & _ & _ & _ & _ & X & _). rewrite X. split; [discriminate|]. intros K. inversion K. contradiction.
  - eapply ok_iff; [exact (proj1 (NA H))|]. intros K. inversion K.
  - eapply ok_iff; [exact (proj2 (NA H))|]. intros K. inversion K.
  - apply false_iff; [|intros K; inversion K]. destruct (to_iri_spec debug S i Ref) as (X1 & X2). destruct Ref as [Y|Y]; [rewrite (X1 Y)|rewrite (X2 Y)]; reflexivity.
  - apply false_iff; [|intros K; inversion K]. destruct (to_relative_iri_spec debug S i Ref) as (X1 & X2). destruct Ref as [Y|Y]; [rewrite (X1 Y)|rewrite (X2 Y)]; reflexivity.
  - apply false_iff; [|intros K; inversion K]. destruct (into_iri_ok debug S i Ref) as (X1 & X2). destruct Ref as [Y|Y]; [rewrite (proj1 (X1 Y))|rewrite (proj1 (X2 Y))]; reflexivity.
  - apply false_iff; [|intros K; inversion K]. destruct (into_iri_ok debug S i Ref) as (X1 & X2). destruct Ref as [Y|Y]; [rewrite (proj2 (X1 Y))|rewrite (proj2 (X2 Y))]; reflexivity.
  - subst t. destruct (absolute_ops debug S i C V R) as (a & _ & _ & _ & _ & X1 & X2 & X3 & X4). eapply ok_iff; [exact X3|intros K; inversion K].
  - subst t. destruct (absolute_ops debug S i C V R) as (a & _ & _ & _ & _ & X1 & X2 & X3 & X4). eapply ok_iff; [exact X1|intros K; inversion K].
  - subst t. destruct (absolute_ops debug S i C V R) as (a & _ & _ & _ & _ & X1 & X2 & X3 & X4). eapply ok_iff; [exact X4|intros K; inversion K].
  - subst t. destruct (absolute_ops debug S i C V R) as (a & _ & _ & _ & _ & X1 & X2 & X3 & X4). eapply ok_iff; [exact X2|intros K; inversion K].
  - eapply ok_iff; [|intros K; inversion K]. apply (upcast_ok debug S (of_kind t) (of_kind to) i); [|exact V].
    unfold trivial_conv. cbn [In] in *. destruct H as [H|[H|[H|[H|[]]]]]; injection H as <- <-; cbn [of_kind]; auto.
  - assert (I := kind_iri S t i H V). destruct (norm_valid S keep i debug I) as (n & out & E & X & _ & _). change (norm_input keep i) with (if keep then normalize_preserve i else normalize i) in E.
    apply false_iff; [|intros K; inversion K]. rewrite E. cbn [bind]. now rewrite X.
  - apply false_iff; [|intros K; inversion K]. destruct H as [-> | ->]; cbn [of_kind].
    + destruct (norm_valid_absolute S keep i debug V) as (n & out & E & _ & _ & X). change (norm_input keep i) with (if keep then normalize_preserve i else normalize i) in E. rewrite E. cbn [bind]. now rewrite X.
    + assert (I := kind_iri S KIri i (or_intror eq_refl) V). destruct (norm_valid S keep i debug I) as (n & out & E & _ & _ & X). change (norm_input keep i) with (if keep then normalize_preserve i else normalize i) in E. rewrite E. cbn [bind]. now rewrite X.
  - assert (I := kind_iri S t i H V). destruct (c14_normalize S keep i C R (iri_defined S i C I R)) as (n & T & b & E & _ & X & _).
    apply false_iff; [|intros K; inversion K]. rewrite E. cbn [bind]. now rewrite X.
  - assert (I := kind_iri S t i H V). assert (D := iri_defined S i C I R). apply false_iff; [|intros K; inversion K].
    destruct C as [[s|] a p q f]; [|discriminate]. destruct R as [O ->]. cbn [c_s c_a c_p c_q c_f] in *. destruct (is_normalized_rec S s a p q f (of_check m) O) as (b & E & _). now rewrite E.
  - destruct (resolve_valid S base i (of_mode m) debug H Ref) as (n & out & E & X & _ & _). apply false_iff; [|intros K; inversion K]. rewrite E. cbn [bind]. now rewrite X.
  - destruct (resolve_valid S base i (of_mode m) debug H Ref) as (n & out & E & _ & _ & X). apply false_iff; [|intros K; inversion K]. rewrite E. cbn [bind]. now rewrite X.
  - destruct (iri_reads S base H) as (B & RB & DB). destruct (c14_resolve S base i B C RB DB R) as (n & T & b & E & _ & _ & X & _). apply false_iff; [|intros K; inversion K]. rewrite E. cbn [bind].
    change (ensure_rfc3986_normalizable (set_mode n (of_mode m))) with (ensure_rfc3986_normalizable n). now rewrite X.
  - subst t. destruct (resolver_all S i V) as (s & a & p & q & f & _ & X1 & X2 & X3 & X4). eapply ok_iff; [exact X1|intros K; inversion K].
  - subst t. destruct (resolver_all S i V) as (s & a & p & q & f & _ & X1 & X2 & X3 & X4). eapply ok_iff; [exact X2|intros K; inversion K].
  - subst t. destruct (resolver_all S i V) as (s & a & p & q & f & _ & X1 & X2 & X3 & X4). eapply ok_iff; [exact X3|intros K; inversion K].
  - subst t. destruct (resolver_all S i V) as (s & a & p & q & f & _ & X1 & X2 & X3 & X4). eapply ok_iff; [exact X4|intros K; inversion K].
  - apply false_iff; [|intros K; inversion K]. destruct (password_cases S i C R) as [P|(user & pw & h & o & P & Hc)].
    + assert (X := proj1 (mask_none debug true S (of_kind t) i C V P)). assert (Y : exists j, text (angle_debug (mask_display i)) = Ok j).
      { clear - X. unfold angle_debug, text in *. destruct (mask_display i) as [cs [[]| |]]; try discriminate. cbn [snd fst wbind write app]. eauto. }
      destruct Y as (j & Y). rewrite X, Y. reflexivity.
    + destruct (mask_ok debug S (of_kind t) i C user pw h o Ed V P Hc) as (j & X & Y & _). rewrite X, Y. reflexivity.
  - apply false_iff; [|intros K; inversion K]. destruct (password_cases S i C R) as [P|(user & pw & h & o & P & Hc)].
    + destruct (mask_none debug true S (of_kind t) i C V P) as (_ & [X|(X & _)]); [now rewrite X|discriminate].
    + destruct (mask_ok debug S (of_kind t) i C user pw h o Ed V P Hc) as (j & _ & _ & X & _). now rewrite X.
  - apply false_iff; [|intros K; inversion K]. destruct (password_cases S i C R) as [P|(user & pw & h & o & P & Hc)].
    + destruct P as [(_ & P)|[(h & o & P)|(u & h & o & P & Hc)]].
      * now rewrite (replaced_none unit S i C _ R (or_introl P)).
      * now rewrite (replaced_none unit S i C _ R (or_intror (ex_intro _ h (ex_intro _ o P)))).
      * now rewrite (replaced_nocolon unit S i C u h o (fun pw => (f pw, Ret tt)) tt P Hc eq_refl).
    + now rewrite (replaced_ok unit S i C user pw h o (fun pw => (f pw, Ret tt)) tt P Hc eq_refl).
  - rewrite panic_iff. now apply remove_panics.
  - apply false_iff; [|intros K; inversion K]. destruct (password_cases S i C R) as [P|(user & pw & h & o & P & Hc)].
    + now rewrite (remove_nonempty_nocolon debug S (of_kind t) i C P).
    + destruct (remove_nonempty_ok debug S (of_kind t) i C user pw h o Ed V P Hc) as (j & X & _). now rewrite X.
  - rewrite panic_iff. assert (G : (debug = false \/ of_kind t <> TIri \/ c_f C = None \/ c_f C = Some []) \/ (debug = true /\ t = KIri /\ exists x f, c_f C = Some (x :: f))).
    { destruct debug; [|left; now left]. destruct t; try (left; right; left; discriminate). destruct (c_f C) as [[|x f]|]; [left; auto|right; eauto|left; auto]. }
    destruct G as [G|(-> & -> & x & f & E)].
    + assert (NP : replace_host debug true S (of_kind t) i h only_reg_name <> Panic).
      { destruct (edits_defined S i C (EReplaceHost h only_reg_name) R I) as (C' & Ed').
        destruct (edit_step debug S (of_kind t) (EReplaceHost h only_reg_name) i C C' Ed V R G Ed') as (j & E & _). cbn [apply_edit] in E. intros K. rewrite K in E. discriminate. }
      split; [intros K; contradiction|]. intros K. inversion K as [| | | | |h' only x f Db Ht Hf]; subst. destruct G as [G|[G|[G|G]]]; try congruence. exfalso; now apply G.
    + split; [intros _; eapply p_replace_host; eauto|intros _]. apply (replace_host_panics true S i C h only_reg_name V R); congruence.
  - destruct H as (Ht & Hf). destruct (set_fragment_ok debug S (of_kind t) i C f) as (j & X & _); [destruct t; auto; contradiction|exact V|exact R|destruct f; [now apply new_ok|exact I]|].
    eapply ok_iff; [exact X|intros K; inversion K].
  - subst S. eapply ok_iff; [exact (proj1 (as_uri_ok debug _ i V))|intros K; inversion K].
  - subst S. eapply ok_iff; [exact (proj1 (as_iri_ok debug _ i V))|intros K; inversion K].
  - subst S. eapply ok_iff; [|intros K; inversion K]. apply mapped_text. exact (proj1 (maps_ty _ i (proj1 (new_ok _ _ _) V))).
  - subst S. eapply ok_iff; [exact (proj1 (mapped_dedicated debug _ i V))|intros K; inversion K].
  - subst S. rewrite (inline_typed debug _ i V). cbn [fst]. split; [discriminate|intros K; inversion K].
  - subst S. eapply ok_iff; [exact (encode_into debug _ i V)|intros K; inversion K].
  - subst S. destruct (into_uri_ok debug (of_kind t) i V) as (X1 & X2). apply false_iff; [|intros K; inversion K]. destruct (all_ascii i); [rewrite (proj1 (X1 eq_refl))|rewrite (X2 eq_refl)]; reflexivity.
  - apply false_iff; [|intros K; inversion K]. destruct (decode_total (utf8s i)) as ((x & ->) & (y & ->) & (z & ->) & (w & ->)). reflexivity.
Qed.
Lemma panics_release S t i C c : new S (of_kind t) i = Ok i -> reads S i C -> has_call S t c ->
  (call_panics false S t i c = true <->
   c = CRemovePassword /\ exists u x h o, parts S C (Some (u ++ [x])) h o /\ ~ In 58 (u ++ [x]) /\ 128 <= x).
Proof.
  intros V R H. rewrite (panics_exact false S t i C c V R H). split.
  - intros K. inversion K as [| | |u x h o Q Hc L| |]; subst; try discriminate. split; [reflexivity|]. exists u, x, h, o. auto.
  - intros (-> & u & x & h & o & Q & Hc & L). now apply (p_remove_nonascii false S t C u x h o).
Qed.
