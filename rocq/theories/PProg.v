(** * Client programs (proofs). *)
From Coq Require Import Lia.
From Verif Require Import Base Chars Rfc3986 Utf8 CompSpec PctSpec RfcResolve NormSpec EditSpec EncodeSpec HistSpec CallSpec BuildSpec MValidate MTrusted MTypes MFormat MWriters MPct MPath MNormalize MEdit MEncode MBuild MHist MCalls MProg
  PBase PScan PHost PTrusted PComps PAuth PAscii PTypes PTypes2 PTypes3 PNorm PNorm2 PNorm3 PNorm4 PNorm5 PNorm6 PNorm7 PNorm8 PEdit PExact PEditNorm PEncode PEncode2 PHist PCalls PBuild PBuild2 PBuild3 PBuild4 PExact2.
Open Scope string_scope. Open Scope N_scope. Open Scope list_scope.

Definition valid (v : value) : Prop := new (v_spec v) (v_ty v) (v_str v) = Ok (v_str v).
Lemma valid1 S t x : new S t x = Ok x -> Forall valid [mkV S t x].
Proof. intros H. constructor; [exact H|constructor]. Qed.
Lemma valid_opt S t o : match o with Some x => new S t x = Ok x | None => True end -> Forall valid (opt_value S t o).
Proof. destruct o; cbn [opt_value]; intros H; [now apply valid1|constructor]. Qed.
Lemma valid_query S o : opt_in (query S) o -> Forall valid (opt_value S TQuery o).
Proof. intros H. apply valid_opt. destruct o; [now apply new_ok|exact I]. Qed.
Lemma valid_fragment S o : opt_in (fragment S) o -> Forall valid (opt_value S TFragment o).
Proof. intros H. apply valid_opt. destruct o; [now apply new_ok|exact I]. Qed.
Lemma justified_true S t s x : new_unchecked_justified true S t s = Ok x -> new S t x = Ok x.
Proof. unfold new_unchecked_justified, new. cbn [andb]. destruct (validate S t s) as [u|e|] eqn:E; cbn [is_ok negb]; intros K; try discriminate. injection K as <-. now rewrite E. Qed.
Lemma kind_some t k : kind_of t = Some k -> t = of_kind k.
Proof. destruct t; intros K; try discriminate; injection K as <-; reflexivity. Qed.

Lemma conv_valid debug t i c vs : new IriSpec t i = Ok i -> (c = CAsUri \/ c = CMapToUriOwned \/ c = CEncodeInline \/ c = CEncodeIntoUri \/ c = CIntoUri) ->
  results debug IriSpec t i c = Ok vs -> Forall valid vs.
Proof.
  intros V [-> | [-> | [-> | [-> | ->]]]]; cbn [results].
  - destruct (as_uri_ok debug t i V) as (-> & A). cbn [bind]. intros K. injection K as <-. apply valid_opt. destruct (all_ascii i); [now apply A|exact I].
  - destruct (mapped_dedicated debug t i V) as (-> & A). cbn [bind]. intros K. injection K as <-. now apply valid1.
  - rewrite (inline_typed debug t i V). cbn [may_of bind]. intros K. injection K as <-. apply valid1. destruct (mapped_dedicated debug t i V) as (_ & A). now apply (as_iri_ok true).
  - rewrite (encode_into debug t i V). cbn [may_of bind]. intros K. injection K as <-. apply valid1. apply (mapped_dedicated debug t i V).
  - destruct (into_uri_ok debug t i V) as (X1 & X2). destruct (all_ascii i) eqn:E.
    + destruct (X1 eq_refl) as (-> & A). cbn [bind]. intros K. injection K as <-. now apply valid1.
    + rewrite (X2 eq_refl). cbn [bind]. intros K. injection K as <-. now apply valid1.
Qed.
Lemma as_iri_valid debug t i vs : new UriSpec t i = Ok i -> results debug UriSpec t i CAsIri = Ok vs -> Forall valid vs.
Proof. intros V. cbn [results]. destruct (as_iri_ok debug t i V) as (-> & A). cbn [bind]. intros K. injection K as <-. now apply valid1. Qed.

Lemma edited_valid debug S t e i C : editable t = true -> new S t i = Ok i -> reads S i C -> allowed debug t C e ->
  match e with
  | ESetFragment f => opt_in (fragment S) f
  | ERemovePassword => forall u h o, parts S C (Some u) h o -> In 58 u
  | ENormalize _ => defined (c_s C) = true
  | _ => True
  end -> exists j, apply_edit debug S t e i = Ok j /\ new S t j = Ok j.
Proof.
  intros Ht V R A D. destruct (edits_defined S i C e R D) as (C' & Ed). destruct (edit_step debug S t e i C C' Ht V R A Ed) as (j & E & Vj & _). eauto.
Qed.

Lemma remove_valid debug S t i C j : new S (of_kind t) i = Ok i -> reads S i C -> debug = true \/ ~ damaging S t C CRemovePassword ->
  remove_password_inline debug S (of_kind t) i = Ok j -> new S (of_kind t) j = Ok j.
Proof.
  intros V R A E. assert (Ed := kind_editable t). destruct (password_cases S i C R) as [P|(user & pw & h & o & P & Hc)].
  - destruct P as [(_ & P)|[(h & o & P)|(u & h & o & P & Hc)]].
    + rewrite (proj1 (remove_pw_none debug S (of_kind t) i C R (or_introl P))) in E. injection E as <-. exact V.
    + rewrite (proj1 (remove_pw_none debug S (of_kind t) i C R (or_intror (ex_intro _ h (ex_intro _ o P))))) in E. injection E as <-. exact V.
    + destruct (last_dec u) as [-> | (x & c & ->)].
      * destruct (remove_empty debug S (of_kind t) i C h o Ed V P) as (N1 & N2).
        assert (ID : IP_literal h \/ ~ IP_literal h) by (destruct (ip_dec S h) as [[K|K]|[K _]]; [apply P|now left|right|now right]; now apply v4_not_literal).
        destruct ID as [L|L].
        -- destruct (N2 L) as (E2 & _). rewrite E in E2. destruct A as [-> | A]; [discriminate|]. destruct A. apply (d_remove_empty S t C h o (proj2 P) L).
        -- destruct (N1 L) as (E2 & V2 & _). rewrite E in E2. injection E2 as ->. exact V2.
      * destruct (remove_exact debug S (of_kind t) i C x c h o Ed V P Hc) as (N1 & N2).
        destruct (N.ltb_spec c 128) as [L|L]; [|rewrite (N2 L) in E; discriminate].
        assert (UD : userinfo S x \/ ~ userinfo S x) by (destruct (scan (f_userinfo S) x) eqn:Es; [left; now apply userinfo_scan|right; intros K; apply userinfo_scan in K; congruence]).
        destruct UD as [U|U].
        -- destruct (proj1 (N1 L) U) as (E2 & V2 & _). rewrite E in E2. injection E2 as ->. exact V2.
        -- destruct (proj2 (N1 L) U) as (E2 & _). rewrite E in E2. destruct A as [-> | A]; [discriminate|]. destruct A. apply (d_remove_triplet S t C x c h o (proj2 P) Hc L U).
  - destruct (remove_pw_ok debug S (of_kind t) i C user pw h o Ed V P Hc) as (j' & E2 & V2 & _). rewrite E in E2. injection E2 as ->. exact V2.
Qed.

Lemma query_valid debug S t i C q : new S (of_kind t) i = Ok i -> reads S i C -> debug = true \/ ~ damaging S t C CQueryTyped ->
  query_ri debug S (of_kind t) i = Ok q -> opt_in (query S) q.
Proof.
  intros V R A E. assert (OQ : opt_in (query S) (c_q C)) by (destruct R as [(_ & _ & OQ & _) _]; exact OQ).
  assert (D : t = KAbsolute \/ t <> KAbsolute) by (destruct t; [now left|right; discriminate..]). destruct D as [-> | D].
  - cbn [of_kind] in *. apply absolute_new_exact in V. destruct V as [V|(j & -> & V)].
    + destruct (accessors_absolute debug S i V) as (s & a & p & q' & M & O & _ & _ & _ & _ & X). rewrite E in X. injection X as ->. rewrite (major_of S i C R) in M. injection M as _ _ _ <- _. exact OQ.
    + destruct (acc_absolute false S (j ++ lit "#") C) as (_ & _ & _ & _ & _); [apply absolute_new_exact; eauto|exact R|].
      destruct (absolute_odd debug S j V) as (s & a & p & q' & M & O & _ & _ & _ & _ & _ & X). rewrite E in X. destruct debug; [discriminate|]. destruct A as [A|A]; [discriminate|].
      destruct q' as [q'|]; cbn [odd_query] in X; injection X as ->; [|apply query_scan; reflexivity]. exfalso. apply A.
      assert (CE : C = mkC (Some s) a p (Some q') (Some [])) by (apply (reads_unique S (j ++ lit "#")); [exact R|]; now apply odd_reads). subst C. eapply d_query; reflexivity.
  - destruct (acc_other debug S t i C D V R) as (_ & _ & _ & _ & _ & X & _). rewrite E in X. injection X as ->. exact OQ.
Qed.

Lemma call_valid debug S t i C c vs : new S (of_kind t) i = Ok i -> reads S i C -> has_call S t c -> debug = true \/ ~ damaging S t C c ->
  results debug S (of_kind t) i c = Ok vs -> Forall valid vs.
Proof.
  intros V R H A E. assert (Ed := kind_editable t). assert (Ref := reads_reference _ _ _ R). assert (NP := panics_exact debug S t i C).
  assert (OF : opt_in (fragment S) (c_f C)) by (destruct R as [(_ & _ & _ & OF & _) _]; exact OF).
  destruct c; cbn [has_call] in H; try (cbn [results] in E; injection E as <-; constructor).
  - cbn [results] in E. destruct (query_ri debug S (of_kind t) i) as [q|e|] eqn:Q; cbn [bind] in E; try discriminate. injection E as <-. apply valid_query. eapply query_valid; eauto.
  - cbn [results] in E. destruct (acc_other debug S t i C H V R) as (_ & _ & _ & _ & _ & _ & X). rewrite X in E. cbn [bind] in E. injection E as <-. now apply valid_fragment.
  - cbn [results] in E. destruct (to_iri_spec debug S i Ref) as (X1 & X2). destruct Ref as [Y|Y]; [rewrite (X1 Y) in E|rewrite (X2 Y) in E]; cbn [bind] in E; injection E as <-; apply valid1; now apply new_ok.
  - cbn [results] in E. destruct (to_relative_iri_spec debug S i Ref) as (X1 & X2). destruct Ref as [Y|Y]; [rewrite (X1 Y) in E|rewrite (X2 Y) in E]; cbn [bind] in E; injection E as <-; apply valid1; now apply new_ok.
  - cbn [results] in E. destruct (into_iri_ok debug S i Ref) as (X1 & X2). destruct Ref as [Y|Y]; [rewrite (proj1 (X1 Y)) in E|rewrite (proj1 (X2 Y)) in E]; cbn [bind] in E; injection E as <-; apply valid1; now apply new_ok.
  - cbn [results] in E. destruct (into_iri_ok debug S i Ref) as (X1 & X2). destruct Ref as [Y|Y]; [rewrite (proj2 (X1 Y)) in E|rewrite (proj2 (X2 Y)) in E]; cbn [bind] in E; injection E as <-; apply valid1; now apply new_ok.
  - subst t. cbn [results] in E. destruct (absolute_ops debug S i C V R) as (a & _ & Va & _ & _ & X1 & X2 & X3 & X4). rewrite X3 in E. cbn [bind] in E. injection E as <-. now apply valid1.
  - subst t. cbn [results] in E. destruct (absolute_ops debug S i C V R) as (a & _ & Va & _ & _ & X1 & X2 & X3 & X4). rewrite X1 in E. cbn [bind] in E. injection E as <-. constructor; [exact Va|now apply valid_fragment].
  - subst t. cbn [results] in E. destruct (absolute_ops debug S i C V R) as (a & _ & Va & _ & _ & X1 & X2 & X3 & X4). rewrite X4 in E. cbn [bind] in E. injection E as <-. now apply valid1.
  - subst t. cbn [results] in E. destruct (absolute_ops debug S i C V R) as (a & _ & Va & _ & _ & X1 & X2 & X3 & X4). rewrite X2 in E. cbn [bind] in E. injection E as <-. constructor; [exact Va|now apply valid_fragment].
  - assert (T : In (of_kind t, of_kind to) trivial_conv) by (unfold trivial_conv; cbn [In] in *; destruct H as [H|[H|[H|[H|[]]]]]; injection H as <- <-; cbn [of_kind]; auto).
    cbn [results] in E. destruct (upcast_ok debug S _ _ i T V) as (X & Y). rewrite X in E. cbn [bind] in E. injection E as <-. now apply valid1.
  - cbn [results] in E. destruct H as [-> | ->]; cbn [of_kind] in *.
    + destruct (norm_valid_absolute S keep i debug V) as (n & out & E1 & _ & Vo & X). change (norm_input keep i) with (if keep then normalize_preserve i else normalize i) in E1. rewrite E1 in E. cbn [bind] in E. rewrite X in E. cbn [bind] in E. injection E as <-. now apply valid1.
    + assert (I := kind_iri S KIri i (or_intror eq_refl) V). destruct (norm_valid S keep i debug I) as (n & out & E1 & _ & Vo & X). change (norm_input keep i) with (if keep then normalize_preserve i else normalize i) in E1. rewrite E1 in E. cbn [bind] in E. rewrite X in E. cbn [bind] in E. injection E as <-. apply valid1. now apply new_tiri.
  - cbn [results] in E. destruct (resolve_valid S base i (of_mode m) debug H Ref) as (n & out & E1 & _ & Vo & X). rewrite E1 in E. cbn [bind] in E. rewrite X in E. cbn [bind] in E. injection E as <-. apply valid1. now apply new_tiri.
  - cbn [results] in E. destruct (edited_valid debug S (of_kind t) EMask i C Ed V R I I) as (j & X & Vj). cbn [apply_edit] in X.
    destruct (mask_to_dedicated_string debug true S (of_kind t) i) as [y|e|]; try discriminate. cbn [may_of bind] in E. injection X as ->. injection E as <-. now apply valid1.
  - cbn [results] in E. destruct (remove_password_inline debug S (of_kind t) i) as [j|e|] eqn:Q; cbn [bind] in E; try discriminate. injection E as <-. apply valid1. eapply remove_valid; eauto.
  - cbn [results] in E. destruct (edited_valid debug S (of_kind t) EClearPassword i C Ed V R I I) as (j & X & Vj). cbn [apply_edit] in X. rewrite X in E. cbn [bind] in E. injection E as <-. now apply valid1.
  - cbn [results] in E. destruct (replace_host debug true S (of_kind t) i h only_reg_name) as [[y z]|e|] eqn:Q; cbn [bind] in E; try discriminate. injection E as <-. apply valid1.
    assert (G : (debug = false \/ of_kind t <> TIri \/ c_f C = None \/ c_f C = Some []) \/ (debug = true /\ t = KIri /\ exists x f, c_f C = Some (x :: f))).
    { destruct debug; [|left; now left]. destruct t; try (left; right; left; discriminate). destruct (c_f C) as [[|x f]|]; [left; auto|right; eauto|left; auto]. }
    destruct G as [G|(-> & -> & x & f & Ef)].
    + destruct (edited_valid debug S (of_kind t) (EReplaceHost h only_reg_name) i C Ed V R G I) as (j & X & Vj). cbn [apply_edit] in X. rewrite Q in X. cbn [bind] in X. injection X as ->. exact Vj.
    + destruct (replace_host_panics true S i C h only_reg_name V R) as (X & _); [congruence..|]. cbn [of_kind] in Q. congruence.
  - cbn [results] in E. destruct H as (Ht & Hf). destruct (set_fragment_ok debug S (of_kind t) i C f) as (j & X & Vj & _); [destruct t; auto; contradiction|exact V|exact R|destruct f; [now apply new_ok|exact I]|].
    rewrite X in E. cbn [bind] in E. injection E as <-. now apply valid1.
  - subst S. eapply conv_valid; [exact V| |exact E]. auto.
  - subst S. eapply as_iri_valid; eauto.
  - subst S. eapply conv_valid; [exact V| |exact E]. auto.
  - subst S. eapply conv_valid; [exact V| |exact E]. auto.
  - subst S. eapply conv_valid; [exact V| |exact E]. auto 6.
  - subst S. eapply conv_valid; [exact V| |exact E]. auto 6.
Qed.

(** The same calls, damaging: the result is not valid. *)
Lemma damage S t i C c : new S (of_kind t) i = Ok i -> reads S i C -> damaging S t C c -> exists vs, results false S (of_kind t) i c = Ok vs /\ ~ Forall valid vs.
Proof.
  intros V R D. assert (Ed := kind_editable t). destruct D as [q -> Hf Hq|h o P L|u c h o P Hc L U].
  - cbn [of_kind] in *. apply absolute_new_exact in V. destruct V as [V|(j & -> & V)].
    + destruct (accessors_absolute false S i V) as (s & a & p & q' & M & O & _). rewrite (major_of S i C R) in M. congruence.
    + destruct (absolute_odd false S j V) as (s & a & p & q' & M & O & _ & _ & _ & _ & _ & X).
      assert (CE : C = mkC (Some s) a p q' (Some [])) by (apply (reads_unique S (j ++ lit "#")); [exact R|]; now apply odd_reads). subst C. cbn [c_q] in Hq. subst q'. cbn [odd_query] in X.
      exists [mkV S TQuery (q ++ lit "#")]. cbn [results]. rewrite X. cbn [bind opt_value]. split; [reflexivity|]. intros K. inversion K as [|v l W _]. unfold valid in W. cbn [v_spec v_ty v_str] in W.
      apply new_ok in W. cbn [ty_lang] in W. apply query_scan in W. change (lit "#") with (35 :: []) in W. rewrite scan_delim in W; [|reflexivity|discriminate]. apply andb_prop in W. destruct W as (W & _). apply andb_prop in W. destruct W as (_ & W). destruct S; vm_compute in W; discriminate W.
  - assert (P0 := parts_dissects S i C _ _ _ R P). destruct (remove_empty false S (of_kind t) i C h o Ed V P0) as (_ & N2). destruct (N2 L) as (E & W). eexists. cbn [results]. rewrite E. cbn [broken bind]. split; [reflexivity|].
    intros K. inversion K as [|v l Q _]. exact (W Q).
  - assert (P0 := parts_dissects S i C _ _ _ R P). destruct (remove_exact false S (of_kind t) i C u c h o Ed V P0 Hc) as (N1 & _). destruct (proj2 (N1 L) U) as (E & W). eexists. cbn [results]. rewrite E. cbn [bind]. split; [reflexivity|].
    intros K. inversion K as [|v l Q _]. exact (W Q).
Qed.

(** ** Programs *)
Lemma build_valid debug S t b x s : editable t = true -> build S t b = Ok x -> debug = true \/ careful_build S t b ->
  built_to_dedicated_string S debug t x = Ok s -> new S t s = Ok s.
Proof.
  intros Ht B A E. destruct A as [-> | (V & P & N)].
  - unfold built_to_dedicated_string in E. destruct (text (built_display S x)) as [y|e|]; cbn [bind] in E; try discriminate. now apply justified_true in E.
  - destruct (b_normalize b) eqn:Nb.
    + destruct (build_norm_only S t b x Ht V Nb P B) as (No & F). destruct (build_norm_accepts debug S t b Ht V Nb No F (N eq_refl)) as (x' & T & B' & _ & _ & _ & Vt & X). rewrite B in B'. injection B' as <-. rewrite E in X. injection X as ->. exact Vt.
    + destruct (build_only S t b x Ht V Nb P B) as (Rp & F). destruct (build_accepts debug S t b Ht V Nb Rp F) as (x' & i & B' & _ & _ & Vt & X). rewrite B in B'. injection B' as <-. rewrite E in X. injection X as ->. exact Vt.
Qed.
Lemma program_valid (debug : bool) (allowed : Spec -> ty -> str -> call -> Prop) (allowed_build : Spec -> ty -> Builder -> Prop) pool :
  (debug = true \/ (forall S t i c, allowed S t i c -> careful S t i c) /\ (forall S t b, allowed_build S t b -> careful_build S t b)) ->
  reach debug allowed allowed_build pool -> Forall valid pool.
Proof.
  intros A H. induction H as [|pool S t s x H IH Nw|pool S t i c vs H IH Hin Hh Ha Al E|pool S t b x s H IH Ht B Al E].
  - constructor.
  - constructor; [|exact IH]. unfold valid. cbn [v_spec v_ty v_str]. assert (X : x = s) by (unfold new in Nw; destruct (validate S t s); congruence). subst x. exact Nw.
  - apply Forall_app. split; [|exact IH]. assert (V := proj1 (Forall_forall _ _) IH _ Hin). unfold valid in V. cbn [v_spec v_ty v_str] in V.
    unfold has in Hh. destruct (kind_of t) as [k|] eqn:Ek.
    + assert (Hk := kind_some _ _ Ek). subst t. destruct (editable_reads S _ i (kind_editable k) V) as (C & R).
      assert (HC : has_call S k c).
      { destruct c; try exact Hh.
        - assert (W := proj1 (Forall_forall _ _) IH _ (Ha _ (or_introl eq_refl))). cbn [has_call]. apply (kind_iri S KAbsolute); [now left|exact W].
        - split; [exact Hh|]. destruct f as [f|]; [|exact I]. assert (W := proj1 (Forall_forall _ _) IH _ (Ha _ (or_introl eq_refl))). unfold valid in W. cbn [v_spec v_ty v_str] in W. now apply new_ok in W. }
      eapply call_valid; [exact V|exact R|exact HC| |exact E]. destruct A as [-> | (A & _)]; [now left|right]. exact (A _ _ _ _ Al k C Ek R).
    + destruct c; try contradiction; subst S; first [eapply as_iri_valid; eassumption | eapply conv_valid; [exact V| |exact E]; auto 6].
  - constructor; [|exact IH]. unfold valid. cbn [v_spec v_ty v_str]. eapply build_valid; [exact Ht|exact B| |exact E]. destruct A as [-> | (_ & A)]; [now left|right]. exact (A _ _ _ Al).
Qed.
