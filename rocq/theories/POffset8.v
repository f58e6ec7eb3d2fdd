(** * Proofs for C77: percent-encoding normalization and [is_normalized] with byte offsets, on valid strings. *)
From Verif Require Import Base Chars Rfc3986 Utf8 CompSpec RfcResolve NormSpec PctSpec SearchSpec MValidate MTrusted MFormat MSearch MPct MPath MNormalize MOffset
  PBase PScan PSearch PTrusted PComps PAuth PTypes PTypes2 PPath PPath2 PPath5 PPct PPct2 PPct3 PPct4 PPath2 PResolve PRds PNorm PNorm2 PNorm3 PNorm4 PNorm5 PNorm6 PNorm7 PNorm8 PDecode POffset POffset7 POffset5.

Lemma upper_bytes s : existsb is_upper (utf8s s) = existsb is_upper s.
Proof.
  induction s as [|c s IH]; [reflexivity|]. change (utf8s (c :: s)) with (utf8 c ++ utf8s s). rewrite existsb_app, IH. cbn [existsb]. f_equal. destruct (c <? 128) eqn:E.
  - apply N.ltb_lt in E. rewrite utf8_ascii_eq by exact E. cbn [existsb]. now rewrite orb_false_r.
  - apply N.ltb_ge in E. assert (F := utf8_high c E). assert (U : forall b, 128 <= b -> is_upper b = false) by (intros b Hb; unfold is_upper, between; apply andb_false_iff; right; apply N.leb_gt; lia).
    rewrite (U c E). destruct (existsb is_upper (utf8 c)) eqn:X; [|reflexivity]. apply existsb_exists in X. destruct X as (b & Hb & X). rewrite Forall_forall in F. now rewrite U in X by now apply F.
Qed.
Section M.
Context (m : option memchr_crate) (Hm : sound m).
Lemma pct_same S s : pct_wf s -> o_PctCaseNormalized m S s = PctCaseNormalized S s.
Proof. intros W. destruct (decode_normal S s W) as (t & E & _). eapply text_sim; [now apply pct_sim|exact E]. Qed.
Lemma offset_percent S s : pct_wf s -> exists t, pct_normal S s t /\ text (o_PctCaseNormalized m S s) = Ok t.
Proof. intros W. rewrite pct_same by exact W. destruct (pct_normalized_ok S s W) as (t & E & P). exists t. split; [exact P|]. eapply outs_text. exact E. Qed.
Lemma offset_host_only S h : pct_wf h -> exists b, o_is_ascii_only_host h = Ok b /\ (b = true <-> ascii_only h) /\
    (ascii_only h -> exists t, pct_normal S h t /\ text (o_NormalizedAsciiOnlyHost m h) = Ok (lower_raw t)).
Proof.
  intros W. destruct (c18_host S h W) as (b & E & Hb & H). exists b. split; [now apply ascii_only_sim|]. split; [exact Hb|]. intros A. destruct (H A) as (t & P & T). exists t. split; [exact P|].
  rewrite (text_sim _ _ _ (ascii_host_sim m Hm h) T). exact T.
Qed.
Lemma is_pct_same S s : pct_wf s -> o_is_pct_case_normalized m S s = is_pct_case_normalized S s.
Proof. intros W. unfold o_is_pct_case_normalized, is_pct_case_normalized. now rewrite pct_same. Qed.
Lemma after_wf S s a p q f : components_ok S (Some s) a p q f -> pct_wf (p ++ oq q ++ ofr f).
Proof.
  intros H. assert (L : loose_ok S (mkC (Some s) a p q f)) by (apply comps_loose; auto). destruct L as (_ & Ha & Hq & Hf & Hc & _). cbn [c_a c_q c_f c_p] in *.
  assert (Wp := class_wf _ _ Hc). assert (WA : forall x d y, d <> 37 -> is_hexdigit d = false -> pct_wf x -> pct_wf y -> pct_wf (x ++ d :: y)).
  { intros x d y Hd Hx. rewrite !pct_wf_scan. intros A B. rewrite scan_delim by auto. now rewrite A, B. }
  assert (Wf : pct_wf (ofr f)). { destruct f as [f|]; [|constructor]. apply (WA [] 35); [discriminate|reflexivity|constructor|]. eapply fragment_wf. exact Hf. }
  assert (Wf' : forall x, pct_wf x -> pct_wf (x ++ ofr f)). { intros x Hx. destruct f as [f|]; [|now cbn [ofr]; rewrite app_nil_r]. apply (WA x 35); [discriminate|reflexivity|exact Hx|]. eapply fragment_wf. exact Hf. }
  destruct q as [q|]; [|now apply Wf']. apply (WA p 63 (q ++ ofr f)); [discriminate|reflexivity|exact Wp|]. apply Wf'. eapply query_wf. exact Hq.
Qed.
Lemma offset_is_normalized S i mode : IRI S i -> o_is_normalized m S i mode = is_normalized S i mode.
Proof.
  intros H. apply iri_reads in H. destruct H as ([[s|] a p q f] & [H ->] & D); [|discriminate]. cbn [c_s c_a c_p c_q c_f] in *. unfold unparse. cbn [c_s c_a c_p c_q c_f].
  assert (W := components_weak _ _ _ _ _ _ H). assert (Wa := after_wf _ _ _ _ _ _ H). assert (Ha : opt_in (authority S) a) by apply H.
  unfold o_is_normalized, is_normalized. rewrite o_scheme_colon_eq by exact Hm. rewrite scheme_colon_rec by auto. cbn [bind]. rewrite o_slash_slash_eq by exact Hm. rewrite (ss_authority_rec (Some s)) by auto. cbn [bind].
  rewrite o_until_query_eq by exact Hm. rewrite until_query_rec by apply W. cbn [bind]. rewrite upper_bytes. destruct (existsb is_upper s); [reflexivity|]. rewrite is_pct_same by exact Wa.
  match goal with |- (do x <- ?u ; _) = (do y <- ?v ; _) => assert (E : u = v) end; [|now rewrite E].
  destruct a as [a|]; [|reflexivity]. destruct (auth_accessors m Hm a) as (b & Eb & _ & Eu & Eh & _). rewrite Eb. cbn [bind]. rewrite Eh, Eu. cbn [opt_in] in Ha.
  destruct (authority_components_spec S a Ha) as (u & h & pt & Xu & Xh & _ & _ & _ & _ & Hu & Hh & _). cbv zeta. rewrite Xh. cbn [bind]. assert (Wh := host_wf _ _ Hh).
  destruct (c18_host S h Wh) as (ao & Ea & Hao & Ht). rewrite Ea, (ascii_only_sim _ _ Ea). cbn [bind].
  match goal with |- (do x <- ?u ; _) = (do y <- ?v ; _) => assert (E : u = v) end.
  { destruct ao; [|now apply is_pct_same]. destruct (Ht (proj1 Hao eq_refl)) as (t & _ & T). now rewrite (text_sim _ _ _ (ascii_host_sim m Hm h) T). }
  rewrite E. clear E. match goal with |- _ = (do x <- ?v ; _) => destruct v as [hn|e|] end; [|destruct e|reflexivity]. cbn [bind]. destruct (negb hn); [reflexivity|]. rewrite Xu. cbn [bind]. destruct u as [u|]; [|reflexivity].
  apply is_pct_same. now apply (userinfo_wf S).
Qed.
End M.
