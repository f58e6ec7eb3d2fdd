(** Proofs for C51: percent-decoding inverts percent-encoding and does not see the other conversions. *)
From Verif Require Import Base Chars Rfc3986 Utf8 CompSpec PctSpec RfcResolve MValidate MTrusted MFormat MWriters MPct MEncode EncodeSpec PBase PScan PHost PTrusted PPct PPct2 PPct3 PEncode PEncode2 PPath2 NormSpec PComps PNorm7 PNorm8 PEquiv PBaseNorm.

Lemma utf8_no_pct c : c <> 37 -> none (N.eqb 37) (utf8 c) = true.
Proof.
  intros H. assert (B : forall x, 128 <= x -> negb (37 =? x) = true) by (intros x Hx; apply Bool.negb_true_iff, N.eqb_neq; lia).
  unfold utf8. destruct (c <? 128) eqn:E1.
  { cbn [none forallb]. unfold none. cbn [forallb]. rewrite Bool.andb_true_r. apply Bool.negb_true_iff, N.eqb_neq. congruence. }
  unfold none. apply N.ltb_ge in E1.
  destruct (c <? 2048), (c <? 65536); cbn [forallb]; repeat (apply andb_true_intro; split); try reflexivity; apply B;
    (eapply N.le_trans; [|apply N.le_add_r]); lia.
Qed.
Lemma denotes_decode s b : denotes s b -> percent_decode (utf8s s) = b /\ ~ has_stray (utf8s s).
Proof.
  induction 1 as [|c s b Hc H [I1 I2]|u l s b Hu Hl H [I1 I2]].
  - split; [reflexivity|]. intros X. inversion X.
  - change (utf8s (c :: s)) with (utf8 c ++ utf8s s). rewrite pd_direct by (now apply utf8_no_pct).
    split; [now rewrite I1|]. now rewrite stray_app by (now apply utf8_no_pct).
  - assert (E : utf8s (37 :: u :: l :: s) = 37 :: u :: l :: utf8s s).
    { change (utf8s (37 :: u :: l :: s)) with (utf8 37 ++ utf8 u ++ utf8 l ++ utf8s s).
      assert (A : forall x, HEXDIG x = true -> utf8 x = [x]).
      { intros x Hx. rewrite hexdig_eq in Hx. apply hex_ascii in Hx. unfold utf8. unfold is_ascii in Hx. now rewrite Hx. }
      now rewrite (A u Hu), (A l Hl). }
    rewrite E, pd_trip by assumption. split; [now rewrite I1|]. intros X. now apply stray_trip in X.
Qed.
Lemma denotes_string s b : denotes s b -> into_bytes (utf8s s) = Ok b.
Proof. intros H. destruct (denotes_decode s b H) as [D N]. rewrite <- D. apply into_bytes_ok. now right. Qed.
Lemma denotes_text s r : all_scalar r = true -> denotes s (utf8s r) -> into_bytes (utf8s s) = Ok (utf8s r) /\ into_string (utf8s s) = Ok (Some r).
Proof.
  intros H D. apply denotes_string in D. split; [exact D|]. unfold into_string. rewrite D. cbn [bind]. f_equal. now apply from_utf8_ok.
Qed.
Lemma context_ok S ctx : exists ok, (forall c, is_valid_char S ctx c = ok c) /\ ok 37 = false.
Proof.
  destruct ctx; eexists; (split; [intros c; (apply v_regname || apply v_user || apply v_segment || apply v_path || apply v_query || apply v_fragment || apply v_unreserve || apply v_character)|]);
  destruct S; reflexivity.
Qed.
Lemma decode_encode A S ctx (d : W A) a : snd d = Ret a -> all_scalar (concat (fst d)) = true ->
  exists out, text (PercentEncoded S ctx d) = Ok out /\ into_bytes (utf8s out) = Ok (utf8s (concat (fst d))) /\ into_string (utf8s out) = Ok (Some (concat (fst d))).
Proof.
  intros Hr Hs. destruct (context_ok S ctx) as [ok [Hok H37]]. destruct (pe_text S ctx d a ok Hr Hs Hok) as [T _] || pose proof (pe_text S ctx d a ok Hr Hs Hok) as T.
  eexists. split; [exact T|]. apply denotes_text; [exact Hs|]. now apply encode_denotes.
Qed.
Lemma encode_inj A B S ctx (d : W A) (e : W B) a b out : snd d = Ret a -> snd e = Ret b ->
  all_scalar (concat (fst d)) = true -> all_scalar (concat (fst e)) = true ->
  text (PercentEncoded S ctx d) = Ok out -> text (PercentEncoded S ctx e) = Ok out -> concat (fst d) = concat (fst e).
Proof.
  intros Hd He Sd Se Td Te. destruct (decode_encode A S ctx d a Hd Sd) as [o [T [_ D]]]. destruct (decode_encode B S ctx e b He Se) as [o' [T' [_ D']]].
  rewrite Td in T. rewrite Te in T'. injection T as <-. injection T' as <-. rewrite D in D'. now injection D'.
Qed.
Lemma wf_bytes s : pct_wf s -> exists b, denotes s b /\ into_bytes (utf8s s) = Ok b.
Proof. intros H. destruct (denotes_ex s H) as [b Hb]. exists b. split; [exact Hb|]. now apply denotes_string. Qed.
Lemma decode_normal S s : pct_wf s -> exists t, text (PctCaseNormalized S s) = Ok t /\
  into_bytes (utf8s t) = into_bytes (utf8s s) /\ into_string (utf8s t) = into_string (utf8s s).
Proof.
  intros H. destruct (wf_bytes s H) as [b [D E]]. destruct (pct_normalized_ok S s H) as [t [T N]]. exists t.
  split; [eapply outs_text; exact T|]. apply (c18_denotes S s t b) in D; [|exact N]. apply denotes_string in D.
  unfold into_string. rewrite D, E. auto.
Qed.
Lemma decode_uri s : pct_wf s -> all_scalar s = true -> exists t, text (MappedToUri s) = Ok t /\
  into_bytes (utf8s t) = into_bytes (utf8s s) /\ into_string (utf8s t) = into_string (utf8s s).
Proof.
  intros H Hs. destruct (wf_bytes s H) as [b [D E]]. exists (to_uri s). split; [now apply mapped_text|].
  apply (to_uri_denotes s b Hs) in D. apply denotes_string in D. unfold into_string. rewrite D, E. auto.
Qed.

Lemma wf_raw_all s : none (N.eqb 37) s = true -> pct_wf s.
Proof.
  unfold none. induction s as [|c s IH]; intros H; [constructor|]. cbn [forallb] in H. apply andb_prop in H as [A B].
  constructor; [|auto]. intros ->. discriminate.
Qed.
Lemma wf_cons c s : c <> 37 -> pct_wf s -> pct_wf (c :: s).
Proof. intros H1 H2. now constructor. Qed.
Lemma star_raw (f : N -> bool) s : star (cls f) s -> f 37 = false -> pct_wf s.
Proof.
  intros H F. apply star_cls in H. apply wf_raw_all. unfold none. eapply forallb_impl; [|exact H].
  intros c Hc. cbv beta. destruct (N.eqb_spec 37 c) as [<-|]; [congruence|reflexivity].
Qed.
Lemma scheme_wf s : scheme s -> pct_wf s.
Proof.
  intros (a & b & -> & (c & -> & Hc) & H). cbn [app]. apply wf_cons; [intros ->; discriminate|]. eapply star_raw; [exact H|reflexivity].
Qed.
Lemma authority_wf S s : authority S s -> pct_wf s.
Proof.
  intros H. apply authority_comps in H as (u & h & p & -> & Hu & Hh & Hp). unfold authority_string.
  apply wf_app; [|apply wf_app].
  - destruct u as [u|]; [|constructor]. apply wf_app; [|apply wf_raw_all; reflexivity]. apply (c18_applies S). now left.
  - apply (c18_applies S). auto 6.
  - destruct p as [p|]; [|constructor]. apply wf_app; [apply wf_raw_all; reflexivity|]. eapply star_raw; [exact Hp|reflexivity].
Qed.
Lemma reference_wf S i : IRI_reference S i -> pct_wf i.
Proof.
  intros H. apply reference_reads in H as (C & O & ->). pose proof (comps_path_wf S C O) as Hp. destruct O as (Os & Oa & Oq & Of & _).
  unfold recompose. apply wf_app; [|apply wf_app; [|apply wf_app; [exact Hp|apply wf_app]]].
  - destruct (c_s C); [|constructor]. apply wf_app; [now apply scheme_wf|apply wf_raw_all; reflexivity].
  - destruct (c_a C); [|constructor]. apply wf_app; [apply wf_raw_all; reflexivity|]. eapply authority_wf; exact Oa.
  - destruct (c_q C); [|constructor]. apply wf_app; [apply wf_raw_all; reflexivity|]. apply (c18_applies S). auto.
  - destruct (c_f C); [|constructor]. apply wf_app; [apply wf_raw_all; reflexivity|]. apply (c18_applies S). auto.
Qed.
Lemma decode_uri_reference i : IRI_reference IriSpec i -> exists t, text (MappedToUri i) = Ok t /\
  into_bytes (utf8s t) = into_bytes (utf8s i) /\ into_string (utf8s t) = into_string (utf8s i).
Proof.
  intros H. apply decode_uri; [now apply (reference_wf IriSpec)|]. apply reference_reads in H as (C & R). now destruct (reads_uri i C R).
Qed.
Lemma decode_reference S i : IRI_reference S i -> into_bytes (utf8s i) = Ok (percent_decode (utf8s i)).
Proof. intros H. apply reference_wf in H. destruct (denotes_ex i H) as [b D]. pose proof (denotes_string i b D). now destruct (denotes_decode i b D) as [-> _]. Qed.
