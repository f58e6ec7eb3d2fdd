(** Proofs for C57: percent-encoded text is normalized. *)
From Verif Require Import Base Chars Rfc3986 Utf8 CompSpec PctSpec RfcResolve MValidate MTrusted MFormat MWriters MPct MEncode EncodeSpec
  PBase PScan PHost PTrusted PPath2 PPct PPct2 PPct3 PEncode PEncode2 PDecode PNorm8 PCommute.
From Coq Require Import Lia.
Open Scope string_scope. Open Scope N_scope. Open Scope list_scope.

Lemma utf8_byte c b : is_scalar c = true -> In b (utf8 c) -> b < 256.
Proof.
  intros H I. destruct (utf8_shape c H) as (f & ks & E & F & D). rewrite E in I. destruct I as [<- |I].
  - destruct D as [(D & _)|(D & _)]; [lia|]. unfold expected_len, between in D. destruct (f <? 256) eqn:X; [now apply N.ltb_lt|]. apply N.ltb_ge in X.
    replace ((194 <=? f) && (f <=? 223))%bool with false in D by lia. replace ((224 <=? f) && (f <=? 239))%bool with false in D by lia. replace ((240 <=? f) && (f <=? 244))%bool with false in D by lia. discriminate.
  - rewrite Forall_forall in F. specialize (F b I). unfold contb in F. lia.
Qed.
Lemma spelled_triplet b : b < 256 -> spelled [b] (triplet b).
Proof. intros H. assert (B : bytes [b]) by (constructor; [exact H|constructor]). assert (X := spelled_triplets [b] B). cbn [triplets flat_map] in X. now rewrite app_nil_r in X. Qed.
Lemma uppers_triplets bs : Forall (fun b => b < 256) bs -> uppers bs = triplets bs.
Proof. induction 1 as [|b bs Hb _ IH]; [reflexivity|]. unfold uppers. cbn [map concat triplets flat_map]. fold (uppers bs). rewrite IH. now rewrite triplet_upper. Qed.
Lemma encode_normal S ok raw : (forall c, unreserved S c = true -> ok c = true) -> ok 37 = false -> all_scalar raw = true -> pct_normal S (encode ok raw) (encode ok raw).
Proof.
  intros U P. induction raw as [|c raw IH]; intros Sc; [constructor|]. cbn [all_scalar forallb] in Sc. apply andb_prop in Sc. destruct Sc as (Sc & Sr). specialize (IH Sr).
  unfold encode. cbn [flat_map]. fold (encode ok raw). destruct (ok c) eqn:K; [constructor; auto; congruence|].
  assert (B : Forall (fun b => b < 256) (utf8 c)) by (apply Forall_forall; intros; now apply (utf8_byte c)). assert (Sp := spelled_triplets _ B).
  destruct (utf8_shape c Sc) as (f & ks & E & F & D). rewrite E in *. inversion B as [|? ? Bf Bk]; subst. assert (Sk := spelled_triplets _ Bk). assert (Uk := uppers_triplets _ Bk).
  cbn [triplets flat_map] in *. fold (triplets ks) in *. rewrite <- app_assoc in *. assert (G := keep_conts S ks (triplets ks) (encode ok raw) _ Sk F IH). rewrite Uk in G.
  rewrite <- (triplet_upper f Bf) at 2. apply keep_one; [now apply spelled_triplet| |exact G]. intros c' bs s' Eq Hs. destruct (unreserved S c') eqn:X; auto. exfalso.
  rewrite app_assoc in Eq. rewrite <- E in Sp. destruct (spelled_same c c' _ _ _ _ Sc (unreserved_scalar _ _ X) Sp Hs Eq) as (-> & _). rewrite (U _ X) in K. discriminate.
Qed.
Lemma context_unreserved S ctx c : unreserved S c = true -> is_valid_char S ctx c = true.
Proof.
  intros H. destruct ctx; [rewrite v_regname|rewrite v_user|rewrite v_segment|rewrite v_path|rewrite v_query|rewrite v_fragment|rewrite v_unreserve|rewrite v_character];
  unfold regname_char, user_char, segment_char, path_char, query_char, fragment_char, character_char, segment_char; now rewrite H.
Qed.
Lemma encoded_normal A S ctx (d : W A) a : snd d = Ret a -> all_scalar (concat (fst d)) = true ->
  exists out, text (PercentEncoded S ctx d) = Ok out /\ text (PctCaseNormalized S out) = Ok out.
Proof.
  intros Hr Hs. destruct (context_ok S ctx) as [ok [Hok H37]]. assert (T := pe_text S ctx d a ok Hr Hs Hok). eexists. split; [exact T|].
  assert (N := encode_normal S ok (concat (fst d)) ltac:(intros c H; rewrite <- Hok; now apply context_unreserved) H37 Hs).
  destruct (pct_normalized_ok S _ (pn_wf_l _ _ _ N)) as (t & X & N'). assert (Q := pn_fun _ _ _ N _ N'). subst t. eapply outs_text. exact X.
Qed.
