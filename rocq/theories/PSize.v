(** * Sizes of results (proofs). *)
From Verif Require Import Base Chars Rfc3986 Utf8 CompSpec PctSpec RfcResolve NormSpec EncodeSpec EditSpec MValidate MTrusted MFormat MWriters MPct MPath MNormalize MEncode MEdit
  PBase PSearch PScan PTrusted PComps PTypes PPath2 PPct3 PResolve PNorm3 PNorm7 PNorm8 PEncode PEncode2 PEdit PEditNorm.
From Coq Require Import Lia.
Open Scope string_scope. Open Scope N_scope. Open Scope list_scope.

Definition size (s : str) : nat := length (utf8s s).
Lemma size_app a b : size (a ++ b) = (size a + size b)%nat.
Proof. unfold size. now rewrite utf8s_app, app_length. Qed.
Lemma size_cons c s : size (c :: s) = (clen c + size s)%nat.
Proof. unfold size. change (utf8s (c :: s)) with (utf8 c ++ utf8s s). now rewrite app_length, utf8_len. Qed.
Lemma clen_ascii c : c < 128 -> clen c = 1%nat.
Proof. intros H. rewrite <- utf8_len. unfold utf8. apply N.ltb_lt in H. now rewrite H. Qed.
Lemma clen_pos c : (1 <= clen c)%nat.
Proof. rewrite <- utf8_len. unfold utf8. destruct (c <? 128), (c <? 2048), (c <? 65536); cbn; lia. Qed.
Lemma hexdig_ascii c : HEXDIG c = true -> c < 128.
Proof. unfold HEXDIG, DIGIT, between. rewrite !Bool.orb_true_iff, !Bool.andb_true_iff, !N.leb_le. lia. Qed.
Lemma spelled_size bs s : spelled bs s -> size s = (3 * length bs)%nat.
Proof. induction 1 as [|u l bs s Hu Hl H IH]; [reflexivity|]. rewrite !size_cons, IH, (clen_ascii 37) by reflexivity. rewrite (clen_ascii u), (clen_ascii l) by now apply hexdig_ascii. cbn [length]. lia. Qed.
Lemma upper_clen c : HEXDIG c = true -> clen (upper_hex c) = 1%nat.
Proof. intros H. apply hexdig_ascii in H. apply clen_ascii. unfold upper_hex. destruct (between 97 102 c); lia. Qed.
Lemma pn_size S s t : pct_normal S s t -> (size t <= size s)%nat.
Proof.
  induction 1 as [|c s t Hc P IH|c bs s t Sp U P IH|u l s t Hu Hl N P IH]; [lia| | |]; rewrite ?size_app, ?size_cons in *; try lia.
  - rewrite (spelled_size _ _ Sp), utf8_len. lia.
  - rewrite !upper_clen by assumption. rewrite (clen_ascii u), (clen_ascii l) by now apply hexdig_ascii. lia.
Qed.
Lemma lower_clen c : clen (lower c) = clen c.
Proof. unfold lower. destruct (between 65 90 c) eqn:E; [|reflexivity]. unfold between in E. rewrite Bool.andb_true_iff, !N.leb_le in E. rewrite !clen_ascii by lia. reflexivity. Qed.
Lemma map_lower_size s : size (map lower s) = size s.
Proof. induction s as [|c s IH]; [reflexivity|]. cbn [map]. now rewrite !size_cons, IH, lower_clen. Qed.
Lemma lower_raw_size s : size (lower_raw s) = size s.
Proof.
  remember (length s) as n eqn:E. assert (L : (length s <= n)%nat) by lia. clear E. revert s L. induction n as [|n IH]; intros [|c s] L; cbn [length] in L; try reflexivity; [lia|].
  cbn [lower_raw]. destruct (c =? 37).
  - destruct s as [|u [|l s]]; try reflexivity. rewrite !size_cons. cbn [length] in L. rewrite IH by lia. reflexivity.
  - rewrite !size_cons, lower_clen, IH by lia. reflexivity.
Qed.
Lemma host_size S h h' : host_normal S h h' -> (size h' <= size h)%nat.
Proof. intros [u _ P|u _ P]; rewrite ?lower_raw_size; exact (pn_size _ _ _ P). Qed.
Definition osize (k : nat) (o : option str) : nat := match o with Some x => k + size x | None => 0 end.
Lemma render_size C : size (render C) = (osize 1 (c_s C) + osize 2 (c_a C) + size (c_p C) + osize 1 (c_q C) + osize 1 (c_f C))%nat.
Proof.
  unfold render, recompose. rewrite !size_app. destruct (c_s C), (c_a C), (c_q C), (c_f C); cbn [osize]; rewrite ?size_app; change (size (lit ":")) with 1%nat; change (size (lit "//")) with 2%nat; change (size (lit "?")) with 1%nat; change (size (lit "#")) with 1%nat; change (size []) with 0%nat; lia.
Qed.
Lemma authority_size u h p : size (authority_string u h p) = (osize 1 u + size h + osize 1 p)%nat.
Proof. unfold authority_string. rewrite !size_app. destruct u, p; cbn [osize]; rewrite ?size_app; change (size (lit ":")) with 1%nat; change (size (lit "@")) with 1%nat; change (size []) with 0%nat; lia. Qed.
Lemma opt_size (R : str -> str -> Prop) k x y : (forall a b, R a b -> (size b <= size a)%nat) -> opt_rel R x y -> (osize k y <= osize k x)%nat.
Proof. intros H. destruct x, y; cbn [opt_rel osize]; intros X; try contradiction; [apply H in X; lia|lia]. Qed.
Lemma authority_normal_size S a b : authority_normal S a b -> (size b <= size a)%nat.
Proof.
  intros (u & h & p & u' & h' & -> & _ & _ & _ & Pu & Ph & ->). rewrite !authority_size. apply (opt_size _ 1%nat) in Pu; [|apply pn_size]. apply host_size in Ph.
  assert (osize 1 (drop_empty_port p) <= osize 1 p)%nat by (destruct p as [[|? ?]|]; cbn [drop_empty_port osize]; lia). lia.
Qed.
(** ** Dot segments *)
Section Rds.
Variables dot dotdot : lang.
Hypothesis Hdot : forall d, dot d -> (1 <= size d)%nat.
Hypothesis Hdd : forall d, dotdot d -> (2 <= size d)%nat.
Variable m : str.
Definition stage (x : str * str) : Prop := let '(i, o) := x in
  o ++ i = m \/ (size (o ++ i) + 2 <= size m)%nat \/ ((size (o ++ i) + 1 <= size m)%nat /\ exists r, m = (o ++ i) ++ r).
Lemma stage_le i o : stage (i, o) -> (size (o ++ i) <= size m)%nat.
Proof. intros [<-|[H|(H & _)]]; lia. Qed.
Lemma stage_two i o i' o' : stage (i, o) -> (size (o' ++ i') + 2 <= size (o ++ i))%nat -> stage (i', o').
Proof. intros H L. apply stage_le in H. right. left. lia. Qed.
Lemma stage_one i o i' o' r : stage (i, o) -> o ++ i = (o' ++ i') ++ r -> (1 <= size r)%nat -> stage (i', o').
Proof.
  intros H E L. assert (Z : size (o ++ i) = (size (o' ++ i') + size r)%nat) by now rewrite E, size_app. destruct H as [H|[H|(H & _)]]; [|right; left; lia|right; left; lia].
  right. right. split; [rewrite <- H; lia|]. exists r. congruence.
Qed.
Lemma remove_last_size o o' : remove_last o o' -> (size o' <= size o)%nat.
Proof. intros [x seg _|seg _]; rewrite ?size_app; cbn; lia. Qed.
Lemma stage_step x y : rds_step dot dotdot x y -> stage x -> stage y.
Proof.
  intros [d i o [D|D]|d i o D|d o D|d i o o' D L|d o o' D L|d o D|lead seg i o _ _ _ _ _ _] H.
  - eapply stage_two; [exact H|]. apply Hdot in D. rewrite !size_app. change (size (lit "/")) with 1%nat. lia.
  - eapply stage_two; [exact H|]. apply Hdd in D. rewrite !size_app. change (size (lit "/")) with 1%nat. lia.
  - eapply stage_two; [exact H|]. apply Hdot in D. rewrite !size_app. change (size (lit "/")) with 1%nat. lia.
  - apply (stage_one _ _ (lit "/") o d H); [now rewrite <- app_assoc|now apply Hdot].
  - eapply stage_two; [exact H|]. apply Hdd in D. apply remove_last_size in L. rewrite !size_app. change (size (lit "/")) with 1%nat. lia.
  - eapply stage_two; [exact H|]. apply Hdd in D. apply remove_last_size in L. rewrite !size_app. lia.
  - apply (stage_one _ _ [] o d H); [now rewrite app_nil_r|]. destruct D as [D|D]; [now apply Hdot|apply Hdd in D; lia].
  - unfold stage in *. rewrite <- !app_assoc. exact H.
Qed.
Lemma stage_steps x y : rds_steps dot dotdot x y -> stage x -> stage y.
Proof. induction 1; auto. intros G. apply IHrds_steps. eapply stage_step; eauto. Qed.
Lemma rds_size t : remove_dot_segments dot dotdot m t -> (size t <= size m)%nat /\ (starts_with (lit "//") t = true -> starts_with (lit "//") m = true \/ (size t + 2 <= size m)%nat).
Proof.
  intros H. assert (G : stage ([], t)).
  { apply (stage_steps _ _ H). now left. }
  split; [apply stage_le in G; rewrite app_nil_r in G; exact G|]. intros P. unfold stage in G. rewrite app_nil_r in G. destruct G as [<-|[G|(_ & r & ->)]]; auto.
  left. apply starts_with_iff in P. destruct P as (x & ->). apply starts_with_iff. exists (x ++ r). now rewrite <- !app_assoc.
Qed.
End Rds.

Lemma pn_starts S s t : pct_normal S s t -> starts_with (lit "//") t = true -> starts_with (lit "//") s = true.
Proof.
  intros P H. apply starts_with_iff in H. destruct H as (r & ->). change (lit "//" ++ r) with (47 :: 47 :: r) in P. inversion P; subst.
  - match goal with X : pct_normal S _ (47 :: r) |- _ => inversion X; subst end.
    + apply starts_with_iff. eexists. reflexivity.
    + exfalso. destruct S; discriminate.
  - exfalso. destruct S; discriminate.
Qed.
Lemma literal_size p t : rds_literal p t -> (size t <= size p)%nat /\ (starts_with (lit "//") t = true -> starts_with (lit "//") p = true \/ (size t + 2 <= size p)%nat).
Proof. apply rds_size; intros d ->; cbn; lia. Qed.
Lemma a_dot_size d : a_dot d -> (1 <= size d)%nat.
Proof. unfold a_dot, tok. intros [H|[H|H]]; rewrite H; cbn; lia. Qed.
Lemma rds_size' p t : rds p t -> (size t <= size p)%nat /\ (starts_with (lit "//") t = true -> starts_with (lit "//") p = true \/ (size t + 2 <= size p)%nat).
Proof. apply rds_size; [exact a_dot_size|]. intros d (x & y & -> & Hx & Hy). apply a_dot_size in Hx, Hy. rewrite size_app. lia. Qed.
Lemma path_normal_size S keep h p t : path_normal S keep h p t -> (size t <= size p)%nat /\ (starts_with (lit "//") t = true -> starts_with (lit "//") p = true \/ (size t + 2 <= size p)%nat).
Proof.
  unfold path_normal. destruct (keep && negb h && negb (starts_with (lit "/") p)).
  - intros P. split; [exact (pn_size _ _ _ P)|]. intros X. left. exact (pn_starts _ _ _ P X).
  - intros (p' & P & R). apply literal_size in R. destruct R as (R1 & R2). pose proof (pn_size _ _ _ P). split; [lia|]. intros X. apply R2 in X. destruct X as [X|X]; [left; exact (pn_starts _ _ _ P X)|right; lia].
Qed.
(** No authority: the path does not begin with "//". *)
Definition calm (C : comps) : Prop := c_a C = None -> starts_with (lit "//") (c_p C) = false.
Lemma ok_calm S C : comps_ok S C -> calm C.
Proof. intros H E. apply components_weak in H. destruct H as (_ & H & _). rewrite E in H. exact H. Qed.
Definition path_shrinks (p t : str) : Prop := (size t <= size p)%nat /\ (starts_with (lit "//") t = true -> starts_with (lit "//") p = true \/ (size t + 2 <= size p)%nat).
Lemma unparse_size M T : calm M -> defined (c_a T) = defined (c_a M) -> (osize 1 (c_s T) <= osize 1 (c_s M))%nat -> (osize 2 (c_a T) <= osize 2 (c_a M))%nat -> path_shrinks (c_p M) (c_p T) ->
  (osize 1 (c_q T) <= osize 1 (c_q M))%nat -> (osize 1 (c_f T) <= osize 1 (c_f M))%nat -> (size (unparse T) <= size (render M))%nat.
Proof.
  intros Cm D Hs Ha (Hp & Hx) Hq Hf. change (unparse T) with (render (reread T)). rewrite !render_size. cbn [reread c_s c_a c_p c_q c_f].
  assert (size (safe_path (c_a T) (c_p T)) <= size (c_p M))%nat; [|lia]. unfold safe_path. destruct (c_a T) as [a|]; [exact Hp|]. destruct (starts_with (lit "//") (c_p T)); [|exact Hp].
  destruct (Hx eq_refl) as [X|X]; [|rewrite size_app; change (size (lit "/.")) with 2%nat; lia]. rewrite Cm in X; [discriminate|]. destruct (c_a M); [discriminate|reflexivity].
Qed.
Lemma normal_size S keep M T : calm M -> comps_normal S keep M T -> (size (unparse T) <= size (render M))%nat.
Proof.
  intros Cm (Ns & Na & Np & Nq & Nf). apply unparse_size; auto.
  - destruct (c_a M), (c_a T); cbn in *; try easy.
  - eapply opt_size; [|exact Ns]. intros a b ->. rewrite map_lower_size. lia.
  - eapply opt_size; [|exact Na]. apply authority_normal_size.
  - exact (path_normal_size _ _ _ _ _ Np).
  - eapply opt_size; [|exact Nq]. apply pn_size.
  - eapply opt_size; [|exact Nf]. apply pn_size.
Qed.
Lemma merge_size h b r m : merge h b r m -> (size m <= size b + size r + 1)%nat.
Proof. intros [_ _|dir last _ -> _|_ _]; rewrite ?size_app; change (size (lit "/")) with 1%nat; lia. Qed.
Lemma pre_size S B R M : comps_ok S B -> comps_ok S R -> pre_transform B R M -> (size (render M) <= size (render B) + size (render R) + 1)%nat /\ calm M.
Proof.
  intros HB HR P. apply ok_calm in HB. apply ok_calm in HR. rewrite !render_size. destruct P as [P1|P1 P2|P1 P2 P3|r P1 P2 P3|m P1 P2 P3 P4 P5]; cbn [c_s c_a c_p c_q c_f].
  - split; [lia|exact HR].
  - split; [lia|]. exact HR.
  - split; [destruct (c_q R); cbn [defined]; rewrite ?P3; cbn [osize]; lia|]. exact HB.
  - split; [lia|]. intros _. apply HR. destruct (c_a R); [discriminate|reflexivity].
  - split; [apply merge_size in P5; lia|]. intros E. cbn [c_a c_p] in *. assert (HR' : starts_with (lit "//") (c_p R) = false) by (apply HR; destruct (c_a R); [discriminate|reflexivity]). specialize (HB E).
    apply Bool.not_true_iff_false. intros X. apply starts_with_iff in X. destruct X as (x & X). destruct P5 as [D _|dir last _ Eb Hl|_ _].
    + rewrite E in D. discriminate.
    + rewrite Eb in HB. destruct dir as [|c [|d dir]]; cbn in X.
      * injection X as X. apply (P4 x). exact X.
      * injection X as -> _. cbn in HB. discriminate.
      * injection X as -> -> _. cbn in HB. discriminate.
    + rewrite X in HR'. cbn in HR'. discriminate.
Qed.
(** The text of a display. *)
Lemma text_ret {A} (d : W A) out : text d = Ok out -> exists a, snd d = Ret a /\ concat (fst d) = out.
Proof. unfold text. destruct d as [cs e]. cbn. destruct e; intros H; try discriminate. injection H as <-. eauto. Qed.
Lemma fits {A} (d : W A) out buf : text d = Ok out -> (size out <= length buf)%nat -> write_to_slice buf d = (Ok (Some (utf8s out)), utf8s out ++ skipn (size out) buf).
Proof. intros T L. apply text_ret in T. destruct T as (a & H & <-). exact (slice_ok buf d a H L). Qed.
Lemma normalize_size S keep i buf : IRI S i -> (length (utf8s i) <= length buf)%nat -> exists n out,
  norm keep i = Ok n /\ display S n = Ok out /\ (length (utf8s out) <= length (utf8s i))%nat /\
  write_to_slice buf (fmt_normalized S n) = (Ok (Some (utf8s out)), utf8s out ++ skipn (length (utf8s out)) buf).
Proof.
  intros V L. apply iri_reads in V. destruct V as (C & R & D). destruct (c15_components S keep i C R D) as (n & T & E & Nt & _ & X). exists n, (unparse T).
  assert (Z : (size (unparse T) <= size i)%nat). { destruct R as (O & ->). apply (normal_size S keep C T); [exact (ok_calm _ _ O)|exact Nt]. }
  split; [exact E|]. split; [exact X|]. split; [exact Z|]. apply fits; [exact X|]. unfold size in *. lia.
Qed.
Lemma resolve_size S mode base ref buf : IRI S base -> IRI_reference S ref -> (length (utf8s base) + length (utf8s ref) + 1 <= length buf)%nat -> exists n out,
  resolve base ref = Ok n /\ display S (set_mode n mode) = Ok out /\ (length (utf8s out) <= length (utf8s base) + length (utf8s ref) + 1)%nat /\
  write_to_slice buf (fmt_normalized S (set_mode n mode)) = (Ok (Some (utf8s out)), utf8s out ++ skipn (length (utf8s out)) buf).
Proof.
  intros VB VR L. assert (G : exists n out, resolve base ref = Ok n /\ display S (set_mode n mode) = Ok out /\ (size out <= size base + size ref + 1)%nat).
  { destruct (resolve_valid S base ref mode false VB VR) as (n & out & E & X & _). exists n, out. split; [exact E|]. split; [exact X|].
    apply iri_reads in VB. destruct VB as (B & HB & DB). apply reference_reads in VR. destruct VR as (R & HR).
    assert (K : forall k, mode = mode_keep k -> (size out <= size base + size ref + 1)%nat).
    { intros k ->. destruct (resolve_norm_spec S k base ref B R HB DB HR) as (n' & M & T & E' & P & N & X' & _). rewrite E in E'. injection E' as <-. rewrite X in X'. injection X' as ->.
      destruct HB as (OB & ->), HR as (OR & ->). destruct (pre_size S B R M OB OR P) as (Z & Cm). pose proof (normal_size S k M T Cm N). change (recompose (c_s B) (c_a B) (c_p B) (c_q B) (c_f B)) with (render B). change (recompose (c_s R) (c_a R) (c_p R) (c_q R) (c_f R)) with (render R). lia. }
    destruct mode; [|now apply (K false)|now apply (K true)]. clear K.
    destruct (resolve_spec S base ref B R HB DB HR) as (n' & T & E' & Tr & _ & X' & _). rewrite E in E'. injection E' as <-.
    destruct (resolve_norm_spec S false base ref B R HB DB HR) as (_ & M & _ & _ & P & _).
    assert (n = set_mode n MNone). { clear - E HB HR DB. destruct B as [[bs|] ba bp bq bf]; [|discriminate]. destruct R as [rs ra rp rq rf]. destruct HB as [HB ->], HR as [HR ->]. cbn [c_s c_a c_p c_q c_f] in *.
      rewrite resolve_rec in E by (eapply components_weak; eauto). injection E as <-. unfold input_of. destruct rs, ra; auto. destruct (is_empty rp); reflexivity. }
    rewrite <- H in X. rewrite X in X'. injection X' as ->. destruct HB as (OB & ->), HR as (OR & ->). destruct (pre_size S B R M OB OR P) as (Z & Cm). change (recompose (c_s B) (c_a B) (c_p B) (c_q B) (c_f B)) with (render B). change (recompose (c_s R) (c_a R) (c_p R) (c_q R) (c_f R)) with (render R).
    destruct (pre_transform_rds _ _ _ _ P Tr) as (E1 & E2 & E3 & E4 & E5). assert (size (unparse T) <= size (render M))%nat; [|lia]. apply unparse_size; rewrite ?E1, ?E2, ?E3, ?E4; auto.
    destruct E5 as [E5| ->]; [exact (rds_size' _ _ E5)|]. split; [lia|auto]. }
  destruct G as (n & out & E & X & Z). exists n, out. split; [exact E|]. split; [exact X|]. split; [exact Z|]. apply fits; [exact X|]. unfold size in *. lia.
Qed.
Lemma triplets_size bs : Forall (fun b => b < 256) bs -> size (triplets bs) = (3 * length bs)%nat.
Proof.
  induction 1 as [|b bs Hb H IH]; [reflexivity|]. unfold triplets in *. cbn [flat_map]. rewrite size_app, IH. unfold triplet. rewrite !size_cons. change (size []) with 0%nat.
  destruct (hex_digit_facts (b / 16) (byte_div b Hb)) as (_ & X & _). destruct (hex_digit_facts (b mod 16) (byte_mod b)) as (_ & Y & _). rewrite (clen_ascii 37) by reflexivity. rewrite !clen_ascii by now apply hexdig_ascii. cbn [length]. lia.
Qed.
Lemma encode_size ok s : all_scalar s = true -> (size (encode ok s) <= 3 * size s)%nat.
Proof.
  induction s as [|c s IH]; intros A; [cbn; lia|]. cbn [all_scalar forallb] in A. apply Bool.andb_true_iff in A. destruct A as (A1 & A2). change (encode ok (c :: s)) with ((if ok c then [c] else triplets (utf8 c)) ++ encode ok s). rewrite size_app, size_cons. specialize (IH A2).
  destruct (ok c); [rewrite size_cons; change (size []) with 0%nat; lia|]. rewrite triplets_size by now apply utf8_bytes. rewrite utf8_len. lia.
Qed.
Lemma mask_size S t i : editable t = true -> new S t i = Ok i -> exists j, text (mask_display i) = Ok j /\ (length (utf8s j) <= length (utf8s i))%nat.
Proof.
  intros Ht V. destruct (editable_reads S t i Ht V) as (C & R). destruct (password_cases S i C R) as [H|(user & pw & h & o & Ds & Hc)].
  - exists i. split; [exact (proj1 (mask_none false true S t i C V H))|lia].
  - destruct (mask_ok false S t i C user pw h o Ht V Ds Hc) as (j & M & _ & _ & _ & Dj). exists j. split; [exact M|]. apply dissects_render in Ds. apply dissects_render in Dj. rewrite with_with in Dj. subst i j.
    change ((size (render (with_authority C (Some (user_password user [])) h o)) <= size (render (with_authority C (Some (user_password user pw)) h o)))%nat). rewrite !render_size. cbn [with_authority c_s c_a c_p c_q c_f osize]. rewrite !authority_size. cbn [osize]. unfold user_password. rewrite !size_app. change (size []) with 0%nat. lia.
Qed.
Lemma encoder_size A S ctx (d : W A) a : snd d = Ret a -> all_scalar (concat (fst d)) = true ->
  exists out, text (PercentEncoded S ctx d) = Ok out /\ (length (utf8s out) <= 3 * length (utf8s (concat (fst d))))%nat.
Proof.
  intros H A0. exists (encode (is_valid_char S ctx) (concat (fst d))). split; [|now apply encode_size]. now apply (pe_text S ctx d a).
Qed.
Lemma mapped_size s : all_scalar s = true -> exists out, text (MappedToUri s) = Ok out /\ (length (utf8s out) <= 3 * length (utf8s s))%nat.
Proof. intros A. exists (to_uri s). split; [now apply mapped_text|]. now apply encode_size. Qed.
