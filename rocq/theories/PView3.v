(** * Proofs for C76: the other kinds of references. *)
From Verif Require Import Base Chars Rfc3986 Utf8 CompSpec RfcResolve PctSpec NormSpec EncodeSpec EditSpec
  MValidate MTrusted MFormat MPct MPath MNormalize PBase PNorm7 PNorm8 PBaseNorm PComps PEquiv PView PView2 ViewSpec.

(** "?query#fragment" and "#fragment": the path is left as it is. *)
Lemma resolve_empty_view S base ref V R : views S base V -> reads S ref R -> c_s R = None -> c_a R = None -> c_p R = [] ->
  exists n out, resolve base ref = Ok n /\ display S n = Ok out /\
    views S out (same_place V (option_map decoded (c_q R)) (option_map decoded (c_f R))).
Proof.
  intros H RR Rs Ra Rp. destruct H as [B s u h o lb D Es Lb]. destruct D as (RB & Ea & Hu & Hh & Ho). unfold same_place.
  cbn [v_scheme v_userinfo v_host v_port v_path v_query].
  assert (DB : defined (c_s B) = true) by now rewrite Es.
  destruct (c10_resolution S base ref B R RB DB RR) as (n & T & En & Tr & _ & Ed). exists n, (unparse T). split; [exact En|]. split; [exact Ed|].
  assert (G : c_s T = c_s B /\ c_a T = c_a B /\ c_p T = c_p B /\ c_q T = (match c_q R with Some x => Some x | None => c_q B end) /\ c_f T = c_f R).
  { destruct Tr as [p X _|p _ X _|_ _ X|r p _ _ X Rd|m p _ _ Y X M Rd]; rewrite ?Rs, ?Ra, ?Rp in *; try discriminate; [repeat split; cbn [c_q]; now destruct (c_q R)|now elim Y]. }
  destruct G as (G1 & G2 & G3 & G4 & G5).
  replace (match option_map decoded (c_q R) with Some x => Some x | None => option_map decoded (c_q B) end) with (option_map decoded (c_q T)) by (rewrite G4; now destruct (c_q R)).
  rewrite <- G5.
  apply (target_views S B R T u h o s lb); auto; [exact (proj1 RB)|exact (proj1 RR)|now rewrite G1|now rewrite G2|now rewrite G3].
Qed.
(** "//host/path": only the scheme of the base is used. *)
Lemma resolve_authority_view S base ref V R a u h o l : views S base V -> reads S ref R -> c_s R = None -> c_a R = Some a ->
  a = authority_string u h o -> opt_in (userinfo S) u -> host S h -> opt_in port o -> path_segments (c_p R) l ->
  exists n out, resolve base ref = Ok n /\ display S n = Ok out /\
    views S out (mkV (v_scheme V) (option_map decoded u) (map lower (decoded h)) (match o with Some x => x | None => [] end)
                     (walked (map decoded l)) (option_map decoded (c_q R)) (option_map decoded (c_f R))).
Proof.
  intros H RR Rs Ra -> Hu Hh Ho L. destruct H as [B s ub hb ob lb D Es Lb]. destruct D as (RB & _). cbn [v_scheme].
  assert (DB : defined (c_s B) = true) by now rewrite Es.
  destruct (c10_resolution S base ref B R RB DB RR) as (n & T & En & Tr & _ & Ed). exists n, (unparse T). split; [exact En|]. split; [exact Ed|].
  assert (Wr : pct_wf (c_p R)) by (eapply comps_path_wf; exact (proj1 RR)).
  assert (G : exists p, rds (c_p R) p /\ c_s T = c_s B /\ c_a T = c_a R /\ c_p T = p /\ c_q T = c_q R /\ c_f T = c_f R).
  { destruct Tr as [p X _|p _ X Rd|_ X _|r p _ X _ Rd|m p _ X _ _ M Rd]; rewrite ?Rs, ?Ra in *; try discriminate. exists p. now repeat split. }
  destruct G as (p & Rd & G1 & G2 & G3 & G4 & G5). destruct (rds_walk _ _ _ Rd L Wr) as (k & Lk & Ek).
  rewrite <- Ek, <- G4, <- G5.
  apply (target_views S B R T u h o s k); auto; [exact (proj1 RB)|exact (proj1 RR)|now rewrite G1|now rewrite G2|now rewrite G3].
Qed.
(** "scheme://host/path": nothing of the base is used, whether it has an authority or not. *)
Lemma resolve_full_view S base ref B V : reads S base B -> defined (c_s B) = true -> views S ref V ->
  exists n out, resolve base ref = Ok n /\ display S n = Ok out /\ views S out (moved_to V (walked (v_path V))).
Proof.
  intros RB DB H. destruct H as [R s u h o l D Es L]. destruct D as (RR & Ea & Hu & Hh & Ho). unfold moved_to. cbn [v_scheme v_userinfo v_host v_port v_path v_query v_fragment].
  destruct (c10_resolution S base ref B R RB DB RR) as (n & T & En & Tr & _ & Ed). exists n, (unparse T). split; [exact En|]. split; [exact Ed|].
  assert (Wr : pct_wf (c_p R)) by (eapply comps_path_wf; exact (proj1 RR)).
  assert (G : exists p, rds (c_p R) p /\ c_s T = c_s R /\ c_a T = c_a R /\ c_p T = p /\ c_q T = c_q R /\ c_f T = c_f R).
  { destruct Tr as [p X Rd|p X _ Rd|X _ _|r p X _ _ Rd|m p X _ _ _ M Rd]; rewrite ?Es in *; try discriminate. exists p. now repeat split. }
  destruct G as (p & Rd & G1 & G2 & G3 & G4 & G5). destruct (rds_walk _ _ _ Rd L Wr) as (k & Lk & Ek).
  rewrite <- Ek, <- G4, <- G5.
  apply (target_views S B R T u h o s k); auto; [exact (proj1 RB)|exact (proj1 RR)|now rewrite G1|now rewrite G2|now rewrite G3].
Qed.
