(** * Bases that end with ".." (proofs). *)
From Verif Require Import Base Chars Rfc3986 Utf8 CompSpec PctSpec RfcResolve NormSpec StepSpec MValidate MTrusted MFormat MPct MPath MNormalize
  PBase PScan PTrusted PComps PTypes PPath PPath4 PPath5 PResolve PRds PNorm2 PNorm7 PNorm8 PEquiv PEdit PBaseNorm PEditNorm PSteps PSteps2.
Open Scope string_scope. Open Scope N_scope. Open Scope list_scope.

Lemma base_opaque S base ref B : reads S base B -> defined (c_s B) = true -> IRI_reference S ref -> c_a B = None -> (forall w, c_p B <> lit "/" ++ w) ->
  exists nb base' n n' out, normalize_preserve base = Ok nb /\ display S nb = Ok base' /\
    resolve base ref = Ok n /\ display S (set_mode n MPreserve) = Ok out /\ resolve base' ref = Ok n' /\ display S (set_mode n' MPreserve) = Ok out.
Proof.
  intros H1 H2 H3 Ha Hp. apply (base_normal_gen S true base ref B H1 H2 H3). left. rewrite Ha. cbn [defined negb andb]. apply Bool.negb_true_iff. destruct (starts_with (lit "/") (c_p B)) eqn:E; [|reflexivity]. apply starts_with_iff in E. destruct E as (w & E). now elim (Hp w).
Qed.
Lemma trail_normal S keep C T seg : last_segment (c_p C) seg -> double_dot seg -> keep && negb (defined (c_a C)) && negb (starts_with (lit "/") (c_p C)) = false ->
  comps_normal S keep C T -> comps_normal S keep (with_path C (c_p C ++ [47])) T.
Proof.
  intros L D O (N1 & N2 & N3 & N4). unfold comps_normal, with_path. cbn [c_s c_a c_p c_q c_f]. do 2 (split; [assumption|]). split; [|exact N4].
  assert (Ne : c_p C <> []). { destruct L as (x & -> & _). intros E. apply app_eq_nil in E. destruct E as (_ & ->). apply double_dot_ok in D. tauto. }
  assert (O' : keep && negb (defined (c_a C)) = false \/ starts_with (lit "/") (c_p C) = true). { apply Bool.andb_false_iff in O. destruct O as [O|O]; [now left|right; now apply Bool.negb_false_iff in O]. }
  apply pathn_cases in N3. apply pathn_cases. right. rewrite starts_cat by exact Ne. split; [exact O'|]. destruct N3 as [(K1 & K2 & _)|(_ & N3)]; [destruct O'; congruence|].
  apply path_normal_alt in N3. apply path_normal_alt. destruct N3 as (q & R & P & W). exists q. split; [exact (rds_trail _ _ _ L D R)|]. split; [exact P|]. apply wf_slash_dir. split; [exact W|constructor].
Qed.
Lemma directory_ok S B p : comps_ok S B -> as_directory (c_p B) p -> comps_ok S (with_path B p) /\ forall seg, last_segment p seg -> ~ double_dot seg.
Proof.
  intros O [seg L D|K]; [|split; [destruct B; exact O|exact K]]. split; [|intros s; apply slash_no_parent]. destruct L as (x & L & Ns & Dx). assert (Q := double_dot_ok _ D). destruct Q as (Q & _). apply (trail_ok S B O); rewrite L; intros E; [apply app_eq_nil in E; tauto|]. destruct x as [|c [|d x]]; [|injection E as _ E; contradiction|discriminate]. cbn [app] in E. subst seg. apply Ns. now left.
Qed.
Lemma base_directory S (keep : bool) base ref B p : reads S base B -> defined (c_s B) = true -> IRI_reference S ref ->
  keep = false \/ defined (c_a B) = true \/ (exists w, c_p B = lit "/" ++ w) -> as_directory (c_p B) p ->
  let dir := recompose (c_s B) (c_a B) p (c_q B) (c_f B) in
  IRI S dir /\ exists nb base' n n' out, (if keep then normalize_preserve base else normalize base) = Ok nb /\ display S nb = Ok base' /\
    resolve base' ref = Ok n' /\ display S (set_mode n' (if keep then MPreserve else MDefault)) = Ok out /\
    resolve dir ref = Ok n /\ display S (set_mode n (if keep then MPreserve else MDefault)) = Ok out.
Proof.
  intros RB DB HR O A dir. destruct (directory_ok S B p (proj1 RB) A) as (OK & Nd). assert (RD : reads S dir (with_path B p)) by (split; [exact OK|reflexivity]).
  split; [apply (reads_iri _ _ _ RD); exact DB|].
  assert (O' : keep && negb (defined (c_a B)) && negb (starts_with (lit "/") (c_p B)) = false).
  { destruct O as [-> |[-> |(w & ->)]]; [reflexivity|now rewrite Bool.andb_false_r|]. destruct (keep && negb (defined (c_a B))); reflexivity. }
  destruct (c15_components S keep base B RB DB) as (nb & T & E & Nt & _ & X). destruct (c15_components S keep dir (with_path B p) RD DB) as (nd & T' & E' & Nt' & U' & X').
  assert (T = T') as <-. { apply U'. destruct A as [seg L D|_]; [exact (trail_normal S keep B T seg L D O' Nt)|destruct B; exact Nt]. }
  destruct (base_normal S keep dir ref (with_path B p) RD DB HR) as (nd' & b' & n & n' & out & F1 & F2 & F3 & F4 & F5 & F6).
  { intros d last El D. refine (Nd last _ D). exists (d ++ [47]). cbn [with_path c_p] in El. rewrite El. change (lit "/") with [47]. split; [now rewrite <- app_assoc|]. split; [now apply double_dot_ok|right; now exists d]. }
  rewrite E' in F1. injection F1 as <-. rewrite X' in F2. injection F2 as <-. exists nb, (unparse T), n, n', out. auto 8.
Qed.
