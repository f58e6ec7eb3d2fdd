(** * Editing commutes with resolution (proofs). *)
From Verif Require Import Base Chars Rfc3986 Utf8 CompSpec RfcResolve NormSpec EditSpec MValidate MTrusted MFormat MWriters MPct MPath MNormalize MEdit
  PBase PScan PTrusted PComps PTypes PResolve PNorm7 PEdit PEditNorm.
Open Scope string_scope. Open Scope N_scope. Open Scope list_scope.

Definition with_a (C : comps) (a : option str) : comps := mkC (c_s C) a (c_p C) (c_q C) (c_f C).
Definition masks (S : Spec) (a a' : option str) : Prop :=
  (a = None /\ a' = None) \/
  (exists u h o, a = Some (authority_string u h o) /\ opt_in (userinfo S) u /\ host S h /\ opt_in port o /\
     ((forall x, u = Some x -> ~ In 58 x) /\ a' = a \/
      exists user pw, u = Some (user_password user pw) /\ ~ In 58 user /\ a' = Some (authority_string (Some (user_password user [])) h o))).
Lemma user_unique u p u' p' : ~ In 58 u -> ~ In 58 u' -> user_password u p = user_password u' p' -> u = u'.
Proof.
  unfold user_password. change (lit ":" ++ p) with (58 :: p). change (lit ":" ++ p') with (58 :: p'). revert u'. induction u as [|c u IH]; intros [|d u'] H H' E; cbn in E; auto.
  - injection E as <- _. exfalso. apply H'. now left.
  - injection E as -> _. exfalso. apply H. now left.
  - injection E as -> E. f_equal. apply IH; auto; intros I; [apply H|apply H']; now right.
Qed.
Lemma masks_fun S a x y : masks S a x -> masks S a y -> x = y.
Proof.
  intros [[A ->]|(u & h & o & -> & Hu & Hh & Ho & H)] [[B ->]|(u' & h' & o' & E & Hu' & Hh' & Ho' & H')]; try congruence.
  injection E as E. apply (authority_unique S) in E; auto. injection E as <- <- <-.
  destruct H as [(H & ->)|(user & pw & -> & Hc & ->)], H' as [(H' & ->)|(user' & pw' & E' & Hc' & ->)]; auto.
  - exfalso. apply (H _ E'). unfold user_password. rewrite in_app_iff. right. now left.
  - exfalso. apply (H' _ eq_refl). unfold user_password. rewrite in_app_iff. right. now left.
  - injection E' as E'. apply user_unique in E'; auto. now subst.
Qed.
Lemma masks_defined S a x : masks S a x -> defined x = defined a.
Proof. intros [[-> ->]|(u & h & o & -> & _ & _ & _ & [(_ & ->)|(user & pw & _ & _ & ->)])]; reflexivity. Qed.
Lemma mask_edit S t i C : editable t = true -> new S t i = Ok i -> reads S i C -> exists j a,
  text (mask_display i) = Ok j /\ reads S j (with_a C a) /\ masks S (c_a C) a.
Proof.
  intros Ht V R. assert (EC : with_a C (c_a C) = C) by (destruct C; reflexivity). destruct (password_cases S i C R) as [H|(user & pw & h & o & Ds & Hc)].
  - exists i, (c_a C). rewrite EC. split; [exact (proj1 (mask_none false true S t i C V H))|]. split; [exact R|].
    destruct H as [(_ & E)|[(h & o & _ & E & Hu & Hh & Ho)|(u & h & o & (_ & E & Hu & Hh & Ho) & Hc)]]; [left; auto|right; exists None, h, o|right; exists (Some u), h, o].
    + do 4 (split; [assumption|]). left. split; [discriminate|reflexivity].
    + do 4 (split; [assumption|]). left. split; [intros x X; injection X as <-; exact Hc|reflexivity].
  - destruct (mask_ok false S t i C user pw h o Ht V Ds Hc) as (j & M & _ & _ & _ & Dj). exists j, (Some (authority_string (Some (user_password user [])) h o)). split; [exact M|]. split; [exact (proj1 Dj)|].
    right. destruct Ds as (_ & E & Hu & Hh & Ho). exists (Some (user_password user pw)), h, o. do 4 (split; [assumption|]). right. eauto.
Qed.
Lemma transform_a B R T aB aR : transform B R T -> defined aB = defined (c_a B) -> defined aR = defined (c_a R) -> exists aT,
  transform (with_a B aB) (with_a R aR) (with_a T aT) /\ ((c_a T = c_a R /\ aT = aR) \/ (c_a T = c_a B /\ aT = aB)).
Proof.
  intros [p A1 R1|p A1 A2 R1|A1 A2 A3|r p A1 A2 A3 R1|m p A1 A2 A3 A4 M1 R1] DB DR; rewrite <- ?DR in *; rewrite <- ?DB in *; cbn [c_a].
  - exists aR. split; [|now left]. now apply (tr_scheme rds (with_a B aB) (with_a R aR)).
  - exists aR. split; [|now left]. now apply (tr_authority rds (with_a B aB) (with_a R aR)).
  - exists aB. split; [|now right]. now apply (tr_empty_path rds (with_a B aB) (with_a R aR)).
  - exists aB. split; [|now right]. now apply (tr_abs_path rds (with_a B aB) (with_a R aR) r).
  - exists aB. split; [|now right]. now apply (tr_rel_path rds (with_a B aB) (with_a R aR) m).
Qed.
Lemma unparse_a T a : defined a = defined (c_a T) -> unparse (with_a T a) = render (with_a (reread T) a).
Proof. intros D. unfold unparse, render, reread, with_a. cbn [c_s c_a c_p c_q c_f]. destruct a, (c_a T); try discriminate; reflexivity. Qed.
Lemma mask_resolve S base ref : IRI S base -> IRI_reference S ref -> exists n out b r m k,
  resolve base ref = Ok n /\ display S n = Ok out /\ text (mask_display base) = Ok b /\ text (mask_display ref) = Ok r /\
  resolve b r = Ok m /\ display S m = Ok k /\ text (mask_display out) = Ok k.
Proof.
  intros VB VR. assert (HB := VB). assert (HR := VR). apply iri_reads in HB. destruct HB as (B & HB & DB). apply reference_reads in HR. destruct HR as (R & HR).
  destruct (resolve_spec S base ref B R HB DB HR) as (n & T & E & Tr & _ & X & RT & VT).
  destruct (mask_edit S TIri base B eq_refl (new_tiri _ _ VB) HB) as (b & aB & Eb & Rb & Mb). destruct (mask_edit S TReference ref R eq_refl) as (r & aR & Er & Rr & Mr); [now apply new_ok|exact HR|].
  destruct (mask_edit S TIri (unparse T) (reread T) eq_refl (new_tiri _ _ VT) RT) as (k & aT & Ek & Rk & Mk).
  destruct (transform_a B R T aB aR Tr (masks_defined _ _ _ Mb) (masks_defined _ _ _ Mr)) as (aT' & Tr' & HA).
  assert (MT : masks S (c_a T) aT') by (destruct HA as [(-> & ->)|(-> & ->)]; assumption). change (c_a (reread T)) with (c_a T) in Mk. pose proof (masks_fun _ _ _ _ MT Mk). subst aT'.
  destruct (resolve_spec S b r _ _ Rb DB Rr) as (m & T2 & Em & _ & U & Xm & _). apply U in Tr'. subst T2.
  exists n, (unparse T), b, r, m, k. do 5 (split; [assumption|]). split; [|assumption]. rewrite Xm. f_equal. rewrite unparse_a by (exact (masks_defined _ _ _ Mk)). destruct Rk as (_ & ->). reflexivity.
Qed.
(** The fragment of the reference. *)
Lemma transform_f B R T f : transform B R T -> transform B (with_fragment R f) (with_fragment T f).
Proof.
  intros [p A1 R1|p A1 A2 R1|A1 A2 A3|r p A1 A2 A3 R1|m p A1 A2 A3 A4 M1 R1].
  - now apply (tr_scheme rds B (with_fragment R f)).
  - now apply (tr_authority rds B (with_fragment R f)).
  - now apply (tr_empty_path rds B (with_fragment R f)).
  - now apply (tr_abs_path rds B (with_fragment R f) r).
  - now apply (tr_rel_path rds B (with_fragment R f) m).
Qed.
Lemma fragment_resolve debug S t base ref f : IRI S base -> fragmentable t = true -> new S t ref = Ok ref -> opt_in (fragment S) f -> exists n out r m k,
  resolve base ref = Ok n /\ display S n = Ok out /\ set_fragment debug S t ref f = Ok r /\
  resolve base r = Ok m /\ display S m = Ok k /\ set_fragment debug S TIri out f = Ok k.
Proof.
  intros VB Ht VR Hf. assert (He : editable t = true) by (destruct t; try discriminate; reflexivity). assert (HB := VB). apply iri_reads in HB. destruct HB as (B & HB & DB). destruct (editable_reads S t ref He VR) as (R & HR).
  destruct (resolve_spec S base ref B R HB DB HR) as (n & T & E & Tr & _ & X & RT & VT).
  assert (Ff : match f with Some x => new S TFragment x = Ok x | None => True end) by (destruct f; auto; now apply new_ok).
  destruct (set_fragment_ok debug S t ref R f Ht VR HR Ff) as (r & Er & _ & Rr). destruct (set_fragment_ok debug S TIri _ _ f eq_refl (new_tiri _ _ VT) RT Ff) as (k & Ek & _ & (_ & Rk)).
  destruct (resolve_spec S base r _ _ HB DB Rr) as (m & T2 & Em & _ & U & Xm & _). pose proof (U _ (transform_f B R T f Tr)). subst T2.
  exists n, (unparse T), r, m, k. do 4 (split; [assumption|]). split; [|assumption]. rewrite Xm. now rewrite Rk.
Qed.
(** The authority of the base, when the reference has none. *)
Lemma resolve_base_authority S base ref B R u h o v g p : dissects S base B u h o -> defined (c_s B) = true -> reads S ref R -> defined (c_s R) = false -> defined (c_a R) = false ->
  opt_in (userinfo S) v -> host S g -> opt_in port p ->
  exists n out T m, resolve base ref = Ok n /\ display S n = Ok out /\ dissects S out T u h o /\ defined (c_s T) = true /\ c_f T = c_f R /\
  resolve (render (with_authority B v g p)) ref = Ok m /\ display S m = Ok (render (with_authority T v g p)).
Proof.
  intros Ds DB HR DS DA Hv Hg Hp. pose proof (dissects_authority S base B u h o v g p Ds Hv Hg Hp) as Ds'. destruct Ds as (HB & Ea & Hu & Hh & Ho).
  destruct (resolve_spec S base ref B R HB DB HR) as (n & T & E & Tr & _ & X & RT & VT). destruct (resolve_spec S _ ref _ R (proj1 Ds') DB HR) as (m & T2 & Em & _ & U & Xm & _).
  destruct (transform_a B R T (Some (authority_string v g p)) (c_a R) Tr) as (aT & Tr' & HA); [now rewrite Ea|reflexivity|]. assert (ER : with_a R (c_a R) = R) by (destruct R; reflexivity). rewrite ER in Tr'. apply U in Tr'. subst T2.
  assert (HT : c_a T = c_a B /\ c_s T = c_s B /\ c_f T = c_f R) by (destruct Tr; cbn; auto; congruence). destruct HT as (T1 & T2 & T3).
  assert (aT = Some (authority_string v g p)). { destruct HA as [(A & _)|(_ & A)]; [|exact A]. rewrite T1, Ea in A. rewrite <- A in DA. discriminate. } subst aT.
  exists n, (unparse T), (reread T), m. do 2 (split; [assumption|]). split. { split; [exact RT|]. split; [cbn [reread c_a]; congruence|]. auto. }
  split; [cbn [reread c_s]; congruence|]. split; [exact T3|]. split; [exact Em|]. rewrite Xm. f_equal. apply unparse_a. now rewrite T1, Ea.
Qed.
Lemma remove_resolve debug S base ref B R user pw h o : dissects S base B (Some (user_password user pw)) h o -> ~ In 58 user -> defined (c_s B) = true ->
  reads S ref R -> defined (c_s R) = false -> defined (c_a R) = false ->
  exists n out b m k, resolve base ref = Ok n /\ display S n = Ok out /\ remove_password_inline debug S TIri base = Ok b /\
  resolve b ref = Ok m /\ display S m = Ok k /\ remove_password_inline debug S TIri out = Ok k.
Proof.
  intros Ds Hc DB HR DS DA. destruct (remove_pw_ok debug S TIri base B user pw h o eq_refl (new_tiri _ _ (reads_iri _ _ _ (proj1 Ds) DB)) Ds Hc) as (b & Eb & _ & Db). pose proof Db as (_ & _ & Hu & Hh & Ho).
  destruct (resolve_base_authority S base ref B R _ h o (Some user) h o Ds DB HR DS DA Hu Hh Ho) as (n & out & T & m & E & X & Dt & DT & _ & Em & Xm).
  destruct (remove_pw_ok debug S TIri out T user pw h o eq_refl (new_tiri _ _ (reads_iri _ _ _ (proj1 Dt) DT)) Dt Hc) as (k & Ek & _ & Dk).
  apply dissects_render in Db. apply dissects_render in Dk. rewrite with_with in *. subst b k. exists n, out. eexists. exists m. eexists. repeat (split; [eassumption|]). assumption.
Qed.
Lemma replace_resolve S base ref B R user pw h o x : dissects S base B (Some (user_password user pw)) h o -> ~ In 58 user -> defined (c_s B) = true -> userinfo S x ->
  reads S ref R -> defined (c_s R) = false -> defined (c_a R) = false ->
  exists n out b m k, resolve base ref = Ok n /\ display S n = Ok out /\ text (replaced_display base (fun _ => write x)) = Ok b /\
  resolve b ref = Ok m /\ display S m = Ok k /\ text (replaced_display out (fun _ => write x)) = Ok k.
Proof.
  intros Ds Hc DB Hx HR DS DA. pose proof Ds as (_ & _ & Hu & Hh & Ho). cbn [opt_in] in Hu.
  assert (Hv : opt_in (userinfo S) (Some (user_password user x))).
  { cbn [opt_in]. apply userinfo_scan. apply userinfo_scan in Hx, Hu. unfold user_password in *. change (lit ":" ++ x) with (58 :: x). change (lit ":" ++ pw) with (58 :: pw) in Hu. rewrite scan_delim in * by (reflexivity || discriminate). bdestr. rewrite H, Hx. destruct S; reflexivity. }
  destruct (resolve_base_authority S base ref B R _ h o _ h o Ds DB HR DS DA Hv Hh Ho) as (n & out & T & m & E & X & Dt & DT & _ & Em & Xm).
  assert (M := replaced_ok unit S base B user pw h o (fun _ => write x) tt Ds Hc eq_refl). assert (M' := replaced_ok unit S out T user pw h o (fun _ => write x) tt Dt Hc eq_refl).
  cbn [write fst concat] in M, M'. rewrite app_nil_r in M, M'. exists n, out. eexists. exists m. eexists. repeat (split; [eassumption|]). assumption.
Qed.
Lemma host_resolve debug S base ref B R u h o g : dissects S base B u h o -> defined (c_s B) = true -> host S g ->
  reads S ref R -> defined (c_s R) = false -> defined (c_a R) = false ->
  (debug = false \/ (c_f B = None \/ c_f B = Some []) /\ (c_f R = None \/ c_f R = Some [])) ->
  exists n out b m k, resolve base ref = Ok n /\ display S n = Ok out /\ replace_host debug true S TIri base g false = Ok (Some g, b) /\
  resolve b ref = Ok m /\ display S m = Ok k /\ replace_host debug true S TIri out g false = Ok (Some g, k).
Proof.
  intros Ds DB Hg HR DS DA F. pose proof Ds as (_ & _ & Hu & Hh & Ho).
  destruct (resolve_base_authority S base ref B R u h o u g o Ds DB HR DS DA Hu Hg Ho) as (n & out & T & m & E & X & Dt & DT & Fr & Em & Xm).
  destruct (replace_host_ok debug true S TIri base B u h o g false eq_refl (new_tiri _ _ (reads_iri _ _ _ (proj1 Ds) DB)) Ds Hg) as (b & _ & Db & J & _); [discriminate|tauto|].
  destruct (replace_host_ok debug true S TIri out T u h o g false eq_refl (new_tiri _ _ (reads_iri _ _ _ (proj1 Dt) DT)) Dt Hg) as (k & _ & Dk & K & _); [discriminate|rewrite Fr; tauto|].
  apply dissects_render in Db. apply dissects_render in Dk. rewrite ?with_with in *. destruct (J (or_introl eq_refl)) as (J1 & _), (K (or_introl eq_refl)) as (K1 & _). subst b k.
  exists n, out. eexists. exists m. eexists. repeat (split; [eassumption|]). assumption.
Qed.
