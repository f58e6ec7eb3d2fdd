(** * Edits of different parts (proofs). *)
From Verif Require Import Base Chars Rfc3986 Utf8 CompSpec PctSpec RfcResolve NormSpec EditSpec HistSpec SwapSpec MValidate MTrusted MFormat MWriters MPct MPath MNormalize MEdit MHist
  PBase PScan PHost PTrusted PComps PAuth PTypes PNorm PNorm2 PNorm3 PNorm4 PNorm5 PNorm7 PNorm8 PEdit PEditNorm PEditRes PHist.
Open Scope string_scope. Open Scope N_scope. Open Scope list_scope.

Definition auth := option (option str * str * option str).
Definition rep (S : Spec) (C : comps) (A : auth) : Prop :=
  match A with None => c_a C = None | Some (u, h, o) => parts S C u h o end.
Definition astr (A : auth) : option str := match A with None => None | Some (u, h, o) => Some (authority_string u h o) end.
Definition build (C : comps) (A : auth) (f : option str) : comps := mkC (c_s C) (astr A) (c_p C) (c_q C) f.

Fixpoint before (s : str) : option str :=
  match s with [] => None | c :: r => if c =? 58 then Some [] else match before r with Some u => Some (c :: u) | None => None end end.
Lemma before_some s u : before s = Some u -> exists p, s = user_password u p /\ ~ In 58 u.
Proof.
  revert u. induction s as [|c r IH]; intros u H; [discriminate|]. cbn in H. destruct (N.eqb_spec c 58) as [-> |N].
  - injection H as <-. exists r. split; [reflexivity|intros []].
  - destruct (before r) as [v|]; [|discriminate]. injection H as <-. destruct (IH v eq_refl) as (p & -> & K). exists p. split; [reflexivity|]. intros [E|E]; congruence || auto.
Qed.
Lemma before_none s : before s = None -> ~ In 58 s.
Proof.
  induction s as [|c r IH]; intros H; [intros []|]. cbn in H. destruct (N.eqb_spec c 58) as [-> |N]; [discriminate|].
  destruct (before r); [discriminate|]. intros [E|E]; [congruence|]. now apply IH.
Qed.
Lemma before_up u p : ~ In 58 u -> before (user_password u p) = Some u.
Proof.
  unfold user_password. induction u as [|c r IH]; intros H; [reflexivity|]. cbn. destruct (N.eqb_spec c 58) as [-> |N]; [exfalso; apply H; now left|].
  cbn in IH. rewrite IH; [reflexivity|]. intros K. apply H. now right.
Qed.
Definition clr (u : option str) : option str :=
  match u with None => None | Some s => match before s with Some v => Some (user_password v []) | None => Some s end end.
Definition rmv (u : option str) : option str :=
  match u with None => None | Some s => match before s with Some v => Some v | None => Some s end end.
Definition onA (k : option str * str * option str -> option str * str * option str) (A : auth) : auth := match A with None => None | Some x => Some (k x) end.
Definition absA (S : Spec) (e : edit) (A : auth) : auth :=
  match e with
  | EClearPassword | EMask => onA (fun '(u, h, o) => (clr u, h, o)) A
  | ERemovePassword => onA (fun '(u, h, o) => (rmv u, h, o)) A
  | EReplaceHost g only => onA (fun '(u, h, o) => (u, match validate_host S g with Ok _ => if only && negb (is_host_reg_name h) then h else g | _ => h end, o)) A
  | _ => A
  end.
Definition absf (e : edit) (f : option str) : option str := match e with ESetFragment g => g | _ => f end.
Definition okA (S : Spec) (e : edit) (A : auth) : Prop :=
  match e with
  | ESetFragment f => opt_in (fragment S) f
  | ERemovePassword => match A with Some (Some u, _, _) => In 58 u | _ => True end
  | ENormalize _ => False
  | _ => True
  end.
Lemma rep_ex S i C : reads S i C -> exists A, rep S C A.
Proof.
  intros R. destruct (c_a C) as [a|] eqn:E; [|now exists None]. pose proof R as [(_ & Ha & _) _]. rewrite E in Ha. apply authority_comps in Ha.
  destruct Ha as (u & h & o & -> & Hu & Hh & Ho). exists (Some (u, h, o)). repeat split; auto.
Qed.
Lemma rep_astr S C A : rep S C A -> c_a C = astr A.
Proof. destruct A as [[[u h] o]|]; cbn; [intros (E & _); exact E|auto]. Qed.
Lemma rep_build S C A : rep S C A -> build C A (c_f C) = C.
Proof. intros H. apply rep_astr in H. destruct C. cbn in *. subst. reflexivity. Qed.
Lemma parts_ok S C u h o : parts S C u h o -> forall C', c_a C' = Some (authority_string u h o) -> parts S C' u h o.
Proof. intros (_ & K) C' E. split; auto. Qed.

Lemma rep_self S C A f : rep S C A -> rep S (build C A f) A.
Proof. destruct A as [[[u h] o]|]; cbn; [|auto]. intros (_ & K). split; [reflexivity|exact K]. Qed.
Lemma host_ok_dec S g : host S g -> validate_host S g = Ok tt.
Proof. apply validate_host_iff. Qed.
Lemma host_bad S g : ~ host S g -> forall x : unit, validate_host S g <> Ok x.
Proof. intros N [] E. apply N. now apply validate_host_iff. Qed.
Lemma step S C A e : rep S C A -> okA S e A ->
  edited S C e (build C (absA S e A) (absf e (c_f C))) /\ rep S (build C (absA S e A) (absf e (c_f C))) (absA S e A).
Proof.
  intros R K. pose proof (rep_build _ _ _ R) as B.
  assert (Same : forall e', absA S e' A = A -> absf e' (c_f C) = c_f C -> edited S C e' C ->
    edited S C e' (build C (absA S e' A) (absf e' (c_f C))) /\ rep S (build C (absA S e' A) (absf e' (c_f C))) (absA S e' A)).
  { intros e' E1 E2 H. rewrite E1, E2, B. auto. }
  destruct e as [f| | | |g only|keep]; cbn [okA] in K; [| | | | |contradiction].
  - cbn [absA absf]. split; [|exact (rep_self _ _ _ _ R)]. unfold build. rewrite <- (rep_astr _ _ _ R). now apply ed_fragment.
  - destruct A as [[[[u|] h] o]|].
    + cbn [rep] in R. destruct (before u) as [v|] eqn:Eb.
      * destruct (before_some _ _ Eb) as (p & -> & Hc). cbn [absA absf onA clr]. rewrite Eb. split.
        -- apply (ed_clear S C EClearPassword v p h o); auto.
        -- cbn [rep]. destruct R as (_ & Hu & Hr). split; [reflexivity|]. split; [|exact Hr]. exact (proj2 (userinfo_cut _ _ _ Hu)).
      * apply Same; [cbn; now rewrite Eb|reflexivity|]. apply ed_clear_none; auto. right. right. exists u, h, o. split; [exact R|]. now apply before_none.
    + apply Same; [reflexivity|reflexivity|]. apply ed_clear_none; auto. right. left. exists h, o. exact R.
    + apply Same; [reflexivity|reflexivity|]. apply ed_clear_none; auto.
  - destruct A as [[[[u|] h] o]|].
    + cbn [rep] in R. destruct (before u) as [v|] eqn:Eb.
      * destruct (before_some _ _ Eb) as (p & -> & Hc). cbn [absA absf onA clr]. rewrite Eb. split.
        -- apply (ed_clear S C EMask v p h o); auto.
        -- cbn [rep]. destruct R as (_ & Hu & Hr). split; [reflexivity|]. split; [|exact Hr]. exact (proj2 (userinfo_cut _ _ _ Hu)).
      * apply Same; [cbn; now rewrite Eb|reflexivity|]. apply ed_clear_none; auto. right. right. exists u, h, o. split; [exact R|]. now apply before_none.
    + apply Same; [reflexivity|reflexivity|]. apply ed_clear_none; auto. right. left. exists h, o. exact R.
    + apply Same; [reflexivity|reflexivity|]. apply ed_clear_none; auto.
  - destruct A as [[[[u|] h] o]|].
    + cbn [rep] in R. destruct (before u) as [v|] eqn:Eb; [|now destruct (before_none _ Eb)].
      destruct (before_some _ _ Eb) as (p & -> & Hc). cbn [absA absf onA rmv]. rewrite Eb. split.
      * apply (ed_remove S C v p h o); auto.
      * cbn [rep]. destruct R as (_ & Hu & Hr). split; [reflexivity|]. split; [|exact Hr]. exact (proj1 (userinfo_cut _ _ _ Hu)).
    + apply Same; [reflexivity|reflexivity|]. apply ed_remove_none. right. exists h, o. exact R.
    + apply Same; [reflexivity|reflexivity|]. apply ed_remove_none. now left.
  - destruct A as [[[u h] o]|]; [|apply Same; [reflexivity|reflexivity|apply ed_host_none; now left]]. cbn [rep] in R. pose proof R as (Ra & Hu & Hh & Ho).
    destruct (host_dec S g) as [G|G].
    + destruct only.
      * destruct (is_host_reg_name h) eqn:Er.
        -- cbn [absA absf onA]. rewrite (host_ok_dec _ _ G), Er. cbn [andb negb]. split; [|repeat split; auto].
           apply (ed_host S C u h o g true); auto. intros _. now apply (is_host_reg_name_iff S).
        -- apply Same; [cbn [absA onA]; rewrite (host_ok_dec _ _ G), Er; reflexivity|reflexivity|]. apply ed_host_none. right. right. split; [reflexivity|]. exists u, h, o. split; [exact R|].
           destruct (ip_dec S h Hh) as [X|X]; [exact X|]. apply (is_host_reg_name_iff S) in X; auto. congruence.
      * cbn [absA absf onA]. rewrite (host_ok_dec _ _ G). cbn [andb]. split; [|repeat split; auto]. apply (ed_host S C u h o g false); auto. discriminate.
    + apply Same; [|reflexivity|apply ed_host_none; auto]. cbn [absA onA]. destruct (validate_host S g) as [x|x|] eqn:E; auto. now destruct (host_bad _ _ G x).
Qed.
Fixpoint okL (S : Spec) (es : list edit) (A : auth) : Prop :=
  match es with [] => True | e :: r => okA S e A /\ okL S r (absA S e A) end.
Definition foldA S es A := fold_left (fun A e => absA S e A) es A.
Definition foldf es f := fold_left (fun f e => absf e f) es f.
Lemma callable_allowed debug S t C e A : debug = false \/ t <> TIri -> callable t e -> okA S e A -> allowed debug t C e.
Proof. intros Q H K. destruct e; cbn in *; auto; [tauto|contradiction]. Qed.
Lemma hist_ex debug S t es : debug = false \/ t <> TIri -> forall C A, rep S C A -> Forall (callable t) es -> okL S es A ->
  history debug S t C es (build C (foldA S es A) (foldf es (c_f C))).
Proof.
  intros Q. induction es as [|e r IH]; intros C A R F K.
  - cbn. rewrite (rep_build _ _ _ R). constructor.
  - destruct K as [K1 K2]. inversion F; subst. destruct (step S C A e R K1) as (E & R'). eapply h_cons; [eapply callable_allowed; eauto|exact E|].
    exact (IH _ _ R' H2 K2).
Qed.
Lemma same_result debug S t es es' i C A : editable t = true -> new S t i = Ok i -> reads S i C -> debug = false \/ t <> TIri -> rep S C A ->
  Forall (callable t) es -> Forall (callable t) es' -> okL S es A -> okL S es' A -> foldA S es A = foldA S es' A -> foldf es (c_f C) = foldf es' (c_f C) ->
  exists j, apply_edits debug S t es i = Ok j /\ apply_edits debug S t es' i = Ok j.
Proof.
  intros Ht V R Q P F F' K K' E1 E2. pose proof (hist_ex debug S t es Q C A P F K) as H. pose proof (hist_ex debug S t es' Q C A P F' K') as H'. rewrite <- E1, <- E2 in H'.
  destruct (edit_history debug S t es i C _ Ht V R H) as (j & J & _ & (_ & RJ)). destruct (edit_history debug S t es' i C _ Ht V R H') as (j' & J' & _ & (_ & RJ')).
  exists j. split; [exact J|]. rewrite J'. f_equal. rewrite RJ, RJ'. reflexivity.
Qed.
Lemma ok_of S C A e : rep S C A -> possible S C e -> okA S e A.
Proof. intros R P. destruct e; cbn in *; auto. destruct A as [[[[u|] h] o]|]; auto. eapply P. exact R. Qed.
Lemma absA_comm S e1 e2 A p1 p2 : concerns e1 = Some p1 -> concerns e2 = Some p2 -> p1 <> p2 -> absA S e1 (absA S e2 A) = absA S e2 (absA S e1 A).
Proof. destruct A as [[[u h] o]|], e1, e2; cbn; congruence. Qed.
Lemma absf_comm e1 e2 f p1 p2 : concerns e1 = Some p1 -> concerns e2 = Some p2 -> p1 <> p2 -> absf e1 (absf e2 f) = absf e2 (absf e1 f).
Proof. destruct e1, e2; cbn; congruence. Qed.
Lemma okA_abs S e1 e2 A p1 p2 : concerns e1 = Some p1 -> concerns e2 = Some p2 -> p1 <> p2 -> okA S e1 A -> okA S e1 (absA S e2 A).
Proof. destruct A as [[[[u|] h] o]|], e1, e2; cbn; congruence || auto. Qed.
Lemma edits_commute debug S t e1 e2 i C p1 p2 : editable t = true -> new S t i = Ok i -> reads S i C -> debug = false \/ t <> TIri ->
  callable t e1 -> callable t e2 -> possible S C e1 -> possible S C e2 -> concerns e1 = Some p1 -> concerns e2 = Some p2 -> p1 <> p2 ->
  exists j, apply_edits debug S t [e1; e2] i = Ok j /\ apply_edits debug S t [e2; e1] i = Ok j.
Proof.
  intros Ht V R Q L1 L2 P1 P2 E1 E2 N. destruct (rep_ex _ _ _ R) as (A & RA). pose proof (ok_of _ _ _ _ RA P1) as K1. pose proof (ok_of _ _ _ _ RA P2) as K2.
  apply (same_result debug S t _ _ i C A); auto.
  - repeat split; auto. eapply okA_abs; [exact E2|exact E1|congruence|exact K2].
  - repeat split; auto. eapply okA_abs; [exact E1|exact E2|congruence|exact K1].
  - cbn. symmetry. eapply absA_comm; eauto.
  - cbn. symmetry. eapply absf_comm; eauto.
Qed.
(** What is left of a list. *)
Lemma clr_idem u : clr (clr u) = clr u.
Proof.
  destruct u as [u|]; [|reflexivity]. cbn. destruct (before u) as [v|] eqn:E; cbn; [|now rewrite E]. destruct (before_some _ _ E) as (p & _ & H). now rewrite before_up.
Qed.
Definition clrb (e : edit) : bool := match e with EClearPassword | EMask => true | _ => false end.
Lemma clears_dec es : clears es \/ ~ clears es.
Proof.
  unfold clears. induction es as [|e r IH]; [right; intros [[]|[]]|].
  destruct e; try (destruct IH as [[H|H]|H]; [left; left; now right|left; right; now right|right; intros [[E|E]|[E|E]]; try discriminate; tauto]); [left; left; now left|left; right; now left].
Qed.
Fixpoint clearsb (es : list edit) : bool := match es with [] => false | e :: r => clrb e || clearsb r end.
Lemma clears_iff es : clears es <-> clearsb es = true.
Proof.
  unfold clears. induction es as [|e r IH]; [cbn; intuition discriminate|]. cbn. destruct e; cbn; rewrite <- ?IH; intuition (try discriminate; auto).
Qed.
Lemma last_host_ok S es g : Forall (overriding S) es -> last_host es = Some g -> host S g.
Proof.
  induction es as [|e r IH]; [discriminate|]. intros F H. inversion F as [|? ? Fe Fr]; subst. cbn in H. destruct (last_host r) as [x|]; [auto|].
  destruct e; try discriminate. injection H as <-. apply Fe.
Qed.
Lemma last_fragment_ok S es g : Forall (overriding S) es -> last_fragment es = Some g -> opt_in (fragment S) g.
Proof.
  induction es as [|e r IH]; [discriminate|]. intros F H. inversion F as [|? ? Fe Fr]; subst. cbn in H. destruct (last_fragment r) as [x|]; [auto|].
  destruct e; try discriminate. injection H as <-. apply Fe.
Qed.
Lemma last_fragment_call t es g : Forall (callable t) es -> last_fragment es = Some g -> fragmentable t = true.
Proof.
  induction es as [|e r IH]; [discriminate|]. intros F H. inversion F as [|? ? Fe Fr]; subst. cbn in H. destruct (last_fragment r) as [x|]; [auto|].
  destruct e; try discriminate. exact Fe.
Qed.
Lemma fold_over S es A : Forall (overriding S) es ->
  foldA S es A = onA (fun '(u, h, o) => (if clearsb es then clr u else u, match last_host es with Some g => g | None => h end, o)) A.
Proof.
  revert A. induction es as [|e r IH]; intros A F; [destruct A as [[[u h] o]|]; reflexivity|]. inversion F as [|? ? Fe Fr]; subst.
  change (foldA S (e :: r) A) with (foldA S r (absA S e A)). rewrite (IH _ Fr). destruct A as [[[u h] o]|]; [|destruct e; reflexivity].
  destruct e as [f| | | |g only|keep]; cbn [overriding] in Fe; try contradiction; cbn [absA onA clearsb clrb last_host orb]; destruct (last_host r); try reflexivity.
  1-4: destruct (clearsb r); rewrite ?clr_idem; reflexivity.
  destruct Fe as (-> & Fh). now rewrite (host_ok_dec _ _ Fh).
Qed.
Lemma foldf_over es f : foldf es f = match last_fragment es with Some g => g | None => f end.
Proof.
  revert f. induction es as [|e r IH]; intros f; [reflexivity|]. change (foldf (e :: r) f) with (foldf r (absf e f)). rewrite IH. cbn [last_fragment].
  destruct (last_fragment r); [reflexivity|]. now destruct e.
Qed.
Lemma over_ok S es A : Forall (overriding S) es -> okL S es A.
Proof. revert A. induction es as [|e r IH]; intros A F; [exact I|]. inversion F as [|? ? Fe Fr]; subst. split; [|auto]. destruct e; cbn in *; auto; contradiction. Qed.
Lemma edits_summary debug S t es rest i C : editable t = true -> new S t i = Ok i -> reads S i C -> debug = false \/ t <> TIri ->
  Forall (callable t) es -> Forall (overriding S) es -> summary es rest ->
  exists j, apply_edits debug S t es i = Ok j /\ apply_edits debug S t rest i = Ok j.
Proof.
  intros Ht V R Q L F (c & h & f & -> & Hc & -> & ->). destruct (rep_ex _ _ _ R) as (A & RA).
  assert (Fr : Forall (overriding S) (c ++ match last_host es with Some g => [EReplaceHost g false] | None => [] end ++ match last_fragment es with Some g => [ESetFragment g] | None => [] end)).
  { apply Forall_app. split; [|apply Forall_app; split].
    - destruct Hc as [(_ & ->)|(_ & ->)]; repeat constructor.
    - destruct (last_host es) eqn:E; [|constructor]. apply Forall_cons; [|constructor]. split; [reflexivity|]. eapply last_host_ok; eauto.
    - destruct (last_fragment es) eqn:E; [|constructor]. apply Forall_cons; [|constructor]. eapply last_fragment_ok; eauto. }
  apply (same_result debug S t _ _ i C A); auto using over_ok.
  - apply Forall_app. split; [|apply Forall_app; split].
    + destruct Hc as [(_ & ->)|(_ & ->)]; repeat constructor.
    + destruct (last_host es) eqn:E; repeat constructor.
    + destruct (last_fragment es) eqn:E; [|constructor]. apply Forall_cons; [|constructor]. eapply last_fragment_call; eauto.
  - rewrite !fold_over by auto. destruct A as [[[u x] o]|]; [|reflexivity]. cbn [onA]. rewrite clears_iff in Hc.
    destruct Hc as [(E & ->)|(E & ->)]; [rewrite E|destruct (clearsb es); [now destruct E|]]; destruct (last_host es), (last_fragment es); reflexivity.
  - rewrite !foldf_over. destruct Hc as [(_ & ->)|(_ & ->)]; destruct (last_host es), (last_fragment es); reflexivity.
Qed.
Lemma summary_ex es : exists rest, summary es rest.
Proof.
  destruct (clears_dec es) as [H|H]; eexists; eexists; eexists; eexists; (split; [reflexivity|]); (split; [|split; reflexivity]); [left|right]; split; auto.
Qed.
(** Edits that change nothing. *)
Lemma edits_own debug S t i C e : editable t = true -> new S t i = Ok i -> reads S i C -> debug = false \/ t <> TIri -> callable t e ->
  (e = ESetFragment (c_f C) \/ exists u h o only, parts S C u h o /\ e = EReplaceHost h only) -> apply_edits debug S t [e] i = Ok i.
Proof.
  intros Ht V R Q L H. assert (exists A, rep S C A /\ okA S e A /\ absA S e A = A /\ absf e (c_f C) = c_f C) as (A & RA & K & E1 & E2).
  { destruct H as [-> |(u & h & o & only & P & ->)].
    - destruct (rep_ex _ _ _ R) as (A & RA). exists A. repeat split; auto. apply R.
    - exists (Some (u, h, o)). split; [exact P|]. split; [exact I|]. split; [|reflexivity]. cbn. rewrite (host_ok_dec S h) by apply P. now destruct only, (is_host_reg_name h). }
  destruct (same_result debug S t [e] [] i C A) as (j & J & J'); [auto..| | | | | | | |]; try (cbn; auto; fail). rewrite J. cbn in J'. congruence.
Qed.
