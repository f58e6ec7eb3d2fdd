(** Proofs for C56. *)
From Verif Require Import Base Chars Rfc3986 Utf8 CompSpec PctSpec RfcResolve NormSpec EncodeSpec EditSpec MValidate MTrusted MFormat MPct MEncode MBuild BuildSpec RawSpec
  PBase PScan PSearch PHost PAuth PValidate PTrusted PTypes PTypes2 PEncode PEncode2 PDecode PComps PBuild PBuild2 PBuild3 PBuild4 PNorm7.
From Coq Require Import Lia.
Open Scope string_scope. Open Scope N_scope. Open Scope list_scope.

Lemma wr (s : str) : snd (write s) = Ret tt.
Proof. reflexivity. Qed.
Lemma wc (s : str) : concat (fst (write s)) = s.
Proof. cbn. apply app_nil_r. Qed.
Lemma enc_ex S ctx s : all_scalar s = true -> exists e, encodes S ctx s e.
Proof. intros H. destruct (decode_encode unit S ctx (write s) tt (wr s)) as (o & T & _); [now rewrite wc|]. exists o. exact T. Qed.
Lemma enc_dec S ctx s e : all_scalar s = true -> encodes S ctx s e -> decodes e s.
Proof.
  intros H E. destruct (decode_encode unit S ctx (write s) tt (wr s)) as (o & T & _ & D); [now rewrite wc|]. unfold encodes in E. rewrite T in E. injection E as <-. now rewrite wc in D.
Qed.
Lemma enc_user S s e : all_scalar s = true -> encodes S CUserOrPassword s e -> userinfo S e /\ ~ In 58 e.
Proof.
  intros H E. destruct (pe_user unit S (write s) tt (wr s)) as (T & U & N & _); [now rewrite wc|]. rewrite wc in *. unfold encodes in E. rewrite T in E. injection E as <-. auto.
Qed.
Lemma enc_host S s e : all_scalar s = true -> encodes S CRegName s e -> host S e.
Proof.
  intros H E. destruct (pe_reg_name unit S (write s) tt (wr s)) as (T & U & _); [now rewrite wc|]. rewrite wc in *. unfold encodes in E. rewrite T in E. injection E as <-. right. right. exact U.
Qed.
Lemma enc_seg S s e : all_scalar s = true -> encodes S CPathSegment s e -> segment S e /\ ~ In 47 e.
Proof.
  intros H E. destruct (pe_segment unit S (write s) tt (wr s)) as (T & U & _); [now rewrite wc|]. rewrite wc in *. unfold encodes in E. rewrite T in E. injection E as <-. split; [exact U|].
  apply segment_scan in U. apply (in_none 47). apply (scan_none (segment_char S)); auto. intros c Hc. apply N.eqb_eq in Hc. subst c. repeat split; try reflexivity; try discriminate; now destruct S.
Qed.
Lemma enc_query S s e : all_scalar s = true -> encodes S CQuery s e -> query S e.
Proof.
  intros H E. destruct (pe_query unit S (write s) tt (wr s)) as (T & U & _); [now rewrite wc|]. rewrite wc in *. unfold encodes in E. rewrite T in E. injection E as <-. exact U.
Qed.
Lemma enc_fragment S s e : all_scalar s = true -> encodes S CFragment s e -> fragment S e.
Proof.
  intros H E. destruct (pe_fragment unit S (write s) tt (wr s)) as (T & U & _); [now rewrite wc|]. rewrite wc in *. unfold encodes in E. rewrite T in E. injection E as <-. exact U.
Qed.
Lemma enc_opt S ctx (Q : str -> Prop) o o' : (forall s e, all_scalar s = true -> encodes S ctx s e -> Q e) ->
  opt_in (fun s => all_scalar s = true) o -> opt_rel (encodes S ctx) o o' -> opt_in Q o'.
Proof. intros H. destruct o, o'; cbn; try easy. eauto. Qed.
Lemma dec_opt S ctx o o' : opt_in (fun s => all_scalar s = true) o -> opt_rel (encodes S ctx) o o' -> opt_rel decodes o' o.
Proof. destruct o, o'; cbn; try easy. apply enc_dec. Qed.
Lemma enc_opt_ex S ctx o : opt_in (fun s => all_scalar s = true) o -> exists o', opt_rel (encodes S ctx) o o'.
Proof. destruct o as [s|]; intros H; [|now exists None]. destruct (enc_ex S ctx s H) as (e & E). now exists (Some e). Qed.
Lemma raw_encodes S R : raw_ok R -> exists E, encoded S R E.
Proof.
  intros (Hs & Hu & Hp & Hh & Ho & Hg & Hq & Hf & _). destruct (enc_opt_ex S CUserOrPassword _ Hu) as (u & U). destruct (enc_opt_ex S CUserOrPassword _ Hp) as (p & P). destruct (enc_ex S CRegName _ Hh) as (h & H).
  destruct (enc_opt_ex S CQuery _ Hq) as (q & Q). destruct (enc_opt_ex S CFragment _ Hf) as (f & F). assert (G : exists g, Forall2 (encodes S CPathSegment) (r_segments R) g).
  { induction Hg as [|x l Hx _ (g & G)]; [now exists []|]. destruct (enc_ex S CPathSegment x Hx) as (e & E). exists (e :: g). now constructor. }
  destruct G as (g & G). exists (mkRaw (r_scheme R) u p h (r_port R) g q f). do 5 (split; [auto|]). auto.
Qed.
Lemma slash_each_abempty S l : Forall (segment S) l -> path_abempty S (slash_each l).
Proof. induction 1 as [|x l Hx _ IH]; [constructor|]. cbn [slash_each flat_map]. apply star_cons; [|exact IH]. exists (lit "/"), x. repeat split; auto. Qed.
Definition ui_of (E : raw) : UserinfoRepr := match r_user E with Some u => UiUserPass u (r_password E) | None => UiNone end.
Definition port_of (E : raw) : PortRepr := match r_port E with Some n => PortInteger n | None => PortEmpty end.
Lemma calls_state E : b_steps (calls E) = mkB (Some (r_scheme E)) (Some (mkAB (HostString (r_host E)) (port_of E) (ui_of E))) (slash_each (r_segments E)) (r_query E) (r_fragment E) false.
Proof. destruct E as [s u p h o g q f]. unfold ui_of, port_of. cbn [r_scheme r_user r_password r_host r_port r_segments r_query r_fragment]. destruct u, o, q, f; reflexivity. Qed.
Lemma raw_built debug S R E : raw_ok R -> encoded S R E -> exists x i A u p,
  build S TIri (b_steps (calls E)) = Ok x /\ built_to_dedicated_string S debug TIri x = Ok i /\ new S TIri i = Ok i /\
  scheme_str TIri i = Ok (Some (r_scheme R)) /\ authority_components i = Some A /\
  ac_userinfo A = Ok u /\ user_of u (r_user E) (r_password E) /\ ac_host A = Ok (r_host E) /\
  ac_port A = Ok (option_map u16_dec (r_port R)) /\
  path_str TIri i = Ok p /\ segments_of p (r_segments E) /\
  query_str debug TIri i = Ok (r_query E) /\ fragment_str TIri i = Ok (r_fragment E) /\
  opt_rel decodes (r_user E) (r_user R) /\ opt_rel decodes (r_password E) (r_password R) /\ decodes (r_host E) (r_host R) /\
  Forall2 decodes (r_segments E) (r_segments R) /\ opt_rel decodes (r_query E) (r_query R) /\ opt_rel decodes (r_fragment E) (r_fragment R).
Proof.
  intros (Hs & Hu & Hp & Hh & Ho & Hg & Hq & Hf & Hup) (Es & Eu & Ep & Eh & Eo & Eg & Eq & Ef).
  assert (Vu := enc_opt S _ _ _ _ (enc_user S) Hu Eu). assert (Vp := enc_opt S _ _ _ _ (enc_user S) Hp Ep). assert (Vh := enc_host S _ _ Hh Eh).
  assert (Vg : Forall (fun e => segment S e /\ ~ In 47 e) (r_segments E)).
  { clear -Hg Eg. revert Hg. induction Eg as [|x e l l' X _ IH]; intros H; constructor; inversion_clear H; auto. eapply enc_seg; eauto. }
  assert (Vq := enc_opt S _ _ _ _ (enc_query S) Hq Eq). assert (Vf := enc_opt S _ _ _ _ (enc_fragment S) Hf Ef).
  assert (Pw : r_user E = None -> r_password E = None).
  { intros X. rewrite X in Eu. destruct (r_user R) eqn:Y; [destruct Eu|]. destruct (r_password R) eqn:Z; [|destruct (r_password E); easy]. now elim (Hup ltac:(discriminate)). }
  destruct (build_accepts debug S TIri (b_steps (calls E)) eq_refl) as (x & i & B1 & B2 & B3 & B4 & B5); rewrite ?calls_state.
  - unfold values_ok, port_of. cbn [b_authority ab_port ab_host]. rewrite Eo. destruct (r_port R); auto.
  - reflexivity.
  - unfold representable. cbn [b_scheme b_authority b_path b_query b_fragment]. split; [cbn; now rewrite Es|]. split; [|split; [apply slash_each_abempty; eapply Forall_impl; [|exact Vg]; now intros ? []|auto]].
    unfold authority_parts_ok. cbn [ab_userinfo ab_host ab_port]. split; [|split; [exact Vh|]].
    + unfold ui_of. destruct (r_user E) as [u|]; [|exact I]. destruct Vu as (V1 & V2). split; auto. split; auto. destruct (r_password E); cbn in *; tauto.
    + unfold port_of. rewrite Eo. destruct (r_port R) as [n|]; [|exact I]. cbn. now apply u16_dec_ok.
  - reflexivity.
  - rewrite calls_state in *. assert (IR : IRI_reference S i) by (eapply reads_reference; eauto).
    destruct (accessors_all debug S TIri i (or_introl eq_refl) B4) as (s & a & p & q & f & M & K & A1 & A2 & A3 & A4 & A5 & _).
    assert (C : (s, a, p, q, f) = (c_s (requested (b_steps (calls E))), c_a (requested (b_steps (calls E))), c_p (requested (b_steps (calls E))), c_q (requested (b_steps (calls E))), c_f (requested (b_steps (calls E))))).
    { destruct B3 as (B3 & B6). rewrite calls_state. apply recompose_valid in B3. destruct B3 as (_ & B3). rewrite <- B6, M in B3. now injection B3 as -> -> -> -> ->. }
    rewrite calls_state in C. cbn [requested c_s c_a c_p c_q c_f b_scheme b_authority b_path b_query b_fragment option_map] in C. injection C as -> -> -> -> ->.
    assert (AC := authority_components_major S i _ _ _ _ _ IR M). cbn in AC.
    assert (Va : authority S (authority_text (mkAB (HostString (r_host E)) (port_of E) (ui_of E)))) by apply K.
    destruct (authority_components_spec S _ Va) as (u & h & o & D1 & D2 & D3 & _ & _ & D6 & D7 & D8 & D9).
    assert (Un : (u, h, o) = (userinfo_text (ui_of E), r_host E, port_text (port_of E))).
    { apply (authority_unique S); auto.
      - unfold ui_of. destruct (r_user E) as [u0|]; [|exact I]. destruct Vu as (V1 & V2). destruct (r_password E) as [p0|]; [|exact V1]. cbn. destruct Vp as (V3 & _). apply userinfo_scan. apply userinfo_scan in V1, V3. rewrite scan_app by exact V1. rewrite scan_cons by discriminate. rewrite V3. now destruct S.
      - unfold port_of. rewrite Eo. destruct (r_port R) as [n|]; [|exact I]. cbn. now apply u16_dec_ok. }
    injection Un as -> -> ->. eexists x, i, _, _, _. split; [exact B1|]. split; [exact B5|]. split; [exact B4|]. split; [now rewrite <- Es|]. split; [exact AC|]. split; [exact D1|]. split.
    { unfold ui_of. destruct (r_user E) as [u0|]; [|rewrite (Pw eq_refl); exact I]. destruct Vu as (V1 & V2). destruct (r_password E); cbn; auto. }
    split; [exact D2|]. split; [rewrite D3; unfold port_of; rewrite Eo; now destruct (r_port R)|]. split; [exact A3|]. split; [split; [reflexivity|eapply Forall_impl; [|exact Vg]; now intros ? []]|]. split; [exact A4|]. split; [exact A5|].
    split; [eapply dec_opt; eauto|]. split; [eapply dec_opt; eauto|]. split; [eapply enc_dec; eauto|]. split; [|split; eapply dec_opt; eauto].
    clear -Hg Eg. revert Hg. induction Eg as [|x e l l' X _ IH]; intros H; constructor; inversion_clear H; auto. eapply enc_dec; eauto.
Qed.
Lemma no_in_split (c : N) a b a' b' : ~ In c a -> ~ In c a' -> a ++ c :: b = a' ++ c :: b' -> a = a' /\ b = b'.
Proof.
  revert a'. induction a as [|x a IH]; intros a' H H' E; destruct a' as [|x' a']; cbn [app] in E.
  - now injection E.
  - injection E as <- _. elim H'. now left.
  - injection E as -> _. elim H. now left.
  - injection E as <- E. destruct (IH a') as (-> & ->); auto; intros X; [apply H|apply H']; now right.
Qed.
Lemma user_of_inj o u p u' p' : user_of o u p -> user_of o u' p' -> u = u' /\ p = p'.
Proof.
  destruct o as [o|]; destruct u as [u|], p as [p|], u' as [u'|], p' as [p'|]; cbn; try easy; intros (-> & H) (E & H').
  - destruct (no_in_split 58 u p u' p' H H' E) as (-> & ->). auto.
  - elim H'. rewrite <- E. apply in_app_iff. right. now left.
  - elim H. rewrite E. apply in_app_iff. right. now left.
  - now subst.
Qed.
Lemma slash_each_inj l : forall l', Forall (fun x => ~ In 47 x) l -> Forall (fun x => ~ In 47 x) l' -> slash_each l = slash_each l' -> l = l'.
Proof.
  assert (T : forall l, slash_each l = [] \/ exists r, slash_each l = 47 :: r) by (intros [|x k]; cbn; eauto).
  induction l as [|x l IH]; intros [|y l'] H H' E; auto; try discriminate. inversion_clear H. inversion_clear H'. assert (E' : 47 :: x ++ slash_each l = 47 :: y ++ slash_each l') by exact E. clear E. injection E' as E.
  assert (G : x = y /\ slash_each l = slash_each l').
  { destruct (T l) as [A|(a & A)], (T l') as [B|(b & B)]; rewrite A, B in E |- *; rewrite ?app_nil_r in E.
    - auto.
    - subst x. elim H0. apply in_app_iff. right. now left.
    - subst y. elim H. apply in_app_iff. right. now left.
    - destruct (no_in_split 47 x a y b) as (-> & ->); auto. }
  destruct G as (-> & G). f_equal. auto.
Qed.
Lemma dec_fun e s s' : decodes e s -> decodes e s' -> s = s'.
Proof. unfold decodes. intros -> E. now injection E. Qed.
Lemma dec_opt_fun e s s' : opt_rel decodes e s -> opt_rel decodes e s' -> s = s'.
Proof. destruct e, s, s'; cbn; try easy. intros A B. f_equal. eapply dec_fun; eauto. Qed.
Lemma dec_all_fun e s s' : Forall2 decodes e s -> Forall2 decodes e s' -> s = s'.
Proof. intros H. revert s'. induction H as [|x y l l' X _ IH]; intros s' H; inversion H; subst; auto. f_equal; [eapply dec_fun; eauto|auto]. Qed.
Lemma raw_inj debug S R R' E E' x x' i : raw_ok R -> raw_ok R' -> encoded S R E -> encoded S R' E' ->
  build S TIri (b_steps (calls E)) = Ok x -> built_to_dedicated_string S debug TIri x = Ok i ->
  build S TIri (b_steps (calls E')) = Ok x' -> built_to_dedicated_string S debug TIri x' = Ok i -> R = R'.
Proof.
  intros O O' H H' B T B' T'.
  destruct (raw_built debug S R E O H) as (y & j & A & u & p & B1 & B2 & B3 & B4 & B5 & B6 & B7 & B8 & B9 & B10 & B11 & B12 & B13 & B14 & B15 & B16 & B17 & B18 & B19).
  rewrite B in B1. injection B1 as <-. rewrite T in B2. injection B2 as <-.
  destruct (raw_built debug S R' E' O' H') as (y & j & A' & u' & p' & C1 & C2 & C3 & C4 & C5 & C6 & C7 & C8 & C9 & C10 & C11 & C12 & C13 & C14 & C15 & C16 & C17 & C18 & C19).
  rewrite B' in C1. injection C1 as <-. rewrite T' in C2. injection C2 as <-. rewrite B5 in C5. injection C5 as <-. rewrite B6 in C6. injection C6 as <-. rewrite B8 in C8. injection C8 as C8. rewrite B9 in C9. injection C9 as C9.
  rewrite B10 in C10. injection C10 as <-. rewrite B12 in C12. injection C12 as C12. rewrite B13 in C13. injection C13 as C13. rewrite B4 in C4. injection C4 as C4.
  destruct (user_of_inj _ _ _ _ _ B7 C7) as (U & P). rewrite <- U in *. rewrite <- P in *. rewrite <- C8 in *. rewrite <- C12 in *. rewrite <- C13 in *.
  destruct B11 as (-> & N1), C11 as (G & N2). apply slash_each_inj in G; auto. rewrite <- G in *.
  assert (Po : r_port R = r_port R').
  { destruct O as (_ & _ & _ & _ & Ho & _). destruct O' as (_ & _ & _ & _ & Ho' & _). destruct (r_port R) as [n|], (r_port R') as [n'|]; try easy. assert (K : u16_dec n = u16_dec n') by (unfold option_map in C9; congruence).
    destruct (u16_dec_ok n Ho) as ((_ & _ & V & _) & _). destruct (u16_dec_ok n' Ho') as ((_ & _ & V' & _) & _). rewrite <- V, <- V', K. reflexivity. }
  assert (X1 := dec_opt_fun _ _ _ B14 C14). assert (X2 := dec_opt_fun _ _ _ B15 C15). assert (X3 := dec_fun _ _ _ B16 C16). assert (X4 := dec_all_fun _ _ _ B17 C17). assert (X5 := dec_opt_fun _ _ _ B18 C18). assert (X6 := dec_opt_fun _ _ _ B19 C19).
  destruct R, R'. cbn in *. congruence.
Qed.
Lemma raw_applies :
  let R := mkRaw (lit "http") (Some (lit "a:b")) (Some (lit "p@:/")) (lit "h st") (Some 8080) [lit "x/y"; []; lit ".."; [233]] (Some (lit "q=#")) (Some (lit "#%41")) in
  let E := mkRaw (lit "http") (Some (lit "a%3Ab")) (Some (lit "p%40%3A%2F")) (lit "h%20st") (Some 8080) [lit "x%2Fy"; []; lit ".."; lit "%C3%A9"] (Some (lit "q=%23")) (Some (lit "%23%2541")) in
  raw_ok R /\ encoded UriSpec R E.
Proof.
  cbv zeta. split.
  - split; [apply validate_scheme_iff; reflexivity|]. do 3 (split; [reflexivity|]). split; [reflexivity|]. split; [repeat constructor|]. do 2 (split; [reflexivity|]). discriminate.
  - split; [reflexivity|]. do 3 (split; [vm_compute; reflexivity|]). split; [reflexivity|]. split; [|split; vm_compute; reflexivity]. do 4 (constructor; [vm_compute; reflexivity|]). constructor.
Qed.
