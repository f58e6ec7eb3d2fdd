(** * Strings that begin with a given string (proofs). *)
From Verif Require Import Base Chars Rfc3986 Utf8 CompSpec PctSpec RfcResolve NormSpec EditSpec ConfineSpec PrefixSpec MValidate MTrusted MFormat MWriters MPct MPath MNormalize MEdit
  PBase PScan PHost PTrusted PComps PAuth PValidate PTypes PSearch PPct3 PRds PBaseNorm PNorm PNorm2 PNorm3 PNorm4 PNorm5 PNorm7 PNorm8 PEdit PConfine.
Open Scope string_scope. Open Scope N_scope. Open Scope list_scope.

Lemma none_in p s : none p s = true <-> forall c, In c s -> p c = false.
Proof.
  unfold none. rewrite forallb_forall. split; intros H c Hc; specialize (H c Hc); destruct (p c); auto; discriminate.
Qed.
Lemma hash_split r : exists x f, r = x ++ ofr f /\ none (N.eqb HASH) x = true.
Proof.
  destruct (split_first (N.eqb HASH) r) as [[[a c] b]|] eqn:E.
  - apply split_first_some in E. destruct E as (-> & Ha & Hc). apply N.eqb_eq in Hc. subst c. exists a, (Some b). auto.
  - apply split_first_none in E. exists r, None. cbn. now rewrite app_nil_r.
Qed.
Lemma qh_split r : exists x q f, r = x ++ oq q ++ ofr f /\ none qh x = true /\ match q with Some y => none (N.eqb HASH) y = true | None => True end.
Proof.
  destruct (split_first qh r) as [[[a c] b]|] eqn:E.
  - apply split_first_some in E. destruct E as (-> & Ha & Hc). unfold qh in Hc. destruct (N.eqb_spec c QMARK) as [-> |_].
    + destruct (hash_split b) as (y & f & -> & Hy). exists a, (Some y), f. auto.
    + cbn in Hc. apply N.eqb_eq in Hc. subst c. exists a, None, (Some b). auto.
  - apply split_first_none in E. exists r, None, None. cbn. now rewrite app_nil_r.
Qed.
Lemma reads_is S i D s a p q f : reads S i D -> weak_ok s a p q -> i = recompose s a p q f -> D = mkC s a p q f.
Proof.
  intros [HD E] W E'. rewrite E in E'. apply recompose_inj in E'; [|apply (components_weak S _ _ _ _ (c_f D)); exact HD|exact W].
  destruct D, E' as (E1 & E2 & E3 & E4 & E5). cbn in *. now subst.
Qed.
Lemma scheme_prefix p l : scheme (p ++ l) -> p <> [] -> scheme p.
Proof.
  intros (a & b & E & Ha & Hb) N. destruct Ha as (c & -> & Hc). destruct p as [|c' p]; [easy|]. cbn in E. injection E as <- E.
  exists [c'], p. split; [reflexivity|]. split; [exists c'; auto|]. apply star_cls. apply star_cls in Hb. rewrite <- E, forallb_app in Hb. now apply andb_prop in Hb.
Qed.
Lemma colon_first_app s l : none cgd s = true -> first_is_colon (s ++ COLON :: l) = true.
Proof.
  intros H. unfold first_is_colon, find_split2_hole. rewrite split_first_app; [reflexivity| |reflexivity].
  eapply none_weaken; [|exact H]. intros c. unfold cgd. destruct (c =? SLASH), (c =? COLON); auto; discriminate.
Qed.
Lemma c69_prolonged S i C r D : reads S i C -> settled C -> reads S (i ++ r) D -> prolonged C r D.
Proof.
  intros [HC ->] St RD. pose proof (components_weak _ _ _ _ _ _ HC) as W. destruct C as [s a p q f]. cbn [c_s c_a c_p c_q c_f] in *.
  destruct f as [f|].
  { rewrite (reads_is S _ D s a p q (Some (f ++ r)) RD W); [apply (pr_fragment (mkC s a p q (Some f))); reflexivity|]. rewrite !recompose_eq. cbn [ofr]. now rewrite <- !app_assoc. }
  destruct q as [q|].
  { destruct (hash_split r) as (x & f & -> & Hx). rewrite (reads_is S _ D s a p (Some (q ++ x)) f RD).
    - apply (pr_query (mkC s a p (Some q) None)); auto. now apply in_none.
    - destruct W as (W1 & W2 & W3 & W4). repeat split; auto. now rewrite none_app, W4, Hx.
    - rewrite !recompose_eq. cbn [ofr oq]. now rewrite <- !app_assoc. }
  destruct (qh_split r) as (x & q & f & -> & Hx & Hq).
  assert (G : D = mkC s a (p ++ x) q f -> prolonged (mkC s a p None None) (x ++ oq q ++ ofr f) D).
  { intros ->. apply (pr_path (mkC s a p None None)); auto.
    - intros X. pose proof (proj1 (none_in _ _) Hx _ X) as Y. discriminate.
    - intros X. pose proof (proj1 (none_in _ _) Hx _ X) as Y. discriminate.
    - destruct q; [|exact I]. now apply in_none. }
  apply G. clear G. destruct St as [St|[St|St]]; [easy|easy|]. destruct W as (W1 & W2 & W3 & W4).
  assert (N3 : none qh (p ++ x) = true) by (now rewrite none_app, W3, Hx).
  assert (E3 : recompose s a p None None ++ x ++ oq q ++ ofr f = recompose s a (p ++ x) q f) by (rewrite !recompose_eq; cbn [oq ofr]; rewrite app_nil_r, <- !app_assoc; reflexivity).
  assert (A3 : starts_with [SLASH; SLASH] p = false -> p <> [] -> p <> lit "/" -> starts_with [SLASH; SLASH] (p ++ x) = false).
  { intros A1 A2 A4. unfold starts_with in *. destruct p as [|c [|d p]]; [easy| |]; cbn -[N.eqb SLASH] in *; destruct (N.eqb_spec SLASH c) as [<- |_]; try reflexivity; [now destruct A4|]. destruct (SLASH =? d); auto. }
  destruct a as [a|].
  - apply (reads_is S _ D s (Some a) (p ++ x) q f RD); auto. destruct W2 as (W2 & [-> |(p' & ->)]); [easy|].
    split; [destruct s; auto; discriminate|]. split; [split; [exact W2|right; eexists; reflexivity]|]. auto.
  - destruct s as [s|].
    + destruct St as (P1 & P2). apply (reads_is S _ D (Some s) None (p ++ x) q f RD); auto. split; [exact W1|]. split; [now apply A3|]. auto.
    + destruct St as (P1 & P2 & P3). rewrite E3 in RD. pose proof RD as [HD E]. pose proof (components_weak _ _ _ _ _ _ HD) as WD. destruct D as [s' a' p' q' f']. cbn [c_s c_a c_p c_q c_f] in *.
      rewrite !recompose_eq in E. cbn [osch oauth app] in E. destruct s' as [s'|].
      * exfalso. destruct WD as ((_ & Ws) & _). assert (Hs : scheme s') by apply HD. cbn [osch] in E. rewrite <- !app_assoc in E. apply app_eq_app in E. destruct E as (l & [(E1 & E2)|(E1 & E2)]).
        -- destruct l as [|c l]; [rewrite app_nil_r in E1; congruence|]. cbn in E2. injection E2 as <- E2. rewrite E1 in W1. change (lit ":") with [COLON] in W1. cbn [app] in W1. rewrite colon_first_app in W1 by exact Ws. now discriminate W1.
        -- apply P3. rewrite E1 in Hs. eapply scheme_prefix; eauto.
      * destruct a' as [a'|].
        -- exfalso. pose proof (A3 W2 P1 P2) as A4. cbn [oauth] in E. destruct p as [|c [|d p]]; [easy| |].
           ++ cbn in E. injection E as -> E. now apply P2.
           ++ cbn in E. injection E as -> -> E. discriminate A4.
        -- apply (reads_is S _ _ None None (p ++ x) q f RD); [|reflexivity].
           cbn [osch oauth app] in E. destruct WD as (D1 & D2 & D3 & D4).
           assert (p' = p ++ x) as ->; [|repeat split; auto].
           { pose proof (until_query_rec (p ++ x) q f N3) as U. pose proof (until_query_rec p' q' f' D3) as U'. rewrite E in U. rewrite U in U'. now injection U'. }
Qed.
(** Without these conditions, something can. *)
Lemma comps_reads S C : comps_ok S C -> reads S (recompose (c_s C) (c_a C) (c_p C) (c_q C) (c_f C)) C.
Proof. intros H. split; [exact H|reflexivity]. Qed.
Lemma authority_nil S : authority S [].
Proof. apply authority_comps. exists None, [], None. split; [reflexivity|]. split; [exact I|]. split; [|exact I]. right. right. apply reg_name_scan. reflexivity. Qed.
Lemma app_self {A} (a b : list A) : b <> [] -> a ++ b <> a.
Proof. intros N E. apply N. rewrite <- (app_nil_r a) in E at 2. now apply app_inv_head in E. Qed.
Lemma scheme_dec s : scheme s \/ ~ scheme s.
Proof. destruct (validate_scheme s) as [[]|e|] eqn:E; [left; now apply validate_scheme_iff|right|right]; intros H; apply validate_scheme_iff in H; congruence. Qed.
Lemma str_dec (a b : str) : a = b \/ a <> b.
Proof. destruct (list_eq_dec N.eq_dec a b); auto. Qed.
Lemma c69_exact S i C : reads S i C -> ~ settled C -> exists r D, reads S (i ++ r) D /\ (c_s D <> c_s C \/ c_a D <> c_a C).
Proof.
  intros [HC ->] N. destruct C as [s a p q f]. unfold settled in N. cbn [c_s c_a c_p c_q c_f] in *.
  destruct f as [f|]; [exfalso; apply N; left; discriminate|]. destruct q as [q|]; [exfalso; apply N; right; left; discriminate|].
  destruct HC as (Hs & Ha & _ & _ & Hp). cbn [c_s c_a c_p c_q c_f] in *.
  assert (Slash : a = None -> p = [] \/ p = lit "/" -> exists r D, reads S (recompose s a p None None ++ r) D /\ (c_s D <> s \/ c_a D <> a)).
  { intros -> Hq. exists (if seqb p [] then lit "//" else lit "/"), (mkC s (Some []) [] None None). split; [|right; discriminate].
    split; [split; [exact Hs|split; [apply authority_nil|repeat split; constructor]]|]. cbn [c_s c_a c_p c_q c_f]. rewrite !recompose_eq. destruct Hq as [-> | ->], s; cbn; rewrite ?app_nil_r, <- ?app_assoc; reflexivity. }
  destruct a as [a|].
  - destruct (str_dec p []) as [-> |X]; [|exfalso; apply N; right; right; exact X]. cbn in Ha. apply authority_comps in Ha. destruct Ha as (u & h & o & -> & Hu & Hh & Ho).
    exists (match o with Some _ => lit "1" | None => lit ":" end), (mkC s (Some (authority_string u h (match o with Some x => Some (x ++ lit "1") | None => Some [] end))) [] None None). split; [|right].
    + split.
      * split; [exact Hs|]. split; [|repeat split; auto; constructor]. cbn. apply authority_comps. do 3 eexists. split; [reflexivity|]. split; [exact Hu|]. split; [exact Hh|].
        destruct o as [o|]; cbn; [|constructor]. cbn in Ho. rewrite port_iff in *. rewrite forallb_app. now rewrite Ho.
      * cbn [c_s c_a c_p c_q c_f]. rewrite !recompose_eq. cbn [oq ofr]. rewrite !app_nil_r, <- !app_assoc. cbn [oauth]. f_equal. rewrite <- !app_assoc. f_equal. unfold authority_string. rewrite <- !app_assoc. do 2 f_equal. destruct o; [now rewrite <- app_assoc|reflexivity].
    + cbn [c_a]. intros E. apply (f_equal (fun x => match x with Some y => length y | None => 0%nat end)) in E. cbv beta iota in E. unfold authority_string in E. rewrite !app_length in E. destruct o; cbn [length lit app] in E; rewrite ?app_length in E; cbn in E; lia.
  - destruct s as [s|].
    + destruct (str_dec p []) as [-> |X]; [apply Slash; auto|]. destruct (str_dec p (lit "/")) as [-> |Y]; [apply Slash; auto|]. exfalso. apply N. right. right. auto.
    + destruct (str_dec p []) as [-> |X]; [apply Slash; auto|]. destruct (str_dec p (lit "/")) as [-> |Y]; [apply Slash; auto|]. destruct (scheme_dec p) as [Z|Z]; [|exfalso; apply N; right; right; auto].
      exists (lit ":"), (mkC (Some p) None [] None None). split; [|left; discriminate]. split.
      * split; [exact Z|]. repeat split; auto. right. right. reflexivity.
      * cbn [c_s c_a c_p c_q c_f]. rewrite !recompose_eq. cbn. now rewrite !app_nil_r.
Qed.
(** In terms of the accessors. *)
Lemma c69_accessors S t t' i C r : editable t = true -> editable t' = true -> new S t i = Ok i -> reads S i C -> settled C -> new S t' (i ++ r) = Ok (i ++ r) ->
  extract_scheme (i ++ r) = extract_scheme i /\ extract_authority (i ++ r) = extract_authority i /\
  (exists x, extract_path (i ++ r) = extract_path i ++ x /\ (c_q C <> None \/ c_f C <> None -> x = [])).
Proof.
  intros Ht Ht' V R St V'. destruct (editable_reads _ _ _ Ht' V') as (D & RD). pose proof (c69_prolonged _ _ _ _ _ R St RD) as P.
  destruct R as [HC EC], RD as [HD ED]. apply components_weak in HC. apply components_weak in HD. rewrite ED, EC. rewrite !extract_scheme_rec, !extract_authority_rec, !extract_path_rec by assumption.
  destruct P as [f Ef|q x f Ef Eq _ _|x q f Ef Eq _ _ _ _]; cbn [c_s c_a c_p c_q c_f]; (split; [reflexivity|]); (split; [reflexivity|]).
  - exists []. split; [now rewrite app_nil_r|auto].
  - exists []. split; [now rewrite app_nil_r|auto].
  - exists x. split; [reflexivity|]. intros [X|X]; contradiction.
Qed.
(** The same for the normalized texts. *)
Lemma c69_normalized S i C r D d x l : reads S i C -> defined (c_s C) = true -> defined (c_a C) = true -> c_p C = d ++ lit "/" -> c_q C = None -> c_f C = None ->
  reads S (i ++ r) D -> c_p D = c_p C ++ x -> in_segments x l -> walks 0 l ->
  exists n m out rest, normalize i = Ok n /\ display S n = Ok out /\ normalize (i ++ r) = Ok m /\ display S m = Ok (out ++ rest).
Proof.
  intros RC DC AC PC QC FC RD PD Hl Hw. destruct (norm_spec S false i C RC DC) as (n & T & En & (Ns & Na & Np & Nq & Nf) & _ & Dn & _).
  assert (St : settled C). { right. right. destruct (c_a C); [|discriminate]. rewrite PC. now destruct d. }
  pose proof (c69_prolonged _ _ _ _ _ RC St RD) as P. assert (exists q f, D = mkC (c_s C) (c_a C) (c_p C ++ x) q f) as (q & f & ->).
  { destruct P as [f Ef|q x0 f Ef Eq _ _|x0 q f Ef Eq _ _ _ _]; [congruence|congruence|]. cbn [c_p] in PD. apply app_inv_head in PD. subst x0. eauto. }
  destruct (norm_spec S false (i ++ r) _ RD DC) as (m & U & Em & (Us & Ua & Up & Uq & Uf) & _ & Dm & _). cbn [c_s c_a c_p c_q c_f] in *.
  assert (c_s U = c_s T) as ES. { destruct (c_s C), (c_s T), (c_s U); cbn in *; try easy; congruence. }
  assert (c_a U = c_a T) as EA. { destruct (c_a C), (c_a T), (c_a U); cbn in *; try easy. f_equal. eapply authority_normal_fun; eauto. }
  assert (AT : c_a T <> None) by (destruct (c_a C), (c_a T); cbn in *; easy).
  apply path_normal_alt in Np. destruct Np as (p1 & R1 & P1 & _). apply path_normal_alt in Up. destruct Up as (p2 & R2 & P2 & _).
  rewrite PC in R1, R2. rewrite <- app_assoc in R2. pose proof (rds_dir d p1 [] R1) as (Form & _).
  destruct (confined_dir d p1 x l 0 p1 p2 R1 Hl Hw) as (s & ->); [constructor; exact Form|exact R2|].
  destruct (split_normal S p1 s _ P2 Form) as (p1' & s' & EP & PA & _). rewrite (pn_fun _ _ _ PA _ P1) in EP.
  exists n, m, (unparse T). unfold unparse in Dm at 1. rewrite ES, EA, EP in Dm.
  exists (s' ++ oq (c_q U) ++ ofr (c_f U)). split; [exact En|]. split; [exact Dn|]. split; [exact Em|]. rewrite Dm. f_equal. unfold unparse. destruct (c_a T) as [aT|]; [|easy]. cbn [safe_path].
  assert (c_q T = None) as -> by (rewrite QC in Nq; destruct (c_q T); easy). assert (c_f T = None) as -> by (rewrite FC in Nf; destruct (c_f T); easy).
  rewrite !recompose_eq. cbn [oq ofr]. rewrite !app_nil_r, <- !app_assoc. reflexivity.
Qed.
