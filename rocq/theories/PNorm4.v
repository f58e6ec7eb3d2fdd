(** * Normalization (proofs only), part 4: [is_normalized] and [ensure_rfc3986_normalizable]. *)
From Verif Require Import Base Chars Rfc3986 Utf8 CompSpec RfcResolve PctSpec NormSpec MValidate MTrusted MFormat MPct MPath MNormalize
  PBase PScan PHost PAuth PValidate PTrusted PComps PAscii PTypes PPath PPath2 PPath3 PPath4 PPct PPct2 PPct3 PPct4 PPath5 PResolve PRds PNorm PNorm2 PNorm3.

(** ** Self-normal strings *)
Lemma app_inv_len {A} (a c b d : list A) : length a = length c -> a ++ b = c ++ d -> a = c /\ b = d.
Proof.
  revert c; induction a as [|x a IH]; intros [|y c] L E; cbn in *; try discriminate; auto.
  injection E as -> E. destruct (IH c) as [-> ->]; auto.
Qed.
Lemma pn_length S s t : pct_normal S s t -> (length t <= length s)%nat.
Proof.
  induction 1 as [|c s t Hc Hp IH|c bs s t Hs Hu Hp IH|u l s t Hu Hl Hn Hp IH]; cbn [length]; try lia.
  rewrite app_length. destruct (spelled_head _ _ (utf8_nonnil c) Hs) as (u & l & s' & -> & _). cbn [length]. lia.
Qed.
Lemma pn_delim_self S a d b : d <> 37 -> pct_wf a -> pct_normal S (a ++ d :: b) (a ++ d :: b) <-> pct_normal S a a /\ pct_normal S b b.
Proof.
  intros Hd Wa. split.
  - intros P. destruct (pn_split _ _ _ _ _ P Hd Wa) as (ta & tb & E & Pa & Pb). assert (La := pn_length _ _ _ Pa). assert (Lb := pn_length _ _ _ Pb).
    assert (LE := f_equal (@length N) E). rewrite !app_length in LE. cbn [length] in LE. assert (length a = length ta) by lia.
    destruct (app_inv_len a ta (d :: b) (d :: tb)) as [X Y]; auto. injection Y as ->. rewrite <- X in Pa. auto.
  - intros [Pa Pb]. now apply pn_app_delim.
Qed.
Lemma pn_segs S l : lead_all l -> names_ok l -> pct_normal S (join l) (join l) -> Forall (fun g => pct_normal S (snd g) (snd g)) l.
Proof.
  induction l as [|[b n] l IH]; intros La Nm P; [constructor|]. inversion La; subst. inversion Nm; subst. cbn in H1. subst b.
  change (pct_normal S (SLASH :: n ++ join l) (SLASH :: n ++ join l)) in P. apply pn_raw_inv in P; [|discriminate]. destruct P as (t & Et & P). injection Et as <-.
  assert (Wn : pct_wf (n ++ join l)) by (eapply pn_wf_l; eauto).
  destruct (lead_slashy l H2) as [E|(r & E)].
  - rewrite E, app_nil_r in P. constructor; [exact P|]. apply IH; auto. rewrite E. constructor.
  - assert (P2 := P). rewrite E in P2, Wn. apply wf_slash in Wn. destruct Wn as [Wn _]. apply pn_delim_self in P2; auto; [|discriminate]. constructor; [apply P2|]. apply IH; auto. rewrite E. apply pn_raw; [discriminate|]. apply P2.
Qed.
Lemma pn_segs_wfl S l : wfl l -> pct_normal S (join l) (join l) -> Forall (fun g => pct_normal S (snd g) (snd g)) l.
Proof.
  intros W P. destruct l as [|[b n] l]; [constructor|]. destruct b.
  - apply pn_segs; auto; [constructor; [reflexivity|eapply wfl_lead_tail; eauto]|apply W].
  - assert (La := wfl_lead_tail _ _ W). destruct W as (Nm & _). change (pct_normal S (n ++ join l) (n ++ join l)) in P.
    assert (G : Forall (fun g : bool * str => pct_normal S (snd g) (snd g)) ((true, n) :: l)); [|inversion G; subst; constructor; auto].
    apply pn_segs; [constructor; auto|inversion Nm; constructor; auto|]. change (pct_normal S (SLASH :: n ++ join l) (SLASH :: n ++ join l)). apply pn_raw; [discriminate|exact P].
Qed.
(** ** Splitting at slashes *)
Lemma split_slash_ne s : split_slash s <> [].
Proof. destruct s as [|c s]; cbn; [discriminate|]. destruct (split_slash s); [discriminate|]. destruct (c =? SLASH); discriminate. Qed.
Lemma split_slash_app n r : none (N.eqb SLASH) n = true -> split_slash (n ++ SLASH :: r) = n :: split_slash r.
Proof.
  induction n as [|c n IH]; intros H; cbn [app split_slash].
  - destruct (split_slash r) eqn:E; [now destruct (split_slash_ne r)|]. reflexivity.
  - rewrite none_cons in H. apply andb_prop in H. destruct H as [H1 H2]. rewrite IH by auto. rewrite N.eqb_sym. apply negb_true_iff in H1. now rewrite H1.
Qed.
Lemma split_slash_one n : none (N.eqb SLASH) n = true -> split_slash n = [n].
Proof.
  induction n as [|c n IH]; intros H; auto. rewrite none_cons in H. apply andb_prop in H. destruct H as [H1 H2]. cbn [split_slash]. rewrite IH by auto. rewrite N.eqb_sym. apply negb_true_iff in H1. now rewrite H1.
Qed.
Lemma split_lead n l : none (N.eqb SLASH) n = true -> lead_all l -> names_ok l -> split_slash (n ++ join l) = n :: map snd l.
Proof.
  revert n; induction l as [|[b m] l IH]; intros n Hn La Nm.
  - change (join []) with (@nil N). rewrite app_nil_r. now apply split_slash_one.
  - inversion La; subst. inversion Nm; subst. cbn in H1. subst b. change (join ((true, m) :: l)) with (SLASH :: m ++ join l). rewrite split_slash_app by auto. cbn [map snd]. f_equal. now apply IH.
Qed.
Definition dot_name (g : str) : bool := seqb g [DOT] || seqb g [DOT; DOT].
Lemma split_join l : wfl l -> existsb dot_name (split_slash (join l)) = existsb dot_name (map snd l).
Proof.
  intros W. destruct l as [|[b n] l]; [reflexivity|]. assert (La := wfl_lead_tail _ _ W). destruct W as (Nm & _). inversion Nm; subst. destruct b.
  - change (join ((true, n) :: l)) with ([] ++ SLASH :: n ++ join l). rewrite split_slash_app by reflexivity. rewrite split_lead by auto. reflexivity.
  - change (join ((false, n) :: l)) with (n ++ join l). now rewrite split_lead.
Qed.
Lemma dot_name_iff S n : pct_normal S n n -> (from_segment n = Normal <-> dot_name n = false).
Proof.
  intros P. assert (W := pn_wf_l _ _ _ P). assert (E := pnf_eq _ _ _ P). unfold dot_name. rewrite orb_false_iff.
  assert (D := kind_dot S n W). assert (DD := kind_dotdot S n W). rewrite E in D, DD.
  destruct (from_segment n) eqn:K; split; intros H; try discriminate; auto.
  - destruct H as [H _]. rewrite (proj1 D eq_refl) in H. discriminate.
  - destruct H as [_ H]. rewrite (proj1 DD eq_refl) in H. discriminate.
  - split; apply not_true_iff_false; intros X; apply seqb_eq in X; [apply D in X|apply DD in X]; discriminate.
Qed.
Lemma dots_iff S p : pct_normal S p p -> (existsb dot_name (split_slash p) = false <-> dotless p).
Proof.
  intros P. destruct (wfl_exists p) as (l & W & ->). rewrite split_join by auto. assert (G := pn_segs_wfl _ _ W P).
  assert (Q : existsb dot_name (map snd l) = existsb dotty l).
  { clear W P. induction G as [|g l Hg _ IH]; auto. cbn [map existsb]. rewrite IH. f_equal. apply dot_name_iff in Hg. unfold dotty. destruct (from_segment (snd g)), (dot_name (snd g)); intuition congruence. }
  rewrite Q. split.
  - intros H. exists l. auto.
  - intros (l' & W' & E & D). apply join_inj in E; auto. now subst.
Qed.
(** ** [is_normalized] on the components *)
Definition auth_fixed (S : Spec) (a : option str) : Prop :=
  match a with None => True | Some a => exists u h p, a = authority_string u h p /\ opt_in (userinfo S) u /\ host S h /\ opt_in port p /\ opt_rel (pct_normal S) u u /\ host_normal S h h end.
Definition strip_guard (p : str) : str := match strip_prefix (lit "/.//") p with Some r => r | None => p end.
Definition dot_span (mode : NormalizednessCheckMode) (a : option str) (p : str) : option str :=
  if is_some a then Some p else match mode with
    | CkDefault => Some (strip_guard p) | CkRfc3986 => Some p
    | CkPreserve => if starts_with [SLASH] p then Some (strip_guard p) else None end.
Lemma host_fixed S h : host S h -> exists b, (do ao <- is_ascii_only_host h ; (if ao : bool then eq_str_display h (NormalizedAsciiOnlyHost h) else is_pct_case_normalized S h)) = Ok b /\ (b = true <-> host_normal S h h).
Proof.
  intros Hh. assert (W := host_wf _ _ Hh). destruct (is_ascii_only_host_ok h W) as (b & E & Hb). rewrite E. cbn [bind]. destruct b.
  - assert (A : ascii_only h) by tauto. destruct (ascii_only_host_ok S h A) as (t & Et & Pt). rewrite (eq_display_ok h _ _ _ Et). eexists. split; [reflexivity|]. rewrite seqb_eq. split.
    + intros X. rewrite X at 2. now apply hn_ascii.
    + intros X. eapply host_normal_fun; [exact X|]. now apply hn_ascii.
  - assert (A : ~ ascii_only h) by (intros X; apply Hb in X; discriminate). destruct (is_pct_normalized_ok S h W) as (b & E2 & Hb2). exists b. split; auto. rewrite Hb2. split.
    + intros X. now apply hn_other.
    + intros X. inversion X; subst; [contradiction|auto].
Qed.
Lemma up_false s : existsb is_upper s = false <-> map lower s = s.
Proof.
  induction s as [|c s IH]; [easy|]. cbn. rewrite orb_false_iff, IH. unfold lower, is_upper. destruct (between 65 90 c) eqn:B.
  - split; [now intros [X _]|]. intros X. injection X as X _. lia.
  - split; [intros [_ X]; now rewrite X|]. intros X. injection X as X. now split.
Qed.
Lemma is_normalized_rec S s a p q f mode : components_ok S (Some s) a p q f -> exists b,
  is_normalized S (recompose (Some s) a p q f) mode = Ok b /\
  (b = true <-> map lower s = s /\ auth_fixed S a /\ match dot_span mode a p with Some x => existsb dot_name (split_slash x) = false | None => True end /\
     pct_normal S p p /\ opt_rel (pct_normal S) q q /\ opt_rel (pct_normal S) f f).
Proof.
  intros H. assert (W := components_weak _ _ _ _ _ _ H). assert (L : loose_ok S (mkC (Some s) a p q f)) by (apply comps_loose; auto).
  destruct L as (_ & Ha & Hq & Hf & Hc & _). cbn [c_a c_q c_f c_p] in *.
  unfold is_normalized. rewrite scheme_colon_rec by auto. cbn [bind]. rewrite (ss_authority_rec (Some s)) by auto. rewrite until_query_rec by apply W.
  assert (Wp := class_wf _ _ Hc).
  assert (Wq : match q with Some x => pct_wf x | None => True end) by (destruct q; [eapply query_wf; eauto|auto]).
  assert (Wf : match f with Some x => pct_wf x | None => True end) by (destruct f; [eapply fragment_wf; eauto|auto]).
  assert (Pq : pct_wf (p ++ oq q ++ ofr f) /\ (pct_normal S (p ++ oq q ++ ofr f) (p ++ oq q ++ ofr f) <-> pct_normal S p p /\ opt_rel (pct_normal S) q q /\ opt_rel (pct_normal S) f f)).
  { assert (WA : forall x d y, d <> 37 -> is_hexdigit d = false -> pct_wf x -> pct_wf y -> pct_wf (x ++ d :: y)).
    { intros x d y Hd Hx. rewrite !pct_wf_scan. intros A B. rewrite scan_delim by auto. now rewrite A, B. }
    destruct q as [q|], f as [f|]; cbn [oq ofr opt_rel].
    - change (p ++ (lit "?" ++ q) ++ lit "#" ++ f) with (p ++ 63 :: q ++ 35 :: f). split; [apply WA; try easy; apply WA; easy|]. rewrite !pn_delim_self by (auto || discriminate). tauto.
    - rewrite app_nil_r. change (p ++ lit "?" ++ q) with (p ++ 63 :: q). split; [apply WA; easy|]. rewrite !pn_delim_self by (auto || discriminate). tauto.
    - change (p ++ [] ++ lit "#" ++ f) with (p ++ 35 :: f). split; [apply WA; easy|]. rewrite !pn_delim_self by (auto || discriminate). tauto.
    - cbn [app]. rewrite app_nil_r. tauto. }
  destruct Pq as [Wall Pall].
  destruct (existsb is_upper s) eqn:U.
  { exists false. split; auto. split; [discriminate|]. intros (X & _). apply up_false in X. congruence. }
  apply up_false in U.
  assert (HA : exists b, match a with
    | None => Ok true
    | Some a => let ac := decompose_authority a in do host <- ac_host ac ; do ao <- is_ascii_only_host host ;
        do hn <- (if ao : bool then eq_str_display host (NormalizedAsciiOnlyHost host) else is_pct_case_normalized S host) ;
        if negb hn then Ok false else do u <- ac_userinfo ac ; match u with Some u => is_pct_case_normalized S u | None => Ok true end
    end = Ok b /\ (b = true <-> auth_fixed S a)).
  { destruct a as [a|]; [|exists true; split; [reflexivity|split; [intros _; exact I|reflexivity]]]. cbn in Ha. destruct (authority_components_spec S a Ha) as (u & h & pt & Eu & Eh & Ep & _ & _ & Ea & Hu & Hh & Hp). cbv zeta. rewrite Eh. cbn [bind].
    assert (AF : auth_fixed S (Some a) <-> opt_rel (pct_normal S) u u /\ host_normal S h h).
    { unfold auth_fixed. split.
      - intros (u' & h' & p' & E & Hu' & Hh' & Hp' & X & Y). rewrite <- Ea in E. apply (authority_unique S) in E; auto. injection E as -> -> ->. auto.
      - intros [X Y]. exists u, h, pt. repeat split; auto. }
    destruct (host_fixed S h Hh) as (b & Eb & Hb). destruct (is_ascii_only_host h) as [ao|e|] eqn:EE; cbn [bind] in Eb |- *; try discriminate. rewrite Eb. cbn [bind]. destruct b; cbn [negb].
    - rewrite Eu. cbn [bind]. destruct u as [u|].
      + destruct (is_pct_normalized_ok S u (userinfo_wf _ _ Hu)) as (b & E2 & Hb2). exists b. split; auto. rewrite AF, Hb2. cbn [opt_rel]. tauto.
      + exists true. split; auto. rewrite AF. cbn [opt_rel]. tauto.
    - exists false. split; auto. rewrite AF. split; [discriminate|]. intros [_ X]. apply Hb in X. discriminate. }
  destruct HA as (ba & EA & HA). cbv zeta in EA |- *. rewrite EA. cbn [bind]. destruct ba; cbn [negb].
  2:{ exists false. split; auto. split; [discriminate|]. intros (_ & X & _). apply HA in X. discriminate. }
  assert (AF : auth_fixed S a) by tauto.
  match goal with |- exists b, (if match ?x with _ => _ end then _ else _) = _ /\ _ => change x with (dot_span mode a p) end.
  destruct (is_pct_normalized_ok S _ Wall) as (b & E & Hb).
  destruct (dot_span mode a p) as [x|].
  - change (existsb (fun g => seqb g [DOT] || seqb g [DOT; DOT]) (split_slash x)) with (existsb dot_name (split_slash x)). destruct (existsb dot_name (split_slash x)) eqn:D.
    + exists false. split; auto. split; [discriminate|]. intros (_ & _ & X & _). discriminate.
    + exists b. split; auto. rewrite Hb, Pall. tauto.
  - exists b. split; auto. rewrite Hb, Pall. tauto.
Qed.
