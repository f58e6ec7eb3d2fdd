(** * Templates and the normalization of percent-encoding (C72). *)
From Verif Require Import Base Chars Rfc3986 Utf8 CompSpec PctSpec EncodeSpec TemplateSpec ExpandSpec TmplNormSpec.
From Verif Require Import PPath2.
From Verif Require Import TemplateSpec ExpandSpec TmplNormSpec MValidate MTrusted MFormat MWriters MPct MEncode MTemplate MExpand PBase PScan PPct PPct2 PPct3 PEncode PDecode PNorm8 PCommute PEquiv PEncNorm PExp4 PExp6 PExp9 PExp11.
From Coq Require Import Lia.
Open Scope string_scope. Open Scope N_scope. Open Scope list_scope.

Lemma pn_app S a ta b tb : pct_normal S a ta -> begins_well S b -> pct_normal S b tb -> pct_normal S (a ++ b) (ta ++ tb).
Proof.
  intros Ha Hw Hb. induction Ha as [|c0 s t Hc Hp IH|c0 bs s t Hs Hu Hp IH|u l s t Hu Hl Hn Hp IH]; cbn [app].
  - exact Hb.
  - now apply pn_raw.
  - rewrite <- app_assoc. now apply pn_decode.
  - apply pn_keep; auto. intros c' bs s' E Hs. destruct (unreserved S c') eqn:U'; [exfalso|reflexivity].
    change (37 :: u :: l :: s ++ b) with ((37 :: u :: l :: s) ++ b) in E.
    assert (Wk : pct_wf (37 :: u :: l :: s)) by (apply wf_trip; auto; eapply pn_wf_l; eauto).
    destruct (spelled_span _ _ _ _ _ Hs Wk E) as [(s1 & E1)|(k1 & k2 & x2 & Ek & Hk & S1 & S2 & E2)].
    + rewrite (Hn _ _ _ E1 Hs) in U'. discriminate.
    + destruct (utf8_shape c' (unreserved_scalar _ _ U')) as (f' & ks' & Eu' & F' & D).
      destruct k1 as [|k k1]; [inversion S1|]. rewrite Eu' in Ek. cbn [app] in Ek. injection Ek as <- ->. apply Forall_app in F'. destruct F' as (_ & F').
      destruct k2 as [|k2 k2']; [now elim Hk|]. apply Forall_inv in F'. destruct Hw as [->|Hw].
      * destruct D as [(_ & D & _)|(D & L)]; [destruct k1; discriminate|].
        destruct (unres_low c' U') as (_ & X & _). rewrite X in Eu'. injection Eu' as _ Eu'. destruct k1; discriminate.
      * change (k2 :: k2') with ([k2] ++ k2') in S2. apply PExp1.spelled_split in S2. destruct S2 as (m & v & -> & Sm & _). rewrite <- app_assoc in E2.
        apply (Hw k2 m _ E2 Sm). exact F'.
Qed.
Lemma bw_nil S : begins_well S [].
Proof. right. intros x m r E H. inversion H; subst. discriminate. Qed.
Lemma bw_raw S c s : c <> 37 -> begins_well S (c :: s).
Proof. intros Hc. right. intros x m r E H. inversion H; subst. injection E as -> _. congruence. Qed.
Lemma spelled_one_det x m y m' r r' : spelled [x] m -> spelled [y] m' -> m ++ r = m' ++ r' -> x = y.
Proof. intros H1 H2 E. inversion H1 as [|u l bs s _ _ N1]; subst. inversion H2 as [|u' l' bs' s' _ _ N2]; subst. inversion N1; inversion N2; subst. cbn [app] in E. now injection E as -> -> _. Qed.
Lemma bw_app S a b : pct_wf a -> begins_well S a -> begins_well S b -> begins_well S (a ++ b).
Proof.
  intros W [Ha|Ha] Hb; [now left|]. destruct W as [|c s Hc W|u l s Hu Hl W]; [exact Hb|now apply bw_raw|]. right. intros x m r E H.
  assert (Sp : spelled [16 * hex_value u + hex_value l] [37; u; l]) by (constructor; auto; constructor).
  rewrite (spelled_one_det x m _ [37; u; l] r (s ++ b) H Sp (eq_sym E)). apply (Ha _ [37; u; l] s eq_refl Sp).
Qed.
Lemma bw_encode S ok v : ok 37 = false -> all_scalar v = true -> begins_well S (encode ok v).
Proof.
  intros P H. destruct v as [|c v]; [apply bw_nil|]. cbn [all_scalar forallb] in H. apply andb_prop in H. destruct H as [Hc _]. unfold encode. cbn [flat_map].
  destruct (ok c) eqn:K; [apply bw_raw; congruence|]. right. intros x m r E Sp. destruct (utf8_shape c Hc) as (f & ks & Eu & _ & D). rewrite Eu in E. cbn [triplets flat_map] in E. rewrite <- !app_assoc in E.
  assert (Bf : f < 256) by (apply (utf8_byte c); auto; rewrite Eu; now left).
  rewrite (spelled_one_det x m f (triplet f) _ _ Sp (spelled_triplet f Bf) (eq_sym E)).
  destruct D as [(D & _)|(D & _)]; [lia|]. unfold expected_len, between in D. intros [X Y].
  replace ((194 <=? f) && (f <=? 223))%bool with false in D by lia. replace ((224 <=? f) && (f <=? 239))%bool with false in D by lia. replace ((240 <=? f) && (f <=? 244))%bool with false in D by lia. discriminate.
Qed.
(** Texts that are normal; and that, in addition, may follow anything. *)
Definition nrm (S : Spec) (s : str) : Prop := pct_normal S s s.
Definition nrw (S : Spec) (s : str) : Prop := nrm S s /\ begins_well S s.
Lemma nrw_nil S : nrw S [].
Proof. split; [constructor|apply bw_nil]. Qed.
Lemma nrw_raw S c s : c <> 37 -> nrm S s -> nrw S (c :: s).
Proof. intros Hc H. split; [now apply pn_raw|now apply bw_raw]. Qed.
Lemma nrw_app S a b : nrw S a -> nrw S b -> nrw S (a ++ b).
Proof. intros [A1 A2] [B1 B2]. split; [now apply pn_app|]. apply bw_app; auto. exact (pn_wf_l _ _ _ A1). Qed.
Lemma nrm_app S a b : nrm S a -> nrw S b -> nrm S (a ++ b).
Proof. intros A [B1 B2]. now apply pn_app. Qed.
Lemma nrw_encode S ok v : (forall c, unreserved S c = true -> ok c = true) -> ok 37 = false -> all_scalar v = true -> nrw S (encode ok v).
Proof. intros. split; [now apply encode_normal|now apply bw_encode]. Qed.
Lemma nrw_U S v : all_scalar v = true -> nrw S (enc_U S v).
Proof. apply nrw_encode; auto. now destruct S. Qed.
Lemma nrw_join S d l : d <> 37 -> Forall (nrw S) l -> nrw S (join [d] l).
Proof.
  intros Hd F. induction F as [|x l Hx F IH]; [apply nrw_nil|]. destruct l as [|y l]; [exact Hx|]. change (join [d] (x :: y :: l)) with (x ++ d :: join [d] (y :: l)). apply nrw_app; auto. apply nrw_raw; auto. apply IH.
Qed.
Lemma nrm_join S d l : d <> 37 -> Forall (nrm S) l -> nrm S (join [d] l).
Proof.
  intros Hd F. induction F as [|x l Hx F IH]; [constructor|]. destruct l as [|y l]; [exact Hx|]. change (join [d] (x :: y :: l)) with (x ++ d :: join [d] (y :: l)). apply nrm_app; auto. now apply nrw_raw.
Qed.
Definition scalars (v : sval) : Prop :=
  match v with Undef => True | Str s => all_scalar s = true | Lst l => Forall (fun s => all_scalar s = true) l | Assc l => Forall (fun e => all_scalar (fst e) = true /\ all_scalar (snd e) = true) l end.
Lemma sep_char o : exists d, w_sep (op_row o) = [d] /\ d <> 37.
Proof. destruct o; eexists; (split; [reflexivity|discriminate]). Qed.
Lemma first_char o : w_named (op_row o) = true -> exists d, w_first (op_row o) = [d] /\ d <> 37.
Proof. destruct o; try discriminate; eexists; (split; [reflexivity|discriminate]). Qed.
(** ** Encoded values *)
Section Values.
Variables (S : Spec) (o : rop) (r : rspec).
Hypothesis name_ok : crate_varname (r_name r).
Hypothesis name_normal : w_named (op_row o) = true -> nrm S (r_name r).
Variable good : str -> Prop.
Hypothesis enc_good : forall v, all_scalar v = true -> good v -> nrw S (enc S o v).

Lemma string_ok k : all_scalar k = true -> good k -> nrm S (rfc_string S o (r_name r) k) /\ (w_named (op_row o) = false -> nrw S (rfc_string S o (r_name r) k)).
Proof.
  intros Sc G. unfold rfc_string. destruct (w_named (op_row o)) eqn:Nm; [|split; [apply enc_good; auto|intros _; apply enc_good; auto]]. split; [|discriminate].
  rewrite (ur_name S _ name_ok). apply nrm_app; auto. destruct (is_empty k); [destruct o; try (apply nrw_nil); apply nrw_raw; try discriminate; constructor|].
  apply nrw_raw; [discriminate|]. apply enc_good; auto.
Qed.
Lemma map_enc l : Forall (fun s => all_scalar s = true) l -> Forall good l -> Forall (nrw S) (map (enc S o) l).
Proof. induction 1 as [|x l Hx F IH]; intros G; inversion G; subst; constructor; auto. Qed.
Lemma named_prefix s : nrw S s -> nrm S ((if w_named (op_row o) then enc_UR S (r_name r) ++ lit "=" else []) ++ s) /\
  (w_named (op_row o) = false -> nrw S ((if w_named (op_row o) then enc_UR S (r_name r) ++ lit "=" else []) ++ s)).
Proof.
  intros H. destruct (w_named (op_row o)) eqn:Nm; [|split; [apply H|intros _; exact H]]. split; [|discriminate]. rewrite (ur_name S _ name_ok), <- app_assoc. apply nrm_app; auto. apply nrw_raw; [discriminate|apply H].
Qed.
Lemma name_scalar : all_scalar (r_name r) = true.
Proof. apply PExp4.name_scalar. exact name_ok. Qed.
Lemma list_ok e l : Forall (fun s => all_scalar s = true) l -> Forall good l -> nrm S (crate_list S o (r_name r) e l) /\ (w_named (op_row o) = false -> nrw S (crate_list S o (r_name r) e l)).
Proof.
  intros Sc G. unfold crate_list. destruct (w_named (op_row o) && e) eqn:K.
  - apply andb_prop in K. destruct K as [Nm ->]. destruct l as [|x l].
    + unfold rfc_list. rewrite Nm. cbn [map join]. split; [constructor|intros; congruence].
    + split; [|intros; congruence]. inversion Sc as [|? ? Sx Sl]; subst. apply nrm_app; auto. apply nrw_raw; [discriminate|]. apply nrm_app; [apply nrw_U; auto|]. clear G Sc. destruct (sep_char o) as (d & -> & Hd).
      induction Sl as [|y l Sy Sl IH]; [apply nrw_nil|]. cbn [flat_map]. apply nrw_app; [|exact IH]. apply nrw_raw; [exact Hd|].
      apply nrm_app; [apply nrw_U; exact name_scalar|]. apply nrw_raw; [discriminate|]. now apply nrw_U.
  - unfold rfc_list. destruct e.
    + rewrite andb_true_r in K. rewrite K. destruct (sep_char o) as (d & -> & Hd). pose proof (nrw_join S d _ Hd (map_enc l Sc G)) as X. split; [apply X|auto].
    + apply named_prefix. apply (nrw_join S 44); [discriminate|]. now apply map_enc.
Qed.
Lemma assoc_ok e l : Forall (fun e => all_scalar (fst e) = true /\ all_scalar (snd e) = true) l -> Forall (fun e => good (fst e) /\ good (snd e)) l ->
  nrm S (crate_assoc S o (r_name r) e l) /\ (w_named (op_row o) = false -> nrw S (crate_assoc S o (r_name r) e l)).
Proof.
  intros Sc G. assert (P : forall (d : str -> str) c l, (forall v, all_scalar v = true -> good v -> nrw S (d v)) -> c <> 37 -> Forall (fun e => all_scalar (fst e) = true /\ all_scalar (snd e) = true) l -> Forall (fun e => good (fst e) /\ good (snd e)) l ->
    Forall (nrw S) (map (fun '(k, x) => d k ++ [c] ++ d x) l)).
  { intros d c l0 Hd Hc. induction 1 as [|[k x] l0 [Sk Sx] F IH]; intros G0; inversion G0 as [|? ? [Gk Gx] G1]; subst; constructor; auto. apply nrw_app; [now apply Hd|]. apply nrw_raw; auto. now apply Hd. }
  unfold crate_assoc. destruct (w_named (op_row o)) eqn:Nm.
  - split; [|discriminate]. destruct (sep_char o) as (d & -> & Hd). destruct e.
    + apply (nrw_join S d); auto. apply (P (enc_U S) 61); auto; [|discriminate]. intros v Hv _. now apply nrw_U.
    + apply nrm_app; [apply nrw_U; exact name_scalar|]. apply nrw_raw; [discriminate|]. apply (nrw_join S 44); [discriminate|]. apply (P (enc_U S) 44); auto; [|discriminate]. intros v Hv _. now apply nrw_U.
  - unfold rfc_assoc. rewrite Nm. assert (X : nrw S (if e then join (w_sep (op_row o)) (map (fun '(k, x) => enc S o k ++ lit "=" ++ enc S o x) l) else [] ++ join (lit ",") (map (fun '(k, x) => enc S o k ++ lit "," ++ enc S o x) l))); [|split; [apply X|auto]].
    destruct e; [destruct (sep_char o) as (d & -> & Hd); apply nrw_join; auto; apply (P (enc S o) 61); auto; discriminate|]. apply (nrw_join S 44); [discriminate|]. apply (P (enc S o) 44); auto; discriminate.
Qed.
End Values.
(** ** Templates *)
Section Whole.
Variables (S : Spec) (env : str -> sval) (value : rop -> rspec -> sval -> str).
Definition value_ok (o : rop) (r : rspec) : Prop :=
  nrm S (value o r (env (r_name r))) /\ (w_named (op_row o) = false -> nrw S (value o r (env (r_name r)))).
Lemma expression_ok o l : (forall r, In r l -> value_ok o r) -> nrw S (expression value env o l).
Proof.
  intros H. unfold expression. set (f := filter _ l). assert (Hf : forall r, In r f -> value_ok o r) by (intros r I; apply filter_In in I; apply H, I). clearbody f. clear H l.
  destruct f as [|r f]; [apply nrw_nil|]. cbn [map]. destruct (w_named (op_row o)) eqn:Nm.
  - destruct (first_char o Nm) as (d & -> & Hd). apply nrw_raw; auto. destruct (sep_char o) as (d' & -> & Hd'). apply nrm_join; auto. change (Forall (nrm S) (map (fun r => value o r (env (r_name r))) (r :: f))).
    apply Forall_map. apply Forall_forall. intros z I. exact (proj1 (Hf z I)).
  - assert (X : nrw S (join (w_sep (op_row o)) (map (fun r => value o r (env (r_name r))) (r :: f)))).
    { destruct (sep_char o) as (d' & -> & Hd'). apply nrw_join; auto. apply Forall_map. apply Forall_forall. intros x I. now apply (Hf x I). }
    cbn [map] in X. destruct o; try discriminate Nm; try exact X; apply nrw_raw; try discriminate; apply X.
Qed.
Lemma expansion_ok T T' : Forall2 (part_normal S) T T' -> (forall o l r, In (Expr o l) T -> In r l -> value_ok o r) ->
  pct_normal S (expansion value env T) (expansion value env T') /\ begins_well S (expansion value env T).
Proof.
  intros F. induction F as [|p p' T T' Hp F IH]; intros H; [split; [constructor|apply bw_nil]|]. destruct IH as [I1 I2]; [intros o l r I J; apply (H o l r); auto; now right|].
  unfold expansion in *. cbn [flat_map]. destruct Hp as [s t W N|o l _].
  - split; [now apply pn_app|]. apply bw_app; auto. exact (pn_wf_l _ _ _ N).
  - assert (X : nrw S (expression value env o l)) by (apply expression_ok; intros r I; apply (H o l r); auto; now left). destruct X as [X1 X2]. split; [now apply pn_app|]. apply bw_app; auto. exact (pn_wf_l _ _ _ X1).
Qed.
End Whole.
(** ** Results *)
Lemma scalar_firstn n s : all_scalar s = true -> all_scalar (firstn n s) = true.
Proof. unfold all_scalar. rewrite !forallb_forall. intros H x I. apply H. rewrite <- (firstn_skipn n s). apply in_app_iff. now left. Qed.
Lemma scalar_cat a b : all_scalar (a ++ b) = true <-> all_scalar a = true /\ all_scalar b = true.
Proof. unfold all_scalar. rewrite forallb_app. apply andb_true_iff. Qed.
Lemma keep_scalar debug l : forall n k, all_scalar (concat l) = true -> keep debug n l = Some k -> all_scalar k = true.
Proof.
  induction l as [|c l IH]; intros n k Sc E; cbn [keep] in E; [now injection E as <-|]. destruct (n =? 0); [now injection E as <-|]. cbn [concat] in Sc. apply scalar_cat in Sc. destruct Sc as [Sc Sl].
  match type of E with (if ?b then _ else _) = _ => destruct b; [discriminate|] end. match type of E with option_map _ ?x = _ => destruct x as [k'|] eqn:K; [|discriminate] end.
  injection E as <-. apply scalar_cat. split; [now apply scalar_firstn|]. exact (IH _ _ Sl K).
Qed.
Lemma supplied_scalars v w : supplies v w -> scalars w.
Proof.
  intros [|d s (_ & _ & H)|ds l F|ds l F]; cbn [scalars]; auto.
  - clear -F. induction F as [|d s ds l (_ & _ & H) F IH]; constructor; auto.
  - clear -F. induction F as [|d s ds l ((_ & _ & H) & (_ & _ & H')) F IH]; constructor; auto.
Qed.
Lemma names_of S T T' o l r : usable T -> Forall2 (part_normal S) T T' -> In (Expr o l) T -> In r l -> crate_varname (r_name r) /\ (w_named (op_row o) = true -> nrm S (r_name r)).
Proof.
  intros U F I J. split.
  - unfold usable in U. rewrite Forall_forall in U. destruct (U _ I) as [[_ C] _]. rewrite Forall_forall in C. apply (C r J).
  - clear U. induction F as [|p p' T T' Hp F IH]; [destruct I|]. destruct I as [-> |I]; [|exact (IH I)]. inversion Hp as [|? ? H]; subst. intros Nm. specialize (H Nm). rewrite Forall_forall in H. exact (H r J).
Qed.
Lemma all_good (l : list str) (g : str -> Prop) : (forall v, g v) -> Forall g l.
Proof. intros H. apply Forall_forall. auto. Qed.
Lemma crate_values S o r v : crate_varname (r_name r) -> (w_named (op_row o) = true -> nrm S (r_name r)) -> scalars v ->
  (w_reserved (op_row o) = true -> no_percents v) -> nrm S (crate_value S o r v) /\ (w_named (op_row o) = false -> nrw S (crate_value S o r v)).
Proof.
  intros Nc Nn Sc Np. set (good := fun s : str => w_reserved (op_row o) = true -> ~ In 37 s).
  assert (G : forall v, all_scalar v = true -> good v -> nrw S (enc S o v)).
  { intros s Hs Hg. unfold enc, good in *. destruct (w_reserved (op_row o)); [|now apply nrw_U]. pose proof (PExp2.ur_plain S s [] (Hg eq_refl)) as E. cbn [enc_UR] in E. rewrite !app_nil_r in E. rewrite E.
    apply nrw_encode; auto; [|now destruct S]. intros c H. unfold character_char. now rewrite H. }
  destruct v as [|s|l|l]; cbn [crate_value scalars no_percents] in *.
  - split; [constructor|intros _; apply nrw_nil].
  - assert (P : forall x, In x (prefix_of (r_mod r) s) -> In x s). { intros x. unfold prefix_of. destruct (r_mod r) as [|ds|]; auto. intros I. rewrite <- (firstn_skipn (N.to_nat (decimal ds)) s). apply in_app_iff. now left. }
    apply (string_ok S o r Nc Nn good G); [|intros R I; exact (proj1 (Np R) (P _ I))].
    unfold prefix_of. destruct (r_mod r); auto. now apply scalar_firstn.
  - apply (list_ok S o r Nc Nn good G); auto. apply Forall_forall. intros x I R. specialize (Np R). rewrite Forall_forall in Np. exact (proj1 (Np x I)).
  - apply (assoc_ok S o r Nc Nn good G); auto. apply Forall_forall. intros x I. split; intros R; specialize (Np R); rewrite Forall_forall in Np; destruct (Np x I) as [[A _] [B _]]; auto.
Qed.
Lemma pct_text S s t : pct_normal S s t -> text (PctCaseNormalized S s) = Ok t.
Proof. intros N. destruct (pct_normalized_ok S s (pn_wf_l _ _ _ N)) as (t' & X & N'). rewrite (pn_fun _ _ _ N _ N'). eapply outs_text. exact X. Qed.
Lemma c72_open S debug ctx env T T' out : supplies_env ctx env -> usable T -> open_template T -> fine env T -> Forall2 (part_normal S) T T' ->
  expand_to_string S debug ctx (template_text T) = Ok out ->
  exists kept, (forall o l r d, In (Expr o l) T -> In r l -> ctx (r_name r) = VString d -> keep_value debug (r_mod r) d = Some (kept r)) /\
    out = expansion (kept_value S kept) env T /\ text (PctCaseNormalized S out) = Ok (expansion (kept_value S kept) env T').
Proof.
  intros He Hu Ho Hf Hn E. destruct (open_exact S debug ctx env He T Hu Ho Hf) as [E1 E2].
  set (kept := fun r : rspec => match ctx (r_name r) with VString d => match keep_value debug (r_mod r) d with Some k => k | None => [] end | _ => [] end).
  assert (K : forall o l r d, In (Expr o l) T -> In r l -> ctx (r_name r) = VString d -> keep_value debug (r_mod r) d = Some (kept r)).
  { intros o l r d I J C. unfold kept. rewrite C. destruct (keep_value debug (r_mod r) d) eqn:Kv; auto. rewrite (E2 o l r d I J C Kv) in E. discriminate. }
  exists kept. split; [exact K|]. rewrite (E1 kept K) in E. injection E as <-. split; [reflexivity|]. apply pct_text.
  apply (proj1 (expansion_ok S env (kept_value S kept) T T' Hn ltac:(
    intros o l r I J; destruct (names_of S T T' o l r Hu Hn I J) as [Nc Nn]; pose proof (Ho o l I) as Rs; pose proof (supplied_scalars _ _ (He (r_name r))) as Sc; unfold value_ok, kept_value; destruct (env (r_name r)) as [|s|w|w] eqn:Ev;
    try (apply crate_values; auto; congruence);
    specialize (He (r_name r)); rewrite Ev in He; inversion He as [|d s0 (_ & C & Hs)| |]; subst;
    apply (string_ok S o r Nc Nn (fun _ => True)); auto; [intros v Hv _; unfold enc; rewrite Rs; now apply nrw_U|];
    specialize (K o l r d I J ltac:(now symmetry)); unfold keep_value in K; destruct (r_mod r); try (injection K as <-; assumption); eapply keep_scalar; [|exact K]; assumption))).
Qed.
Lemma c72_tame S debug ctx env T T' : supplies_env ctx env -> usable T -> tame_template debug ctx T -> fine env T -> no_percents_reserved env T -> Forall2 (part_normal S) T T' ->
  expand_to_string S debug ctx (template_text T) = Ok (crate_expansion S env T) /\ text (PctCaseNormalized S (crate_expansion S env T)) = Ok (crate_expansion S env T').
Proof.
  intros He Hu Ht Hf Hp Hn. split; [exact (expands S debug ctx env He T Hu Ht Hf)|]. apply pct_text. apply expansion_ok; auto. intros o l r I J.
  destruct (names_of S T T' o l r Hu Hn I J) as [Nc Nn]. apply crate_values; auto; [exact (supplied_scalars _ _ (He (r_name r)))|]. intros R. exact (Hp o l r I J R).
Qed.
Lemma c72_fix S debug ctx env T out : supplies_env ctx env -> usable T -> open_template T -> fine env T -> Forall2 (part_normal S) T T ->
  expand_to_string S debug ctx (template_text T) = Ok out -> text (PctCaseNormalized S out) = Ok out.
Proof. intros He Hu Ho Hf Hn E. destruct (c72_open S debug ctx env T T out He Hu Ho Hf Hn E) as (k & _ & E1 & E2). rewrite E2. now rewrite E1. Qed.
