(** Proofs for C52: the values can be read back from an expansion. *)
From Verif Require Import Base Chars Rfc3986 Utf8 PctSpec EncodeSpec MFormat MEncode MTemplate MExpand TemplateSpec ExpandSpec ReadSpec.
From Verif Require Import PBase PScan PPct PEncode PEncode2 PTmpl1 PTmpl2 PTmpl3 PExp4 PExp5 PExp6 PExp7 PExp9 PDecode.

(** ** Splitting *)
Lemma pieces_app c a r : ~ In c a -> pieces c (a ++ r) = match pieces c r with p :: l => (a ++ p) :: l | [] => [a] end.
Proof.
  induction a as [|x a IH]; intros N; cbn [app pieces]; [destruct r; [reflexivity|cbn [pieces]]; destruct (_ =? c); [reflexivity|]; now destruct (pieces c r)|].
  destruct (N.eqb_spec x c) as [->|]; [exfalso; apply N; now left|]. rewrite IH by (intros X; apply N; now right). now destruct (pieces c r).
Qed.
Lemma pieces_one c a : ~ In c a -> pieces c a = [a].
Proof. intros H. pose proof (pieces_app c a [] H) as E. rewrite app_nil_r in E. rewrite E. cbn [pieces]. now rewrite app_nil_r. Qed.
Lemma pieces_join c ts : ts <> [] -> Forall (fun t => ~ In c t) ts -> pieces c (TemplateSpec.join [c] ts) = ts.
Proof.
  intros N F. induction F as [|t ts Ht F IH]; [contradiction|]. destruct ts as [|u ts]; [apply pieces_one, Ht|].
  change (TemplateSpec.join [c] (t :: u :: ts)) with (t ++ c :: TemplateSpec.join [c] (u :: ts)). rewrite pieces_app by exact Ht.
  cbn [pieces]. rewrite N.eqb_refl. rewrite IH by discriminate. now rewrite app_nil_r.
Qed.
Lemma at_equals_app a b : ~ In 61 a -> at_equals (a ++ 61 :: b) = Some (a, b).
Proof.
  induction a as [|x a IH]; intros N; cbn [app at_equals]; [reflexivity|].
  destruct (N.eqb_spec x 61) as [->|]; [exfalso; apply N; now left|]. now rewrite IH by (intros X; apply N; now right).
Qed.
Lemma at_equals_none a : ~ In 61 a -> at_equals a = None.
Proof.
  induction a as [|x a IH]; intros N; cbn [at_equals]; [reflexivity|].
  destruct (N.eqb_spec x 61) as [->|]; [exfalso; apply N; now left|]. now rewrite IH by (intros X; apply N; now right).
Qed.
Lemma join_app sep a b : a <> [] -> b <> [] -> TemplateSpec.join sep (a ++ b) = TemplateSpec.join sep a ++ sep ++ TemplateSpec.join sep b.
Proof.
  intros Ha Hb. induction a as [|x a IH]; [contradiction|]. destruct a as [|y a].
  - cbn [app]. destruct b; [contradiction|reflexivity].
  - change ((x :: y :: a) ++ b) with (x :: ((y :: a) ++ b)). cbn [TemplateSpec.join app]. cbn [TemplateSpec.join app] in IH. rewrite IH by discriminate. now rewrite <- !app_assoc.
Qed.
Lemma join_join sep ls : Forall (fun l => l <> []) ls -> TemplateSpec.join sep (map (TemplateSpec.join sep) ls) = TemplateSpec.join sep (concat ls).
Proof.
  induction 1 as [|l ls Hl F IH]; [reflexivity|]. cbn [map concat]. destruct ls as [|m ls].
  - cbn. now rewrite app_nil_r.
  - assert (concat (m :: ls) <> []). { cbn. inversion_clear F. destruct m; [contradiction|discriminate]. }
    rewrite join_app by assumption. rewrite <- IH. reflexivity.
Qed.

(** ** Encoded values *)
Lemma in_triplets c bs : bytes bs -> In c (triplets bs) -> c = 37 \/ HEXDIG c = true.
Proof.
  induction 1 as [|b bs Hb B IH]; cbn [triplets flat_map]; [contradiction|]. intros H. apply in_app_or in H as [H|H]; [|now apply IH].
  unfold triplet in H. destruct H as [<-|[<-|[<-|[]]]]; [now left| |]; right; [apply (hex_digit_facts (b / 16)), byte_div, Hb|apply (hex_digit_facts (b mod 16)), byte_mod].
Qed.
Lemma in_enc S c s : all_scalar s = true -> In c (enc_U S s) -> In c s /\ unreserved S c = true \/ c = 37 \/ HEXDIG c = true.
Proof.
  unfold enc_U, encode. induction s as [|x s IH]; cbn [flat_map all_scalar forallb]; intros Hs H; [contradiction|]. bdestr.
  apply in_app_or in H as [H|H].
  - destruct (unreserved S x) eqn:U; [destruct H as [<-|[]]; left; split; [now left|exact U]|]. right. eapply in_triplets; [|exact H]. now apply utf8_bytes.
  - destruct (IH ltac:(assumption) H) as [[X Y]|X]; [left; split; [now right|exact Y]|now right].
Qed.
Lemma enc_free S c s : all_scalar s = true -> c <> 37 -> HEXDIG c = false -> unreserved S c = false \/ ~ In c s -> ~ In c (enc_U S s).
Proof. intros Hs H1 H2 H3 X. destruct (in_enc S c s Hs X) as [[Y Z]|[Y|Y]]; [destruct H3; [congruence|contradiction]|contradiction|congruence]. Qed.
Lemma decoded_enc S s : all_scalar s = true -> decoded (enc_U S s) = utf8s s.
Proof. intros H. apply denotes_decode. apply encode_denotes; [now destruct S|exact H]. Qed.
Lemma free44 S s : all_scalar s = true -> ~ In 44 (enc_U S s).
Proof. intros H. apply enc_free; [exact H|discriminate|reflexivity|left; now destruct S]. Qed.
Lemma free61 S s : all_scalar s = true -> ~ In 61 (enc_U S s).
Proof. intros H. apply enc_free; [exact H|discriminate|reflexivity|left; now destruct S]. Qed.
Lemma free_sep S o s : w_reserved (op_row o) = false -> all_scalar s = true -> (o = Dot -> ~ In 46 s) -> ~ In (separator o) (enc_U S s).
Proof. intros W H D. apply enc_free; [exact H| | |]; destruct o; try discriminate; try reflexivity; try (left; now destruct S). right. now apply D. Qed.
Lemma in_join c sep l : In c (TemplateSpec.join sep l) -> In c sep \/ exists x, In x l /\ In c x.
Proof.
  induction l as [|x l IH]; [contradiction|]. destruct l as [|y l]; [right; exists x; cbn in *; auto|].
  change (TemplateSpec.join sep (x :: y :: l)) with (x ++ sep ++ TemplateSpec.join sep (y :: l)). intros H.
  apply in_app_or in H as [H|H]; [right; exists x; split; [now left|exact H]|]. apply in_app_or in H as [H|H]; [now left|].
  destruct (IH H) as [X|(z & X & Y)]; [now left|right; exists z; split; [now right|exact Y]].
Qed.

(** ** Names without triplets *)
Lemma name_plain n : crate_varname n -> ~ In 37 n -> forallb vcd n = true.
Proof.
  intros H N. apply name_iff, name_vcd in H. revert n H N.
  apply (scan_ind (fun s => scan vcd s = true -> ~ In 37 s -> forallb vcd s = true)).
  - reflexivity.
  - intros c s Hc IH H N. rewrite scan_cons in H by exact Hc. apply andb_prop in H as [H1 H2]. cbn [forallb]. rewrite H1. apply IH; [exact H2|]. intros X. apply N. now right.
  - intros u l s _ _ N. exfalso. apply N. now left.
  - discriminate.
  - intros u H. rewrite scan_pct1 in H. discriminate.
Qed.

Lemma vcd_unreserved S c : vcd c = true -> unreserved S c = true.
Proof.
  intros H. unfold unreserved. unfold vcd, vc in H.
  destruct (ALPHA c) eqn:E1; [reflexivity|]. destruct (DIGIT c) eqn:E2; [reflexivity|]. cbn [orb] in *.
  destruct (N.eqb_spec c 95) as [->|]; [now destruct S|]. destruct (N.eqb_spec c 46) as [->|]; [now destruct S|discriminate].
Qed.
Lemma name_enc S n : crate_varname n -> ~ In 37 n -> enc_U S n = n.
Proof.
  intros H N. pose proof (name_plain n H N) as F. clear H N. unfold enc_U, encode. induction n as [|c n IH]; [reflexivity|].
  cbn [forallb] in F. apply andb_prop in F as [F1 F2]. cbn [flat_map]. rewrite (vcd_unreserved S c F1). cbn [app]. now rewrite IH.
Qed.
Notation scalars l := (Forall (fun x => all_scalar x = true) l).
Lemma decode_list S l : l <> [] -> scalars l -> map decoded (pieces 44 (TemplateSpec.join [44] (map (enc_U S) l))) = map utf8s l.
Proof.
  intros N F. rewrite pieces_join.
  - rewrite map_map. apply map_ext_in. intros x Hx. apply decoded_enc. rewrite Forall_forall in F. now apply F.
  - destruct l; [contradiction|discriminate].
  - apply Forall_map. eapply Forall_impl; [|exact F]. intros x Hx. now apply free44.
Qed.
Lemma rf_eq S named k l : all_scalar k = true -> l <> [] -> scalars l ->
  read_field named (enc_U S k ++ 61 :: TemplateSpec.join [44] (map (enc_U S) l)) = (Some (utf8s k), map utf8s l).
Proof. intros Hk N F. unfold read_field. rewrite at_equals_app by (now apply free61). now rewrite decoded_enc, decode_list. Qed.
Lemma rf_plain S l : l <> [] -> scalars l -> read_field false (TemplateSpec.join [44] (map (enc_U S) l)) = (None, map utf8s l).
Proof.
  intros N F. unfold read_field. rewrite at_equals_none; [now rewrite decode_list|]. intros X. apply in_join in X as [[X|[]]|(y & Hy & X)]; [discriminate|].
  apply in_map_iff in Hy as (z & <- & Hz). rewrite Forall_forall in F. now apply (free61 S z (F z Hz)).
Qed.
Lemma rf_bare S k : all_scalar k = true -> read_field true (enc_U S k) = (Some (utf8s k), [[]]).
Proof. intros H. unfold read_field. rewrite at_equals_none by (now apply free61). now rewrite decoded_enc. Qed.
Lemma sep_join S o l : w_reserved (op_row o) = false -> o <> Simple \/ (length l <= 1)%nat -> scalars l -> (o = Dot -> Forall (fun x => ~ In 46 x) l) ->
  ~ In (separator o) (TemplateSpec.join [44] (map (enc_U S) l)).
Proof.
  intros W L F D X. assert (E : forall z, In z l -> ~ In (separator o) (enc_U S z)).
  { intros z Hz. rewrite Forall_forall in F. apply free_sep; [exact W|now apply F|]. intros H. specialize (D H). rewrite Forall_forall in D. now apply D. }
  destruct L as [L|L].
  - apply in_join in X as [[X|[]]|(y & Hy & X)]; [destruct o; try discriminate; now apply L|].
    apply in_map_iff in Hy as (z & <- & Hz). now apply (E z Hz).
  - destruct l as [|x [|y l]]; [contradiction|cbn in X; apply (E x); [now left|exact X]|cbn in L; lia].
Qed.
Lemma sep_eq o : w_sep (op_row o) = [separator o]. Proof. now destruct o. Qed.
Lemma sep_61 o : w_reserved (op_row o) = false -> separator o <> 61. Proof. now destruct o. Qed.
Lemma named_simple o : w_named (op_row o) = true -> o <> Simple /\ o <> Dot /\ w_reserved (op_row o) = false. Proof. destruct o; cbn; repeat split; congruence. Qed.
Lemma sep_field S o k l : w_reserved (op_row o) = false -> all_scalar k = true -> (o = Dot -> ~ In 46 k) ->
  o <> Simple \/ (length l <= 1)%nat -> scalars l -> (o = Dot -> Forall (fun x => ~ In 46 x) l) ->
  ~ In (separator o) (enc_U S k ++ 61 :: TemplateSpec.join [44] (map (enc_U S) l)).
Proof.
  intros W Hk Dk L F D X. apply in_app_or in X as [X|[X|X]].
  - now apply (free_sep S o k) in X.
  - now apply (sep_61 o W).
  - now apply (sep_join S o l) in X.
Qed.

Section V.
Variables (S : Spec) (o : rop) (r : rspec).
Hypothesis (W : w_reserved (op_row o) = false) (Hm : forall ds, r_mod r <> Prefix ds) (Hn : crate_varname (r_name r))
  (H37 : w_named (op_row o) = true -> ~ In 37 (r_name r)).
Let written (ts : list str) (fs : list field) : Prop :=
  Forall2 (fun t f => ~ In (separator o) t /\ read_field (w_named (op_row o)) t = field_bytes f) ts fs.
Lemma enc_open_U x : enc S o x = enc_U S x. Proof using W. unfold enc. now rewrite W. Qed.
Lemma named_enc : w_named (op_row o) = true -> enc_U S (r_name r) = r_name r /\ enc_UR S (r_name r) = r_name r /\ all_scalar (r_name r) = true.
Proof using W Hm Hn H37. intros N. repeat split; [now apply name_enc; auto|now apply ur_name|now apply name_scalar]. Qed.
Lemma map_enc l : map (enc S o) l = map (enc_U S) l.
Proof using W. apply map_ext. apply enc_open_U. Qed.
(** One field with the name, or without. *)
Lemma own_field l : l <> [] -> scalars l -> (o = Dot -> Forall (fun x => ~ In 46 x) l) -> o <> Simple \/ (length l <= 1)%nat ->
  written [(if w_named (op_row o) then r_name r ++ lit "=" else []) ++ TemplateSpec.join [44] (map (enc_U S) l)] [(own_name o r, l)].
Proof using W Hm Hn H37.
  intros N F D L. pose proof named_enc as NE. constructor; [|constructor]. unfold own_name, field_bytes. clear H37. destruct (w_named (op_row o)) eqn:Nm; cbn [fst snd option_map].
  - destruct (NE eq_refl) as (E1 & _ & E3). destruct (named_simple o Nm) as (_ & ND & _).
    rewrite <- E1 at 1. rewrite <- E1 at 2. rewrite <- app_assoc. cbn [lit app]. change (N_of_ascii "=") with 61. split.
    + apply sep_field; auto.
    + now apply rf_eq.
  - cbn [app]. split; [now apply sep_join|now apply rf_plain].
Qed.
Lemma mod_cases : r_mod r = NoMod \/ r_mod r = Explode.
Proof using Hm. clear -Hm. destruct (r_mod r) as [|ds|]; auto. now destruct (Hm ds). Qed.
Lemma each_field l : scalars l -> (o = Dot -> Forall (fun x => ~ In 46 x) l) ->
  written (map (fun y => (if w_named (op_row o) then r_name r ++ lit "=" else []) ++ enc_U S y) l) (map (fun y => (own_name o r, [y])) l).
Proof using W Hm Hn H37.
  intros F. induction F as [|y l Hy F IH]; intros D; [constructor|]. cbn [map].
  pose proof (own_field [y] ltac:(discriminate)) as O. cbn [TemplateSpec.join map] in O.
  assert (O' : written [(if w_named (op_row o) then r_name r ++ lit "=" else []) ++ enc_U S y] [(own_name o r, [y])]).
  { apply O; [now constructor| |right; cbn; lia]. intros E. specialize (D E). inversion_clear D. now constructor. }
  inversion_clear O' as [|? ? ? ? X _]. constructor; [exact X|]. apply IH. intros E. specialize (D E). now inversion_clear D.
Qed.
Lemma key_fields l : scalars (map fst l ++ map snd l) -> (o = Dot -> Forall (fun x => ~ In 46 x) (map fst l ++ map snd l)) ->
  written (map (fun '(k, x) => enc_U S k ++ lit "=" ++ enc_U S x) l) (map (fun '(k, x) => (Some k, [x])) l).
Proof using W Hm Hn H37.
  intros F D. apply Forall_app in F as [F1 F2].
  assert (D' : o = Dot -> Forall (fun x => ~ In 46 x) (map fst l) /\ Forall (fun x => ~ In 46 x) (map snd l)) by (intros E; now apply Forall_app, D). clear D.
  induction l as [|[k x] l IH]; [constructor|]. cbn [map fst snd] in *. inversion_clear F1 as [|? ? K1 K2]. inversion_clear F2 as [|? ? X1 X2].
  constructor; [|apply IH; auto; intros E; destruct (D' E) as [A B]; inversion_clear A; now inversion_clear B].
  pose proof (rf_eq S (w_named (op_row o)) k [x] K1 ltac:(discriminate) ltac:(now constructor)) as R.
  split; [|exact R]. apply (sep_field S o k [x]); [exact W|exact K1| | |now constructor|].
  - intros E. destruct (D' E) as [A _]. now inversion_clear A.
  - right. cbn. lia.
  - intros E. destruct (D' E) as [_ A]. inversion_clear A. now constructor.
Qed.
Lemma join_pairs l : TemplateSpec.join [44] (map (fun '(k, x) => enc_U S k ++ lit "," ++ enc_U S x) l) = TemplateSpec.join [44] (map (enc_U S) (flat_map (fun '(k, x) => [k; x]) l)).
Proof.
  induction l as [|[k x] l IH]; [reflexivity|]. cbn [map flat_map app]. destruct l as [|[k' x'] l]; [reflexivity|].
  cbn [map flat_map app] in IH |- *. cbn [TemplateSpec.join] in IH |- *. rewrite IH. rewrite <- !app_assoc. reflexivity.
Qed.
Lemma forall_pairs (P : str -> Prop) (l : list (str * str)) : Forall P (map fst l ++ map snd l) -> Forall P (flat_map (fun '(k, x) => [k; x]) l).
Proof.
  intros F. apply Forall_app in F as [F1 F2]. induction l as [|[k x] l IH]; [constructor|]. cbn [map flat_map app fst snd] in *. inversion_clear F1. inversion_clear F2.
  do 2 (constructor; [assumption|]). now apply IH.
Qed.
Lemma join_named x l : w_named (op_row o) = true -> r_name r ++ lit "=" ++ enc_U S x ++ flat_map (fun y => w_sep (op_row o) ++ enc_U S (r_name r) ++ lit "=" ++ enc_U S y) l
  = TemplateSpec.join (w_sep (op_row o)) (map (fun y => (r_name r ++ lit "=") ++ enc_U S y) (x :: l)).
Proof using W Hm Hn H37.
  intros N. destruct (named_enc N) as (E1 & _ & _). rewrite E1. cbn [map]. rewrite join_cons, flat_map_map. rewrite <- !app_assoc. do 3 f_equal.
  apply flat_map_ext'. intros y. now rewrite <- !app_assoc.
Qed.
Lemma fields_ok v : defined v = true -> scalars (texts v) -> (o = Dot -> Forall (fun x => ~ In 46 x) (texts v)) ->
  exists ts, crate_value S o r v = TemplateSpec.join (w_sep (op_row o)) ts /\ written ts (fields o r v) /\ ts <> [].
Proof using W Hm Hn H37.
  intros Dv F D. destruct v as [|s|[|x l]|[|[k x] l]]; try discriminate Dv; cbn [texts] in *; cbn [crate_value fields].
  - (* a string *)
    unfold rfc_string. replace (prefix_of (r_mod r) s) with s by (destruct (r_mod r) as [| ds|]; [reflexivity|now destruct (Hm ds)|reflexivity]).
    rewrite enc_open_U. pose proof (own_field [s] ltac:(discriminate) F D ltac:(right; cbn; lia)) as O. cbn [TemplateSpec.join map] in O.
    pose proof named_enc as NE. clear H37. destruct (w_named (op_row o)) eqn:Nm.
    + destruct (NE eq_refl) as (E1 & E2 & E3). rewrite E2. destruct s as [|c s].
      * destruct o; try discriminate Nm; cbn [is_empty op_row w_ifemp].
        -- exists [r_name r]. rewrite app_nil_r. split; [reflexivity|]. split; [|discriminate]. constructor; [|constructor].
           split; [rewrite <- E1; apply free_sep; [reflexivity|assumption|discriminate]|].
           unfold own_name, field_bytes. cbn [op_row w_named fst snd option_map map]. rewrite <- E1 at 1. now apply rf_bare.
        -- eexists. split; [|split; [exact O|discriminate]]. cbn [TemplateSpec.join]. now rewrite app_nil_r.
        -- eexists. split; [|split; [exact O|discriminate]]. cbn [TemplateSpec.join]. now rewrite app_nil_r.
      * eexists. split; [|split; [exact O|discriminate]]. cbn [TemplateSpec.join is_empty]. now rewrite <- app_assoc.
    + eexists. split; [|split; [exact O|discriminate]]. reflexivity.
  - (* a list *)
    pose proof (each_field (x :: l) F D) as Ea. unfold apart.
    assert (Es : o = Simple \/ o <> Simple) by (destruct o; auto; right; discriminate).
    destruct mod_cases as [Em|Em]; rewrite Em; cbn [is_explode_mod].
    + unfold crate_list. rewrite Bool.andb_false_r. unfold rfc_list. rewrite map_enc. destruct Es as [->|Es].
      * eexists. split; [|split; [exact Ea|discriminate]]. reflexivity.
      * pose proof (own_field (x :: l) ltac:(discriminate) F D (or_introl Es)) as O.
        eexists. split; [|split; [destruct o; try exact O; now destruct Es|discriminate]].
        pose proof named_enc as NE. clear H37 Ea O. destruct (w_named (op_row o)) eqn:Nm; [destruct (NE eq_refl) as (_ & -> & _)|]; reflexivity.
    + replace (match o with Simple => true | _ => true end) with true by (now destruct o).
      eexists. split; [|split; [exact Ea|discriminate]]. pose proof join_named as JN. pose proof map_enc as ME. clear H37 Ea. unfold crate_list. destruct (w_named (op_row o)) eqn:Nm; cbn [andb].
      * now rewrite JN.
      * unfold rfc_list. rewrite Nm, ME. reflexivity.
  - (* an associative array *)
    unfold apart. assert (Es : o = Simple \/ o <> Simple) by (destruct o; auto; right; discriminate).
    destruct mod_cases as [Em|Em]; rewrite Em; cbn [is_explode_mod].
    + assert (X : crate_assoc S o (r_name r) false ((k, x) :: l) = (if w_named (op_row o) then r_name r ++ lit "=" else []) ++ TemplateSpec.join [44] (map (enc_U S) (flat_map (fun '(k, x) => [k; x]) ((k, x) :: l)))).
      { rewrite <- join_pairs. unfold crate_assoc. pose proof named_enc as NE. pose proof enc_open_U as EO. clear H37. destruct (w_named (op_row o)) eqn:Nm.
        - destruct (NE eq_refl) as (-> & _ & _). now rewrite <- app_assoc.
        - unfold rfc_assoc. rewrite Nm. cbn [app]. f_equal. apply map_ext. intros [k' x']. now rewrite !EO. }
      rewrite X. clear X. pose proof (each_field (flat_map (fun '(k, x) => [k; x]) ((k, x) :: l)) (forall_pairs _ _ F) (fun E => forall_pairs _ _ (D E))) as Ea.
      destruct Es as [->|Es].
      * cbn [op_row w_named app] in Ea |- *.
        exists (map (enc_U S) (flat_map (fun '(k, x) => [k; x]) ((k, x) :: l))). split; [reflexivity|]. split; [|intros ?; discriminate].
        replace (flat_map (fun '(k0, x0) => [(None, [k0]); (None, [x0])]) ((k, x) :: l)) with (map (fun y => (own_name Simple r, [y])) (flat_map (fun '(k, x) => [k; x]) ((k, x) :: l))); [exact Ea|].
        clear. generalize ((k, x) :: l). intros m. induction m as [|[a b] m IH]; [reflexivity|]. cbn [flat_map app map]. now rewrite IH.
      * eexists [_]. split; [|split; [|intros ?; discriminate]]; cycle 1.
        -- pose proof (own_field (flat_map (fun '(k, x) => [k; x]) ((k, x) :: l)) ltac:(discriminate) (forall_pairs _ _ F) (fun E => forall_pairs _ _ (D E)) (or_introl Es)) as O.
           destruct o; try exact O. now destruct Es.
        -- reflexivity.
    + pose proof (key_fields ((k, x) :: l) F D) as Ek. eexists. split; [|split; [exact Ek|discriminate]].
      pose proof enc_open_U as EO. clear H37 Ek. unfold crate_assoc. destruct (w_named (op_row o)) eqn:Nm; [reflexivity|]. unfold rfc_assoc. rewrite Nm. f_equal. apply map_ext. intros [k' x']. now rewrite !EO.
Qed.
End V.

Lemma texts_scalar v x : supplies v x -> Forall (fun s => all_scalar s = true) (texts x).
Proof.
  intros H. destruct H as [|d s H|ds l H|ds l H]; cbn [texts].
  - constructor.
  - constructor; [apply H|constructor].
  - induction H as [|d s ds l H F IH]; constructor; [apply H|exact IH].
  - apply Forall_app. induction H as [|d [k s] ds l H F IH]; cbn [map fst snd]; [split; constructor|]. destruct IH as [I1 I2], H as [H1 H2]. split; constructor; auto; [apply H1|apply H2].
Qed.
Lemma read_back S debug ctx env o rs : supplies_env ctx env -> rs <> [] -> Forall crate_spec rs -> w_reserved (op_row o) = false ->
  (forall r, In r rs -> (forall ds, r_mod r <> Prefix ds) /\ (w_named (op_row o) = true -> ~ In 37 (r_name r)) /\
     (o = Dot -> Forall (fun x => ~ In 46 x) (texts (env (r_name r))))) ->
  let fs := flat_map (fun r => fields o r (env (r_name r))) rs in
  exists out, expand_to_string S debug ctx (template_text [Expr o rs]) = Ok out /\
    (fs = [] -> out = []) /\
    (fs <> [] -> exists body, out = w_first (op_row o) ++ body /\ read_fields o body = map field_bytes fs).
Proof.
  intros Hs Hn F W H fs.
  assert (K : exists tss, map (fun r => crate_value S o r (env (r_name r))) (filter (fun r => defined (env (r_name r))) rs) = map (TemplateSpec.join [separator o]) tss /\
    Forall (fun l => l <> []) tss /\ Forall2 (fun t f => ~ In (separator o) t /\ read_field (w_named (op_row o)) t = field_bytes f) (concat tss) fs).
  { subst fs. clear Hn. induction F as [|r rs Hr F IH]; [exists []; repeat split; constructor|].
    destruct IH as (tss & E1 & E2 & E3); [intros r' Hr'; apply H; now right|]. destruct (H r (or_introl eq_refl)) as (Hm & H37 & HD).
    cbn [filter flat_map]. destruct (defined (env (r_name r))) eqn:Dv.
    - destruct (fields_ok S o r W Hm (proj1 Hr) H37 (env (r_name r)) Dv (texts_scalar _ _ (Hs _)) HD) as (ts & T1 & T2 & T3).
      exists (ts :: tss). cbn [map concat]. rewrite <- sep_eq in *. rewrite T1, E1. split; [reflexivity|]. split; [now constructor|]. rewrite sep_eq in *. now apply Forall2_app.
    - exists tss. split; [exact E1|]. split; [exact E2|]. replace (fields o r (env (r_name r))) with (@nil field); [exact E3|].
      destruct (env (r_name r)) as [|s|[|x l]|[|x l]]; try discriminate Dv; reflexivity. }
  destruct K as (tss & E1 & E2 & E3).
  exists (crate_expansion S env [Expr o rs]). split.
  { apply expands_simple; [exact Hs|constructor; [split; assumption|constructor]|]. intros o' l r [E|[]] Hr. injection E as <- <-. split; [exact W|]. now apply H. }
  unfold crate_expansion, expansion. cbn [flat_map]. rewrite app_nil_r. unfold expression. rewrite E1. split.
  - intros E. rewrite E in E3. destruct tss as [|ts tss]; [reflexivity|]. exfalso. inversion_clear E2. inversion E3 as [E0|]. destruct ts; [contradiction|discriminate].
  - intros N. destruct tss as [|ts tss]; [exfalso; inversion E3; congruence|]. cbn [map]. eexists. split; [reflexivity|].
    change (TemplateSpec.join [separator o] ts :: map (TemplateSpec.join [separator o]) tss) with (map (TemplateSpec.join [separator o]) (ts :: tss)).
    rewrite sep_eq, join_join by exact E2. unfold read_fields. rewrite pieces_join.
    + clear -E3. induction E3 as [|t f l m [_ H] F IH]; [reflexivity|]. cbn [map]. now rewrite H, IH.
    + inversion_clear E2. cbn [concat]. destruct ts; [contradiction|discriminate].
    + clear -E3. induction E3 as [|t f l m [H _] F IH]; constructor; auto.
Qed.
Lemma utf8s_inj a b : all_scalar a = true -> all_scalar b = true -> utf8s a = utf8s b -> a = b.
Proof.
  intros Ha Hb E. assert (A : from_utf8 (utf8s a) = Some a) by (now apply from_utf8_ok). assert (B : from_utf8 (utf8s a) = Some b) by (now apply from_utf8_ok). congruence.
Qed.
Definition field_scalar (f : field) : Prop := match fst f with Some n => all_scalar n = true | None => True end /\ scalars (snd f).
Lemma field_inj f g : field_scalar f -> field_scalar g -> field_bytes f = field_bytes g -> f = g.
Proof.
  destruct f as [n l], g as [m k]. unfold field_scalar, field_bytes. cbn [fst snd]. intros [A1 A2] [B1 B2] E. injection E as E1 E2. f_equal.
  - destruct n, m; cbn in E1; try discriminate; [|reflexivity]. f_equal. apply utf8s_inj; auto. congruence.
  - clear -A2 B2 E2. revert k B2 E2. induction A2 as [|x l Hx F IH]; intros [|y k] B E; try discriminate; [reflexivity|]. cbn in E. injection E as E1 E2. inversion_clear B. f_equal; [now apply utf8s_inj|now apply IH].
Qed.
Lemma fields_inj a b : Forall field_scalar a -> Forall field_scalar b -> map field_bytes a = map field_bytes b -> a = b.
Proof.
  intros F. revert b. induction F as [|x l Hx F IH]; intros [|y k] B E; try discriminate; [reflexivity|]. cbn in E. injection E as E1 E2 E3. inversion_clear B. f_equal; [|now apply IH].
  apply field_inj; auto. unfold field_bytes. now rewrite E1, E2.
Qed.
Lemma fields_scalar o r v : crate_varname (r_name r) -> scalars (texts v) -> Forall field_scalar (fields o r v).
Proof.
  intros Hn F. apply name_scalar in Hn. assert (O : match own_name o r with Some n => all_scalar n = true | None => True end) by (unfold own_name; destruct (w_named _); auto).
  destruct v as [|s|[|x l]|[|e l]]; cbn [fields texts] in *; try (constructor; fail).
  - constructor; [split; assumption|constructor].
  - destruct (apart o r); [|constructor; [split; assumption|constructor]]. apply Forall_map. eapply Forall_impl; [|exact F]. intros y Hy. split; [assumption|now constructor].
  - assert (P : Forall (fun e => all_scalar (fst e) = true /\ all_scalar (snd e) = true) (e :: l)).
    { apply Forall_app in F as [F1 F2]. rewrite Forall_map in F1, F2. rewrite Forall_forall in *. auto. }
    assert (X : Forall field_scalar (map (fun '(k, x) => (Some k, [x])) (e :: l))).
    { apply Forall_map. eapply Forall_impl; [|exact P]. intros [k x] [A B]. split; [exact A|now constructor]. }
    assert (Y : Forall field_scalar (if apart o r then flat_map (fun '(k, x) => [(None, [k]); (None, [x])]) (e :: l) else [(own_name o r, flat_map (fun '(k, x) => [k; x]) (e :: l))])).
    { destruct (apart o r).
      - apply Forall_flat_map. eapply Forall_impl; [|exact P]. intros [k x] [A B]. repeat constructor; auto.
      - constructor; [|constructor]. split; [assumption|]. cbn [snd]. apply Forall_flat_map. eapply Forall_impl; [|exact P]. intros [k x] [A B]. now repeat constructor. }
    destruct (r_mod r); assumption.
Qed.
Lemma read_inj S debug ctx env ctx' env' o rs out : supplies_env ctx env -> supplies_env ctx' env' -> rs <> [] -> Forall crate_spec rs -> w_reserved (op_row o) = false -> o <> Simple ->
  (forall r, In r rs -> (forall ds, r_mod r <> Prefix ds) /\ (w_named (op_row o) = true -> ~ In 37 (r_name r)) /\
     (o = Dot -> Forall (fun x => ~ In 46 x) (texts (env (r_name r)) ++ texts (env' (r_name r))))) ->
  expand_to_string S debug ctx (template_text [Expr o rs]) = Ok out -> expand_to_string S debug ctx' (template_text [Expr o rs]) = Ok out ->
  flat_map (fun r => fields o r (env (r_name r))) rs = flat_map (fun r => fields o r (env' (r_name r))) rs.
Proof.
  intros H1 H2 Hn F W Ns H E1 E2.
  destruct (read_back S debug ctx env o rs H1 Hn F W) as (out1 & X1 & Y1 & Z1).
  { intros r Hr. destruct (H r Hr) as (A & B & C). repeat split; auto. intros D. specialize (C D). now apply Forall_app in C. }
  destruct (read_back S debug ctx' env' o rs H2 Hn F W) as (out2 & X2 & Y2 & Z2).
  { intros r Hr. destruct (H r Hr) as (A & B & C). repeat split; auto. intros D. specialize (C D). now apply Forall_app in C. }
  rewrite E1 in X1. injection X1 as <-. rewrite E2 in X2. injection X2 as <-.
  assert (Sc : forall c e, supplies_env c e -> Forall field_scalar (flat_map (fun r => fields o r (e (r_name r))) rs)).
  { intros c e He. apply Forall_flat_map. eapply Forall_impl; [|exact F]. intros r Hr. apply fields_scalar; [apply Hr|]. eapply texts_scalar, He. }
  pose proof (Sc _ _ H1) as S1. pose proof (Sc _ _ H2) as S2. cbv zeta in *.
  set (fs := flat_map (fun r => fields o r (env (r_name r))) rs) in *. set (fs' := flat_map (fun r => fields o r (env' (r_name r))) rs) in *.
  assert (First : w_first (op_row o) <> []) by (destruct o; try discriminate; contradiction).
  destruct fs as [|f fs]; destruct fs' as [|f' fs'].
  - reflexivity.
  - exfalso. destruct (Z2 ltac:(discriminate)) as (b & K & _). rewrite (Y1 eq_refl) in K. symmetry in K. apply app_eq_nil in K. now destruct K.
  - exfalso. destruct (Z1 ltac:(discriminate)) as (b & K & _). rewrite (Y2 eq_refl) in K. symmetry in K. apply app_eq_nil in K. now destruct K.
  - destruct (Z1 ltac:(discriminate)) as (b & K & L). destruct (Z2 ltac:(discriminate)) as (b' & K' & L'). rewrite K in K'. apply app_inv_head in K' as <-.
    rewrite L in L'. now apply fields_inj.
Qed.
