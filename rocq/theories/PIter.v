(** * Proofs for C74. *)
From Verif Require Import Base Chars Rfc3986 Utf8 PctSpec MTrusted MEncode EncodeSpec PBase PSearch PEncode IterSpec.

Lemma not_in_none (s : list N) : ~ In 37 s -> none (N.eqb 37) s = true.
Proof. intros H. unfold none. apply forallb_forall. intros x Hx. destruct (37 =? x) eqn:E; [apply N.eqb_eq in E; subst x; contradiction|reflexivity]. Qed.
Lemma hex_not_pct u : HEXDIG u = true -> u <> 37.
Proof. intros H ->. discriminate H. Qed.
Lemma item_next b f rest : item b f rest -> fragments_next b = Ok (Some (f, rest)).
Proof.
  intros H. destruct H as [x rest Hx Hn Hr|u l rest Hu Hl|rest Hr].
  - destruct x as [|c x]; [congruence|]. cbn [app fragments_next].
    assert (Hc : c <> 37) by (intros ->; apply Hn; now left). change PCT with 37. apply N.eqb_neq in Hc. rewrite Hc.
    assert (Hx' : none (N.eqb 37) x = true) by (apply not_in_none; intros G; apply Hn; now right).
    destruct Hr as [-> | (r & ->)].
    + rewrite app_nil_r. rewrite (split_first_none_app (N.eqb 37) x Hx'). reflexivity.
    + rewrite (split_first_app (N.eqb 37) x 37 r Hx' (N.eqb_refl 37)). reflexivity.
  - cbn [fragments_next]. change (37 =? PCT) with true. cbn iota. now rewrite sx_yes.
  - cbn [fragments_next]. change (37 =? PCT) with true. cbn iota. now rewrite sx_no.
Qed.
Lemma next_total b : (b = [] /\ fragments_next b = Ok None) \/ exists f rest, item b f rest.
Proof.
  destruct b as [|c r]; [now left|right]. destruct (N.eq_dec c 37) as [->|Hc].
  - destruct (hex2_cases r) as [(u & l & r' & -> & Hu & Hl)|H].
    + exists (DecodedByte (16 * hex_value u + hex_value l)), r'. now apply item_byte.
    + exists StrayPercent, r. now apply item_stray.
  - destruct (split_first (N.eqb 37) r) as [[[a p] t]|] eqn:E.
    + apply split_first_some in E. destruct E as (-> & Ha & Hp). apply N.eqb_eq in Hp. subst p.
      exists (Direct (c :: a)), (37 :: t). apply (item_direct (c :: a) (37 :: t)); [discriminate| |right; now exists t].
      intros [G|G]; [congruence|]. now apply (in_none 37 a) in Ha.
    + apply split_first_none in E. exists (Direct (c :: r)), []. rewrite <- (app_nil_r (c :: r)) at 1.
      apply item_direct; [discriminate| |now left]. intros [G|G]; [congruence|]. now apply (in_none 37 r) in E.
Qed.
Lemma next_exact b f rest : fragments_next b = Ok (Some (f, rest)) <-> item b f rest.
Proof.
  split; [|apply item_next]. intros H. destruct (next_total b) as [[_ E]|(f' & rest' & I)]; [congruence|].
  pose proof (item_next _ _ _ I) as E. rewrite E in H. injection H as <- <-. exact I.
Qed.
Lemma next_end b : fragments_next b = Ok None <-> b = [].
Proof.
  split; [|now intros ->]. intros H. destruct (next_total b) as [[E _]|(f & rest & I)]; [exact E|].
  rewrite (item_next _ _ _ I) in H. discriminate.
Qed.
Lemma item_shorter b f rest : item b f rest -> (length rest < length b)%nat.
Proof.
  intros [x r Hx _ _|u l r _ _|r _]; cbn [length]; [|lia|lia]. rewrite app_length. destruct x; [congruence|cbn [length]; lia].
Qed.
Lemma item_decode b f rest : item b f rest -> percent_decode b = fragment_bytes f ++ percent_decode rest.
Proof.
  intros [x r Hx Hn _|u l r Hu Hl|r H]; cbn [fragment_bytes].
  - apply pd_direct. now apply not_in_none.
  - now rewrite pd_trip.
  - now rewrite pd_stray.
Qed.
Lemma collect_enough fuel : forall b, (length b < fuel)%nat -> forall fuel', (length b < fuel')%nat ->
  fragments_collect fuel b = fragments_collect fuel' b.
Proof.
  induction fuel as [|fuel IH]; intros b L fuel' L'; [lia|]. destruct fuel' as [|fuel']; [lia|]. cbn [fragments_collect].
  destruct (next_total b) as [[-> _]|(f & rest & I)]; [reflexivity|]. rewrite (item_next _ _ _ I). cbn [bind].
  apply item_shorter in I. rewrite (IH rest ltac:(lia) fuel' ltac:(lia)). reflexivity.
Qed.
Lemma fragments_step b f rest fs : item b f rest -> bytes_fragments rest = Ok fs -> bytes_fragments b = Ok (f :: fs).
Proof.
  intros I E. pose proof (item_shorter _ _ _ I) as L. unfold bytes_fragments in *. change (1 + length b)%nat with (S (length b)). cbn [fragments_collect].
  rewrite (item_next _ _ _ I). cbn [bind]. rewrite (collect_enough (length b) rest L (1 + length rest) ltac:(lia)), E. reflexivity.
Qed.
Lemma fragments_items b fs : bytes_fragments b = Ok fs <-> items b fs [].
Proof.
  assert (G : forall b, exists fs, bytes_fragments b = Ok fs /\ items b fs []).
  { intros b0. remember (length b0) as n eqn:En. revert b0 En.
    induction n as [n IH] using (well_founded_induction lt_wf). intros b0 ->.
    destruct (next_total b0) as [[-> _]|(f & rest & I)].
    - exists []. split; [reflexivity|apply items_nil].
    - destruct (IH _ (item_shorter _ _ _ I) rest eq_refl) as (gs & E & R). exists (f :: gs).
      split; [now apply (fragments_step _ _ rest)|now apply (items_cons _ _ rest)]. }
  split.
  - intros H. destruct (G b) as (gs & E & R). congruence.
  - assert (D : forall x gs y, items x gs y -> y = [] -> bytes_fragments x = Ok gs).
    { intros x gs y R. induction R as [x|x f x' gs y I R IH]; intros E; [now subst|]. now apply (fragments_step _ _ x'), IH. }
    intros R. now apply (D _ _ _ R).
Qed.
Lemma items_app b fs rest : items b fs rest -> forall gs, bytes_fragments rest = Ok gs -> bytes_fragments b = Ok (fs ++ gs).
Proof.
  intros R. induction R as [b|b f b' fs rest I R IH]; intros gs E; [exact E|]. apply (fragments_step _ _ b'); [exact I|]. now apply IH.
Qed.
Lemma items_decode b fs rest : items b fs rest -> percent_decode b = flat_map fragment_bytes fs ++ percent_decode rest.
Proof.
  intros R. induction R as [b|b f b' fs rest I R IH]; [reflexivity|]. cbn [flat_map]. rewrite <- app_assoc, <- IH. now apply item_decode.
Qed.
Lemma calls_end n : next_calls n [] = Ok (repeat None n, []).
Proof. induction n as [|n IH]; [reflexivity|]. cbn [next_calls repeat]. change (fragments_next []) with (Ok (E:=Empty_set) (@None (DecodedFragment * list N))). cbn [bind]. now rewrite IH. Qed.
Lemma history n : forall b, exists fs k rest, next_calls n b = Ok (map Some fs ++ repeat None k, rest) /\
  n = (length fs + k)%nat /\ (k <> 0%nat -> rest = []) /\ items b fs rest.
Proof.
  induction n as [|n IH]; intros b.
  - exists [], 0%nat, b. split; [reflexivity|]. split; [reflexivity|]. split; [congruence|apply items_nil].
  - destruct (next_total b) as [[-> _]|(f & b' & I)].
    + exists [], (S n), []. rewrite calls_end. split; [reflexivity|]. split; [reflexivity|]. split; [auto|apply items_nil].
    + destruct (IH b') as (fs & k & rest & E & -> & Hk & R). exists (f :: fs), k, rest. cbn [next_calls].
      rewrite (item_next _ _ _ I). cbn [bind]. rewrite E. cbn [bind map app length]. split; [reflexivity|]. split; [reflexivity|].
      split; [exact Hk|now apply (items_cons _ _ b')].
Qed.
Lemma stop_resume n b : exists fs k rest, next_calls n b = Ok (map Some fs ++ repeat None k, rest) /\
  n = (length fs + k)%nat /\ (k <> 0%nat -> rest = []) /\ items b fs rest /\
  percent_decode b = flat_map fragment_bytes fs ++ percent_decode rest /\
  exists gs, bytes_fragments rest = Ok gs /\ bytes_fragments b = Ok (fs ++ gs).
Proof.
  destruct (history n b) as (fs & k & rest & E & En & Hk & R). exists fs, k, rest.
  split; [exact E|]. split; [exact En|]. split; [exact Hk|]. split; [exact R|]. split; [now apply items_decode|].
  destruct (bytes_fragments_ok rest) as (gs & Eg & _). exists gs. split; [exact Eg|now apply (items_app _ _ rest)].
Qed.

(** ** Splitting the input *)
Definition hex2 (c : list N) : Prop := exists u l r, c = u :: l :: r /\ HEXDIG u = true /\ HEXDIG l = true.
Definition hex1 (c : list N) : Prop := exists l r, c = l :: r /\ HEXDIG l = true.
Lemma straddles_nil c : ~ straddles [] c.
Proof. intros [(a & u & l & r & E & _)|(a & u & l & r & E & _)]; destruct a; discriminate. Qed.
Lemma straddles_cons x a c : straddles (x :: a) c <->
  straddles a c \/ (x = 37 /\ a = [] /\ hex2 c) \/ (x = 37 /\ exists u, a = [u] /\ HEXDIG u = true /\ hex1 c).
Proof.
  split.
  - intros [(a' & u & l & r & E & Ec & Hu & Hl)|(a' & u & l & r & E & Ec & Hu & Hl)]; destruct a' as [|y a']; cbn [app] in E; injection E as -> ->.
    + right. left. split; [reflexivity|]. split; [reflexivity|]. now exists u, l, r.
    + left. left. now exists a', u, l, r.
    + right. right. split; [reflexivity|]. exists u. split; [reflexivity|]. split; [exact Hu|]. now exists l, r.
    + left. right. now exists a', u, l, r.
  - intros [[(a' & u & l & r & -> & Ec & Hu & Hl)|(a' & u & l & r & -> & Ec & Hu & Hl)]|[(-> & -> & u & l & r & Ec & Hu & Hl)|(-> & u & -> & Hu & l & r & Ec & Hl)]].
    + left. now exists (x :: a'), u, l, r.
    + right. now exists (x :: a'), u, l, r.
    + left. now exists [], u, l, r.
    + right. now exists [], u, l, r.
Qed.
Lemma not_hex2_iff r : not_hex2 r <-> ~ hex2 r.
Proof.
  split.
  - intros H (u & l & r' & -> & Hu & Hl). specialize (H u l r' eq_refl). now rewrite Hu, Hl in H.
  - intros H u l r' ->. destruct (HEXDIG u) eqn:Eu; [|reflexivity]. destruct (HEXDIG l) eqn:El; [|reflexivity]. exfalso. apply H. now exists u, l, r'.
Qed.
Lemma cons_iff (P Q : Prop) (x : N) a b : (a = b <-> P) -> (P <-> Q) -> (x :: a = x :: b <-> Q).
Proof. intros H G. rewrite <- G, <- H. split; [now intros [= ->]|now intros ->]. Qed.
Lemma hex_raw u r : HEXDIG u = true -> percent_decode (u :: r) = u :: percent_decode r.
Proof. intros H. apply pd_raw. now apply hex_not_pct. Qed.
Lemma split_decode a c : percent_decode (a ++ c) = percent_decode a ++ percent_decode c <-> ~ straddles a c.
Proof.
  remember (length a) as n eqn:En. revert a En. induction n as [n IH] using (well_founded_induction lt_wf). intros a ->.
  destruct a as [|x a].
  { split; [intros _; apply straddles_nil|reflexivity]. }
  destruct (N.eq_dec x 37) as [->|Hx].
  2: { cbn [app]. rewrite !pd_raw by assumption. cbn [app]. apply (cons_iff (~ straddles a c)); [apply (IH (length a)); cbn [length]; lia|].
    rewrite straddles_cons. split; [intros H [G|[(G & _)|(G & _)]]; auto|auto]. }
  destruct (hex2_cases a) as [(u & l & r & -> & Hu & Hl)|Ha].
  { cbn [app]. rewrite !pd_trip by assumption. cbn [app]. apply (cons_iff (~ straddles r c)); [apply (IH (length r)); cbn [length]; lia|].
    rewrite !straddles_cons. pose proof (hex_not_pct u Hu) as Nu. pose proof (hex_not_pct l Hl) as Nl.
    split; [|tauto]. intros H [[[G|[(G & _)|(G & _)]]|[(G & _)|(G & _)]]|[(_ & G & _)|(_ & v & G & _)]]; auto; discriminate. }
  rewrite (pd_stray a Ha).
  destruct (hex2_cases (a ++ c)) as [(u & l & r & E & Hu & Hl)|Hac].
  - cbn [app]. rewrite E, pd_trip by assumption. split.
    + intros F. exfalso. destruct a as [|y [|z a]].
      * cbn [app] in E. subst c. change (percent_decode []) with (@nil N) in F. cbn [app] in F. rewrite !hex_raw in F by assumption.
        apply (f_equal (@length N)) in F. cbn [length] in F. lia.
      * cbn [app] in E. injection E as -> ->. rewrite !hex_raw in F by assumption. change (percent_decode []) with (@nil N) in F. cbn [app] in F.
        apply (f_equal (@length N)) in F. cbn [length] in F. lia.
      * cbn [app] in E. injection E as -> -> _. specialize (Ha u l a eq_refl). change (HEXDIG u) with (is_hexdigit u) in Ha.
        change (HEXDIG l) with (is_hexdigit l) in Ha. now rewrite Hu, Hl in Ha.
    + intros F. exfalso. apply F. destruct a as [|y [|z a]]; cbn [app] in E.
      * apply straddles_cons. right. left. split; [reflexivity|]. split; [reflexivity|]. now exists u, l, r.
      * injection E as -> ->. apply straddles_cons. right. right. split; [reflexivity|]. exists u. split; [reflexivity|]. split; [exact Hu|]. now exists l, r.
      * injection E as -> -> _. specialize (Ha u l a eq_refl). change (HEXDIG u) with (is_hexdigit u) in Ha.
        change (HEXDIG l) with (is_hexdigit l) in Ha. now rewrite Hu, Hl in Ha.
  - cbn [app]. rewrite (pd_stray (a ++ c) Hac). apply (cons_iff (~ straddles a c)); [apply (IH (length a)); cbn [length]; lia|].
    rewrite straddles_cons. split; [|tauto]. apply not_hex2_iff in Hac.
    intros H [G|[(_ & -> & G)|(_ & u & -> & Hu & l & r & -> & Hl)]]; auto. apply Hac. now exists u, l, r.
Qed.
Lemma fragment_bytes_decode b fs : bytes_fragments b = Ok fs -> flat_map fragment_bytes fs = percent_decode b.
Proof. intros H. apply fragments_items, items_decode in H. rewrite H. cbn. now rewrite app_nil_r. Qed.
Lemma split_fragments a c fa fc f : bytes_fragments a = Ok fa -> bytes_fragments c = Ok fc -> bytes_fragments (a ++ c) = Ok f ->
  (flat_map fragment_bytes f = flat_map fragment_bytes fa ++ flat_map fragment_bytes fc <-> ~ straddles a c).
Proof.
  intros H1 H2 H3. rewrite (fragment_bytes_decode _ _ H1), (fragment_bytes_decode _ _ H2), (fragment_bytes_decode _ _ H3). apply split_decode.
Qed.
