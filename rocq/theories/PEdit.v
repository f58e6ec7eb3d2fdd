(** * Proofs about MEdit.v *)
From Verif Require Import Base Chars Rfc3986 CompSpec RfcResolve NormSpec EditSpec PBase PScan PHost PAuth PValidate
  MValidate MTrusted PTrusted PComps PAscii PTypes PTypes2 MFormat MWriters MEdit PPath2 PNorm7 PSearch.

(** What a type requires of the components. *)
Definition ty_class (t : ty) (C : comps) : Prop :=
  match t with
  | TIri => defined (c_s C) = true
  | TRelative => defined (c_s C) = false
  | TAbsolute => defined (c_s C) = true /\ (c_f C = None \/ c_f C = Some [])
  | TReference => True
  | _ => False
  end.
Lemma class_new S t i C : editable t = true -> reads S i C -> (new S t i = Ok i <-> ty_class t C).
Proof.
  intros Ht H. rewrite new_ok. pose proof H as R. destruct C as [s a p q f]. destruct H as [O ->].
  cbn [c_s c_a c_p c_q c_f] in *. destruct t; try discriminate; cbn [ty_lang ty_class c_s c_f].
  - rewrite absolute_code_comps. split.
    + intros (s' & a' & p' & q' & f' & E & O' & F). apply recompose_inj in E;
        [|eapply components_weak; exact O|eapply components_weak; exact O']. destruct E as (-> & -> & -> & -> & ->). auto.
    + intros [D F]. destruct s as [s|]; [|discriminate]. exists s, a, p, q, f. auto.
  - rewrite IRI_comps. split.
    + intros (s' & a' & p' & q' & f' & E & O'). apply recompose_inj in E;
        [|eapply components_weak; exact O|eapply components_weak; exact O']. destruct E as (-> & _). auto.
    + intros D. destruct s as [s|]; [|discriminate]. exists s, a, p, q, f. auto.
  - split; auto. intros _. exact (reads_reference _ _ _ R).
  - rewrite relative_comps. split.
    + intros (a' & p' & q' & f' & E & O'). apply recompose_inj in E;
        [|eapply components_weak; exact O|eapply components_weak; exact O']. destruct E as (-> & _). auto.
    + intros D. destruct s as [s|]; [discriminate|]. exists a, p, q, f. auto.
Qed.
Lemma editable_reads S t i : editable t = true -> new S t i = Ok i -> exists C, reads S i C.
Proof.
  intros Ht H. apply new_ok in H. apply (reference_reads S). destruct t; try discriminate; cbn [ty_lang] in H.
  - left. now apply absolute_code_is_IRI. - now left. - auto. - now right.
Qed.
Lemma unchecked_new d S t s : new S t s = Ok s -> new_unchecked_justified d S t s = Ok s.
Proof. intros H. apply unchecked_ok. apply validate_iff. now apply new_ok. Qed.
Lemma debug_new d S t s : new S t s = Ok s -> debug_valid d S t s = Ok tt.
Proof.
  intros H. apply new_ok, validate_iff in H. unfold debug_valid. rewrite H. cbn. now rewrite andb_false_r.
Qed.

(** ** Replacing the authority *)
Lemma with_authority_ok S C u h o u' h' o' : comps_ok S C -> c_a C = Some (authority_string u h o) ->
  opt_in (userinfo S) u' -> host S h' -> opt_in port o' -> comps_ok S (with_authority C u' h' o').
Proof.
  intros (Hs & Ha & Hq & Hf & Hp) E Hu Hh Ho. rewrite E in Hp. unfold comps_ok, with_authority. cbn [c_s c_a c_p c_q c_f].
  repeat split; auto. cbn [opt_in]. apply authority_comps. exists u', h', o'. auto.
Qed.
Definition render (C : comps) : str := recompose (c_s C) (c_a C) (c_p C) (c_q C) (c_f C).
Lemma dissects_authority S i C u h o u' h' o' : dissects S i C u h o ->
  opt_in (userinfo S) u' -> host S h' -> opt_in port o' ->
  dissects S (render (with_authority C u' h' o')) (with_authority C u' h' o') u' h' o'.
Proof.
  intros ([O ->] & E & Hu & Hh & Ho) Hu' Hh' Ho'. repeat split; auto; try apply (with_authority_ok S C u h o); auto.
Qed.
Lemma class_authority t C u h o : ty_class t C -> ty_class t (with_authority C u h o).
Proof. destruct t; auto. Qed.
Lemma render_authority C u h o :
  render (with_authority C u h o) = (osch (c_s C) ++ lit "//") ++ oui u ++ h ++ oport o ++ c_p C ++ oq (c_q C) ++ ofr (c_f C).
Proof.
  unfold render, with_authority. cbn [c_s c_a c_p c_q c_f]. rewrite recompose_eq. cbn [oauth].
  unfold authority_string. fold (oui u). fold (oport o). now rewrite <- !app_assoc.
Qed.
Lemma dissects_render S i C u h o : dissects S i C u h o -> i = render (with_authority C u h o).
Proof. intros ([O ->] & E & _). unfold render, with_authority. cbn [c_s c_a c_p c_q c_f]. now rewrite <- E. Qed.

(** ** [password_range_to_hide] *)
Lemma find_ss l r : none (N.eqb SLASH) l = true -> find_str [SLASH; SLASH] (l ++ lit "//" ++ r) = Some (length l).
Proof.
  induction l as [|c l IH]; intros H.
  - reflexivity.
  - rewrite none_cons in H. bdestr. cbn [app length find_str]. unfold starts_with. cbn [strip_prefix].
    destruct (SLASH =? c) eqn:Ec; [discriminate|]. now rewrite IH.
Qed.
Lemma osch_no_slash S C i : reads S i C -> none (N.eqb SLASH) (osch (c_s C)) = true.
Proof.
  intros [O _]. apply components_weak in O. destruct O as (Hs & _). destruct (c_s C) as [x|]; [|reflexivity].
  cbn [osch]. destruct Hs as [_ Hs]. rewrite none_app. apply andb_true_intro. split; [|reflexivity].
  eapply none_weaken; [|exact Hs]. intros c Hc. apply N.eqb_eq in Hc. subst. reflexivity.
Qed.
Lemma components_dissects S i C u h o : dissects S i C u h o ->
  authority_components i = Some (mkAuth (authority_string u h o) (length (oui u)) (length (oui u) + length h)) /\
  from_iri_get_offset i = Some (mkAuth (authority_string u h o) (length (oui u)) (length (oui u) + length h),
    (length (osch (c_s C)) + 2)%nat).
Proof.
  intros ([O ->] & E & Hu & Hh & Ho). assert (W := components_weak _ _ _ _ _ _ O).
  assert (D : decompose_authority (authority_string u h o) = mkAuth (authority_string u h o) (length (oui u)) (length (oui u) + length h)).
  { apply decompose_authority_rec.
    - destruct u; [|easy]. cbn in Hu. eapply userinfo_no_at; exact Hu.
    - now apply host_has_shape in Hh.
    - destruct o; [|easy]. now apply port_iff. }
  unfold authority_components, from_iri_get_offset. rewrite (extract_authority_rec _ _ _ _ _ W), (extract_authority_offset_rec _ _ _ _ _ W), E.
  rewrite D. auto.
Qed.
Lemma no_authority S i C : reads S i C -> c_a C = None -> authority_components i = None /\ from_iri_get_offset i = None.
Proof.
  intros [O ->] E. assert (W := components_weak _ _ _ _ _ _ O).
  unfold authority_components, from_iri_get_offset. rewrite (extract_authority_rec _ _ _ _ _ W), (extract_authority_offset_rec _ _ _ _ _ W), E. auto.
Qed.
Definition start_of (C : comps) : nat := length (osch (c_s C) ++ lit "//").
Lemma range_spec S i C u h o : dissects S i C u h o -> password_range_to_hide i = Ok (match u with
  | None => None
  | Some x => Some (start_of C + match find_chr COLON x with Some v => v + 1 | None => length x end, start_of C + length x)%nat end).
Proof.
  intros H. unfold password_range_to_hide. destruct (components_dissects _ _ _ _ _ _ H) as [-> _].
  destruct (ac_rec u h o) as [-> _]. cbn [bind]. destruct u as [x|]; [|reflexivity].
  rewrite (dissects_render _ _ _ _ _ _ H), render_authority, <- app_assoc, find_ss.
  - unfold start_of. rewrite app_length. cbv zeta. change (length (lit "//")) with 2%nat. do 3 f_equal; destruct (find_chr COLON x); lia.
  - destruct H as [H _]. exact (osch_no_slash _ _ _ H).
Qed.
Lemma none_in n s : ~ In n s -> none (N.eqb n) s = true.
Proof.
  induction s as [|c s IH]; intros H; [reflexivity|]. rewrite none_cons. apply andb_true_intro. split.
  - destruct (N.eqb_spec n c); [|reflexivity]. subst. exfalso. apply H. now left.
  - apply IH. intros I. apply H. now right.
Qed.
Lemma find_colon_some user pw : ~ In 58 user -> find_chr COLON (user_password user pw) = Some (length user).
Proof.
  intros H. unfold find_chr, user_password. change (lit ":" ++ pw) with (COLON :: pw). rewrite (split_first_app (N.eqb COLON) user COLON pw); auto.
  now apply none_in.
Qed.
Lemma find_colon_none u : ~ In 58 u -> find_chr COLON u = None.
Proof.
  intros H. unfold find_chr. replace (split_first (N.eqb COLON) u) with (@None (str * N * str)); auto.
  symmetry. now apply split_first_none_app, none_in.
Qed.

(** ** Slicing *)
Lemma slice_front a b s x : s = a ++ b -> x = length a -> slice_p s 0 x = Ok a.
Proof. intros -> ->. apply (slice_p_mid [] a b); reflexivity. Qed.
Lemma slice_back a b s x : s = a ++ b -> x = length a -> slice_p s x (length s) = Ok b.
Proof. intros -> ->. apply (slice_p_mid a b []); [now rewrite app_nil_r|reflexivity|apply app_length]. Qed.
Lemma drain_mid a b c s x y : s = a ++ b ++ c -> x = length a -> y = (length a + length b)%nat -> drain s x y = Ok (a ++ c).
Proof.
  intros E -> ->. unfold drain. rewrite (slice_front a (b ++ c)) by auto. cbn [bind].
  rewrite (slice_p_mid a b c) by auto. cbn [bind]. rewrite (slice_back (a ++ b) c); [reflexivity| |].
  - now rewrite <- app_assoc. - now rewrite app_length.
Qed.
Lemma replace_mid a b c s x y w : s = a ++ b ++ c -> x = length a -> y = (length a + length b)%nat ->
  replace_range s x y w = Ok (a ++ w ++ c).
Proof.
  intros E -> ->. unfold replace_range. rewrite (slice_front a (b ++ c)) by auto. cbn [bind].
  rewrite (slice_p_mid a b c) by auto. cbn [bind]. rewrite (slice_back (a ++ b) c); [reflexivity| |].
  - now rewrite <- app_assoc. - now rewrite app_length.
Qed.
Lemma slice_p_some s a b x : slice_p s a b = Ok x -> slice s a b = Some x.
Proof. unfold slice_p. destruct (slice s a b); congruence. Qed.

(** ** Masking *)
Definition tail_of (C : comps) (h : str) (o : option str) : str :=
  lit "@" ++ h ++ oport o ++ c_p C ++ oq (c_q C) ++ ofr (c_f C).
Lemma render_some C u h o :
  render (with_authority C (Some u) h o) = (osch (c_s C) ++ lit "//") ++ u ++ tail_of C h o.
Proof. rewrite render_authority. unfold tail_of. cbn [oui]. now rewrite <- !app_assoc. Qed.
Lemma render_pw C user pw h o :
  render (with_authority C (Some (user_password user pw)) h o) =
  ((osch (c_s C) ++ lit "//") ++ user ++ lit ":") ++ pw ++ tail_of C h o.
Proof. rewrite render_some. unfold user_password. now rewrite <- !app_assoc. Qed.
Lemma range_pw S i C user pw h o : dissects S i C (Some (user_password user pw)) h o -> ~ In 58 user ->
  password_range_to_hide i = Ok (Some (length ((osch (c_s C) ++ lit "//") ++ user ++ lit ":"),
    length ((osch (c_s C) ++ lit "//") ++ user ++ lit ":") + length pw)%nat).
Proof.
  intros H Hn. rewrite (range_spec _ _ _ _ _ _ H), find_colon_some by exact Hn. unfold start_of, user_password.
  rewrite !app_length. change (length (lit ":")) with 1%nat. do 3 f_equal; lia.
Qed.
Lemma masked_text (A : Type) s l m r st e (alt : W A) a : s = l ++ m ++ r -> st = length l -> e = (length l + length m)%nat ->
  snd alt = Ret a -> text (write_with_masked_password s st e alt) = Ok (l ++ concat (fst alt) ++ r).
Proof.
  intros -> -> -> Ha. unfold write_with_masked_password.
  rewrite (slice_front l (m ++ r)) by auto. rewrite (slice_back (l ++ m) r) by (now rewrite ?app_length, <- ?app_assoc).
  replace (Nat.leb (length l + length m) (length (l ++ m ++ r))) with true by (symmetry; apply Nat.leb_le; rewrite !app_length; lia).
  destruct alt as [cs en]. cbn [snd] in Ha. subst en. cbn [lift wbind wret write fst snd]. unfold text. cbn [snd fst].
  rewrite !concat_app. cbn [concat]. now rewrite !app_nil_r.
Qed.
Lemma userinfo_cut S user pw : userinfo S (user_password user pw) ->
  userinfo S user /\ userinfo S (user_password user []).
Proof.
  unfold user_password. rewrite !userinfo_scan. change (lit ":" ++ pw) with (COLON :: pw).
  intros H. rewrite scan_delim in H by (reflexivity || discriminate). bdestr. split; auto.
  change (lit ":" ++ []) with [COLON]. rewrite scan_delim by (reflexivity || discriminate). cbn [andb]. rewrite !andb_true_iff. auto.
Qed.
Lemma pw_new_ok S t i C user pw h o : editable t = true -> new S t i = Ok i ->
  dissects S i C (Some (user_password user pw)) h o ->
  let j := render (with_authority C (Some (user_password user [])) h o) in
  new S t j = Ok j /\ dissects S j (with_authority C (Some (user_password user [])) h o) (Some (user_password user [])) h o.
Proof.
  intros Ht Hn H j. pose proof H as (R & E & Hu & Hh & Ho). apply userinfo_cut in Hu. destruct Hu as [_ Hu].
  assert (D : dissects S j (with_authority C (Some (user_password user [])) h o) (Some (user_password user [])) h o)
    by (eapply dissects_authority; eauto).
  split; auto. apply (class_new S t j _ Ht (proj1 D)). apply class_authority. now apply (class_new S t i C Ht R).
Qed.
Lemma mask_ok debug S t i C user pw h o : editable t = true -> new S t i = Ok i ->
  dissects S i C (Some (user_password user pw)) h o -> ~ In 58 user -> exists j,
  text (mask_display i) = Ok j /\ text (angle_debug (mask_display i)) = Ok (lit "<" ++ j ++ lit ">") /\ mask_to_dedicated_string debug true S t i = Ok j /\
  new S t j = Ok j /\ dissects S j (with_authority C (Some (user_password user [])) h o) (Some (user_password user [])) h o.
Proof.
  intros Ht Hn H Hc. destruct (pw_new_ok _ _ _ _ _ _ _ _ Ht Hn H) as [Hj Hd].
  set (j := render (with_authority C (Some (user_password user [])) h o)) in *. exists j.
  assert (Ei : i = ((osch (c_s C) ++ lit "//") ++ user ++ lit ":") ++ pw ++ tail_of C h o)
    by (rewrite (dissects_render _ _ _ _ _ _ H); apply render_pw).
  assert (Ej : j = ((osch (c_s C) ++ lit "//") ++ user ++ lit ":") ++ [] ++ tail_of C h o) by apply render_pw.
  assert (Rg := range_pw _ _ _ _ _ _ _ H Hc).
  assert (T : text (mask_display i) = Ok j).
  { unfold mask_display. rewrite Rg. cbn [lift wbind wret].
    pose proof (masked_text unit i _ pw _ _ _ (write []) tt Ei eq_refl eq_refl eq_refl) as M.
    destruct (write_with_masked_password i _ _ (write [])) as [cs en]. cbn [app]. rewrite Ej. exact M. }
  repeat split; auto; try apply Hd.
  - unfold angle_debug, text in *. destruct (mask_display i) as [cs [[]| |]]; try discriminate. cbn [snd fst wbind write app] in *.
    injection T as T. rewrite <- T. change ([lit "<"] ++ cs ++ [lit ">"]) with (lit "<" :: cs ++ [lit ">"]). cbn [concat]. rewrite concat_app. cbn [concat]. now rewrite app_nil_r.
  - unfold mask_to_dedicated_string. rewrite Rg. cbn [negb].
    rewrite (slice_p_some _ _ _ _ (slice_front _ (pw ++ tail_of C h o) i _ Ei eq_refl)).
    rewrite (slice_p_some _ _ _ _ (slice_back (((osch (c_s C) ++ lit "//") ++ user ++ lit ":") ++ pw) (tail_of C h o) i _ ltac:(rewrite Ei, <- !app_assoc; reflexivity) ltac:(now rewrite (app_length _ pw)))).
    cbn [app] in Ej. rewrite <- Ej. now rewrite unchecked_new.
Qed.
Lemma range_nopw S i C : no_password S i C -> password_range_to_hide i = Ok None \/
  exists l r, i = l ++ r /\ password_range_to_hide i = Ok (Some (length l, length l)).
Proof.
  intros [(R & E)|[(h & o & H)|(u & h & o & H & Hc)]].
  - left. unfold password_range_to_hide. now destruct (no_authority _ _ _ R E) as [-> _].
  - left. now rewrite (range_spec _ _ _ _ _ _ H).
  - right. exists ((osch (c_s C) ++ lit "//") ++ u), (tail_of C h o). split.
    + rewrite (dissects_render _ _ _ _ _ _ H), render_some. now rewrite <- !app_assoc.
    + rewrite (range_spec _ _ _ _ _ _ H), find_colon_none by auto. unfold start_of. rewrite (app_length _ u). reflexivity.
Qed.
Lemma mask_none debug alloc S t i C : new S t i = Ok i -> no_password S i C ->
  text (mask_display i) = Ok i /\ (mask_to_dedicated_string debug alloc S t i = Ok i \/
    alloc = false /\ mask_to_dedicated_string debug alloc S t i = Err AllocFailed).
Proof.
  intros Hn H. unfold mask_display, mask_to_dedicated_string. destruct (range_nopw _ _ _ H) as [->|(l & r & Ei & ->)].
  - cbn [lift wbind wret]. unfold text. cbn. rewrite app_nil_r. auto.
  - split.
    + cbn [lift wbind wret]. pose proof (masked_text unit i l [] r (length l) (length l) (write []) tt Ei eq_refl (plus_n_O _) eq_refl) as M.
      destruct (write_with_masked_password i _ _ (write [])) as [cs en]. cbn [app]. rewrite Ei at 1. exact M.
    + destruct alloc; [left|now right]. cbn [negb].
      rewrite (slice_p_some _ _ _ _ (slice_front l r i _ Ei eq_refl)), (slice_p_some _ _ _ _ (slice_back l r i _ Ei eq_refl)).
      rewrite <- Ei. now rewrite unchecked_new.
Qed.
Lemma password_cases S i C : reads S i C -> no_password S i C \/
  exists user pw h o, dissects S i C (Some (user_password user pw)) h o /\ ~ In 58 user.
Proof.
  intros R. destruct (c_a C) as [a|] eqn:E; [|left; left; auto].
  assert (Ha : authority S a) by (destruct R as [O _]; destruct O as (_ & Ha & _); rewrite E in Ha; exact Ha).
  apply authority_comps in Ha. destruct Ha as (u & h & o & -> & Hu & Hh & Ho).
  destruct u as [u|].
  - destruct (split_first (N.eqb COLON) u) as [[[x c] y]|] eqn:F.
    + apply split_first_some in F. destruct F as (-> & Hx & Hc). apply N.eqb_eq in Hc. subst c. right.
      exists x, y, h, o. split; [split; [exact R|auto]|]. now apply in_none.
    + left. right. right. exists u, h, o. split; [split; auto|]. apply in_none. now apply split_first_none.
  - left. right. left. exists h, o. split; auto.
Qed.
Lemma replaced_ok (A : Type) S i C user pw h o (f : str -> W A) a : dissects S i C (Some (user_password user pw)) h o -> ~ In 58 user ->
  snd (f pw) = Ret a ->
  text (replaced_display i f) = Ok (render (with_authority C (Some (user_password user (concat (fst (f pw))))) h o)).
Proof.
  intros H Hc Hf.
  assert (Ei : i = ((osch (c_s C) ++ lit "//") ++ user ++ lit ":") ++ pw ++ tail_of C h o)
    by (rewrite (dissects_render _ _ _ _ _ _ H); apply render_pw).
  unfold replaced_display. rewrite (range_pw _ _ _ _ _ _ _ H Hc). cbn [lift wbind wret].
  rewrite (slice_p_mid _ _ _ _ _ _ Ei eq_refl eq_refl). cbn [lift wbind wret].
  pose proof (masked_text A i _ pw _ _ _ (f pw) a Ei eq_refl eq_refl Hf) as M.
  destruct (write_with_masked_password i _ _ (f pw)) as [cs en]. cbn [app]. rewrite render_pw. exact M.
Qed.
Lemma replaced_none (A : Type) S i C (f : str -> W A) : reads S i C -> (c_a C = None \/ exists h o, dissects S i C None h o) ->
  text (replaced_display i f) = Ok i.
Proof.
  intros R H. unfold replaced_display. assert (E : password_range_to_hide i = Ok None).
  { destruct H as [H|(h & o & H)].
    - unfold password_range_to_hide. now destruct (no_authority _ _ _ R H) as [-> _].
    - now rewrite (range_spec _ _ _ _ _ _ H). }
  rewrite E. cbn. unfold text. cbn. now rewrite app_nil_r.
Qed.
Lemma mask_same S i i' C C' user pw pw' h o : ~ In 58 user ->
  dissects S i C (Some (user_password user pw)) h o -> dissects S i' C' (Some (user_password user pw')) h o ->
  c_s C = c_s C' -> c_p C = c_p C' -> c_q C = c_q C' -> c_f C = c_f C' ->
  text (mask_display i) = text (mask_display i').
Proof.
  intros Hc H H' E1 E2 E3 E4.
  assert (Hr : forall j D, reads S j D -> new S TReference j = Ok j) by (intros j D R; apply (class_new S TReference j D eq_refl R); exact I).
  destruct (mask_ok true S TReference i C user pw h o eq_refl (Hr _ _ (proj1 H)) H Hc) as (j & -> & _ & _ & _ & D).
  destruct (mask_ok true S TReference i' C' user pw' h o eq_refl (Hr _ _ (proj1 H')) H' Hc) as (j' & -> & _ & _ & _ & D').
  apply dissects_render in D, D'. rewrite D, D'. f_equal. unfold render, with_authority. cbn [c_s c_a c_p c_q c_f]. now rewrite E1, E2, E3, E4.
Qed.

(** ** Password removal *)
Lemma nth_mid (a : str) c b n : n = length a -> nth_error (a ++ c :: b) n = Some c.
Proof. intros ->. apply nth_error_mid. Qed.
Lemma remove_pw_ok debug S t i C user pw h o : editable t = true -> new S t i = Ok i ->
  dissects S i C (Some (user_password user pw)) h o -> ~ In 58 user -> exists j,
  remove_password_inline debug S t i = Ok j /\ new S t j = Ok j /\
  dissects S j (with_authority C (Some user) h o) (Some user) h o.
Proof.
  intros Ht Hn H Hc. pose proof H as (R & E & Hu & Hh & Ho). apply userinfo_cut in Hu. destruct Hu as [Hu _].
  set (j := render (with_authority C (Some user) h o)). exists j.
  assert (D : dissects S j (with_authority C (Some user) h o) (Some user) h o) by (eapply dissects_authority; eauto).
  assert (Hj : new S t j = Ok j).
  { apply (class_new S t j _ Ht (proj1 D)). apply class_authority. now apply (class_new S t i C Ht R). }
  repeat split; auto; try apply D.
  assert (Ei : i = ((osch (c_s C) ++ lit "//") ++ user) ++ (COLON :: pw) ++ tail_of C h o).
  { rewrite (dissects_render _ _ _ _ _ _ H), render_pw. change (lit ":") with [COLON]. now rewrite <- !app_assoc. }
  assert (Ej : j = ((osch (c_s C) ++ lit "//") ++ user) ++ tail_of C h o)
    by (unfold j; rewrite render_some; now rewrite <- !app_assoc).
  unfold remove_password_inline. rewrite (range_pw _ _ _ _ _ _ _ H Hc). cbn [bind].
  set (n := length ((osch (c_s C) ++ lit "//") ++ user)).
  assert (En : length ((osch (c_s C) ++ lit "//") ++ user ++ lit ":") = Datatypes.S n)
    by (unfold n; rewrite (app_assoc _ user), (app_length _ (lit ":")); change (length (lit ":")) with 1%nat; lia).
  rewrite En. unfold prev_byte. rewrite Ei at 1.
  change ((COLON :: pw) ++ tail_of C h o) with (COLON :: pw ++ tail_of C h o). rewrite (nth_mid _ _ _ n) by reflexivity.
  change (Nat.eqb (clen COLON) 1) with true. cbn [bind].
  rewrite (drain_mid _ _ _ i n _ Ei eq_refl); [|unfold n; cbn [length]; lia].
  cbn [bind]. rewrite <- Ej, debug_new by exact Hj. reflexivity.
Qed.
Lemma remove_pw_none debug S t i C : reads S i C -> (c_a C = None \/ exists h o, dissects S i C None h o) ->
  remove_password_inline debug S t i = Ok i /\ remove_nonempty_password_inline debug S t i = Ok i.
Proof.
  intros R H. unfold remove_password_inline, remove_nonempty_password_inline. assert (E : password_range_to_hide i = Ok None).
  { destruct H as [H|(h & o & H)].
    - unfold password_range_to_hide. now destruct (no_authority _ _ _ R H) as [-> _].
    - now rewrite (range_spec _ _ _ _ _ _ H). }
  rewrite E. auto.
Qed.
Lemma remove_nonempty_ok debug S t i C user pw h o : editable t = true -> new S t i = Ok i ->
  dissects S i C (Some (user_password user pw)) h o -> ~ In 58 user -> exists j,
  remove_nonempty_password_inline debug S t i = Ok j /\ new S t j = Ok j /\
  dissects S j (with_authority C (Some (user_password user [])) h o) (Some (user_password user [])) h o.
Proof.
  intros Ht Hn H Hc. destruct (pw_new_ok _ _ _ _ _ _ _ _ Ht Hn H) as [Hj Hd].
  set (j := render (with_authority C (Some (user_password user [])) h o)) in *. exists j. split; [|auto].
  assert (Ei : i = ((osch (c_s C) ++ lit "//") ++ user ++ lit ":") ++ pw ++ tail_of C h o)
    by (rewrite (dissects_render _ _ _ _ _ _ H); apply render_pw).
  assert (Ej : j = ((osch (c_s C) ++ lit "//") ++ user ++ lit ":") ++ [] ++ tail_of C h o) by apply render_pw.
  unfold remove_nonempty_password_inline. rewrite (range_pw _ _ _ _ _ _ _ H Hc). cbn [bind].
  set (n := length ((osch (c_s C) ++ lit "//") ++ user ++ lit ":")) in *.
  destruct (Nat.ltb_spec n (n + length pw)) as [Hl|Hl]; cbn [negb].
  - assert (En : n = Datatypes.S (length ((osch (c_s C) ++ lit "//") ++ user)))
      by (unfold n; rewrite (app_assoc _ user), (app_length _ (lit ":")); change (length (lit ":")) with 1%nat; lia).
    assert (Ec : nth_error i (n - 1) = Some COLON).
    { rewrite Ei, (app_assoc _ user), <- (app_assoc _ (lit ":")). change (lit ":" ++ pw ++ tail_of C h o) with (COLON :: pw ++ tail_of C h o).
      apply nth_mid. lia. }
    rewrite Ec. change (COLON =? COLON) with true. cbn [negb]. rewrite andb_false_r. cbn [bind].
    rewrite (drain_mid _ _ _ i n (n + length pw)%nat Ei eq_refl eq_refl). cbn [bind]. cbn [app] in Ej. rewrite <- Ej, debug_new by exact Hj. reflexivity.
  - assert (pw = []) by (destruct pw; [auto|cbn [length] in Hl; lia]). subst pw. now rewrite Ei, Ej.
Qed.
Lemma remove_nonempty_nocolon debug S t i C : no_password S i C -> remove_nonempty_password_inline debug S t i = Ok i.
Proof.
  intros H. unfold remove_nonempty_password_inline. destruct (range_nopw _ _ _ H) as [->|(l & r & _ & ->)]; [reflexivity|].
  cbn [bind]. now rewrite Nat.ltb_irrefl.
Qed.

(** ** Host replacement *)
Lemma host_new_ok S t i C u h o h' : editable t = true -> new S t i = Ok i -> dissects S i C u h o -> host S h' ->
  let j := render (with_authority C u h' o) in
  new S t j = Ok j /\ dissects S j (with_authority C u h' o) u h' o.
Proof.
  intros Ht Hn H Hh' j. pose proof H as (R & E & Hu & Hh & Ho).
  assert (D : dissects S j (with_authority C u h' o) u h' o) by (eapply dissects_authority; eauto).
  split; auto. apply (class_new S t j _ Ht (proj1 D)). apply class_authority. now apply (class_new S t i C Ht R).
Qed.
Lemma validate_host_err S h : ~ host S h -> is_err (validate_host S h) = true.
Proof.
  intros H. destruct (validate_host S h) as [[]|e|] eqn:E; auto.
  - exfalso. apply H. now apply validate_host_iff. - now apply validate_host_np in E.
Qed.
Lemma replace_domain_ok alloc S i C u h o h' only : dissects S i C u h o -> host S h' ->
  (only = true -> ~ IP_literal h /\ ~ IPv4address h) ->
  let j := render (with_authority C u h' o) in let n := length ((osch (c_s C) ++ lit "//") ++ oui u) in
  (alloc = true \/ (blen h' < blen h)%nat -> replace_domain_impl alloc S i h' only = Ok (Ok (Some (n, (n + length h')%nat)), j)) /\
  (alloc = false -> (blen h <= blen h')%nat -> replace_domain_impl alloc S i h' only = Ok (Err AllocFailed, i)).
Proof.
  intros H Hh' Ho j n. unfold replace_domain_impl. destruct (components_dissects _ _ _ _ _ _ H) as [_ ->].
  destruct (ac_rec u h o) as (_ & -> & _). cbn [bind host_start].
  pose proof H as (R & E & Hu & Hh & Hop).
  rewrite (proj2 (validate_host_iff S h') Hh'). cbn [is_err].
  assert (Er : only && negb (is_host_reg_name h) = false).
  { destruct only; [|reflexivity]. cbn [andb]. rewrite (proj2 (is_host_reg_name_iff S h Hh)); auto. }
  rewrite Er.
  assert (Ei : i = ((osch (c_s C) ++ lit "//") ++ oui u) ++ h ++ (oport o ++ c_p C ++ oq (c_q C) ++ ofr (c_f C)))
    by (rewrite (dissects_render _ _ _ _ _ _ H), render_authority; now rewrite <- !app_assoc).
  assert (En : (length (osch (c_s C)) + 2 + length (oui u))%nat = n)
    by (unfold n; rewrite !app_length; change (length (lit "//")) with 2%nat; lia).
  rewrite En. rewrite (replace_mid _ _ _ i n (n + length h)%nat h' Ei eq_refl eq_refl).
  assert (Ej : j = ((osch (c_s C) ++ lit "//") ++ oui u) ++ h' ++ (oport o ++ c_p C ++ oq (c_q C) ++ ofr (c_f C)))
    by (unfold j; rewrite render_authority; now rewrite <- !app_assoc).
  rewrite Ej. cbn [bind]. destruct alloc.
  - rewrite andb_false_r. split; [auto|discriminate].
  - split; [intros [[=]|Hl]|intros _ Hl].
    + rewrite (proj2 (Nat.leb_gt _ _) Hl). reflexivity.
    + rewrite (proj2 (Nat.leb_le _ _) Hl). reflexivity.
Qed.
Lemma debug_trap debug S t i C : editable t = true -> reads S i C -> new S t i = Ok i -> (debug = false \/ t <> TIri \/ c_f C = None \/ c_f C = Some []) ->
  debug_valid debug S (replace_host_asserts t) i = Ok tt.
Proof.
  intros Ht R Hn [->|[H|H]].
  - reflexivity.
  - destruct t; try now apply debug_new.
  - apply (class_new S t i C Ht R) in Hn. destruct t; try discriminate; cbn [replace_host_asserts];
      match goal with |- debug_valid _ _ ?t _ = _ => apply debug_new, (class_new S t i C eq_refl R) end; cbn [ty_class] in *; tauto.
Qed.
Lemma replace_host_ok debug alloc S t i C u h o h' only : editable t = true -> new S t i = Ok i ->
  dissects S i C u h o -> host S h' -> (only = true -> ~ IP_literal h /\ ~ IPv4address h) -> (debug = false \/ t <> TIri \/ c_f C = None \/ c_f C = Some []) ->
  exists j, new S t j = Ok j /\ dissects S j (with_authority C u h' o) u h' o /\
  (alloc = true \/ (blen h' < blen h)%nat -> replace_host debug alloc S t i h' only = Ok (Some h', j) /\
     try_replace_host_impl debug alloc S t i h' only = Ok (Ok (Some h'), j)) /\
  (alloc = false -> (blen h <= blen h')%nat -> replace_host debug alloc S t i h' only = Panic /\
     try_replace_host_impl debug alloc S t i h' only = Ok (Err AllocFailed, i)).
Proof.
  intros Ht Hn H Hh' Ho Htr. destruct (host_new_ok S t i C u h o h' Ht Hn H Hh') as [Hj D].
  set (j := render (with_authority C u h' o)) in *. exists j.
  assert (Dj : debug_valid debug S (replace_host_asserts t) j = Ok tt) by (apply (debug_trap debug S t j (with_authority C u h' o) Ht (proj1 D) Hj); exact Htr).
  assert (Di : debug_valid debug S (replace_host_asserts t) i = Ok tt) by (exact (debug_trap debug S t i C Ht (proj1 H) Hn Htr)).
  assert (Ej : j = ((osch (c_s C) ++ lit "//") ++ oui u) ++ h' ++ (oport o ++ c_p C ++ oq (c_q C) ++ ofr (c_f C)))
    by (unfold j; rewrite render_authority; now rewrite <- !app_assoc).
  destruct (replace_domain_ok alloc S i C u h o h' only H Hh' Ho) as [H1 H2].
  cbv zeta in H1, H2. fold j in H1, H2.
  split; [exact Hj|]. split; [exact D|]. split.
  - intros Ha. assert (T : try_replace_host_impl debug alloc S t i h' only = Ok (Ok (Some h'), j)).
    { unfold try_replace_host_impl. rewrite (H1 Ha). cbn [bind]. rewrite Dj. cbn [bind].
      rewrite (slice_p_mid _ _ _ _ _ _ Ej eq_refl eq_refl). reflexivity. }
    split; [|exact T]. unfold replace_host. now rewrite T.
  - intros Ha Hl. assert (T : try_replace_host_impl debug alloc S t i h' only = Ok (Err AllocFailed, i)).
    { unfold try_replace_host_impl. rewrite (H2 Ha Hl). cbn [bind]. now rewrite Di. }
    split; [|exact T]. unfold replace_host. now rewrite T.
Qed.
Lemma replace_host_none debug alloc S t i C h' only : editable t = true -> new S t i = Ok i -> reads S i C ->
  (c_a C = None \/ ~ host S h' \/ only = true /\ exists u h o, dissects S i C u h o /\ (IP_literal h \/ IPv4address h)) ->
  (debug = false \/ t <> TIri \/ c_f C = None \/ c_f C = Some []) ->
  try_replace_host_impl debug alloc S t i h' only = Ok (Ok None, i) /\ replace_host debug alloc S t i h' only = Ok (None, i).
Proof.
  intros Ht Hn R H Htr.
  assert (Di : debug_valid debug S (replace_host_asserts t) i = Ok tt) by (eapply debug_trap; eauto).
  assert (Hr : replace_domain_impl alloc S i h' only = Ok (Ok None, i)).
  { unfold replace_domain_impl. destruct (c_a C) as [a|] eqn:E; [|now destruct (no_authority _ _ _ R E) as [_ ->]].
    assert (exists u h o, dissects S i C u h o) as (u & h & o & D).
    { pose proof R as [(_ & Ha & _) _]. rewrite E in Ha. apply authority_comps in Ha. destruct Ha as (u & h & o & Ea & Hu & Hh & Ho).
      exists u, h, o. split; auto. rewrite E, Ea. auto. }
    destruct (components_dissects _ _ _ _ _ _ D) as [_ ->]. destruct (ac_rec u h o) as (_ & -> & _). cbn [bind].
    destruct H as [H|[H|(-> & u' & h2 & o' & D' & H)]]; [discriminate|now rewrite validate_host_err|].
    destruct (is_err (validate_host S h')); [reflexivity|]. cbn [andb].
    assert (h2 = h).
    { destruct D as (_ & E1 & A1 & A2 & A3), D' as (_ & E2 & B1 & B2 & B3). rewrite E1 in E2. injection E2 as E2.
      apply (authority_unique S) in E2; auto. congruence. }
    subst h2. destruct (is_host_reg_name h) eqn:Er; [|reflexivity]. destruct D as (_ & _ & _ & Hh & _).
    apply (is_host_reg_name_iff S h Hh) in Er. tauto. }
  unfold replace_host, try_replace_host_impl. rewrite Hr. cbn [bind]. rewrite Di. auto.
Qed.

(** ** Fragments *)
Lemma render_fragment C : render C = render (with_fragment C None) ++ ofr (c_f C).
Proof. unfold render, with_fragment. cbn [c_s c_a c_p c_q c_f]. rewrite !recompose_eq. cbn [ofr]. now rewrite app_nil_r, <- !app_assoc. Qed.
Lemma with_fragment_ok S C f : comps_ok S C -> opt_in (fragment S) f -> comps_ok S (with_fragment C f).
Proof. intros (Hs & Ha & Hq & Hf & Hp) F. unfold comps_ok, with_fragment. cbn [c_s c_a c_p c_q c_f]. repeat split; auto. Qed.
Lemma front_hash S i C : reads S i C -> none (N.eqb HASH) (render (with_fragment C None)) = true.
Proof.
  intros [O _]. apply components_weak in O. pose proof (front_no_hash _ _ _ _ O) as F.
  unfold render, with_fragment. cbn [c_s c_a c_p c_q c_f]. rewrite recompose_eq. cbn [ofr]. now rewrite app_nil_r.
Qed.
Lemma remove_fragment_ok S i C : reads S i C -> remove_fragment i = render (with_fragment C None).
Proof.
  intros R. assert (F := front_hash _ _ _ R). destruct R as [O ->]. fold (render C). rewrite (render_fragment C).
  unfold remove_fragment, find_chr. destruct (c_f C) as [f|]; cbn [ofr].
  - change (lit "#" ++ f) with (HASH :: f). rewrite split_first_app by auto. rewrite firstn_app, firstn_all, Nat.sub_diag. cbn [firstn]. apply app_nil_r.
  - rewrite app_nil_r, split_first_none_app by auto. reflexivity.
Qed.
Lemma raw_set_ok S i C f : reads S i C -> raw_set_fragment i f = render (with_fragment C f).
Proof.
  intros R. unfold raw_set_fragment. rewrite (remove_fragment_ok _ _ _ R). rewrite (render_fragment (with_fragment C f)).
  cbn [with_fragment c_s c_a c_p c_q c_f]. destruct f; cbn [ofr]; [now rewrite <- app_assoc|now rewrite app_nil_r].
Qed.
Lemma set_fragment_ok debug S t i C f : fragmentable t = true -> new S t i = Ok i -> reads S i C ->
  match f with Some x => new S TFragment x = Ok x | None => True end -> exists j,
  set_fragment debug S t i f = Ok j /\ new S t j = Ok j /\ reads S j (with_fragment C f).
Proof.
  intros Ht Hn R Hf. exists (render (with_fragment C f)).
  assert (Ht' : editable t = true) by (destruct t; auto; discriminate).
  assert (R' : reads S (render (with_fragment C f)) (with_fragment C f)).
  { split; [|reflexivity]. apply with_fragment_ok; [apply R|]. destruct f; [|exact I]. now apply (new_ok S TFragment) in Hf. }
  assert (Hj : new S t (render (with_fragment C f)) = Ok (render (with_fragment C f))).
  { apply (class_new S t _ _ Ht' R'). apply (class_new S t i C Ht' R) in Hn. destruct t; auto; discriminate. }
  split; [|auto]. unfold set_fragment. rewrite (raw_set_ok S i C f R), debug_new by exact Hj. reflexivity.
Qed.
Lemma split_fragment_reads S i C : reads S i C -> split_fragment i = (render (with_fragment C None), c_f C).
Proof. intros [O ->]. assert (W := components_weak _ _ _ _ _ _ O). now rewrite (split_fragment_rec _ _ _ _ _ W). Qed.
Lemma pop_app (s : str) c : pop (s ++ [c]) = (s, Some c).
Proof. unfold pop. rewrite rev_unit. now rewrite rev_involutive. Qed.
Lemma split_owned S i C : reads S i C -> split_fragment_owned i = Ok (render (with_fragment C None), c_f C).
Proof.
  intros R. unfold split_fragment_owned. rewrite (split_fragment_reads _ _ _ R). destruct (c_f C) as [f|] eqn:E.
  - set (p := render (with_fragment C None)).
    assert (Ei : i = (p ++ [HASH]) ++ f).
    { destruct R as [_ ->]. fold (render C). rewrite (render_fragment C), E. cbn [ofr]. now rewrite <- app_assoc. }
    rewrite (slice_front (p ++ [HASH]) f) by (auto; rewrite app_length; reflexivity). cbn [bind].
    rewrite (slice_back (p ++ [HASH]) f) by (auto; rewrite app_length; reflexivity). cbn [bind]. rewrite pop_app.
    rewrite Nat.eqb_refl. reflexivity.
  - f_equal. f_equal. destruct R as [_ ->]. fold (render C). rewrite (render_fragment C), E. cbn [ofr]. apply app_nil_r.
Qed.
Lemma absolute_reads S i C : reads S i C -> defined (c_s C) = true ->
  absolute_IRI S (render (with_fragment C None)) /\ new S TAbsolute (render (with_fragment C None)) = Ok (render (with_fragment C None)).
Proof.
  intros [O _] D. pose proof (with_fragment_ok S C None O I) as O'. split.
  - apply absolute_comps. destruct C as [[s|] a p q f]; [|discriminate]. exists s, a, p, q. auto.
  - apply (class_new S TAbsolute _ (with_fragment C None) eq_refl); [split; auto|]. cbn. auto.
Qed.
Lemma fragment_unchecked d S C : comps_ok S C -> match c_f C with Some f => do x <- new_unchecked_justified d S TFragment f ; Ok (Some x) | None => Ok None end = Ok (c_f C).
Proof.
  intros (_ & _ & _ & Hf & _). destruct (c_f C) as [f|]; [|reflexivity]. cbn in Hf.
  rewrite unchecked_new; [reflexivity|]. now apply new_ok.
Qed.
Lemma absolute_ops debug S i C : new S TIri i = Ok i -> reads S i C -> exists a,
  absolute_IRI S a /\ new S TAbsolute a = Ok a /\ reads S a (with_fragment C None) /\
  i = a ++ match c_f C with Some f => lit "#" ++ f | None => [] end /\
  to_absolute_and_fragment debug S i = Ok (a, c_f C) /\ into_absolute_and_fragment debug S i = Ok (a, c_f C) /\
  to_absolute debug S i = Ok a /\ into_absolute debug S i = Ok a.
Proof.
  intros Hn R. apply (class_new S TIri i C eq_refl R) in Hn. cbn [ty_class] in Hn.
  destruct (absolute_reads S i C R Hn) as [H1 H2]. exists (render (with_fragment C None)).
  split; [exact H1|]. split; [exact H2|]. split; [split; [apply with_fragment_ok; [apply R|exact I]|reflexivity]|].
  split; [destruct R as [_ ->]; apply (render_fragment C)|].
  unfold to_absolute_and_fragment, into_absolute_and_fragment, to_absolute, into_absolute.
  rewrite (split_owned _ _ _ R), (split_fragment_reads _ _ _ R), (remove_fragment_ok _ _ _ R). cbn [bind fst].
  rewrite unchecked_new by exact H2. cbn [bind]. rewrite fragment_unchecked by apply R. auto.
Qed.
Lemma into_iri_same debug S s : into_iri debug S s = to_iri debug S s /\ into_relative_iri debug S s = to_relative_iri debug S s.
Proof. split; reflexivity. Qed.

(** ** Substitution *)
Lemma replace_ok S C C' : comps_ok S C -> replace_one S C C' -> comps_ok S C'.
Proof.
  intros O H. destruct H.
  - destruct O as (Hs & Ha & Hq & Hf & Hp). rewrite H in Hp. unfold comps_ok, components_ok. cbn [c_s c_a c_p c_q c_f]. cbn [opt_in]. tauto.
  - eapply with_authority_ok; eauto.
  - eapply with_authority_ok; eauto.
  - eapply with_authority_ok; eauto.
  - destruct O as (Hs & Ha & Hq & Hf & Hp). unfold comps_ok, components_ok. cbn [c_s c_a c_p c_q c_f]. unfold path_rule in H.
    repeat split; auto. destruct (c_a C), (c_s C); exact H.
  - destruct O as (Hs & Ha & Hq & Hf & Hp). unfold comps_ok, components_ok. cbn [c_s c_a c_p c_q c_f]. tauto.
  - now apply with_fragment_ok.
Qed.
Lemma replace_valid debug S t i C C' : editable t = true -> new S t i = Ok i -> reads S i C -> replace_one S C C' ->
  (t = TAbsolute -> c_f C' = c_f C) ->
  let j := recompose (c_s C') (c_a C') (c_p C') (c_q C') (c_f C') in
  new S t j = Ok j /\ reads S j C' /\ to_major j = Ok (c_s C', c_a C', c_p C', c_q C', c_f C') /\
  (t <> TAbsolute \/ c_f C' = None -> scheme_str t j = Ok (c_s C') /\ authority_str t j = Ok (c_a C') /\ path_str t j = Ok (c_p C') /\
    query_str debug t j = Ok (c_q C') /\ fragment_str t j = Ok (c_f C')).
Proof.
  intros Ht Hn R Hr Hf j. assert (O := replace_ok S C C' (proj1 R) Hr).
  assert (R' : reads S j C') by (split; auto). split.
  - apply (class_new S t j C' Ht R'). apply (class_new S t i C Ht R) in Hn. destruct t; try discriminate; cbn [ty_class] in *; auto.
    + rewrite Hf by reflexivity. split; [|apply Hn]. destruct Hn as [Hn _]. destruct Hr; auto.
    + destruct Hr; auto.
    + destruct Hr; auto. rewrite H in Hn. discriminate.
  - split; [auto|]. split; [now apply (reads_major S)|]. intros Hx.
    assert (W := components_weak _ _ _ _ _ _ O).
    assert (Hc : ty_class t C').
    { apply (class_new S t j C' Ht R'). apply (class_new S t j C' Ht R'). apply (class_new S t i C Ht R) in Hn. destruct t; try discriminate; cbn [ty_class] in *; auto.
    + rewrite Hf by reflexivity. split; [|apply Hn]. destruct Hn as [Hn _]. destruct Hr; auto.
    + destruct Hr; auto.
    + destruct Hr; auto. rewrite H in Hn. discriminate. }
    unfold j in *. clear R' Hr Hf O j. destruct C' as [s a p q f]. cbn [c_s c_a c_p c_q c_f ty_class] in *.
    destruct t; try discriminate; cbn [ty_class c_s c_f] in Hc.
    + destruct Hx as [Hx|Hx]; [easy|]. subst f. destruct s as [s|]; [|destruct Hc; discriminate]. exact (acc_absolute debug s a p q W).
    + destruct s as [s|]; [|discriminate]. exact (acc_iri debug s a p q f W).
    + exact (acc_reference debug s a p q f W).
    + destruct s as [s|]; [discriminate|]. exact (acc_relative debug a p q f W).
Qed.

(** ** Refutations *)
Lemma replace_no_password_refuted : exists i C (f : str -> W unit), new UriSpec TIri i = Ok i /\ no_password UriSpec i C /\
  text (replaced_display i f) <> Ok i.
Proof.
  exists (lit "http://user@host/"), (mkC (Some (lit "http")) (Some (lit "user@host")) (lit "/") None None), (fun _ => write (lit "X")).
  split; [vm_compute; reflexivity|]. split; [|intros H; vm_compute in H; discriminate H].
  right. right. exists (lit "user"), (lit "host"), None. split; [|cbn; intuition discriminate].
  assert (R : reads UriSpec (lit "http://user@host/") (mkC (Some (lit "http")) (Some (lit "user@host")) (lit "/") None None)).
  { assert (H : new UriSpec TReference (lit "http://user@host/") = Ok (lit "http://user@host/")) by (vm_compute; reflexivity).
    destruct (editable_reads _ TReference _ eq_refl H) as (C & R). pose proof (reads_major _ _ _ R) as M. vm_compute in M.
    injection M as E1 E2 E3 E4 E5. destruct C as [s a p q f]. cbn in *. subst. exact R. }
  split; [exact R|]. split; [reflexivity|]. split; [|split; [|exact I]].
  - apply validate_userinfo_iff. reflexivity.
  - apply validate_host_iff. reflexivity.
Qed.
Lemma remove_password_refuted :
  (forall debug, exists i j, new UriSpec TIri i = Ok i /\ remove_password_inline debug UriSpec TIri i = Ok j /\
     i = lit "http://user@host/" /\ j = lit "http://use@host/") /\
  (forall debug, exists i j, new UriSpec TIri i = Ok i /\ remove_password_inline debug UriSpec TIri i = Ok j /\
     authority_str TIri i = Ok (Some (lit "@host")) /\ authority_str TIri j = Ok None) /\
  (exists i j, new UriSpec TIri i = Ok i /\ remove_password_inline false UriSpec TIri i = Ok j /\ ~ IRI UriSpec j /\
     remove_password_inline true UriSpec TIri i = Panic) /\
  (forall debug, exists i, new IriSpec TIri i = Ok i /\ remove_password_inline debug IriSpec TIri i = Panic).
Proof.
  split; [|split; [|split]].
  - intros debug. exists (lit "http://user@host/"), (lit "http://use@host/"). repeat split; destruct debug; vm_compute; reflexivity.
  - intros debug. exists (lit "http://@host/"), (lit "http:/@host/"). repeat split; destruct debug; vm_compute; reflexivity.
  - exists (lit "http://u%41@host/"), (lit "http://u%4@host/"). split; [vm_compute; reflexivity|]. split; [vm_compute; reflexivity|].
    split; [|vm_compute; reflexivity]. intros H. apply (new_ok UriSpec TIri) in H. vm_compute in H. discriminate.
  - intros debug. exists (lit "http://us" ++ [233] ++ lit "@host/"). split; destruct debug; vm_compute; reflexivity.
Qed.
Lemma replace_host_refuted :
  (exists i h, new UriSpec TIri i = Ok i /\ host UriSpec h /\ replace_host true true UriSpec TIri i h false = Panic) /\
  (exists i h, new UriSpec TIri i = Ok i /\ authority_str TIri i = Ok None /\ replace_host true true UriSpec TIri i h false = Panic).
Proof.
  split.
  - exists (lit "http://host/#f"), (lit "h"). split; [vm_compute; reflexivity|]. split; [|vm_compute; reflexivity].
    apply validate_host_iff. reflexivity.
  - exists (lit "mailto:a#f"), (lit "h"). split; [vm_compute; reflexivity|]. split; vm_compute; reflexivity.
Qed.
Lemma from_prefixed_ok S s :
  (forall f, s = lit "#" ++ f -> fragment S f -> fragment_from_prefixed S s = Ok f) /\
  ((forall f, s = lit "#" ++ f -> ~ fragment S f) -> exists e, fragment_from_prefixed S s = Err e) /\
  (forall q, s = lit "?" ++ q -> query S q -> query_from_prefixed S s = Ok q) /\
  ((forall q, s = lit "?" ++ q -> ~ query S q) -> exists e, query_from_prefixed S s = Err e).
Proof.
  split; [|split; [|split]].
  - intros f -> H. unfold fragment_from_prefixed. cbn. apply (new_ok S TFragment). exact H.
  - intros H. unfold fragment_from_prefixed, strip_ascii_char_prefix. destruct s as [|c r]; [eauto|]. cbn.
    destruct (N.eqb_spec c HASH); [|eauto]. subst c. apply (new_recognizes S TFragment). exact (H r eq_refl).
  - intros f -> H. unfold query_from_prefixed. cbn. apply (new_ok S TQuery). exact H.
  - intros H. unfold query_from_prefixed, strip_ascii_char_prefix. destruct s as [|c r]; [eauto|]. cbn.
    destruct (N.eqb_spec c QMARK); [|eauto]. subst c. apply (new_recognizes S TQuery). exact (H r eq_refl).
Qed.
Lemma into_iri_ok debug S s : IRI_reference S s ->
  (IRI S s -> into_iri debug S s = Ok (inl s) /\ into_relative_iri debug S s = Ok (inr s)) /\
  (relative_ref S s -> into_iri debug S s = Ok (inr s) /\ into_relative_iri debug S s = Ok (inl s)).
Proof.
  intros H. destruct (into_iri_same debug S s) as [-> ->]. destruct (to_iri_spec debug S s H), (to_relative_iri_spec debug S s H). auto.
Qed.
Lemma dissects_example : dissects UriSpec (lit "http://u:p@h:8/x?q")
  (mkC (Some (lit "http")) (Some (lit "u:p@h:8")) (lit "/x") (Some (lit "q")) None)
  (Some (user_password (lit "u") (lit "p"))) (lit "h") (Some (lit "8")).
Proof.
  split; [|split; [reflexivity|split; [|split]]].
  - assert (H : new UriSpec TReference (lit "http://u:p@h:8/x?q") = Ok (lit "http://u:p@h:8/x?q")) by (vm_compute; reflexivity).
    destruct (editable_reads _ TReference _ eq_refl H) as (C & R). pose proof (reads_major _ _ _ R) as M. vm_compute in M.
    injection M as E1 E2 E3 E4 E5. destruct C as [s a p q f]. cbn in *. subst. exact R.
  - apply validate_userinfo_iff. reflexivity.
  - apply validate_host_iff. reflexivity.
  - apply port_iff. reflexivity.
Qed.
