(** * Formatting options (C44). *)
From Verif Require Import Base Chars Rfc3986 CompSpec RfcResolve EditSpec MValidate MTrusted MFormat MPct MPath MNormalize MBuild MEdit MFlags FlagsSpec.
From Verif Require Import PBase PTrusted PEdit.

(** ** Texts of sequences *)
Definition cat2 (x y : may str) : may str := do a <- x ; do b <- y ; Ok (a ++ b).
Lemma text_seq (x y : W unit) : text (x >> y) = cat2 (text x) (text y).
Proof.
  destruct x as [o [[]| |]], y as [o' [[]| |]]; unfold text, cat2; cbn; try reflexivity. now rewrite concat_app.
Qed.
Lemma text_write s : text (write s) = Ok s.
Proof. unfold text, write. cbn. now rewrite app_nil_r. Qed.
Lemma text_fill c n : text (write_fill c n) = Ok (repeat c n).
Proof. induction n as [|n IH]; [reflexivity|]. cbn [write_fill repeat]. rewrite text_seq, text_write, IH. reflexivity. Qed.

(** ** Padding *)
Lemma pad_padded o s t : padded o s t <-> text (pad o s) = Ok t.
Proof.
  unfold pad, padded. change (match fo_precision o with Some p => firstn p s | None => s end) with (cut_to (fo_precision o) s).
  generalize (cut_to (fo_precision o) s) as k. intros k.
  assert (L : forall l r (f : N), length (repeat f l ++ k ++ repeat f r) = (l + length k + r)%nat).
  { intros. rewrite !app_length, !repeat_length. lia. }
  unfold at_least. destruct (fo_width o) as [w|].
  - destruct (Nat.leb_spec w (length k)) as [H|H].
    + rewrite text_write. split.
      * intros (l & r & -> & E & _). rewrite L in E. assert (l = 0 /\ r = 0)%nat as [-> ->] by lia. cbn. now rewrite app_nil_r.
      * intros [= <-]. exists 0%nat, 0%nat. cbn. rewrite app_nil_r. split; [reflexivity|]. split; [lia|]. destruct (fo_align o) as [[]|]; lia.
    + unfold padding_split. set (n := (w - length k)%nat).
      assert (E2 : (n / 2 + (n + 1) / 2 = n)%nat).
      { pose proof (Nat.div_mod n 2 ltac:(lia)). pose proof (Nat.div_mod (n + 1) 2 ltac:(lia)). pose proof (Nat.mod_upper_bound n 2 ltac:(lia)).
        pose proof (Nat.mod_upper_bound (n + 1) 2 ltac:(lia)). lia. }
      assert (E3 : (n / 2 <= (n + 1) / 2 <= n / 2 + 1)%nat).
      { pose proof (Nat.div_mod n 2 ltac:(lia)). pose proof (Nat.div_mod (n + 1) 2 ltac:(lia)). pose proof (Nat.mod_upper_bound n 2 ltac:(lia)).
        pose proof (Nat.mod_upper_bound (n + 1) 2 ltac:(lia)). lia. }
      assert (G : forall pre post (A : nat -> nat -> Prop), (pre + post = n)%nat -> A pre post ->
        (forall l r, A l r -> (l + r = n)%nat -> l = pre /\ r = post) ->
        (exists l r, t = repeat (fo_fill o) l ++ k ++ repeat (fo_fill o) r /\ length t = Nat.max w (length k) /\ A l r) <->
        text (write_fill (fo_fill o) pre >> write k >> write_fill (fo_fill o) post) = Ok t).
      { intros pre post A Hn HA HU. rewrite !text_seq, !text_fill, text_write. cbn [cat2 bind]. split.
        - intros (l & r & -> & E & Ha). rewrite L in E. destruct (HU l r Ha) as [-> ->]; [lia|]. reflexivity.
        - intros [= <-]. exists pre, post. split; [reflexivity|]. split; [rewrite L; lia|assumption]. }
      destruct (fo_align o) as [[]|].
      * apply (G 0%nat n (fun l _ => l = 0%nat)); lia.
      * apply (G (n / 2)%nat ((n + 1) / 2)%nat (fun l r => (l <= r <= l + 1)%nat)); lia.
      * apply (G n 0%nat (fun _ r => r = 0%nat)); lia.
      * apply (G 0%nat n (fun l _ => l = 0%nat)); lia.
  - rewrite text_write. split.
    + intros (l & r & -> & E & _). rewrite L in E. assert (l = 0 /\ r = 0)%nat as [-> ->] by lia. cbn. now rewrite app_nil_r.
    + intros [= <-]. exists 0%nat, 0%nat. cbn. rewrite app_nil_r. split; [reflexivity|]. split; [lia|]. destruct (fo_align o) as [[]|]; lia.
Qed.
Lemma pad_total o s : exists t, padded o s t.
Proof.
  assert (T : exists t, text (pad o s) = Ok t).
  { unfold pad. destruct (fo_width o) as [w|]; [|rewrite text_write; eauto]. destruct (Nat.leb _ _); [rewrite text_write; eauto|].
    destruct (padding_split _ _). rewrite !text_seq, !text_fill, text_write. cbn. eauto. }
  destruct T as [t T]. exists t. now apply pad_padded.
Qed.
Lemma pad_plain o s : fo_width o = None -> fo_precision o = None -> pad o s = write s.
Proof. intros Hw Hp. unfold pad. now rewrite Hw, Hp. Qed.
Lemma v4_pad o a b c d : text (v4_fmt o a b c d) = text (pad o (v4_text a b c d)).
Proof. unfold v4_fmt. destruct (fo_width o) as [w|] eqn:Hw, (fo_precision o) as [p|] eqn:Hp; try reflexivity. now rewrite pad_plain. Qed.

(** ** Builders *)
Lemma default_same S o b abs : fo_width o = None -> fo_precision o = None -> fmt_builder_with S o b abs = fmt_builder S b abs.
Proof.
  intros Hw Hp. unfold fmt_builder_with, fmt_builder, fmt_authority_with, fmt_authority. destruct (b_authority b) as [a|]; [|reflexivity].
  replace (match ab_host a with HostString h => _ | HostIp (V4 x y z w) => v4_fmt o x y z w | HostIp (V6 segs) => _ end)
    with (match ab_host a with HostString h => if b_normalize b then normalize_host_port S h else write h
          | HostIp (V4 x y z w) => write (v4_text x y z w) | HostIp (V6 segs) => write (lit "[") >> write (v6_text segs) >> write (lit "]") end).
  2:{ destruct (ab_host a) as [h|[]]; [reflexivity| |reflexivity]. unfold v4_fmt. now rewrite Hw, Hp. }
  destruct (ab_userinfo a) as [|u|u [p|]]; [reflexivity| | |reflexivity]; now rewrite pad_plain.
Qed.
Lemma authority_eq S o h h' port u u' : host_padded o h h' -> userinfo_padded o u u' ->
  text (fmt_authority_with S o (mkAB h port u) false) = text (fmt_authority S (mkAB h' port u') false).
Proof.
  intros Hh Hu. unfold fmt_authority_with, fmt_authority. cbn [ab_host ab_port ab_userinfo]. rewrite !text_seq. f_equal; [|f_equal].
  - destruct Hu as [|u t H|u|u p t H]; [reflexivity| |reflexivity|]; rewrite !text_seq; apply pad_padded in H; rewrite H, ?text_write; reflexivity.
  - destruct Hh as [a b c d t H|h H].
    + rewrite v4_pad. apply pad_padded in H. rewrite H. now rewrite text_write.
    + destruct h as [s|[a b c d|l]]; try reflexivity. now destruct (H a b c d).
Qed.
Lemma builder_eq S o b b' abs : b_normalize b = false -> builder_padded o b b' ->
  text (fmt_builder_with S o b abs) = text (fmt_builder S b' abs).
Proof.
  intros Hn H. revert Hn. destruct H as [s p q f n|s h h' port u u' p q f n Hh Hu]; cbn [b_normalize]; intros ->; [reflexivity|].
  unfold fmt_builder_with, fmt_builder. cbn [b_scheme b_authority b_path b_query b_fragment b_normalize negb is_some orb].
  rewrite !text_seq. now rewrite (authority_eq S o h h' port u u' Hh Hu).
Qed.
Lemma builder_total o b : exists b', builder_padded o b b'.
Proof.
  destruct b as [s [[h port u]|] p q f n]; [|eexists; constructor].
  assert (Hh : exists h', host_padded o h h').
  { destruct h as [x|[a b c d|l]]; [exists (HostString x); constructor; discriminate| |exists (HostIp (V6 l)); constructor; discriminate].
    destruct (pad_total o (v4_text a b c d)) as [t H]. exists (HostString t). now constructor. }
  assert (Hu : exists u', userinfo_padded o u u').
  { destruct u as [|x|x [y|]].
    - exists UiNone. constructor.
    - destruct (pad_total o x) as [t H]. exists (UiDirect t). now constructor.
    - destruct (pad_total o y) as [t H]. exists (UiUserPass x (Some t)). now constructor.
    - exists (UiUserPass x None). constructor. }
  destruct Hh as [h' Hh], Hu as [u' Hu]. eexists. constructor; eassumption.
Qed.
Lemma free_same S o b abs : option_free b -> text (fmt_builder_with S o b abs) = text (fmt_builder S b abs).
Proof.
  intros H. unfold fmt_builder_with, fmt_builder. destruct (b_authority b) as [a|] eqn:E; [|reflexivity]. destruct (H a E) as [Hh Hu].
  rewrite !text_seq. f_equal. f_equal. f_equal. unfold fmt_authority_with, fmt_authority. rewrite !text_seq. f_equal; [|f_equal].
  - destruct Hu as [-> | [-> | [u ->]]]; reflexivity.
  - destruct (ab_host a) as [s|[x y z w|l]]; try reflexivity. now destruct (Hh x y z w).
Qed.
Lemma cat_split x y s : cat2 x y = Ok s -> exists a b, x = Ok a /\ y = Ok b /\ s = a ++ b.
Proof. unfold cat2. destruct x as [a|[]|]; [|discriminate]. destruct y as [b|[]|]; [|discriminate]. intros [= <-]. eauto. Qed.
Lemma v4_normalized S o b abs a x y z w s t : b_normalize b = true -> b_authority b = Some a -> ab_host a = HostIp (V4 x y z w) ->
  text (fmt_builder S b abs) = Ok s -> padded o (v4_text x y z w) t ->
  exists l r, s = l ++ v4_text x y z w ++ r /\ text (fmt_builder_with S o b abs) = Ok (l ++ t ++ r).
Proof.
  intros Hn Ha Hh Hs Ht. apply pad_padded in Ht. unfold fmt_builder_with, fmt_builder in *. rewrite Ha in *. rewrite Hn in *.
  unfold fmt_authority_with, fmt_authority in *. rewrite Hh in *. rewrite !text_seq in *. rewrite v4_pad, Ht. rewrite (text_write (v4_text x y z w)) in Hs.
  apply cat_split in Hs as (s1 & s2 & E1 & Hs & ->). apply cat_split in Hs as (s3 & s4 & E3 & Hs & ->).
  apply cat_split in E3 as (s5 & s6 & E5 & E6 & ->). apply cat_split in E6 as (s7 & s8 & E7 & E8 & ->).
  apply cat_split in E8 as (s9 & s10 & [= <-] & E10 & ->).
  exists (s1 ++ s5 ++ s7), (s10 ++ s4). split; [now rewrite <- !app_assoc|].
  rewrite E1, E5, E7, E10, Hs. cbn [cat2 bind]. now rewrite <- !app_assoc.
Qed.

(** ** Passwords *)
Lemma mask_text o S i C user pw h p t : dissects S i C (Some (user_password user pw)) h p -> ~ In 58 user -> padded o [] t ->
  let C' := with_authority C (Some (user_password user t)) h p in
  text (mask_display_with o i) = Ok (recompose (c_s C') (c_a C') (c_p C') (c_q C') (c_f C')).
Proof.
  intros H Hc Ht. apply pad_padded in Ht.
  assert (Ei : i = ((osch (c_s C) ++ lit "//") ++ user ++ lit ":") ++ pw ++ tail_of C h p)
    by (rewrite (dissects_render _ _ _ _ _ _ H); apply render_pw).
  assert (Hr : exists a, snd (pad o []) = Ret a /\ concat (fst (pad o [])) = t).
  { unfold text in Ht. destruct (pad o []) as [cs [a| |]]; try discriminate. injection Ht as Ht. exists a. auto. }
  destruct Hr as (a & Hr & Hcat).
  unfold mask_display_with. rewrite (range_pw _ _ _ _ _ _ _ H Hc). cbn [lift wbind wret].
  pose proof (masked_text unit i _ pw _ _ _ (pad o []) a Ei eq_refl eq_refl Hr) as M. rewrite Hcat in M.
  destruct (write_with_masked_password i _ _ (pad o [])) as [cs en]. cbn [app]. rewrite M. f_equal. symmetry. apply render_pw.
Qed.
Lemma mask_default i : mask_display_with no_opts i = mask_display i.
Proof. reflexivity. Qed.
Lemma mask_hides o S i i' C C' user pw pw' h p : ~ In 58 user ->
  dissects S i C (Some (user_password user pw)) h p -> dissects S i' C' (Some (user_password user pw')) h p ->
  c_s C = c_s C' -> c_p C = c_p C' -> c_q C = c_q C' -> c_f C = c_f C' ->
  text (mask_display_with o i) = text (mask_display_with o i').
Proof.
  intros Hc H H' E1 E2 E3 E4. destruct (pad_total o []) as [t Ht].
  rewrite (mask_text _ _ _ _ _ _ _ _ _ H Hc Ht), (mask_text _ _ _ _ _ _ _ _ _ H' Hc Ht). unfold with_authority. cbn [c_s c_a c_p c_q c_f].
  now rewrite E1, E2, E3, E4.
Qed.
Lemma no_password_text o S i C u h p t : dissects S i C (Some u) h p -> ~ In 58 u -> padded o [] t ->
  let C' := with_authority C (Some (u ++ t)) h p in
  text (mask_display_with o i) = Ok (recompose (c_s C') (c_a C') (c_p C') (c_q C') (c_f C')).
Proof.
  intros H Hc Ht. apply pad_padded in Ht.
  assert (Ei : i = ((osch (c_s C) ++ lit "//") ++ u) ++ [] ++ tail_of C h p).
  { rewrite (dissects_render _ _ _ _ _ _ H), render_some. now rewrite <- !app_assoc. }
  assert (Hr : exists a, snd (pad o []) = Ret a /\ concat (fst (pad o [])) = t).
  { unfold text in Ht. destruct (pad o []) as [cs [a| |]]; try discriminate. injection Ht as Ht. exists a. auto. }
  destruct Hr as (a & Hr & Hcat).
  unfold mask_display_with. rewrite (range_spec _ _ _ _ _ _ H), find_colon_none by auto. cbn [lift wbind wret].
  replace (start_of C + length u)%nat with (length ((osch (c_s C) ++ lit "//") ++ u)) by (unfold start_of; now rewrite (app_length _ u)).
  pose proof (masked_text unit i _ [] _ _ _ (pad o []) a Ei eq_refl (plus_n_O _) Hr) as M. rewrite Hcat in M.
  destruct (write_with_masked_password i _ _ (pad o [])) as [cs en]. cbn [app]. rewrite M. f_equal. symmetry.
  change (render (with_authority C (Some (u ++ t)) h p) = ((osch (c_s C) ++ lit "//") ++ u) ++ t ++ tail_of C h p).
  rewrite render_some. now rewrite <- !app_assoc.
Qed.
Lemma replace_text (A : Type) o S i C user pw h p (f : str -> fopts -> W A) a :
  dissects S i C (Some (user_password user pw)) h p -> ~ In 58 user -> snd (f pw o) = Ret a ->
  let C' := with_authority C (Some (user_password user (concat (fst (f pw o))))) h p in
  text (replaced_display_with o i f) = Ok (recompose (c_s C') (c_a C') (c_p C') (c_q C') (c_f C')).
Proof. intros H Hc Hf. exact (replaced_ok A S i C user pw h p (fun pw => f pw o) a H Hc Hf). Qed.
(** ** Counterexamples *)
Definition width5 : fopts := mkFO (Some 5%nat) None 32 None.
Definition precision1 : fopts := mkFO None (Some 1%nat) 32 None.
Lemma built_invalid : exists b x s, build UriSpec TIri b = Ok x /\ text (built_display_with UriSpec width5 x) = Ok s /\ is_ok (new UriSpec TReference s) = false.
Proof.
  pose (b := b_steps [OpScheme (lit "http"); OpUserinfo (UiUserPass (lit "u") (Some (lit "pw"))); OpHost (lit "h")]).
  exists b, (b, false), (lit "http://u:pw   @h"). split; [vm_compute; reflexivity|]. split; vm_compute; reflexivity.
Qed.
Lemma built_other : exists b x s, build UriSpec TIri b = Ok x /\ text (built_display_with UriSpec precision1 x) = Ok s /\ new UriSpec TIri s = Ok s /\
  text (built_display UriSpec x) <> Ok s.
Proof.
  pose (b := b_steps [OpScheme (lit "http"); OpIpAddress (V4 127 0 0 1)]).
  exists b, (b, false), (lit "http://1"). split; [vm_compute; reflexivity|]. split; [vm_compute; reflexivity|]. split; [vm_compute; reflexivity|].
  vm_compute. discriminate.
Qed.
Lemma masked_invalid : exists i s, new UriSpec TIri i = Ok i /\ text (mask_display_with width5 i) = Ok s /\ is_ok (new UriSpec TReference s) = false.
Proof. exists (lit "http://u:pw@h/"), (lit "http://u:     @h/"). split; [vm_compute; reflexivity|]. split; vm_compute; reflexivity. Qed.
