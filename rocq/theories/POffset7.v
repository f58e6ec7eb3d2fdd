(** * Proofs for C77: percent-encoding and case normalization on byte positions. *)
From Verif Require Import Base Chars Utf8 SearchSpec MValidate MTrusted MFormat MSearch MPct MPath MNormalize MOffset PBase PSearch POffset.

Lemma blen_ge s : (length s <= blen s)%nat.
Proof. induction s as [|c s IH]; [cbn; lia|]. rewrite blen_cons. pose proof (clen_pos c). cbn [length]. lia. Qed.
Lemma blen_all x : Forall (fun c => c < 128) x -> blen x = length x.
Proof. induction 1 as [|c x H _ IH]; [reflexivity|]. rewrite blen_cons, IH. cbn [length]. rewrite <- utf8_len, utf8_ascii_eq by exact H. reflexivity. Qed.
(** ** Writing *)
Definition wsim {A} (x y : W A) : Prop := match snd x with Pan => True | _ => y = x end.
Lemma wsim_refl {A} (x : W A) : wsim x x.
Proof. unfold wsim. now destruct (snd x). Qed.
Lemma wsim_bind {A B} (x : W A) (f g : A -> W B) : (forall a, wsim (f a) (g a)) -> wsim (wbind x f) (wbind x g).
Proof.
  intros H. destruct x as [o [a| |]]; cbn [wbind]; [|reflexivity|exact I]. specialize (H a). unfold wsim in *. destruct (f a) as [o1 e1], (g a) as [o2 e2]. cbn [snd] in *.
  destruct e1; try exact I; now injection H as -> ->.
Qed.
Lemma wsim_bind2 {A B} (x y : W A) (f g : A -> W B) : wsim x y -> (forall a, wsim (f a) (g a)) -> wsim (wbind x f) (wbind y g).
Proof.
  intros X H. destruct x as [o [a| |]]; unfold wsim in X; cbn [snd] in X; [subst y; now apply wsim_bind|subst y; reflexivity|exact I].
Qed.
Lemma wsim_lift {A B C} (u : may A) (v : may B) (f : A -> W C) (g : B -> W C) : (forall a, u = Ok a -> exists b, v = Ok b /\ wsim (f a) (g b)) -> wsim (wbind (lift u) f) (wbind (lift v) g).
Proof.
  intros H. destruct u as [a|e|]; [|destruct e|exact I]. destruct (H a eq_refl) as (b & -> & K). cbn [lift wbind wret]. unfold wsim in *.
  destruct (f a) as [o1 e1], (g b) as [o2 e2]. cbn [snd fst] in *. destruct e1; try exact I; now injection K as -> ->.
Qed.
Lemma wsim_bind3 {A B} (x y : W A) (f g : A -> W B) : wsim x y -> (forall a, snd x = Ret a -> wsim (f a) (g a)) -> wsim (wbind x f) (wbind y g).
Proof.
  intros X H. destruct x as [o [a| |]]; unfold wsim in X; cbn [snd] in X; [subst y|subst y; reflexivity|exact I]. specialize (H a eq_refl). cbn [wbind]. unfold wsim in *.
  destruct (f a) as [o1 e1], (g a) as [o2 e2]. cbn [snd] in *. destruct e1; try exact I; now injection H as -> ->.
Qed.
Lemma wsim_ok {A C} (u v : may A) (f g : A -> W C) : (forall a, u = Ok a -> v = Ok a /\ wsim (f a) (g a)) -> wsim (wbind (lift u) f) (wbind (lift v) g).
Proof. intros H. apply wsim_lift. intros a E. exists a. now apply H. Qed.
Lemma wsim_left {A C} (a : A) (v : may A) (x : W C) (g : A -> W C) : v = Ok a -> wsim x (g a) -> wsim x (wbind (lift v) g).
Proof. intros -> H. cbn [lift wbind wret]. unfold wsim in *. destruct (g a) as [o e]. cbn [fst snd app] in *. destruct (snd x); try exact I; exact H. Qed.

Lemma take_sim s v r : take_xdigits2 s = Ok (v, r) -> o_take_xdigits2 s = Ok (v, r).
Proof.
  unfold take_xdigits2, o_take_xdigits2. destruct s as [|u [|l t]]; try discriminate. destruct (is_ascii u && is_ascii l) eqn:E; [|discriminate]. apply andb_true_iff in E. destruct E as [Eu El].
  apply N.ltb_lt in Eu, El. change (utf8s (u :: l :: t)) with (utf8 u ++ utf8 l ++ utf8s t). rewrite !utf8_ascii_eq by assumption. cbn [app].
  rewrite (str_from_mid (u :: l :: t) [u; l] t); [auto|reflexivity|]. rewrite blen_all; [reflexivity|]. now repeat constructor.
Qed.
Lemma take_shape s v r : take_xdigits2 s = Ok (v, r) -> exists u l, s = u :: l :: r /\ u < 128 /\ l < 128.
Proof.
  unfold take_xdigits2. destruct s as [|u [|l t]]; try discriminate. destruct (is_ascii u && is_ascii l) eqn:E; [|discriminate]. apply andb_true_iff in E. destruct E as [Eu El].
  destruct (hexdigits_to_byte u l); try discriminate. cbn [bind]. intros [= _ <-]. exists u, l. split; [reflexivity|]. split; now apply N.ltb_lt.
Qed.
Lemma continue_sim n : forall buf s, wsim (read_continue n buf s) (o_read_continue n buf s).
Proof.
  induction n as [|n IH]; intros buf s; [apply wsim_refl|]. cbn [read_continue o_read_continue]. destruct s as [|c r]; [apply wsim_refl|]. destruct (c =? PCT); [|apply wsim_refl].
  apply wsim_ok. intros [b t] E. split; [now apply take_sim|]. destruct (negb _); [apply wsim_refl|apply IH].
Qed.
Lemma continue_done n : forall buf s buf' r, snd (read_continue n buf s) = Ret (CDone buf' r) -> exists x, s = x ++ r /\ length x = (n * 3)%nat /\ Forall (fun c => c < 128) x.
Proof.
  induction n as [|n IH]; intros buf s buf' r; cbn [read_continue].
  - intros [= _ <-]. exists []. repeat split. constructor.
  - destruct s as [|c t].
    { destruct (write_triplets buf) as [o [[]| |]]; discriminate. }
    destruct (c =? PCT) eqn:Ec.
    2: { destruct (write_triplets buf) as [o [[]| |]]; discriminate. }
    apply N.eqb_eq in Ec. subst c. destruct (take_xdigits2 t) as [[b u]|e|] eqn:E; [|destruct e|discriminate]. cbn [lift wbind wret].
    destruct (negb _); [destruct (write_triplets buf) as [o [[]| |]]; discriminate|].
    destruct (read_continue n (buf ++ [b]) u) as [o e] eqn:R. cbn [snd]. intros ->. specialize (IH (buf ++ [b]) u buf' r). rewrite R in IH. destruct (IH eq_refl) as (x & -> & L & F).
    apply take_shape in E. destruct E as (h & l & -> & Hh & Hl). exists (PCT :: h :: l :: x). split; [reflexivity|]. split; [cbn [length]; lia|]. repeat constructor; auto.
Qed.
Section M.
Context (m : option memchr_crate) (Hm : sound m).
Lemma pct_loop_sim S f : forall f' s, (f <= f')%nat -> wsim (pct_loop S f s) (o_pct_loop m S f' s).
Proof.
  induction f as [|f IH]; intros f' s L; [exact I|]. destruct f' as [|f']; [lia|]. assert (K : forall s, wsim (pct_loop S f s) (o_pct_loop m S f' s)) by (intros; apply IH; lia).
  cbn [pct_loop o_pct_loop]. destruct (is_empty s); [apply wsim_refl|]. eapply wsim_left; [apply (fs_hole_eq m s PCT Hm); reflexivity|]. destruct (find_split_hole s PCT) as [[p a]|]; [|apply wsim_refl].
  apply wsim_bind. intros _. apply wsim_ok. intros [b t] E. split; [now apply take_sim|]. destruct (b <? 128); [apply wsim_bind; intros; apply K|].
  destruct (expected_len b) as [len|]; [|apply wsim_bind; intros; apply K].
  apply wsim_bind3; [apply continue_sim|]. intros r D.
  destruct r as [r| |buf r]; [apply K|apply wsim_refl|]. apply wsim_ok. intros oc Eo. split; [exact Eo|]. destruct oc as [c|]; [apply wsim_bind; intros; apply K|].
  destruct (continue_done _ _ _ _ _ D) as (x & Ex & Lx & Fx). apply wsim_ok. intros r' Er. split; [|apply wsim_bind; intros; apply K].
  rewrite Ex in Er. rewrite Ex, (str_from_mid (x ++ r) x r); [|reflexivity|now rewrite blen_all, Lx]. rewrite <- Er.
  rewrite (slice_mid (x ++ r) x r []); [reflexivity|now rewrite app_nil_r|now symmetry|]. rewrite app_length. lia.
Qed.
Lemma len_le s : (1 + length s <= 1 + blen s)%nat.
Proof. pose proof (blen_ge s). lia. Qed.
Lemma pct_sim S s : wsim (PctCaseNormalized S s) (o_PctCaseNormalized m S s).
Proof. apply pct_loop_sim, len_le. Qed.
Lemma ascii_host_sim s : wsim (NormalizedAsciiOnlyHost s) (o_NormalizedAsciiOnlyHost m s).
Proof.
  unfold NormalizedAsciiOnlyHost, o_NormalizedAsciiOnlyHost. generalize (len_le s). generalize (1 + length s)%nat (1 + blen s)%nat. intros f. revert s. induction f as [|f IH]; intros s f' L; [exact I|]. destruct f' as [|f']; [lia|].
  cbn [ascii_host_loop o_ascii_host_loop]. destruct (is_empty s); [apply wsim_refl|]. eapply wsim_left; [apply (fs_hole_eq m s PCT Hm); reflexivity|]. destruct (find_split_hole s PCT) as [[p a]|]; [|apply wsim_refl].
  apply wsim_bind. intros _. apply wsim_ok. intros [b t] E. split; [now apply take_sim|]. destruct (negb _); [apply wsim_refl|]. apply wsim_bind. intros _. apply IH. lia.
Qed.
Lemma find_char_split p s : o_find_char p s = match split_first p s with Some (a, _, _) => Some (blen a) | None => None end.
Proof.
  induction s as [|c s IH]; [reflexivity|]. cbn [o_find_char split_first]. destruct (p c); [reflexivity|]. rewrite IH. destruct (split_first p s) as [[[a x] b]|]; [|reflexivity]. now rewrite blen_cons.
Qed.
Lemma ascii_only_sim s b : is_ascii_only_host s = Ok b -> o_is_ascii_only_host s = Ok b.
Proof.
  unfold is_ascii_only_host, o_is_ascii_only_host. generalize (len_le s). generalize (1 + length s)%nat (1 + blen s)%nat. intros f. revert s. induction f as [|f IH]; intros s f' L; [discriminate|]. destruct f' as [|f']; [lia|].
  cbn [is_ascii_only_host_loop o_is_ascii_only_host_loop]. rewrite find_char_split. destruct (split_first _ s) as [[[a c] r]|] eqn:E; [|auto]. apply split_first_some in E. destruct E as (Es & _ & _).
  destruct (first_byte c) as (x & l & Ex & F).
  assert (B : MSearch.byte_at (utf8s s) (blen a) = Ok x). { rewrite Es, utf8s_app. unfold MSearch.byte_at. rewrite nth_error_app2 by (rewrite utf8s_len; lia). rewrite utf8s_len, Nat.sub_diag. change (utf8s (c :: r)) with (utf8 c ++ utf8s r). now rewrite Ex. }
  rewrite B. cbn [bind]. rewrite F by reflexivity. destruct (c =? PCT) eqn:Ec; [|auto]. cbn [negb]. apply N.eqb_eq in Ec. subst c.
  rewrite (str_from_mid s (a ++ [PCT]) r); [|rewrite <- app_assoc; exact Es|rewrite blen_app; reflexivity]. cbn [bind].
  destruct (take_xdigits2 r) as [[y t]|e|] eqn:T; [|destruct e|discriminate]. rewrite (take_sim _ _ _ T). cbn [bind]. destruct (negb (is_ascii y)); [auto|]. apply IH. lia.
Qed.
Lemma host_port_sim S s : wsim (normalize_host_port S s) (o_normalize_host_port m S s).
Proof.
  unfold normalize_host_port, o_normalize_host_port. apply wsim_ok. intros b E. split; [now apply ascii_only_sim|]. destruct b; [apply ascii_host_sim|apply pct_sim].
Qed.
Lemma rfs_hole_eq s n : n < 128 -> rfs_hole m s n = Ok (rfind_split_hole s n).
Proof. intros Hn. destruct m as [c|]; [exact (proj2 (rfind_split_hole_agree c s n Hm Hn))|exact (proj1 (rfind_split_hole_agree _ s n simple_contract Hn))]. Qed.
Lemma normalize_authority_sim S a : wsim (normalize_authority S a) (o_normalize_authority m S a).
Proof.
  unfold normalize_authority, o_normalize_authority. eapply wsim_left; [apply rfs_hole_eq; reflexivity|]. destruct (rfind_split_hole a AT) as [[u h]|]; [|apply host_port_sim].
  apply wsim_bind2; [apply pct_sim|]. intros _. apply wsim_bind. intros _. apply host_port_sim.
Qed.
End M.
