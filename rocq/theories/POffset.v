(** * Proofs for C77: byte offsets; searches, decomposition, authority. *)
From Verif Require Import Base Chars Utf8 SearchSpec MValidate MTrusted MFormat MWriters MSearch MPct MPath MNormalize MEdit MOffset PBase PSearch.

Definition sound (m : option memchr_crate) : Prop := match m with Some m => memchr_contract m | None => True end.

(** ** Searches *)
Lemma fs_hole_eq m s n : sound m -> n < 128 -> fs_hole m s n = Ok (find_split_hole s n).
Proof.
  intros H Hn. destruct m as [m|]; cbn [fs_hole]; [now apply find_split_hole_agree|].
  unfold find_split_hole_p, find_split_hole. rewrite (hole_ok (is1 n)) by now apply ap1. now rewrite first_is1.
Qed.
Lemma fs4_hole_eq m s a b c d : sound m -> a < 128 -> b < 128 -> c < 128 -> d < 128 -> fs4_hole m s a b c d = Ok (find_split4_hole s a b c d).
Proof.
  intros H Ha Hb Hc Hd. destruct m as [m|]; cbn [fs4_hole]; [now apply find_split4_hole_agree|].
  unfold find_split4_hole_p. rewrite hole3_ok by now apply ap4. reflexivity.
Qed.
Lemma fs2_eq m s a b : sound m -> a < 128 -> b < 128 -> fs2 m s a b = Ok (find_split2 s a b).
Proof.
  intros H Ha Hb. destruct m as [m|]; cbn [fs2]; [now apply find_split2_agree|].
  unfold find_split2_p. rewrite split_ok by now apply ap2. reflexivity.
Qed.
Lemma fs3_eq m s a b c : sound m -> a < 128 -> b < 128 -> c < 128 -> fs3 m s a b c = Ok (find_split3 s a b c).
Proof.
  intros H Ha Hb Hc. destruct m as [m|]; cbn [fs3]; [now apply find_split3_agree|].
  unfold find_split3_p. rewrite split_ok by now apply ap3. reflexivity.
Qed.
Lemma rfs2_eq m s a b : sound m -> a < 128 -> b < 128 -> rfs2 m s a b = Ok (rfind_split2 s a b).
Proof.
  intros H Ha Hb. destruct m as [m|]; cbn [rfs2]; [now apply rfind_split2_agree|].
  unfold rfind_split2_p. rewrite rsplit_ok by now apply ap2. reflexivity.
Qed.
Lemma rfs_eq m h n : sound m -> rfs m h n = rposition (is1 n) h.
Proof. intros H. destruct m as [m|]; [|reflexivity]. cbn. unfold rfind_m. now rewrite (memrchr_eq m H). Qed.
Lemma o_find_chr_eq c s : c < 128 -> o_find_chr c s = match split_first (N.eqb c) s with Some (a, _, _) => Some (blen a) | None => None end.
Proof. intros H. unfold o_find_chr. rewrite position_split by now apply ap1. now rewrite first_is1. Qed.

(** ** Slices *)
Lemma split_mid x y : str_split_at (x ++ y) (blen x) = Ok (x, y).
Proof. apply split_at_app. Qed.
Lemma bslice_mid s x y z a b : s = x ++ y ++ z -> a = blen x -> b = (blen x + blen y)%nat -> bslice s a b = Ok y.
Proof.
  intros -> -> ->. unfold bslice. replace (Nat.ltb (blen x + blen y) (blen x)) with false by (symmetry; apply Nat.ltb_ge; lia).
  rewrite app_assoc, <- blen_app, split_mid. cbn [bind]. rewrite split_mid. reflexivity.
Qed.
Lemma slice_mid s x y z a b : s = x ++ y ++ z -> a = length x -> b = (length x + length y)%nat -> slice_p s a b = Ok y.
Proof.
  intros -> -> ->. unfold slice_p, slice. replace (Nat.leb (length x) (length x + length y)) with true by (symmetry; apply Nat.leb_le; lia).
  replace (Nat.leb _ _) with true by (symmetry; apply Nat.leb_le; rewrite !app_length; lia). cbn [andb].
  rewrite skipn_app, skipn_all, Nat.sub_diag. cbn [skipn app]. replace (length x + length y - length x)%nat with (length y + 0)%nat by lia.
  rewrite firstn_app_2. cbn. now rewrite app_nil_r.
Qed.
Lemma str_to_mid s x y a : s = x ++ y -> a = blen x -> str_to s a = Ok x.
Proof. intros -> ->. unfold str_to. now rewrite split_mid. Qed.
Lemma str_from_mid s x y a : s = x ++ y -> a = blen x -> str_from s a = Ok y.
Proof. intros -> ->. unfold str_from. now rewrite split_mid. Qed.
Lemma blen_ascii c : c < 128 -> blen [c] = 1%nat.
Proof. intros H. rewrite <- utf8s_len. cbn. rewrite utf8_ascii_eq by exact H. reflexivity. Qed.
Lemma blen_cons c s : blen (c :: s) = (clen c + blen s)%nat.
Proof. reflexivity. Qed.
Lemma blen_nil s : blen s = 0%nat -> s = [].
Proof. destruct s as [|c s]; [reflexivity|]. rewrite blen_cons. pose proof (clen_pos c). lia. Qed.
Lemma len_nil {A} (s : list A) : length s = 0%nat -> s = [].
Proof. now destruct s. Qed.
(** The first byte of a character decides whether it is a given ASCII character. *)
Lemma first_byte c : exists b l, utf8 c = b :: l /\ forall n, n < 128 -> (b =? n) = (c =? n).
Proof.
  destruct (c <? 128) eqn:E.
  - exists c, []. split; [apply utf8_ascii_eq; lia|reflexivity].
  - pose proof (utf8_high c) as H. destruct (utf8 c) as [|b l] eqn:U.
    + pose proof (utf8_len c) as L. rewrite U in L. pose proof (clen_pos c). cbn in L. lia.
    + exists b, l. split; [reflexivity|]. intros n Hn. assert (128 <= b) by (apply N.ltb_ge in E; specialize (H E); now inversion H).
      rewrite (proj2 (N.eqb_neq b n)), (proj2 (N.eqb_neq c n)); [reflexivity| |]; apply N.ltb_ge in E; lia.
Qed.
Lemma first_byte_str s : utf8s s = [] /\ s = [] \/ exists c r b l, s = c :: r /\ utf8s s = b :: l /\ forall n, n < 128 -> (b =? n) = (c =? n).
Proof.
  destruct s as [|c r]; [now left|right]. destruct (first_byte c) as (b & l & E & H). exists c, r, b, (l ++ utf8s r). split; [reflexivity|].
  split; [|exact H]. cbn. now rewrite E.
Qed.

Section M.
Variable m : option memchr_crate.
Hypothesis Hm : sound m.
(** ** trusted.rs *)
Lemma o_scheme_colon_eq i : o_scheme_colon m i = scheme_colon i.
Proof. unfold o_scheme_colon, scheme_colon. rewrite fs_hole_eq by (auto; reflexivity). reflexivity. Qed.
Lemma o_scheme_colon_opt_eq i : o_scheme_colon_opt m i = Ok (scheme_colon_opt i).
Proof.
  unfold o_scheme_colon_opt, scheme_colon_opt. rewrite fs4_hole_eq by (auto; reflexivity). cbn [bind].
  destruct (find_split4_hole _ _ _ _ _) as [[[a c] b]|]; [|reflexivity]. now destruct (c =? COLON).
Qed.
Lemma o_slash_slash_eq i : o_slash_slash_authority_opt m i = Ok (slash_slash_authority_opt i).
Proof.
  unfold o_slash_slash_authority_opt, slash_slash_authority_opt. destruct (strip_prefix _ _) as [s|]; [|reflexivity].
  rewrite fs3_eq by (auto; reflexivity). cbn [bind]. now destruct (find_split3 _ _ _ _) as [[a b]|].
Qed.
Lemma o_until_query_eq i : o_until_query m i = Ok (until_query i).
Proof. unfold o_until_query, until_query. rewrite fs2_eq by (auto; reflexivity). cbn [bind]. now destruct (find_split2 _ _ _) as [[a b]|]. Qed.
Lemma o_dqf_eq i : o_decompose_query_and_fragment m i = decompose_query_and_fragment i.
Proof.
  unfold o_decompose_query_and_fragment, decompose_query_and_fragment.
  destruct (first_byte_str i) as [[-> ->]|(c & r & b & l & -> & -> & E)]; [reflexivity|]. rewrite !E by reflexivity.
  assert (F : c < 128 -> str_from (c :: r) 1 = Ok r) by exact (from_after [] c r).
  destruct (c =? QMARK) eqn:Eq.
  - rewrite F by (apply N.eqb_eq in Eq; now subst c). cbn [bind]. rewrite fs_hole_eq by (auto; reflexivity). reflexivity.
  - destruct (c =? HASH) eqn:Eh; [|reflexivity]. rewrite F by (apply N.eqb_eq in Eh; now subst c). reflexivity.
Qed.
Lemma o_split_fragment_eq i : o_split_fragment m i = Ok (split_fragment i).
Proof. unfold o_split_fragment, split_fragment. rewrite fs_hole_eq by (auto; reflexivity). cbn [bind]. now destruct (find_split_hole _ _) as [[a b]|]. Qed.
Lemma o_extract_scheme_eq i : o_extract_scheme m i = Ok (extract_scheme i).
Proof. unfold o_extract_scheme, extract_scheme. rewrite o_scheme_colon_opt_eq. cbn [bind]. now destruct (scheme_colon_opt i). Qed.
Lemma o_extract_scheme_absolute_eq i : o_extract_scheme_absolute m i = extract_scheme_absolute i.
Proof. unfold o_extract_scheme_absolute, extract_scheme_absolute. now rewrite o_scheme_colon_eq. Qed.
Lemma o_extract_authority_eq i : o_extract_authority m i = Ok (extract_authority i).
Proof.
  unfold o_extract_authority, extract_authority. rewrite o_scheme_colon_opt_eq. cbn [bind]. destruct (scheme_colon_opt i) as [r s]. rewrite o_slash_slash_eq.
  cbn [bind fst]. now destruct (slash_slash_authority_opt r).
Qed.
Lemma o_extract_authority_absolute_eq i : o_extract_authority_absolute m i = extract_authority_absolute i.
Proof.
  unfold o_extract_authority_absolute, extract_authority_absolute. rewrite o_scheme_colon_eq. destruct (scheme_colon i) as [[r s]|e|]; [|destruct e|reflexivity].
  cbn [bind]. rewrite o_slash_slash_eq. cbn [bind]. now destruct (slash_slash_authority_opt r).
Qed.
Lemma o_extract_authority_relative_eq i : o_extract_authority_relative m i = Ok (extract_authority_relative i).
Proof. unfold o_extract_authority_relative, extract_authority_relative. rewrite o_slash_slash_eq. cbn [bind]. now destruct (slash_slash_authority_opt i). Qed.
Lemma o_extract_path_eq i : o_extract_path m i = Ok (extract_path i).
Proof.
  unfold o_extract_path, extract_path. rewrite o_scheme_colon_opt_eq. cbn [bind]. destruct (scheme_colon_opt i) as [r s]. rewrite o_slash_slash_eq.
  cbn [bind fst]. destruct (slash_slash_authority_opt r) as [r' a]. rewrite o_until_query_eq. cbn [bind fst]. now destruct (until_query r').
Qed.
Lemma o_extract_path_absolute_eq i : o_extract_path_absolute m i = extract_path_absolute i.
Proof.
  unfold o_extract_path_absolute, extract_path_absolute. rewrite o_scheme_colon_eq. destruct (scheme_colon i) as [[r s]|e|]; [|destruct e|reflexivity].
  cbn [bind]. rewrite o_slash_slash_eq. cbn [bind]. destruct (slash_slash_authority_opt r) as [r' a]. rewrite o_until_query_eq. cbn [bind fst]. now destruct (until_query r').
Qed.
Lemma o_extract_path_relative_eq i : o_extract_path_relative m i = Ok (extract_path_relative i).
Proof.
  unfold o_extract_path_relative, extract_path_relative. rewrite o_slash_slash_eq. cbn [bind]. destruct (slash_slash_authority_opt i) as [r' a].
  rewrite o_until_query_eq. cbn [bind fst]. now destruct (until_query r').
Qed.
Lemma o_extract_query_eq i : o_extract_query m i = extract_query i.
Proof. unfold o_extract_query, extract_query. rewrite o_until_query_eq. cbn [bind]. destruct (until_query i) as [r b]. now rewrite o_dqf_eq. Qed.
Lemma until_query_rest i c r : fst (until_query i) = c :: r -> c < 128.
Proof.
  unfold until_query, find_split2. destruct (split_first _ i) as [[[a d] b]|] eqn:E; cbn; [|discriminate]. intros H. injection H as <- <-.
  apply split_first_some in E. destruct E as (_ & _ & E). apply orb_true_iff in E. destruct E as [E|E]; apply N.eqb_eq in E; subst d; reflexivity.
Qed.
Lemma o_extract_query_absolute_eq debug i : o_extract_query_absolute_iri m debug i = extract_query_absolute_iri debug i.
Proof.
  unfold o_extract_query_absolute_iri, extract_query_absolute_iri. rewrite o_until_query_eq. cbn [bind]. pose proof (until_query_rest i) as H.
  destruct (until_query i) as [r b]. cbn [fst] in *. destruct (first_byte_str r) as [[-> ->]|(c & r' & b' & l & -> & -> & E)]; [reflexivity|].
  cbn [is_empty]. rewrite E by reflexivity. specialize (H c r' eq_refl). rewrite (from_after [] c r' H : str_from (c :: r') 1 = Ok r'). now destruct (debug && negb (c =? QMARK)).
Qed.
Lemma o_extract_fragment_eq i : o_extract_fragment m i = Ok (extract_fragment i).
Proof. unfold o_extract_fragment, extract_fragment. rewrite o_split_fragment_eq. cbn [bind]. now destruct (split_fragment i). Qed.

(** ** Authority *)
Lemma auth_pieces (a : str) : exists ui h po : str, a = ui ++ h ++ po /\ decompose_authority a = mkAuth a (length ui) (length ui + length h) /\
  o_decompose_authority m a = Ok (mkAuth a (blen ui) (blen ui + blen h)) /\ (ui = [] \/ exists u, ui = u ++ [AT]) /\ (po = [] \/ exists p, po = [COLON] ++ p).
Proof.
  unfold decompose_authority, o_decompose_authority. rewrite fs_hole_eq by (auto; reflexivity). cbn [bind].
  assert (U : exists ui i : str, a = ui ++ i /\ (ui = [] \/ exists u, ui = u ++ [AT]) /\
    (match find_split_hole a AT with Some (u, rest) => (rest, (length u + 1)%nat) | None => (a, 0%nat) end) = (i, length ui) /\
    (match find_split_hole a AT with Some (u, rest) => (rest, (blen u + 1)%nat) | None => (a, 0%nat) end) = (i, blen ui)).
  { unfold find_split_hole. destruct (split_first (N.eqb AT) a) as [[[u c] rest]|] eqn:E; cbn.
    - apply split_first_some in E. destruct E as (-> & _ & Ec). apply N.eqb_eq in Ec. subst c. exists (u ++ [AT]), rest.
      rewrite app_length, blen_app, <- app_assoc. split; [reflexivity|]. split; [right; now exists u|]. split; reflexivity.
    - exists [], a. split; [reflexivity|]. split; [now left|]. split; reflexivity. }
  destruct U as (ui & i & Ea & Ui & -> & ->). rewrite rfs2_eq by (auto; reflexivity). cbn [bind].
  assert (P : exists h po : str, i = h ++ po /\ (po = [] \/ exists p, po = [COLON] ++ p) /\
    (match rfind_split2 i COLON RBRACK with Some (_, suffix) => if starts_with [COLON] suffix then length suffix else 0%nat | None => 0%nat end) = length po /\
    (match rfind_split2 i COLON RBRACK with Some (_, suffix) => if starts_with [COLON] suffix then blen suffix else 0%nat | None => 0%nat end) = blen po).
  { unfold rfind_split2. destruct (split_last _ i) as [[[h c] p]|] eqn:E; cbn.
    - apply split_last_some in E. destruct E as (-> & _). assert (SW : starts_with [COLON] (c :: p) = (58 =? c)) by (unfold starts_with; cbn [strip_prefix]; change COLON with 58; now destruct (58 =? c)). rewrite SW. destruct (58 =? c) eqn:Ec.
      + apply N.eqb_eq in Ec. subst c. exists h, (58 :: p). split; [reflexivity|]. split; [right; now exists p|]. split; reflexivity.
      + exists (h ++ c :: p), []. rewrite app_nil_r. split; [reflexivity|]. split; [now left|]. split; reflexivity.
    - exists i, []. rewrite app_nil_r. split; [reflexivity|]. split; [now left|]. split; reflexivity. }
  destruct P as (h & po & Ei & Po & -> & ->). subst i a. exists ui, h, po. split; [reflexivity|]. split; [|split; [|split; assumption]].
  - f_equal. rewrite !app_length. lia.
  - f_equal. f_equal. rewrite !blen_app. lia.
Qed.
Lemma nth_mid {A} (x : list A) c y : nth_error (x ++ c :: y) (length x) = Some c.
Proof. rewrite nth_error_app2, Nat.sub_diag by lia. reflexivity. Qed.
(** Each accessor of the authority components. *)
Lemma auth_accessors a : exists b, o_decompose_authority m a = Ok b /\ au_str b = a /\
  o_ac_userinfo b = ac_userinfo (decompose_authority a) /\ o_ac_host b = ac_host (decompose_authority a) /\
  o_ac_reg_name b = ac_reg_name (decompose_authority a) /\ o_ac_port b = ac_port (decompose_authority a).
Proof.
  destruct (auth_pieces a) as (ui & h & po & Ea & Ec & Eb & Ui & Po). eexists. split; [exact Eb|]. split; [reflexivity|]. rewrite Ec.
  assert (Eh : o_ac_host (mkAuth a (blen ui) (blen ui + blen h)) = ac_host (mkAuth a (length ui) (length ui + length h))).
  { unfold o_ac_host, ac_host. cbn [au_str host_start host_end]. rewrite (bslice_mid a ui h po), (slice_mid a ui h po); auto. }
  split; [|split; [exact Eh|split; [unfold o_ac_reg_name, ac_reg_name; now rewrite Eh|]]].
  - unfold o_ac_userinfo, ac_userinfo. cbn [au_str host_start]. destruct Ui as [-> | (u & ->)]; [reflexivity|].
    rewrite app_length, blen_app. change (blen [AT]) with 1%nat. change (length [AT]) with 1%nat. rewrite !Nat.add_1_r. rewrite <- app_assoc in Ea. cbn [app] in Ea. subst a.
    unfold MSearch.byte_at. rewrite nth_utf8s, nth_mid by reflexivity. cbn [bind]. change (AT =? AT) with true. cbv iota.
    rewrite (bslice_mid _ [] u (AT :: h ++ po)), (slice_mid _ [] u (AT :: h ++ po)); auto.
  - unfold o_ac_port, ac_port. cbn [au_str host_end]. destruct Po as [-> | (p & ->)].
    + rewrite app_nil_r in Ea. subst a. rewrite !app_length, !blen_app, !Nat.eqb_refl. reflexivity.
    + subst a. rewrite !app_length, !blen_app. change (blen [COLON]) with 1%nat. change (length [COLON]) with 1%nat. rewrite !(proj2 (Nat.eqb_neq _ _)) by lia.
      rewrite !app_assoc. rewrite <- !app_length, <- !blen_app. rewrite <- app_assoc. cbn [app]. unfold MSearch.byte_at. rewrite nth_utf8s, nth_mid by reflexivity.
      cbn [bind]. change (COLON =? COLON) with true. cbv iota.
      rewrite (bslice_mid _ ((ui ++ h) ++ [COLON]) p []), (slice_mid _ ((ui ++ h) ++ [COLON]) p []); auto; rewrite ?app_nil_r, <- ?app_assoc, ?app_length, ?blen_app; auto; cbn; lia.
Qed.
End M.
