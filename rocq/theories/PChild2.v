(** * Template values below the directory of a base (C66). *)
From Verif Require Import Base Chars Rfc3986 Utf8 CompSpec RfcResolve PctSpec NormSpec EncodeSpec ConfineSpec RawSpec TemplateSpec ExpandSpec ChildSpec.
From Verif Require Import MValidate MTrusted MFormat MPct MPath MNormalize MEncode MTemplate MExpand PBase PScan PTmpl2 PPct PPct3 PEncode PEncNorm PRaw PPath5 PNorm2 PNorm7 PBaseNorm PExp9 PConfine PChild.
Open Scope string_scope. Open Scope N_scope. Open Scope list_scope.

Lemma one S env x v : env x = Str v -> expression (crate_value S) env Simple [mkR x NoMod] = encode (unreserved S) v.
Proof. intros H. unfold expression. cbn [map filter r_name]. rewrite H. cbn [TemplateSpec.defined map r_name]. rewrite H. cbn [crate_value r_name r_mod prefix_of]. reflexivity. Qed.
Lemma path_expansion S env xs vs : Forall2 (fun x v => env x = Str v) xs vs ->
  crate_expansion S env (path_template xs) = slash_each (map (encode (unreserved S)) vs).
Proof.
  induction 1 as [|x v xs vs H F IH]; [reflexivity|]. unfold crate_expansion, expansion in *. cbn [path_template flat_map var map slash_each]. rewrite IH, (one S env x v H). now rewrite <- app_assoc.
Qed.
Lemma path_parts xs : Forall crate_varname xs -> Forall crate_part (Lit (lit ".") :: path_template xs).
Proof.
  intros F. constructor; [apply lit_scan; reflexivity|]. induction F as [|x xs Hx F IH]; cbn [path_template]; constructor; [apply lit_scan; reflexivity|].
  constructor; [|exact IH]. split; [discriminate|]. constructor; [split; [exact Hx|exact I]|constructor].
Qed.
Lemma path_simple xs : simple_template (Lit (lit ".") :: path_template xs).
Proof.
  intros o l r [H|H]; [discriminate|]. revert H. induction xs as [|x xs IH]; cbn [path_template]; [intros []|]. intros [H|[H|H]]; [discriminate| |exact (IH H)].
  injection H as <- <-. intros [<-|[]]. split; [reflexivity|discriminate].
Qed.
Lemma good_unreserved S v : all_scalar v = true -> good_encoding S v (encode (unreserved S) v).
Proof.
  intros A. destruct (pe_unreserve unit S (write v) tt (wr v)) as (T & _); [now rewrite wc|]. rewrite wc in T.
  pose proof (enc_unreserved S v _ A T) as Sc. split; [|split; [now apply (unreserved_no_slash S)|exact (enc_dec S _ v _ A T)]].
  apply segment_scan. apply (scan_mono (unreserved S)); auto. intros c Hc. unfold f_pchar. now rewrite Hc.
Qed.
Lemma slash_join l : l <> [] -> lit "." ++ slash_each l = lit "./" ++ join_names l.
Proof. destruct l; [easy|reflexivity]. Qed.
Lemma c66_template S debug ctx env base B d D xs vs : reads S base B -> RfcResolve.defined (c_s B) = true -> directory B d -> rds d D ->
  supplies_env ctx env -> Forall crate_varname xs -> Forall2 (fun x v => env x = Str v) xs vs -> vs <> [] -> Forall (fun v => v <> lit "." /\ v <> lit "..") vs ->
  exists p es n out, expand_to_string S debug ctx (template_text (Lit (lit ".") :: path_template xs)) = Ok (lit "./" ++ p) /\
    in_segments p es /\ Forall2 (fun v e => decodes e v) vs es /\ resolve base (lit "./" ++ p) = Ok n /\ MNormalize.display S n = Ok out /\
    reads S out (mkC (c_s B) (c_a B) (safe_path (c_a B) (D ++ p)) None None).
Proof.
  intros HB DB Hd HD He Hx Hv Hn Hd2.
  assert (A : Forall a_name vs).
  { clear - He Hv Hd2. induction Hv as [|x v xs vs E F IH]; [constructor|]. inversion Hd2 as [|? ? [N1 N2] G]; subst. constructor; [|now apply IH].
    split; [|now split]. specialize (He x). rewrite E in He. inversion He as [|d s (_ & _ & Y)| |]; subst; exact Y. }
  assert (G : Forall2 (good_encoding S) vs (map (encode (unreserved S)) vs)).
  { clear - A. induction A as [|v vs (Y & _) F IH]; constructor; auto. now apply good_unreserved. }
  destruct (good_names S base B d D vs _ HB DB Hd HD Hn A G) as (n & out & P1 & P2 & P3 & P4 & P5).
  exists (join_names (map (encode (unreserved S)) vs)), (map (encode (unreserved S)) vs), n, out. split; [|split; [exact P1|split; [exact P2|split; [exact P3|split; [exact P4|exact P5]]]]].
  rewrite (expands_simple S debug ctx env _ He (path_parts xs Hx) (path_simple xs)). f_equal. unfold crate_expansion, expansion. cbn [flat_map].
  pose proof (path_expansion S env xs vs Hv) as E. unfold crate_expansion, expansion in E. rewrite E. apply slash_join. now destruct vs.
Qed.
(** "base{x1}/{x2}/.../{xn}", expanded and normalized. *)
Lemma joined_normal S vs : Forall a_name vs -> pct_normal S (join_names (map (encode (unreserved S)) vs)) (join_names (map (encode (unreserved S)) vs)).
Proof.
  intros F. destruct vs as [|v vs]; [constructor|]. cbn [map join_names]. revert v F. induction vs as [|w vs IH]; intros v F; inversion F as [|? ? (A & _) F']; subst.
  - cbn [map flat_map]. rewrite app_nil_r. apply encode_normal; auto. now destruct S.
  - cbn [map flat_map]. apply (pn_app_delim S _ _ 47); [apply encode_normal; auto; now destruct S|discriminate|exact (IH w F')].
Qed.
Lemma joined_scan S vs : Forall a_name vs -> scan (f_pchar_slash S) (join_names (map (encode (unreserved S)) vs)) = true.
Proof.
  intros F. assert (K : forall v, all_scalar v = true -> scan (f_pchar_slash S) (encode (unreserved S) v) = true).
  { intros v A. destruct (good_unreserved S v A) as (G & _). apply segment_scan in G. apply (scan_mono (f_pchar S)); auto. apply pchar_sub_slash. }
  destruct vs as [|v vs]; [reflexivity|]. cbn [map join_names]. revert v F. induction vs as [|w vs IH]; intros v F; inversion F as [|? ? (A & _) F']; subst; cbn [map flat_map].
  - rewrite app_nil_r. auto.
  - apply scan_app_true; auto. rewrite <- app_assoc. cbn [lit app]. specialize (IH w F').
    change (scan (f_pchar_slash S) (47 :: encode (unreserved S) w ++ flat_map (fun y => lit "/" ++ y) (map (encode (unreserved S)) vs)) = true).
    rewrite scan_cons by discriminate. rewrite IH, andb_true_r. now destruct S.
Qed.
Definition under (C : comps) (p : str) : comps := mkC (c_s C) (c_a C) (c_p C ++ p) (c_q C) (c_f C).
Lemma reads_under S base C dir p : reads S base C -> RfcResolve.defined (c_a C) = true -> c_p C = dir ++ lit "/" -> c_q C = None -> c_f C = None ->
  scan (f_pchar_slash S) p = true -> reads S (base ++ p) (under C p).
Proof.
  intros [H E] Ha Hp Hq Hf Hs. destruct C as [s [a|] pt q f]; [|discriminate]. cbn [c_s c_a c_p c_q c_f under] in *. subst q f. split.
  - destruct H as (H1 & H2 & H3 & H4 & H5). repeat split; auto. cbn [c_s c_a c_p c_q c_f under] in *. apply path_abempty_scan in H5. apply path_abempty_scan. right.
    destruct H5 as [->|(r & -> & Hr)]; [now destruct dir|]. exists (r ++ p). split; [reflexivity|]. now apply scan_app_true.
  - rewrite E. unfold recompose. cbn. rewrite !app_nil_r, <- !app_assoc. cbn [app]. rewrite <- !app_assoc. reflexivity.
Qed.
Lemma under_parts base x xs : star crate_literals base -> Forall crate_varname (x :: xs) -> Forall crate_part (Lit base :: var x :: path_template xs).
Proof.
  intros Hb F. inversion F as [|? ? Hx F']; subst. constructor; [exact Hb|]. constructor; [split; [discriminate|]; constructor; [split; [exact Hx|exact I]|constructor]|].
  pose proof (path_parts xs F') as P. now inversion P.
Qed.
Lemma under_simple base x xs : simple_template (Lit base :: var x :: path_template xs).
Proof.
  intros o l r [H|[H|H]]; [discriminate| |].
  - injection H as <- <-. intros [<-|[]]. split; [reflexivity|discriminate].
  - apply (path_simple xs). now right.
Qed.
Lemma c66_normalized S debug ctx env base C dir D x xs vs : reads S base C -> RfcResolve.defined (c_s C) = true -> RfcResolve.defined (c_a C) = true ->
  c_p C = dir ++ lit "/" -> c_q C = None -> c_f C = None -> rds (dir ++ lit "/") D -> star crate_literals base ->
  supplies_env ctx env -> Forall crate_varname (x :: xs) -> Forall2 (fun x v => env x = Str v) (x :: xs) vs -> Forall (fun v => v <> lit "." /\ v <> lit "..") vs ->
  exists p es n out T D', expand_to_string S debug ctx (template_text (Lit base :: var x :: path_template xs)) = Ok (base ++ p) /\
    in_segments p es /\ Forall2 (fun v e => decodes e v) vs es /\ normalize (base ++ p) = Ok n /\ MNormalize.display S n = Ok out /\ reads S out T /\
    opt_rel (fun x y => y = map lower x) (c_s C) (c_s T) /\ opt_rel (authority_normal S) (c_a C) (c_a T) /\ pct_normal S D D' /\
    c_p T = D' ++ p /\ c_q T = None /\ c_f T = None.
Proof.
  intros HC DC DA Hp Hq Hf HD Hb He Hx Hv Hd2.
  assert (A : Forall a_name vs).
  { clear - He Hv Hd2. induction Hv as [|y v ys vs E F IH]; [constructor|]. inversion Hd2 as [|? ? [N1 N2] G]; subst. constructor; [|now apply IH].
    split; [|now split]. specialize (He y). rewrite E in He. inversion He as [|d s (_ & _ & Y)| |]; subst; exact Y. }
  assert (G : Forall2 (good_encoding S) vs (map (encode (unreserved S)) vs)).
  { clear - A. induction A as [|v vs (Y & _) F IH]; constructor; auto. now apply good_unreserved. }
  set (es := map (encode (unreserved S)) vs) in *. destruct (goods S vs es A G) as (E1 & E2 & E3 & E4). assert (Hn : es <> []) by (inversion Hv; subst; discriminate).
  pose proof (join_segments es Hn E2) as Hl. pose proof (joined_scan S vs A) as Hs. fold es in Hs. pose proof (joined_normal S vs A) as Hj. fold es in Hj.
  pose proof (reads_under S base C dir _ HC DA Hp Hq Hf Hs) as HR.
  destruct (norm_spec S false _ _ HR DC) as (n & T & E & (Ns & Na & Np & Nq & Nf) & _ & Dn & Rt & _). cbn [under c_s c_a c_p c_q c_f] in Ns, Na, Np, Nq, Nf.
  apply path_normal_alt in Np. destruct Np as (q & Rq & Pq & W). rewrite Hp, <- app_assoc in Rq. rewrite (rds_fun _ _ _ Rq (under_dir_plain dir D _ es HD Hl E3)) in Pq.
  assert (X : exists D', c_p T = D' ++ join_names es /\ pct_normal S D D').
  { destruct (proj1 (rds_dir dir D [] HD)) as [->|[o ->]]; [exists []; split; [|constructor]; exact (pn_fun _ _ _ Pq _ Hj)|].
    rewrite <- app_assoc in Pq. assert (Wa : pct_wf o) by (apply pn_wf_l in Pq; apply (wf_slash_dir o (join_names es)) in Pq; tauto).
    destruct (pn_split S 47 o _ _ Pq ltac:(discriminate) Wa) as (ta & tb & -> & Pa & Pb). rewrite (pn_fun _ _ _ Pb _ Hj). exists (ta ++ [47]). split; [now rewrite <- app_assoc|].
    apply pn_app_delim; auto; [discriminate|constructor]. }
  destruct X as (D' & ET & PD). exists (join_names es), es, n, (unparse T), (reread T), D'.
  split; [|split; [exact Hl|split; [exact E4|split; [exact E|split; [exact Dn|split; [exact Rt|]]]]]].
  - rewrite (expands_simple S debug ctx env _ He (under_parts base x xs Hb Hx) (under_simple base x xs)). f_equal. inversion Hv as [|? v ? vs' Ev Fv]; subst.
    unfold crate_expansion, expansion, var. cbn [flat_map]. rewrite (one S env x v Ev). pose proof (path_expansion S env xs vs' Fv) as EE. unfold crate_expansion, expansion in EE. rewrite EE. reflexivity.
  - cbn [reread c_s c_a c_p c_q c_f]. rewrite Hq in Nq. rewrite Hf in Nf. destruct (c_a T) as [aT|] eqn:ETa; [|destruct (c_a C); [contradiction|discriminate]].
    destruct (c_q T), (c_f T); try contradiction. repeat split; auto.
Qed.
