(** * Builder (proofs only), part 4: setters, [From], what the violations are. *)
From Verif Require Import Base Chars Rfc3986 Utf8 CompSpec RfcResolve PctSpec NormSpec EditSpec MValidate MTrusted MFormat MPct MPath MNormalize MSearch
  MEdit MBuild BuildSpec PBase PScan PHost PAuth PValidate PTrusted PComps PAscii PTypes PTypes2 PSearch PNorm7 PNorm8 PEdit PBuild PBuild2 PBuild3.

(** ** Setters *)
Lemma latest_steps {A} (concerns : setter -> option A) (g : Builder -> A) :
  (forall b o, g (b_step b o) = match concerns o with Some v => v | None => g b end) -> forall l, latest concerns (g b_new) l (g (b_steps l)).
Proof.
  intros H l. induction l as [|o l IH] using rev_ind; [apply latest_default; intros ? []|].
  unfold b_steps in *. rewrite fold_left_app. cbn [fold_left]. rewrite H. destruct (concerns o) as [v|] eqn:E.
  - apply latest_call; auto. intros ? [].
  - destruct IH as [l Hl|l o' v r Hv Hr].
    + apply latest_default. intros x Hx. apply in_app_or in Hx. destruct Hx as [Hx|[<-|[]]]; auto.
    + rewrite <- app_assoc. cbn [app]. apply latest_call; auto. intros x Hx. apply in_app_or in Hx. destruct Hx as [Hx|[<-|[]]]; auto.
Qed.
Lemma setters_ok l : exists s au h p u path q f n,
  b_steps l = mkB s (if au : bool then Some (mkAB h p u) else None) path q f n /\
  latest on_scheme None l s /\ latest on_authority false l au /\ latest on_host (HostString []) l h /\ latest on_port PortEmpty l p /\
  latest on_userinfo UiNone l u /\ latest on_path [] l path /\ latest on_query None l q /\ latest on_fragment None l f /\ latest on_normalize false l n.
Proof.
  set (b := b_steps l). exists (b_scheme b), (is_some (b_authority b)), (ab_host (get_authority b)), (ab_port (get_authority b)), (ab_userinfo (get_authority b)), (b_path b), (b_query b), (b_fragment b), (b_normalize b).
  split. { destruct b as [s [[h p u]|] pa q f n]; reflexivity. }
  split; [apply (latest_steps on_scheme b_scheme); intros ? []; reflexivity|].
  split; [apply (latest_steps on_authority (fun b => is_some (b_authority b))); intros ? []; reflexivity|].
  split; [apply (latest_steps on_host (fun b => ab_host (get_authority b))); intros ? []; reflexivity|].
  split; [apply (latest_steps on_port (fun b => ab_port (get_authority b))); intros ? []; reflexivity|].
  split; [apply (latest_steps on_userinfo (fun b => ab_userinfo (get_authority b))); intros ? []; reflexivity|].
  split; [apply (latest_steps on_path b_path); intros ? []; reflexivity|].
  split; [apply (latest_steps on_query b_query); intros ? []; reflexivity|].
  split; [apply (latest_steps on_fragment b_fragment); intros ? []; reflexivity|].
  apply (latest_steps on_normalize b_normalize); intros ? []; reflexivity.
Qed.
Lemma latest_fun {A} (concerns : setter -> option A) d l v w : latest concerns d l v -> latest concerns d l w -> v = w.
Proof.
  intros H1 H2. destruct H1 as [l Hl|l o v r Hv Hr].
  - destruct H2 as [|l o w r Hw _]; auto. rewrite Hl in Hw by (apply in_or_app; right; now left). discriminate.
  - remember (l ++ o :: r) as L eqn:EL. destruct H2 as [L Hl|L o' w r' Hw Hr'].
    + subst L. rewrite Hl in Hv by (apply in_or_app; right; now left). discriminate.
    + revert l EL. induction L as [|x L IH]; intros l EL.
      * destruct l as [|y l]; cbn in EL; injection EL as -> ->; [congruence|]. exfalso. rewrite Hr' in Hv by (apply in_or_app; right; now left). discriminate.
      * destruct l as [|y l]; cbn in EL; injection EL as -> EL; [|eauto]. exfalso. subst r. rewrite Hr in Hw by (apply in_or_app; right; now left). discriminate.
Qed.

(** ** From *)
Lemma from_ok S i C : reads S i C -> exists b, builder_from i = Ok b /\ requested b = C /\ representable S b /\ values_ok b /\ b_normalize b = false.
Proof.
  intros R. pose proof R as [Oc _]. destruct C as [s a p q f]. destruct Oc as (Hs & Ha & Hq & Hf & Hp). cbn [c_s c_a c_p c_q c_f] in *.
  unfold builder_from. rewrite (reads_major _ _ _ R). cbn [bind c_s c_a c_p c_q c_f]. destruct a as [a|].
  - destruct (authority_components_spec S a Ha) as (u & h & o & X). cbv zeta in X. destruct X as (Eu & Eh & Eo & _ & _ & Es & Hu & Hh & Ho).
    cbv zeta. rewrite Eu, Eh, Eo. cbn [bind]. eexists. split; [reflexivity|].
    assert (T : authority_text (mkAB (HostString h) (match o with Some o => PortString o | None => PortEmpty end) (match u with Some u => UiDirect u | None => UiNone end)) = a).
    { rewrite <- Es. unfold authority_text. cbn [ab_host ab_port ab_userinfo host_text]. destruct u, o; reflexivity. }
    split; [unfold requested; cbn [b_scheme b_authority b_path b_query b_fragment option_map]; now rewrite T|]. split; [|split; [|reflexivity]].
    + unfold representable, requested, authority_parts_ok, path_rule. cbn [b_scheme b_authority b_path b_query b_fragment option_map c_a c_s ab_host ab_port ab_userinfo]. destruct u, o; repeat split; auto.
    + unfold values_ok. cbn [b_authority ab_host ab_port]. destruct o; auto.
  - eexists. split; [reflexivity|]. split; [reflexivity|]. split; [|split; [exact I|reflexivity]].
    unfold representable, requested, path_rule. cbn [b_scheme b_authority b_path b_query b_fragment option_map c_a c_s]. repeat split; auto. destruct s; exact Hp.
Qed.
Lemma from_build debug S i C t : reads S i C -> editable t = true -> fits t C -> exists b x,
  builder_from i = Ok b /\ build S t b = Ok x /\ text (built_display S x) = Ok i /\ built_to_dedicated_string S debug t x = Ok i.
Proof.
  intros R Ht F. destruct (from_ok S i C R) as (b & E & Rq & Rp & V & N). exists b.
  destruct (build_accepts debug S t b Ht V N Rp) as (x & j & Eb & T & Rj & _ & D); [now rewrite Rq|]. exists x.
  rewrite Rq in Rj. assert (j = i). { destruct R as [_ ->], Rj as [_ ->]. reflexivity. } subst j. auto.
Qed.
(** ** IP addresses and ports *)
Lemma host_text_ip S a : ip_ok (HostIp a) -> match a with V4 _ _ _ _ => IPv4address (host_text (HostIp a)) | V6 _ => IP_literal (host_text (HostIp a)) end /\ host S (host_text (HostIp a)).
Proof.
  intros H. split; [|exact (proj1 (ip_host S _ H))]. destruct a as [x y z w|l]; cbn [host_text ip_ok] in *.
  - destruct H as (A & B & C & D). now apply v4_ok.
  - destruct H as [L H]. destruct (v6_cases l L H) as (t & -> & V & _). exists (lit "["), (t ++ lit "]"). repeat split. exists t, (lit "]"). repeat split. now left.
Qed.
(** ** Violations and examples *)
Lemma build_refuted : exists b1 b2 b3 x1 x2 i1 i2,
  build UriSpec TReference b1 = Ok x1 /\ text (built_display UriSpec x1) = Ok i1 /\ ~ IRI_reference UriSpec i1 /\
    b_normalize b1 = false /\ built_to_dedicated_string UriSpec true TReference x1 = Panic /\
  build UriSpec TReference b2 = Ok x2 /\ text (built_display UriSpec x2) = Ok i2 /\ b_normalize b2 = false /\
    ~ reads UriSpec i2 (requested b2) /\ reads UriSpec i2 (mkC None None (lit "a") (Some (lit "b")) None) /\
  build UriSpec TIri b3 = Panic.
Proof.
  exists (b_steps [OpPath (lit " ")]), (b_steps [OpPath (lit "a?b")]), (b_steps [OpScheme (lit "x"); OpPath (lit "%"); OpNormalize]).
  eexists _, _, (lit " "), (lit "a?b"). split; [vm_compute; reflexivity|]. split; [vm_compute; reflexivity|]. split.
  { intros H. apply (new_ok UriSpec TReference) in H. vm_compute in H. discriminate. }
  split; [reflexivity|]. split; [vm_compute; reflexivity|]. split; [vm_compute; reflexivity|]. split; [vm_compute; reflexivity|]. split; [reflexivity|].
  assert (R : reads UriSpec (lit "a?b") (mkC None None (lit "a") (Some (lit "b")) None)) by (apply reads_of_major; vm_compute; reflexivity).
  split; [|split; [exact R|vm_compute; reflexivity]]. intros X. assert (Y := reads_unique _ _ _ _ R X). discriminate.
Qed.
Lemma agrees_refuted : exists b x, build UriSpec TIri (b_set_normalize b false) = Ok x /\ build UriSpec TIri (b_set_normalize b true) = Panic.
Proof. exists (b_steps [OpScheme (lit "x"); OpPath (lit "%")]). eexists. split; vm_compute; reflexivity. Qed.
Lemma build_norm_refuted : exists b x i,
  b_normalize b = true /\ normalizable UriSpec b /\ c_a (requested b) = None /\ build UriSpec TReference b = Ok x /\
  text (built_display UriSpec x) = Ok i /\ reads UriSpec i (mkC None (Some (lit "a")) (lit "/../..") None None).
Proof.
  exists (b_steps [OpPath (lit "//a/../.."); OpNormalize]). eexists _, (lit "//a/../.."). split; [reflexivity|]. split.
  { repeat split; try exact I; [apply path_scan; reflexivity|right; split; auto]. }
  split; [reflexivity|]. split; [vm_compute; reflexivity|]. split; [vm_compute; reflexivity|]. apply reads_of_major; vm_compute; reflexivity.
Qed.
Lemma collapses_example : collapses UriSpec (b_steps [OpPath (lit "/a/.."); OpNormalize]).
Proof.
  split; [reflexivity|]. split; [reflexivity|]. split; [reflexivity|]. split; [discriminate|]. exists (lit "/a/.."). split.
  - repeat (apply pn_raw; [discriminate|]). constructor.
  - apply rds_next with (y := (lit "/..", lit "/a")).
    { apply (rds_E (tok ".") (tok "..") (lit "/") (lit "a") (lit "/..") []); [now right|intros [X|[]]; discriminate|discriminate|discriminate|discriminate|right; exists (lit ".."); reflexivity]. }
    apply rds_next with (y := (lit "/", [])).
    { apply (rds_C' (tok ".") (tok "..") (lit "..") (lit "/a") []); [reflexivity|]. apply (rl_slash [] (lit "a")). intros [X|[]]; discriminate. }
    apply rds_next with (y := ([], lit "/")); [|apply rds_refl].
    apply (rds_E (tok ".") (tok "..") (lit "/") [] [] []); [now right|intros []|discriminate|discriminate|discriminate|now left].
Qed.
Lemma build_applies : let b := b_steps
  [OpScheme (lit "x"); OpHost (lit "old"); OpScheme (lit "HTTP"); OpUserinfo (UiUserPass (lit "u") (Some (lit "p:w")));
   OpPort (PortInteger 8080); OpIpAddress (V6 [8193; 3512; 0; 0; 0; 0; 0; 1]); OpPath (lit "/a/%7e/../b"); OpQuery (lit "q"); OpFragment []] in
  values_ok b /\ representable UriSpec b /\ fits TIri (requested b) /\ normalizable UriSpec b /\ ~ collapses UriSpec b.
Proof.
  cbv zeta. set (b := b_steps _).
  assert (V : values_ok b). { cbn. repeat split; repeat constructor; lia. }
  assert (R : representable UriSpec b). { apply (build_only UriSpec TIri b (b, true)); auto; try reflexivity. { apply path_scan. reflexivity. } }
  split; auto. split; auto. split; [reflexivity|]. split; [|intros (X & _); discriminate].
  destruct R as (R1 & R2 & R3 & R4 & R5). repeat split; auto; try apply R2. apply path_scan. reflexivity.
Qed.
