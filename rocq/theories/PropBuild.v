(** * Properties C25 and C26: the builder.
    Specification: BuildSpec.v ([requested]: the components that were asked for; [representable],
    [normalizable]: each of them is allowed by the grammar), EditSpec.v, NormSpec.v, Rfc3986.v.
    Model: MBuild.v.  [editable t]: [t] is one of the four types that can be built. *)
From Verif Require Import Base Chars Rfc3986 CompSpec RfcResolve PctSpec NormSpec EditSpec
  MValidate MTrusted MFormat MPct MPath MNormalize MEdit MBuild BuildSpec PBuild PBuild2 PBuild3 PBuild4 PInst.

(** ** C25 *)
(** A representable request is accepted, its text is a valid [t] and reads back as exactly the requested
    components. *)
Theorem C25_accepts : forall debug S t b, editable t = true -> values_ok b -> b_normalize b = false ->
  representable S b -> fits t (requested b) -> exists x i,
  build S t b = Ok x /\ text (built_display S x) = Ok i /\ reads S i (requested b) /\ new S t i = Ok i /\
  built_to_dedicated_string S debug t x = Ok i.
Proof. exact build_accepts. Qed.
Print Assumptions C25_accepts.
(** Only representable requests are accepted, if the path consists of path characters (which the
    builder does not check: see [C25_refuted]). *)
Theorem C25_only_partial : forall S t b x, editable t = true -> values_ok b -> b_normalize b = false ->
  path S (b_path b) -> build S t b = Ok x -> representable S b /\ fits t (requested b).
Proof. exact build_only. Qed.
Print Assumptions C25_only_partial.
(** [build] does not panic: without normalization for any request at all, with normalization for any
    path without a stray "%". *)
Theorem C25_total : forall S t b, b_normalize b = false \/ pct_wf (b_path b) ->
  (exists x, build S t b = Ok x) \/ (exists e, build S t b = Err e).
Proof. exact (fun S t b H => match H with or_introl N => build_total S t b N | or_intror W => build_norm_total S t b W end). Qed.
Print Assumptions C25_total.
(** Violations (F8): the builder does not validate the characters of the path.  (1) an accepted build
    whose text is not a reference at all; (2) one whose text has other components than requested;
    (3) with normalization, a panic. *)
Theorem C25_refuted : exists b1 b2 b3 x1 x2 i1 i2,
  build UriSpec TReference b1 = Ok x1 /\ text (built_display UriSpec x1) = Ok i1 /\ ~ IRI_reference UriSpec i1 /\
    b_normalize b1 = false /\ built_to_dedicated_string UriSpec true TReference x1 = Panic /\
  build UriSpec TReference b2 = Ok x2 /\ text (built_display UriSpec x2) = Ok i2 /\ b_normalize b2 = false /\
    ~ reads UriSpec i2 (requested b2) /\ reads UriSpec i2 (mkC None None (lit "a") (Some (lit "b")) None) /\
  build UriSpec TIri b3 = Panic.
Proof. exact build_refuted. Qed.
Print Assumptions C25_refuted.

(** With normalization: a request whose components are well formed (the path may be any path if there is a
    scheme, any absolute path otherwise) is accepted, and the text is the one of the normalized components
    ([unparse] writes a path that starts with "//" behind "/."), except for [collapses] (F7). *)
Theorem C25_normalize_partial : forall debug S t b, editable t = true -> values_ok b -> b_normalize b = true ->
  normalizable S b -> fits t (requested b) -> ~ collapses S b -> exists x T,
  build S t b = Ok x /\ comps_normal S (negb (defined (b_scheme b))) (requested b) T /\
  text (built_display S x) = Ok (unparse T) /\ reads S (unparse T) (reread T) /\
  new S t (unparse T) = Ok (unparse T) /\ built_to_dedicated_string S debug t x = Ok (unparse T).
Proof. exact build_norm_accepts. Qed.
Print Assumptions C25_normalize_partial.
Theorem C25_normalize_only_partial : forall S t b x, editable t = true -> values_ok b -> b_normalize b = true ->
  path S (b_path b) -> build S t b = Ok x -> normalizable S b /\ fits t (requested b).
Proof. exact build_norm_only. Qed.
Print Assumptions C25_normalize_only_partial.
(** In the excepted case the dot segments stay where they are ... *)
Theorem C25_normalize_collapsing : forall S t b, editable t = true -> values_ok b -> b_normalize b = true ->
  normalizable S b -> fits t (requested b) -> collapses S b -> exists x w q' f',
  build S t b = Ok x /\ pct_normal S (b_path b) w /\ opt_rel (pct_normal S) (b_query b) q' /\
  opt_rel (pct_normal S) (b_fragment b) f' /\ text (built_display S x) = Ok (recompose None None w q' f').
Proof. exact build_norm_collapse. Qed.
Print Assumptions C25_normalize_collapsing.
(** ... and a path can turn into an authority (F7): path "//a/../.." builds the reference "//a/../..". *)
Theorem C25_normalize_refuted : exists b x i,
  b_normalize b = true /\ normalizable UriSpec b /\ c_a (requested b) = None /\ build UriSpec TReference b = Ok x /\
  text (built_display UriSpec x) = Ok i /\ reads UriSpec i (mkC None (Some (lit "a")) (lit "/../..") None None).
Proof. exact build_norm_refuted. Qed.
Print Assumptions C25_normalize_refuted.

(** A builder made from a reference builds this reference again, as every type that it can be. *)
Theorem C25_from : forall debug S i C t, reads S i C -> editable t = true -> fits t C -> exists b x,
  builder_from i = Ok b /\ build S t b = Ok x /\ text (built_display S x) = Ok i /\ built_to_dedicated_string S debug t x = Ok i.
Proof. exact from_build. Qed.
Print Assumptions C25_from.
(** Whatever the history of setter calls: each field has the value of the last call that concerns it
    (removing the authority resets its parts). *)
Theorem C25_setters : forall l, exists s au h p u path q f n,
  b_steps l = mkB s (if au : bool then Some (mkAB h p u) else None) path q f n /\
  latest on_scheme None l s /\ latest on_authority false l au /\ latest on_host (HostString []) l h /\
  latest on_port PortEmpty l p /\ latest on_userinfo UiNone l u /\ latest on_path [] l path /\
  latest on_query None l q /\ latest on_fragment None l f /\ latest on_normalize false l n.
Proof. exact setters_ok. Qed.
Print Assumptions C25_setters.
Theorem C25_latest_unique : forall A (concerns : setter -> option A) d l v w,
  latest concerns d l v -> latest concerns d l w -> v = w.
Proof. exact @latest_fun. Qed.
Print Assumptions C25_latest_unique.
(** Integer ports are written in decimal; IP addresses as the grammar of hosts wants them. *)
Theorem C25_port_text : forall n, n < 65536 -> decimal n (u16_dec n) /\ port (u16_dec n).
Proof. exact u16_dec_ok. Qed.
Print Assumptions C25_port_text.
Theorem C25_ip_text : forall S a,
  match a with V4 w x y z => octet w /\ octet x /\ octet y /\ octet z | V6 l => length l = 8%nat /\ Forall (fun n => n < 65536) l end ->
  match a with V4 _ _ _ _ => IPv4address (host_text (HostIp a)) | V6 _ => IP_literal (host_text (HostIp a)) end /\
  host S (host_text (HostIp a)).
Proof. exact host_text_ip. Qed.
Print Assumptions C25_ip_text.

Definition ex_ops : list setter :=
  [OpScheme (lit "x"); OpHost (lit "old"); OpScheme (lit "HTTP"); OpUserinfo (UiUserPass (lit "u") (Some (lit "p:w")));
   OpPort (PortInteger 8080); OpIpAddress (V6 [8193; 3512; 0; 0; 0; 0; 0; 1]); OpPath (lit "/a/%7e/../b"); OpQuery (lit "q"); OpFragment []].
Example C25_applies : let b := b_steps ex_ops in values_ok b /\ representable UriSpec b /\ fits TIri (requested b) /\ normalizable UriSpec b /\ ~ collapses UriSpec b.
Proof. exact build_applies. Qed.
Example C25_ex : let b := b_steps ex_ops in
  match build UriSpec TIri b with Ok x => text (built_display UriSpec x) | _ => Panic end = Ok (lit "HTTP://u:p:w@[2001:db8::1]:8080/a/%7e/../b?q#") /\
  match build UriSpec TIri (b_set_normalize b true) with Ok x => text (built_display UriSpec x) | _ => Panic end = Ok (lit "http://u:p:w@[2001:db8::1]:8080/a/b?q#") /\
  build UriSpec TAbsolute b = Err UnexpectedFragment /\ build UriSpec TRelative b = Err UnexpectedAbsolute.
Proof. vm_compute. auto. Qed.
Example C25_collapses : collapses UriSpec (b_steps [OpPath (lit "/a/.."); OpNormalize]).
Proof. exact collapses_example. Qed.

(** ** C26 *)
(** With a scheme, building with normalization gives what [normalize] gives for the text built without. *)
Theorem C26_agrees_partial : forall S t b, editable t = true -> values_ok b -> b_scheme b <> None ->
  representable S b -> fits t (requested b) -> exists x y i n o,
  build S t (b_set_normalize b false) = Ok x /\ build S t (b_set_normalize b true) = Ok y /\
  text (built_display S x) = Ok i /\ normalize i = Ok n /\ display S n = Ok o /\ text (built_display S y) = Ok o.
Proof. exact build_norm_agrees. Qed.
Print Assumptions C26_agrees_partial.
(** It is not so for a path with a stray "%", which can be built only without normalization (F8). *)
Theorem C26_refuted : exists b x, build UriSpec TIri (b_set_normalize b false) = Ok x /\ build UriSpec TIri (b_set_normalize b true) = Panic.
Proof. exact agrees_refuted. Qed.
Print Assumptions C26_refuted.
(** [Built::ensure_rfc3986_normalizable] succeeds iff "/." was not needed. *)
Theorem C26_ensure : forall S b x y t, pct_wf (b_path b) -> build S t b = Ok x ->
  path_normal S false (defined (option_map authority_text (b_authority b))) (b_path b) y -> exists r,
  built_ensure x = Ok r /\ (r = true <-> ~ (b_authority b = None /\ starts_with (lit "//") y = true)).
Proof. exact built_ensure_ok. Qed.
Print Assumptions C26_ensure.
Example C26_ex : let b := b_steps [OpScheme (lit "x"); OpPath (lit "/a/..//b"); OpNormalize] in
  match build UriSpec TIri b with Ok x => (text (built_display UriSpec x), built_ensure x) | _ => (Panic, Panic) end =
  (Ok (lit "x:/.//b"), Ok false).
Proof. vm_compute. auto. Qed.
Example C26_hypotheses : let b := b_steps [OpScheme (lit "x"); OpPath (lit "/a/..//b"); OpNormalize] in
  pct_wf (b_path b) /\ (exists x, build UriSpec TIri b = Ok x) /\
  exists y, path_normal UriSpec false (defined (option_map authority_text (b_authority b))) (b_path b) y.
Proof.
  cbn zeta. assert (V : new UriSpec TReference (lit "x:/a/..//b") = Ok (lit "x:/a/..//b")) by (vm_compute; reflexivity).
  assert (R : reads UriSpec (lit "x:/a/..//b") (mkC (Some (lit "x")) None (lit "/a/..//b") None None)) by (apply (PNorm8.reads_of_major _ _ _ _ _ _ _ V); vm_compute; reflexivity).
  destruct (PNorm8.c15_components UriSpec false _ _ R eq_refl) as (n & T & _ & (_ & _ & N & _) & _). split; [|split; [vm_compute; eauto|exists (c_p T); exact N]].
  vm_compute. repeat constructor; discriminate.
Qed.

(** The theorems applied to concrete cases. *)
Example C25_accepts_instance := C25_accepts true UriSpec TIri (b_steps ex_ops) eq_refl (proj1 C25_applies) eq_refl (proj1 (proj2 C25_applies)) (proj1 (proj2 (proj2 C25_applies))).
Example C25_from_instance := C25_from true UriSpec (lit "x://u:p@h:8/a?b#c") (mkC (Some (lit "x")) (Some (lit "u:p@h:8")) (lit "/a") (Some (lit "b")) (Some (lit "c"))) TIri ltac:(rd) eq_refl ltac:(ev).
Example C26_agrees_instance := C26_agrees_partial UriSpec TIri (b_steps ex_ops) eq_refl (proj1 C25_applies) ltac:(discriminate) (proj1 (proj2 C25_applies)) (proj1 (proj2 (proj2 C25_applies))).
