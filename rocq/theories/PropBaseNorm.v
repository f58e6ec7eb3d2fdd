(** * C50: normalizing the base before resolving. *)
From Verif Require Import Base Chars Rfc3986 Utf8 CompSpec PctSpec RfcResolve NormSpec StepSpec MValidate MTrusted MFormat MPct MPath MNormalize PBaseNorm PNorm8 PSteps2 PParent.
Open Scope string_scope. Open Scope N_scope. Open Scope list_scope.

(** If the last segment of the path of the base is not ".." (in any spelling), resolving any reference
    against the normalized base and normalizing gives what resolving against the base itself and
    normalizing gives; with [keep], for the normalization that preserves opaque paths. *)
Theorem C50_base_normal : forall S (keep : bool) base ref B, reads S base B -> defined (c_s B) = true -> IRI_reference S ref ->
  (forall dir last, c_p B = dir ++ lit "/" ++ last -> ~ double_dot last) ->
  exists nb base' n n' out, (if keep then normalize_preserve base else normalize base) = Ok nb /\ display S nb = Ok base' /\
    resolve base ref = Ok n /\ display S (set_mode n (if keep then MPreserve else MDefault)) = Ok out /\
    resolve base' ref = Ok n' /\ display S (set_mode n' (if keep then MPreserve else MDefault)) = Ok out.
Proof. exact base_normal. Qed.
Print Assumptions C50_base_normal.
(** The part of a path up to the last "/" can be cleaned of dot segments first. *)
Theorem C50_dir : forall x t r, rds (x ++ lit "/") t -> forall z, rds (x ++ lit "/" ++ r) z <-> rds (t ++ r) z.
Proof. exact (fun x t r H => proj2 (rds_dir x t r H)). Qed.
Print Assumptions C50_dir.
(** Any base: resolving against the normalized base is resolving against the base as a directory, that
    is, with a last segment ".." read as "../" (StepSpec.v), which changes nothing but these bases. *)
Theorem C50_every_base : forall S (keep : bool) base ref B p, reads S base B -> defined (c_s B) = true -> IRI_reference S ref ->
  keep = false \/ defined (c_a B) = true \/ (exists w, c_p B = lit "/" ++ w) -> as_directory (c_p B) p ->
  let dir := recompose (c_s B) (c_a B) p (c_q B) (c_f B) in
  IRI S dir /\ exists nb base' n n' out, (if keep then normalize_preserve base else normalize base) = Ok nb /\ display S nb = Ok base' /\
    resolve base' ref = Ok n' /\ display S (set_mode n' (if keep then MPreserve else MDefault)) = Ok out /\
    resolve dir ref = Ok n /\ display S (set_mode n (if keep then MPreserve else MDefault)) = Ok out.
Proof. exact base_directory. Qed.
Print Assumptions C50_every_base.
(** The remaining case, opaque paths that are preserved: no condition. *)
Theorem C50_opaque : forall S base ref B, reads S base B -> defined (c_s B) = true -> IRI_reference S ref -> c_a B = None -> (forall w, c_p B <> lit "/" ++ w) ->
  exists nb base' n n' out, normalize_preserve base = Ok nb /\ display S nb = Ok base' /\
    resolve base ref = Ok n /\ display S (set_mode n MPreserve) = Ok out /\ resolve base' ref = Ok n' /\ display S (set_mode n' MPreserve) = Ok out.
Proof. exact base_opaque. Qed.
Print Assumptions C50_opaque.
Example C50_every_applies : reads UriSpec (lit "http://h/a/%2e.?q") (mkC (Some (lit "http")) (Some (lit "h")) (lit "/a/%2e.") (Some (lit "q")) None) /\
  as_directory (lit "/a/%2e.") (lit "/a/%2e./") /\ reads UriSpec (lit "s:a/..") (mkC (Some (lit "s")) None (lit "a/..") None None) /\ forall w, lit "a/.." <> lit "/" ++ w.
Proof.
  split; [apply reads_of_major; reflexivity|]. split; [|split; [apply reads_of_major; reflexivity|discriminate]].
  apply (ad_parent (lit "/a/%2e.") (lit "%2e.")); [exists (lit "/a/"); split; [reflexivity|split; [vm_compute; intuition discriminate|right; now exists (lit "/a")]]|].
  exists (lit "%2e"), (lit "."). split; [reflexivity|split; [right; right; reflexivity|left; reflexivity]].
Qed.
Example C50_every_ex :
  let go b r := do n <- resolve b r ; display UriSpec (set_mode n MDefault) in
  let keep b r := do n <- resolve b r ; display UriSpec (set_mode n MPreserve) in
  go (lit "http://h/a/%2e./") (lit "c") = Ok (lit "http://h/c") /\ go (lit "http://h/") (lit "c") = Ok (lit "http://h/c") /\ go (lit "http://h/a/%2e.") (lit "c") = Ok (lit "http://h/a/c") /\
  keep (lit "s:a/..") (lit "c") = Ok (lit "s:a/c").
Proof. vm_compute. auto. Qed.
(** The condition is needed. *)
Example C50_needed :
  let go b r := do n <- resolve b r ; display UriSpec (set_mode n MDefault) in
  (do nb <- normalize (lit "http://h/a/..") ; display UriSpec nb) = Ok (lit "http://h/") /\
  go (lit "http://h/a/..") (lit "c") = Ok (lit "http://h/a/c") /\ go (lit "http://h/") (lit "c") = Ok (lit "http://h/c").
Proof. vm_compute. auto. Qed.
Example C50_ex :
  let go b r := do n <- resolve b r ; display UriSpec (set_mode n MDefault) in
  (do nb <- normalize (lit "HTTP://h%41:/x/../%7ea/./b/%2e") ; display UriSpec nb) = Ok (lit "http://ha/~a/b/") /\
  go (lit "HTTP://h%41:/x/../%7ea/./b/%2e") (lit "../c/%2E%2e/d?q") = Ok (lit "http://ha/~a/d?q") /\
  go (lit "http://ha/~a/b/") (lit "../c/%2E%2e/d?q") = Ok (lit "http://ha/~a/d?q").
Proof. vm_compute. auto. Qed.
Example C50_applies : reads UriSpec (lit "s:/a/../b/.c") (mkC (Some (lit "s")) None (lit "/a/../b/.c") None None) /\
  forall dir last, lit "/a/../b/.c" = dir ++ lit "/" ++ last -> ~ double_dot last.
Proof. exact base_normal_applies. Qed.
