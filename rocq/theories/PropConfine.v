(** * Property C65: references that do not leave a directory.
    Specification: ConfineSpec.v, RfcResolve.v, NormSpec.v.  Model: MPath.v, MNormalize.v. *)
From Verif Require Import Base Chars Rfc3986 CompSpec RfcResolve PctSpec NormSpec ConfineSpec MValidate MTrusted MFormat MPct MPath MNormalize
  PNorm8 PConfine PInst.
Open Scope string_scope. Open Scope N_scope. Open Scope list_scope.

(** A reference with no scheme and no authority never leaves the scheme and the authority of its base. *)
Theorem C65_same_origin : forall S base ref B R,
  reads S base B -> defined (c_s B) = true -> reads S ref R -> defined (c_s R) = false -> defined (c_a R) = false ->
  exists n out T, resolve base ref = Ok n /\ display S n = Ok out /\ reads S out T /\ c_s T = c_s B /\ c_a T = c_a B.
Proof. exact c65_origin. Qed.
Print Assumptions C65_same_origin.
(** A relative path whose segments, walked one by one, never go above where they started, is resolved
    to a path below the directory of the base, with no dot segment behind that directory. *)
Theorem C65_below : forall S base ref B R l d D,
  reads S base B -> defined (c_s B) = true -> reads S ref R ->
  defined (c_s R) = false -> defined (c_a R) = false -> c_p R <> [] -> (forall w, c_p R <> lit "/" ++ w) ->
  in_segments (c_p R) l -> walks 0 l -> directory B d -> rds d D ->
  exists n out T s, resolve base ref = Ok n /\ display S n = Ok out /\ reads S out T /\ c_s T = c_s B /\ c_a T = c_a B /\
    c_p T = safe_path (c_a B) (D ++ s) /\ without_dots s /\ c_q T = c_q R /\ c_f T = c_f R.
Proof. exact c65_below. Qed.
Print Assumptions C65_below.
(** The same for a walk that goes up [k] levels at most, and the directory [k] levels above. *)
Theorem C65_confined : forall S base ref B R l k d D A,
  reads S base B -> defined (c_s B) = true -> reads S ref R ->
  defined (c_s R) = false -> defined (c_a R) = false -> c_p R <> [] -> (forall w, c_p R <> lit "/" ++ w) ->
  in_segments (c_p R) l -> walks k l -> directory B d -> rds d D -> ancestor k A D ->
  exists n out T s, resolve base ref = Ok n /\ display S n = Ok out /\ reads S out T /\ c_s T = c_s B /\ c_a T = c_a B /\
    c_p T = safe_path (c_a B) (A ++ s) /\ without_dots s /\ c_q T = c_q R /\ c_f T = c_f R.
Proof. exact c65_confined. Qed.
Print Assumptions C65_confined.
(** And with normalization: below the normalized spelling of that directory. *)
Theorem C65_confined_normalized : forall S base ref B R l k d D A,
  reads S base B -> defined (c_s B) = true -> reads S ref R ->
  defined (c_s R) = false -> defined (c_a R) = false -> c_p R <> [] -> (forall w, c_p R <> lit "/" ++ w) ->
  in_segments (c_p R) l -> walks k l -> directory B d -> rds d D -> ancestor k A D ->
  exists n out T A' s, resolve base ref = Ok n /\ display S (set_mode n MDefault) = Ok out /\ reads S out T /\
    opt_rel (fun x y => y = map lower x) (c_s B) (c_s T) /\ opt_rel (authority_normal S) (c_a B) (c_a T) /\ pct_normal S A A' /\
    c_p T = safe_path (c_a T) (A' ++ s) /\ without_dots s.
Proof. exact c65_normalized. Qed.
Print Assumptions C65_confined_normalized.
(** Every path has segments, and every base has a directory. *)
Theorem C65_applies : forall S base ref B R, reads S base B -> reads S ref R ->
  exists l d D, in_segments (c_p R) l /\ directory B d /\ rds d D.
Proof. exact c65_applies. Qed.
Print Assumptions C65_applies.

Definition base0 := lit "http://h/srv/./u/pub/index.html?v".
Definition B0 := mkC (Some (lit "http")) (Some (lit "h")) (lit "/srv/./u/pub/index.html") (Some (lit "v")) None.
Definition ref1 := lit "img/%2E%2e/./x.png?q#f".
Definition R1 := mkC None None (lit "img/%2E%2e/./x.png") (Some (lit "q")) (Some (lit "f")).
Definition ref2 := lit "./../v/w".
Definition R2 := mkC None None (lit "./../v/w") None None.
Ltac seg_tac := repeat first [apply (is_next (lit "img")) | apply (is_next (lit "%2E%2e")) | apply (is_next (lit ".")) | apply (is_next (lit "..")) | apply (is_next (lit "v")) | apply is_last];
  intros X; repeat (destruct X as [X|X]; [discriminate X|]); destruct X.
Example segments1 : in_segments (c_p R1) [lit "img"; lit "%2E%2e"; lit "."; lit "x.png"].
Proof. seg_tac. Qed.
Example segments2 : in_segments (c_p R2) [lit "."; lit ".."; lit "v"; lit "w"].
Proof. seg_tac. Qed.
Ltac down := apply w_down; [apply down_of; ev | apply down_of; ev |].
Example walks1 : walks 0 [lit "img"; lit "%2E%2e"; lit "."; lit "x.png"].
Proof.
  down. apply w_up; [exists (lit "%2E"), (lit "%2e"); split; [reflexivity|split; [right; left; reflexivity|right; right; reflexivity]]|].
  apply w_stay; [left; reflexivity|]. down. apply w_end.
Qed.
Example walks2 : walks 1 [lit "."; lit ".."; lit "v"; lit "w"].
Proof. apply w_stay; [left; reflexivity|]. apply w_up; [exists (lit "."), (lit "."); split; [reflexivity|split; left; reflexivity]|]. do 2 down. apply w_end. Qed.
Example directory0 : directory B0 (lit "/srv/./u/pub/").
Proof. apply (dir_path B0 (lit "/srv/./u/pub") (lit "index.html")); [reflexivity|]. intros X. repeat (destruct X as [X|X]; [discriminate X|]). destruct X. Qed.
Example ancestor0 : ancestor 1 (lit "/srv/u/") (lit "/srv/u/pub/").
Proof. apply (anc_up 0 (lit "/srv/u/") (lit "/srv/u/") (lit "pub")); [apply anc_self; right; exists (lit "/srv/u"); reflexivity|]. intros X. repeat (destruct X as [X|X]; [discriminate X|]). destruct X. Qed.
Example C65_below_instance := C65_below UriSpec base0 ref1 B0 R1 _ _ (lit "/srv/u/pub/") ltac:(rd) eq_refl ltac:(rd) eq_refl eq_refl
  ltac:(discriminate) ltac:(discriminate) segments1 walks1 directory0 ltac:(apply (rds_of UriSpec); ev).
Example C65_confined_instance := C65_confined UriSpec base0 ref2 B0 R2 _ 1 _ (lit "/srv/u/pub/") _ ltac:(rd) eq_refl ltac:(rd) eq_refl eq_refl
  ltac:(discriminate) ltac:(discriminate) segments2 walks2 directory0 ltac:(apply (rds_of UriSpec); ev) ancestor0.
Example C65_confined_normalized_instance := C65_confined_normalized UriSpec base0 ref2 B0 R2 _ 1 _ (lit "/srv/u/pub/") _ ltac:(rd) eq_refl ltac:(rd) eq_refl eq_refl
  ltac:(discriminate) ltac:(discriminate) segments2 walks2 directory0 ltac:(apply (rds_of UriSpec); ev) ancestor0.
Definition shown (S : Spec) (n : may NormalizationInput) : may str := do n <- n ; display S n.
Example C65_ex1 : shown UriSpec (resolve base0 ref1) = Ok (lit "http://h/srv/u/pub/x.png?q#f").
Proof. ev. Qed.
Example C65_ex2 : shown UriSpec (resolve base0 ref2) = Ok (lit "http://h/srv/u/v/w").
Proof. ev. Qed.
(** Such a walk is needed: "../x" goes above the directory, and so does "a/../../x". *)
Example C65_leaves : shown UriSpec (resolve base0 (lit "a/../../x")) = Ok (lit "http://h/srv/u/x") /\ ~ walks 0 [lit "a"; lit ".."; lit ".."; lit "x"].
Proof.
  split; [ev|]. assert (D : double_dot (lit "..")) by (exists (lit "."), (lit "."); split; [reflexivity|split; left; reflexivity]).
  assert (Ns : ~ single_dot (lit "..")) by (intros [X|[X|X]]; discriminate X).
  assert (Na : ~ single_dot (lit "a") /\ ~ double_dot (lit "a")) by (apply down_of; ev).
  intros W. inversion W; subst; [tauto|]. clear W.
  match goal with H : walks 1 _ |- _ => inversion H; subst; [tauto| |tauto]; clear H end.
  match goal with H : walks 0 _ |- _ => inversion H; subst; tauto end.
Qed.

(** Plain normalization: an IRI whose path continues the directory [dir] with such segments stays below
    the (normalized) ancestor. *)
Theorem C65_normalize : forall S i C dir r l k D A,
  reads S i C -> defined (c_s C) = true -> c_p C = dir ++ lit "/" ++ r -> in_segments r l -> walks k l ->
  rds (dir ++ lit "/") D -> ancestor k A D ->
  exists n out T A' s, normalize i = Ok n /\ display S n = Ok out /\ reads S out T /\
    opt_rel (fun x y => y = map lower x) (c_s C) (c_s T) /\ opt_rel (authority_normal S) (c_a C) (c_a T) /\ pct_normal S A A' /\
    c_p T = safe_path (c_a T) (A' ++ s) /\ without_dots s.
Proof. exact c65_normalize. Qed.
Print Assumptions C65_normalize.
Example C65_normalize_instance := C65_normalize UriSpec (lit "http://h/srv/./u/pub/./../v/w") (mkC (Some (lit "http")) (Some (lit "h")) (lit "/srv/./u/pub/./../v/w") None None)
  (lit "/srv/./u/pub") (lit "./../v/w") _ 1 (lit "/srv/u/pub/") _ ltac:(rd) eq_refl eq_refl segments2 walks2 ltac:(apply (rds_of UriSpec); ev) ancestor0.
Example C65_ex3 : shown UriSpec (normalize (lit "http://h/srv/./u/pub/./../v/w")) = Ok (lit "http://h/srv/u/v/w").
Proof. ev. Qed.
