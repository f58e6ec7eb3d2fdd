(** * C74: percent-decoding piece by piece. *)
From Verif Require Import Base Chars Rfc3986 Utf8 MEncode EncodeSpec MTemplate TemplateSpec PIter PVars IterSpec.
Open Scope string_scope. Open Scope N_scope. Open Scope list_scope.

(** [next] gives exactly the fragment with which the input begins, and [not_yet_decoded] what remains. *)
Theorem C74_next : forall b f rest, fragments_next b = Ok (Some (f, rest)) <-> item b f rest.
Proof. exact next_exact. Qed.
Print Assumptions C74_next.
Theorem C74_end : forall b, fragments_next b = Ok None <-> b = [].
Proof. exact next_end. Qed.
Print Assumptions C74_end.
(** All the fragments. *)
Theorem C74_all : forall b fs, bytes_fragments b = Ok fs <-> items b fs [].
Proof. exact fragments_items. Qed.
Print Assumptions C74_all.
(** Any number of calls of [next]: fragments, then [None] for ever once nothing is left.  What they stand
    for followed by the decoding of [not_yet_decoded()] is the decoding of the whole, and a new iterator on
    [not_yet_decoded()] gives exactly the fragments that are missing. *)
Theorem C74_resume : forall n b, exists fs k rest, next_calls n b = Ok (map Some fs ++ repeat None k, rest) /\
  n = (length fs + k)%nat /\ (k <> 0%nat -> rest = []) /\ items b fs rest /\
  percent_decode b = flat_map fragment_bytes fs ++ percent_decode rest /\
  exists gs, bytes_fragments rest = Ok gs /\ bytes_fragments b = Ok (fs ++ gs).
Proof. exact stop_resume. Qed.
Print Assumptions C74_resume.
(** An input may be decoded in two parts exactly if no triplet lies across the boundary. *)
Theorem C74_split : forall a c fa fc f, bytes_fragments a = Ok fa -> bytes_fragments c = Ok fc -> bytes_fragments (a ++ c) = Ok f ->
  (flat_map fragment_bytes f = flat_map fragment_bytes fa ++ flat_map fragment_bytes fc <-> ~ straddles a c).
Proof. exact split_fragments. Qed.
Print Assumptions C74_split.

(** The hypotheses are met. *)
Example C74_ex : next_calls 3 (lit "a%b%20c") = Ok ([Some (Direct (lit "a")); Some StrayPercent; Some (Direct (lit "b"))], lit "%20c") /\
  next_calls 3 (lit "%41%") = Ok ([Some (DecodedByte 65); Some StrayPercent; None], []).
Proof. vm_compute. auto. Qed.
Example C74_next_instance : item (lit "%20c") (DecodedByte 32) (lit "c").
Proof. apply C74_next. vm_compute. reflexivity. Qed.
Example C74_all_instance : items (lit "a%b%20c") [Direct (lit "a"); StrayPercent; Direct (lit "b"); DecodedByte 32; Direct (lit "c")] [].
Proof. apply C74_all. vm_compute. reflexivity. Qed.
Example C74_split_instance := C74_split (lit "a%2") (lit "0c") _ _ _ ltac:(vm_compute; reflexivity) ltac:(vm_compute; reflexivity) ltac:(vm_compute; reflexivity).
Example C74_cut : straddles (lit "a%2") (lit "0c") /\ ~ straddles (lit "a%20") (lit "0c").
Proof.
  split; [right; exists (lit "a"), 50, 48, (lit "c"); vm_compute; auto|].
  apply (C74_split (lit "a%20") (lit "0c") _ _ _ ltac:(vm_compute; reflexivity) ltac:(vm_compute; reflexivity) ltac:(vm_compute; reflexivity)). vm_compute. reflexivity.
Qed.

(** ** C30, continued: [variables()], one call at a time.  The names in order, then [None] for ever; a call
    panics exactly if it comes to a max-length that does not fit in 16 bits, and not before. *)
Theorem C30_calls : forall debug T n, Forall crate_part T ->
  (Forall small_spec (firstn n (flat_map varspecs T)) -> exists it, variable_calls n debug (variables (template_text T)) =
     Ok (map Some (firstn n (template_names T)) ++ repeat None (n - length (template_names T)), it)) /\
  (~ Forall small_spec (firstn n (flat_map varspecs T)) -> variable_calls n debug (variables (template_text T)) = Panic).
Proof. exact variable_history. Qed.
Print Assumptions C30_calls.
Example C30_calls_ex :
  let T := [Lit (lit "a"); Expr Ques [mkR (lit "x") NoMod; mkR (lit "y") (Prefix (lit "70000"))]] in
  template_text T = lit "a{?x,y:70000}" /\ Forall crate_part T /\
  (exists it, variable_calls 1 true (variables (template_text T)) = Ok ([Some (lit "x")], it)) /\
  variable_calls 2 true (variables (template_text T)) = Panic /\
  exists it, variable_calls 4 true (variables (lit "{+x}/{y}")) = Ok ([Some (lit "x"); Some (lit "y"); None; None], it).
Proof.
  split; [reflexivity|]. split; [|split; [eexists; vm_compute; reflexivity|split; [vm_compute; reflexivity|eexists; vm_compute; reflexivity]]].
  exact big_parts.
Qed.
