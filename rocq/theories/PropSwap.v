(** * C68: edits of different parts commute, and later edits of one part replace earlier ones. *)
From Verif Require Import Base Chars Rfc3986 CompSpec RfcResolve NormSpec EditSpec HistSpec SwapSpec MValidate MTrusted MFormat MWriters MPct MPath MNormalize MEdit MHist PScan PNorm8 PHist PSwap.
Open Scope string_scope. Open Scope N_scope. Open Scope list_scope.

(** Two edits that concern different parts: both orders succeed with the same string. *)
Theorem C68_commute : forall debug S t e1 e2 i C p1 p2, editable t = true -> new S t i = Ok i -> reads S i C -> debug = false \/ t <> TIri ->
  callable t e1 -> callable t e2 -> possible S C e1 -> possible S C e2 -> concerns e1 = Some p1 -> concerns e2 = Some p2 -> p1 <> p2 ->
  exists j, apply_edits debug S t [e1; e2] i = Ok j /\ apply_edits debug S t [e2; e1] i = Ok j.
Proof. exact edits_commute. Qed.
Print Assumptions C68_commute.
(** A list of edits, in any order and of any length, has the effect of its summary: at most one edit of
    each part, with the last values. *)
Theorem C68_summary : forall debug S t es rest i C, editable t = true -> new S t i = Ok i -> reads S i C -> debug = false \/ t <> TIri ->
  Forall (callable t) es -> Forall (overriding S) es -> summary es rest ->
  exists j, apply_edits debug S t es i = Ok j /\ apply_edits debug S t rest i = Ok j.
Proof. exact edits_summary. Qed.
Print Assumptions C68_summary.
Theorem C68_summary_exists : forall es, exists rest, summary es rest.
Proof. exact summary_ex. Qed.
Print Assumptions C68_summary_exists.
(** Setting the fragment or the host to what it is changes nothing. *)
Theorem C68_own : forall debug S t i C e, editable t = true -> new S t i = Ok i -> reads S i C -> debug = false \/ t <> TIri -> callable t e ->
  (e = ESetFragment (c_f C) \/ exists u h o only, parts S C u h o /\ e = EReplaceHost h only) -> apply_edits debug S t [e] i = Ok i.
Proof. exact edits_own. Qed.
Print Assumptions C68_own.

Definition ex := lit "http://u:p@h:1/a?q#f".
Definition exC := mkC (Some (lit "http")) (Some (lit "u:p@h:1")) (lit "/a") (Some (lit "q")) (Some (lit "f")).
Lemma ex_reads : reads UriSpec ex exC.
Proof. apply reads_of_major; vm_compute; reflexivity. Qed.
Example C68_commute_applies :
  exists j, apply_edits true UriSpec TReference [EReplaceHost (lit "[::1]") true; ERemovePassword] ex = Ok j /\
            apply_edits true UriSpec TReference [ERemovePassword; EReplaceHost (lit "[::1]") true] ex = Ok j.
Proof.
  apply (C68_commute true UriSpec TReference (EReplaceHost (lit "[::1]") true) ERemovePassword ex exC CHost CPassword); try reflexivity; try exact I; try discriminate.
  - exact ex_reads.
  - right. discriminate.
  - intros u h o (A & U & H & O). change (c_a exC) with (Some (CompSpec.authority_string (Some (lit "u:p")) (lit "h") (Some (lit "1")))) in A.
    injection A as A. apply (PTypes.authority_unique UriSpec) in A; auto.
    + injection A as <- <- <-. right. now left.
    + cbn. apply userinfo_scan. reflexivity.
    + right. right. apply reg_name_scan. reflexivity.
    + cbn. apply PAuth.port_iff. reflexivity.
Qed.
Definition ex_edits := [ESetFragment None; EReplaceHost (lit "x") false; EMask; ESetFragment (Some (lit "g")); EReplaceHost (lit "[::1]") false; EClearPassword].
Example C68_summary_applies : summary ex_edits [EClearPassword; EReplaceHost (lit "[::1]") false; ESetFragment (Some (lit "g"))] /\
  Forall (callable TIri) ex_edits /\ Forall (overriding UriSpec) ex_edits /\
  apply_edits false UriSpec TIri ex_edits ex = Ok (lit "http://u:@[::1]:1/a?q#g").
Proof.
  split; [|split; [|split; [|vm_compute; reflexivity]]].
  - exists [EClearPassword], [EReplaceHost (lit "[::1]") false], [ESetFragment (Some (lit "g"))]. split; [reflexivity|]. split; [left|split; reflexivity]. split; [right; cbn; tauto|reflexivity].
  - repeat (apply Forall_cons; [first [reflexivity|exact I]|]). constructor.
  - repeat (apply Forall_cons; [first [exact I|split; [reflexivity|apply PAuth.validate_host_iff; vm_compute; reflexivity]|apply fragment_scan; vm_compute; reflexivity]|]). constructor.
Qed.
Example C68_own_applies : apply_edits true UriSpec TReference [ESetFragment (Some (lit "f"))] ex = Ok ex.
Proof. apply (C68_own true UriSpec TReference ex exC); try reflexivity; [exact ex_reads|right; discriminate|now left]. Qed.
