(** * Deciding the hypotheses of the theorems for concrete strings (used by the examples only). *)
From Verif Require Import Base Chars Rfc3986 Utf8 CompSpec RfcResolve PctSpec NormSpec EditSpec MValidate MTrusted MEdit MError PBase PScan PValidate PAuth PErr PTypes PPct PNorm7 PNorm8 PEdit.
Open Scope string_scope. Open Scope N_scope. Open Scope list_scope.

Lemma iri_of S s : new S TIri s = Ok s -> IRI S s.
Proof. exact (proj1 (new_ok S TIri s)). Qed.
Lemma reference_of S s : new S TReference s = Ok s -> IRI_reference S s.
Proof. exact (proj1 (new_ok S TReference s)). Qed.
Lemma relative_of S s : new S TRelative s = Ok s -> relative_ref S s.
Proof. exact (proj1 (new_ok S TRelative s)). Qed.
Lemma query_of S s : validate_query S s = Ok tt -> query S s.
Proof. exact (proj1 (validate_query_iff S s)). Qed.
Lemma fragment_of S s : validate_fragment S s = Ok tt -> fragment S s.
Proof. exact (proj1 (validate_fragment_iff S s)). Qed.
Lemma host_of S s : validate_host S s = Ok tt -> host S s.
Proof. exact (proj1 (validate_host_iff S s)). Qed.
Lemma dissects_of S i s a p q f u h o : new S TReference i = Ok i -> to_major i = Ok (s, a, p, q, f) -> a = Some (authority_string u h o) ->
  match u with Some x => validate_userinfo S x = Ok tt | None => True end -> validate_host S h = Ok tt -> match o with Some x => validate_port x = Ok tt | None => True end ->
  dissects S i (mkC s a p q f) u h o.
Proof.
  intros H1 H2 -> H3 H4 H5. split; [now apply reads_of_major|]. split; [reflexivity|]. split; [destruct u; cbn; auto; now apply validate_userinfo_iff|]. split; [now apply validate_host_iff|]. destruct o; cbn; auto. now apply validate_port_iff.
Qed.
Lemma no_2e_of p : ~ In 37 p -> no_2e p.
Proof. intros H a b. split; intros ->; apply H, in_app_iff; right; now left. Qed.
Lemma wf_of p : ~ In 37 p -> pct_wf p.
Proof. induction p as [|c p IH]; intros H; constructor; [intros ->; apply H; now left|apply IH; intros K; apply H; now right]. Qed.
Ltac ev := vm_compute; first [reflexivity | exact I].
Ltac out := vm_compute; intuition discriminate.
Ltac rd := apply reads_of_major; ev.
Ltac ds := apply dissects_of; ev.
Lemma absolute_of S s : new S TAbsolute s = Ok s -> ~ In 35 s -> absolute_IRI S s.
Proof. intros H N. apply absolute_new_exact in H as [H|(s' & -> & _)]; [exact H|]. elim N. apply in_or_app. right. now left. Qed.

Lemma plain_normal S s : ~ In 37 s -> pct_normal S s s.
Proof. induction s as [|c s IH]; intros H; [apply pn_nil|]. apply pn_raw; [intros ->; apply H; now left|]. apply IH. intros K. apply H. now right. Qed.
Lemma userinfo_of S s : validate_userinfo S s = Ok tt -> userinfo S s.
Proof. exact (proj1 (validate_userinfo_iff S s)). Qed.
