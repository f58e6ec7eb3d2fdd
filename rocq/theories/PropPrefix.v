(** * C69: what a common prefix of two strings guarantees. *)
From Verif Require Import Base Chars Rfc3986 CompSpec RfcResolve NormSpec ConfineSpec PrefixSpec MValidate MTrusted MFormat MWriters MPct MPath MNormalize MEdit PNorm8 PConfine PPrefix.
Open Scope string_scope. Open Scope N_scope. Open Scope list_scope.

(** What follows a settled string only prolongs its last component or adds further ones. *)
Theorem C69_prolonged : forall S i C r D, reads S i C -> settled C -> reads S (i ++ r) D -> prolonged C r D.
Proof. exact c69_prolonged. Qed.
Print Assumptions C69_prolonged.
(** The condition is exact: otherwise some valid continuation has another scheme or authority. *)
Theorem C69_exact : forall S i C, reads S i C -> ~ settled C -> exists r D, reads S (i ++ r) D /\ (c_s D <> c_s C \/ c_a D <> c_a C).
Proof. exact c69_exact. Qed.
Print Assumptions C69_exact.
(** In terms of the accessors of the string types. *)
Theorem C69_accessors : forall S t t' i C r, editable t = true -> editable t' = true -> new S t i = Ok i -> reads S i C -> settled C -> new S t' (i ++ r) = Ok (i ++ r) ->
  extract_scheme (i ++ r) = extract_scheme i /\ extract_authority (i ++ r) = extract_authority i /\
  (exists x, extract_path (i ++ r) = extract_path i ++ x /\ (c_q C <> None \/ c_f C <> None -> x = [])).
Proof. exact c69_accessors. Qed.
Print Assumptions C69_accessors.
(** A prefix that is a directory (with an authority) and a rest whose dot segments do not climb above it: the
    normalized text begins with the normalized prefix. *)
Theorem C69_normalized : forall S i C r D d x l, reads S i C -> defined (c_s C) = true -> defined (c_a C) = true -> c_p C = d ++ lit "/" -> c_q C = None -> c_f C = None ->
  reads S (i ++ r) D -> c_p D = c_p C ++ x -> in_segments x l -> walks 0 l ->
  exists n m out rest, normalize i = Ok n /\ display S n = Ok out /\ normalize (i ++ r) = Ok m /\ display S m = Ok (out ++ rest).
Proof. exact c69_normalized. Qed.
Print Assumptions C69_normalized.

Definition ex := lit "HTTP://h/a/../b/".
Definition exC := mkC (Some (lit "HTTP")) (Some (lit "h")) (lit "/a/../b/") None None.
Definition exD := mkC (Some (lit "HTTP")) (Some (lit "h")) (lit "/a/../b/x/../y") (Some (lit "z")) None.
Example C69_prolonged_applies : reads UriSpec ex exC /\ settled exC /\ reads UriSpec (ex ++ lit "x/../y?z") exD /\ prolonged exC (lit "x/../y?z") exD.
Proof.
  assert (H1 : reads UriSpec ex exC) by (apply reads_of_major; vm_compute; reflexivity).
  assert (H2 : settled exC) by (right; right; discriminate).
  assert (H3 : reads UriSpec (ex ++ lit "x/../y?z") exD) by (apply reads_of_major; vm_compute; reflexivity).
  split; [exact H1|]. split; [exact H2|]. split; [exact H3|]. exact (C69_prolonged UriSpec ex exC _ exD H1 H2 H3).
Qed.
Example C69_normalized_applies : in_segments (lit "x/../y") [lit "x"; lit ".."; lit "y"] /\ walks 0 [lit "x"; lit ".."; lit "y"].
Proof.
  assert (N : forall s, forallb (fun c => negb (c =? 47)) s = true -> no_slash s).
  { intros s H. intros X. rewrite forallb_forall in H. specialize (H _ X). discriminate. }
  split.
  - apply (is_next (lit "x") (lit "../y")); [now apply N|]. apply (is_next (lit "..") (lit "y")); [now apply N|]. apply is_last. now apply N.
  - apply w_down; [intros X; now destruct (down_of (lit "x") eq_refl)|intros X; now destruct (down_of (lit "x") eq_refl)|].
    apply w_up; [exists (lit "."), (lit "."); repeat split; left; reflexivity|]. apply w_down; [intros X; now destruct (down_of (lit "y") eq_refl)|intros X; now destruct (down_of (lit "y") eq_refl)|]. constructor.
Qed.
(** An authority at the end is not settled. *)
Example C69_exact_applies : let i := lit "http://trusted.example" in let C := mkC (Some (lit "http")) (Some (lit "trusted.example")) [] None None in
  reads UriSpec i C /\ ~ settled C /\ reads UriSpec (i ++ lit "@evil/") (mkC (Some (lit "http")) (Some (lit "trusted.example@evil")) (lit "/") None None).
Proof.
  cbv zeta. split; [apply reads_of_major; vm_compute; reflexivity|]. split; [|apply reads_of_major; vm_compute; reflexivity].
  intros [H|[H|H]]; cbn in H; now apply H.
Qed.
