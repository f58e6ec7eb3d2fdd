(** * Property C85: checking for normal form, percent-encoding normalization and percent-decoding take linear time.
    Model: MCost3.v (functions of MPct.v, MNormalize.v and MEncode.v with a counter of the characters looked at and written). *)
From Verif Require Import Base Chars Utf8 MValidate MTrusted MFormat MTypes MPct MPath MNormalize MEncode MWork MCost MCost3 PCost6 PCost7 PCost8.
Open Scope string_scope. Open Scope list_scope. Open Scope nat_scope.

(** The counting functions return exactly what the functions of the model return. *)
Theorem C85_same : forall S i mode, fst (k_is_normalized S i mode) = is_normalized S i mode.
Proof. exact is_normalized_fst. Qed.
Print Assumptions C85_same.
(** The check for normal form, in all three variants, whatever the string. *)
Theorem C85_check : forall S i mode, snd (k_is_normalized S i mode) <= 14 * length i + 12.
Proof. exact is_normalized_le. Qed.
Print Assumptions C85_check.
(** So the check can be arbitrarily many times cheaper than normalizing the same IRI (C83). *)
Theorem C85_check_cheaper : forall S c, exists i n, new S TIri i = Ok i /\ normalize i = Ok n /\ forall mode, c * snd (k_is_normalized S i mode) < path_work S n.
Proof. exact check_cheaper. Qed.
Print Assumptions C85_check_cheaper.
(** Writing a component with its percent-encoding normalized, and a host that also changes case. *)
Theorem C85_same_display : forall S s, fst (k_PctCaseNormalized S s) = PctCaseNormalized S s /\ fst (k_NormalizedAsciiOnlyHost s) = NormalizedAsciiOnlyHost s.
Proof. exact (fun S s => conj (pct_display_fst S s) (ascii_host_fst s)). Qed.
Print Assumptions C85_same_display.
Theorem C85_display : forall S s, snd (k_PctCaseNormalized S s) <= 4 * length s /\ snd (k_NormalizedAsciiOnlyHost s) <= 4 * length s.
Proof. exact (fun S s => conj (pct_display_le S s) (ascii_host_le s)). Qed.
Print Assumptions C85_display.
(** Percent-decoding: all the fragments, borrowed bytes when nothing is encoded, and the decoded bytes. *)
Theorem C85_same_decode : forall b, fst (k_bytes_fragments b) = bytes_fragments b /\ fst (k_to_bytes b) = to_bytes b /\ fst (k_into_bytes b) = into_bytes b.
Proof. exact (fun b => conj (fragments_fst b) (conj (to_bytes_fst b) (into_bytes_fst b))). Qed.
Print Assumptions C85_same_decode.
Theorem C85_decode : forall b, snd (k_bytes_fragments b) <= 5 * length b /\ snd (k_to_bytes b) <= 5 * length b /\ snd (k_into_bytes b) <= 6 * length b.
Proof. exact (fun b => conj (fragments_le b) (conj (to_bytes_le b) (into_bytes_le b))). Qed.
Print Assumptions C85_decode.

(** A normalized IRI, one with a lower-case triplet at the end, a character split into triplets, and a text to decode. *)
Example C85_ex : (length (lit "http://u@h.x/a/b%2F?q"), k_is_normalized UriSpec (lit "http://u@h.x/a/b%2F?q") CkDefault) = (21, (Ok true, 88)).
Proof. vm_compute. reflexivity. Qed.
Example C85_ex2 : fst (k_is_normalized UriSpec (lit "http://u@h.x/a/b%2f") CkDefault) = Ok false /\
  fst (k_is_normalized UriSpec (lit "http://u@h.x/a/../b") CkRfc3986) = Ok false /\ fst (k_is_normalized UriSpec (lit "urn:a/../b") CkPreserve) = Ok true.
Proof. vm_compute. auto. Qed.
Example C85_ex3 : 9 <= snd (k_PctCaseNormalized IriSpec (lit "%ce%b1%ce")) <= 36.
Proof. vm_compute. split; repeat constructor. Qed.
Example C85_ex4 : fst (k_into_bytes (lit "a%20b%zz")) = into_bytes (lit "a%20b%zz") /\ 8 <= snd (k_into_bytes (lit "a%20b%zz")) <= 48.
Proof. vm_compute. split; [reflexivity|]. split; repeat constructor. Qed.
