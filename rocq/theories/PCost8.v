(** * Checking against normalizing. *)
From Verif Require Import Base Chars Utf8 MValidate MTrusted MFormat MTypes MPct MPath MNormalize MWork MCost MCost3 PWork3 PCost7.
Open Scope nat_scope.
Lemma check_cheaper : forall S c, exists i n, new S TIri i = Ok i /\ normalize i = Ok n /\ forall mode, c * snd (k_is_normalized S i mode) < path_work S n.
Proof.
  intros S c. destruct (work_superlinear S (26 * c)) as (i & n & Hn & En & H). exists i, n. split; [exact Hn|]. split; [exact En|]. intros mode.
  pose proof (is_normalized_le S i mode) as L. assert (1 <= length i) by (destruct i; [destruct S; discriminate Hn|cbn; lia]). nia.
Qed.
