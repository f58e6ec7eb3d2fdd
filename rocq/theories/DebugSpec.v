(** * Specification for C43: userinfo that carries a password, and builder histories that differ only there. *)
From Verif Require Import Base Chars MBuild.
(** [carries u user pw]: the argument [u] of [userinfo(..)] gives the user name [user] and the password
    [pw]: as a pair, or as one string in which the first ':' separates them. *)
Inductive carries : UserinfoRepr -> str -> str -> Prop :=
| carries_pair : forall user pw, carries (UiUserPass user (Some pw)) user pw
| carries_direct : forall user pw, ~ In 58 user -> carries (UiDirect (user ++ [58] ++ pw)) user pw.
(** The same user name, and possibly different non-empty passwords. *)
Definition same_user (u u' : UserinfoRepr) : Prop :=
  exists user pw pw', carries u user pw /\ carries u' user pw' /\ pw <> [] /\ pw' <> [].
(** The same setter call up to a non-empty password. *)
Definition same_call (o o' : setter) : Prop :=
  o = o' \/ exists u u', o = OpUserinfo u /\ o' = OpUserinfo u' /\ same_user u u'.
