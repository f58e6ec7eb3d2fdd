(** * Independent specification: percent-encoding (RFC 3986 sections 2.1, 6.2.2.1, 6.2.2.2; RFC 3987
    section 5.3.2.3).  Does not mention the code. *)
From Verif Require Import Base Chars Rfc3986 Utf8.

Definition hex_value (d : N) : N :=
  if DIGIT d then d - 48 else if between 65 70 d then d - 55 else d - 87.
(** [spelled bytes s]: [s] is a sequence of triplets "%HH" (hex digits of either case) that encodes
    [bytes]. *)
Inductive spelled : list N -> str -> Prop :=
| spelled_nil : spelled [] []
| spelled_cons : forall u l bs s, HEXDIG u = true -> HEXDIG l = true -> spelled bs s ->
    spelled (16 * hex_value u + hex_value l :: bs) (37 :: u :: l :: s).

Definition upper_hex (d : N) : N := if between 97 102 d then d - 32 else d.

(** Every '%' begins a triplet. *)
Inductive pct_wf : str -> Prop :=
| wf_nil : pct_wf []
| wf_raw : forall c s, c <> 37 -> pct_wf s -> pct_wf (c :: s)
| wf_trip : forall u l s, HEXDIG u = true -> HEXDIG l = true -> pct_wf s -> pct_wf (37 :: u :: l :: s).

(** No unreserved character is spelled by triplets at the beginning of [s]. *)
Definition no_unreserved_here (S : Spec) (s : str) : Prop :=
  forall c bs s', s = bs ++ s' -> spelled (utf8 c) bs -> unreserved S c = false.

(** [pct_normal S s t]: [t] is [s] with every percent-encoded unreserved character decoded and the
    hex digits of the remaining triplets in upper case. *)
Inductive pct_normal (S : Spec) : str -> str -> Prop :=
| pn_nil : pct_normal S [] []
| pn_raw : forall c s t, c <> 37 -> pct_normal S s t -> pct_normal S (c :: s) (c :: t)
| pn_decode : forall c bs s t, spelled (utf8 c) bs -> unreserved S c = true ->
    pct_normal S s t -> pct_normal S (bs ++ s) (c :: t)
| pn_keep : forall u l s t, HEXDIG u = true -> HEXDIG l = true ->
    no_unreserved_here S (37 :: u :: l :: s) ->
    pct_normal S s t ->
    pct_normal S (37 :: u :: l :: s) (37 :: upper_hex u :: upper_hex l :: t).

(** The bytes a component denotes once percent-decoded. *)
Inductive denotes : str -> list N -> Prop :=
| dn_nil : denotes [] []
| dn_raw : forall c s b, c <> 37 -> denotes s b -> denotes (c :: s) (utf8 c ++ b)
| dn_trip : forall u l s b, HEXDIG u = true -> HEXDIG l = true -> denotes s b ->
    denotes (37 :: u :: l :: s) (16 * hex_value u + hex_value l :: b).

(** ** Hosts (RFC 3986 section 6.2.2.1: the host is case insensitive). *)
Definition lower (c : N) : N := if between 65 90 c then c + 32 else c.
(** Lower case, except inside triplets. *)
Fixpoint lower_raw (s : str) : str :=
  match s with
  | [] => []
  | c :: r =>
      if c =? 37 then match r with u :: l :: r' => c :: u :: l :: lower_raw r' | _ => s end
      else lower c :: lower_raw r
  end.
(** Only ASCII characters, raw or percent-encoded. *)
Definition ascii_only (s : str) : Prop := exists b, denotes s b /\ Forall (fun x => x < 128) b.
(** The crate normalizes the case of ASCII-only hosts only. *)
Inductive host_normal (S : Spec) (h : str) : str -> Prop :=
| hn_ascii : forall u, ascii_only h -> pct_normal S h u -> host_normal S h (lower_raw u)
| hn_other : forall u, ~ ascii_only h -> pct_normal S h u -> host_normal S h u.
