(** * Byte-level model of the search helpers of src/parser/str.rs, with and without the memchr
    feature.  MValidate.v models the same helpers on scalar lists; C33 relates the three. *)
From Verif Require Import Base Utf8 MFormat.

(** ** core *)
(** [Iterator::position] / [rposition] on bytes. *)
Fixpoint position (p : N -> bool) (b : list N) : option nat :=
  match b with
  | [] => None
  | x :: r => if p x then Some O else match position p r with Some i => Some (S i) | None => None end
  end.
Fixpoint rposition (p : N -> bool) (b : list N) : option nat :=
  match b with
  | [] => None
  | x :: r => match rposition p r with
              | Some i => Some (S i)
              | None => if p x then Some O else None
              end
  end.
(** [Iterator::find] *)
Definition find_byte (p : N -> bool) (b : list N) : option N := find p b.
(** [str::split_at]: panics unless the byte position is a character boundary. *)
Fixpoint str_split_at (s : str) (pos : nat) : res Empty_set (str * str) :=
  match pos, s with
  | O, _ => Ok ([], s)
  | _, [] => Panic
  | _, c :: r =>
      if Nat.ltb pos (clen c) then Panic
      else do (a, b) <- str_split_at r (pos - clen c) ; Ok (c :: a, b)
  end.
(** [&s[..pos]], [&s[pos..]] *)
Definition str_to (s : str) (pos : nat) : res Empty_set str := do (a, _) <- str_split_at s pos ; Ok a.
Definition str_from (s : str) (pos : nat) : res Empty_set str := do (_, b) <- str_split_at s pos ; Ok b.
(** [&b[..pos]], [&b[pos..]], [b[pos]] on byte slices *)
Definition bytes_to (b : list N) (pos : nat) : res Empty_set (list N) :=
  if Nat.ltb (length b) pos then Panic else Ok (firstn pos b).
Definition bytes_from (b : list N) (pos : nat) : res Empty_set (list N) :=
  if Nat.ltb (length b) pos then Panic else Ok (skipn pos b).
Definition byte_at (b : list N) (pos : nat) : res Empty_set N :=
  match nth_error b pos with Some x => Ok x | None => Panic end.
Definition opt_map {A B} (o : option A) (f : A -> res Empty_set B) : res Empty_set (option B) :=
  match o with None => Ok None | Some a => do b <- f a ; Ok (Some b) end.

(** ** The memchr crate (not in the repository): its five functions, see [memchr_contract]. *)
Record memchr_crate := {
  memchr : N -> list N -> option nat;
  memchr2 : N -> N -> list N -> option nat;
  memchr3 : N -> N -> N -> list N -> option nat;
  memrchr : N -> list N -> option nat;
  memrchr2 : N -> N -> list N -> option nat }.

Definition is1 (n b : N) : bool := b =? n.
Definition is2 (n1 n2 b : N) : bool := (b =? n1) || (b =? n2).
Definition is3 (n1 n2 n3 b : N) : bool := (b =? n1) || (b =? n2) || (b =? n3).
Definition is4 (n1 n2 n3 n4 b : N) : bool := (b =? n1) || (b =? n2) || (b =? n3) || (b =? n4).

(** ** Results *)
Definition split_result (s : str) (pos : option nat) : res Empty_set (option (str * str)) :=
  opt_map pos (str_split_at s).
Definition hole_result (s : str) (pos : option nat) : res Empty_set (option (str * str)) :=
  opt_map pos (fun pos => do a <- str_to s pos ; do b <- str_from s (pos + 1) ; Ok (a, b)).
Definition hole3_result (s : str) (pos : option nat) : res Empty_set (option (str * N * str)) :=
  opt_map pos (fun pos => do a <- str_to s pos ; do x <- byte_at (utf8s s) pos ;
                          do b <- str_from s (pos + 1) ; Ok (a, x, b)).
Definition hole_result_bytes (h : list N) (pos : option nat) : res Empty_set (option (list N * list N)) :=
  opt_map pos (fun pos => do a <- bytes_to h pos ; do b <- bytes_from h (pos + 1) ; Ok (a, b)).

(** ** Portable variants *)
(** str.rs:27-35 *)
Definition prior_byte2_p (h : list N) (n1 n2 : N) : option N := find_byte (is2 n1 n2) h.
(** str.rs:46-51 *)
Definition rfind_p (h : list N) (n : N) : option nat := rposition (is1 n) h.
(** str.rs:62-71 *)
Definition find_split_p (s : str) (n : N) := split_result s (position (is1 n) (utf8s s)).
(** str.rs:85-93 *)
Definition rfind_split2_p (s : str) (n1 n2 : N) := split_result s (rposition (is2 n1 n2) (utf8s s)).
(** str.rs:107-115 *)
Definition find_split2_p (s : str) (n1 n2 : N) := split_result s (position (is2 n1 n2) (utf8s s)).
(** str.rs:129-141 *)
Definition find_split3_p (s : str) (n1 n2 n3 : N) := split_result s (position (is3 n1 n2 n3) (utf8s s)).
(** str.rs:161-175, at [T = str] and [T = [u8]] *)
Definition find_split_hole_p (s : str) (n : N) := hole_result s (position (is1 n) (utf8s s)).
Definition find_split_hole_bytes_p (h : list N) (n : N) := hole_result_bytes h (position (is1 n) h).
(** str.rs:195-212 *)
Definition find_split2_hole_p (s : str) (n1 n2 : N) := hole3_result s (position (is2 n1 n2) (utf8s s)).
(** str.rs:236-255 *)
Definition find_split4_hole_p (s : str) (n1 n2 n3 n4 : N) :=
  hole3_result s (position (is4 n1 n2 n3 n4) (utf8s s)).
(** str.rs:284-292 *)
Definition rfind_split_hole_p (s : str) (n : N) := hole_result s (rposition (is1 n) (utf8s s)).

(** ** memchr variants *)
(** str.rs:38-43; [.map(|pos| haystack[pos])] may panic *)
Definition prior_byte2_m (m : memchr_crate) (h : list N) (n1 n2 : N) : res Empty_set (option N) :=
  opt_map (memchr2 m n1 n2 h) (byte_at h).
(** str.rs:54-59 *)
Definition rfind_m (m : memchr_crate) (h : list N) (n : N) : option nat := memrchr m n h.
(** str.rs:76-80 *)
Definition find_split_m m (s : str) (n : N) := split_result s (memchr m n (utf8s s)).
(** str.rs:98-102 *)
Definition rfind_split2_m m (s : str) (n1 n2 : N) := split_result s (memrchr2 m n1 n2 (utf8s s)).
(** str.rs:120-124 *)
Definition find_split2_m m (s : str) (n1 n2 : N) := split_result s (memchr2 m n1 n2 (utf8s s)).
(** str.rs:146-156 *)
Definition find_split3_m m (s : str) (n1 n2 n3 : N) := split_result s (memchr3 m n1 n2 n3 (utf8s s)).
(** str.rs:180-190 *)
Definition find_split_hole_m m (s : str) (n : N) := hole_result s (memchr m n (utf8s s)).
Definition find_split_hole_bytes_m m (h : list N) (n : N) := hole_result_bytes h (memchr m n h).
(** str.rs:217-231 *)
Definition find_split2_hole_m m (s : str) (n1 n2 : N) := hole3_result s (memchr2 m n1 n2 (utf8s s)).
(** str.rs:260-281 *)
Definition find_split4_hole_m m (s : str) (n1 n2 n3 n4 : N) : res Empty_set (option (str * N * str)) :=
  let bytes := utf8s s in
  do pos <- match memchr3 m n1 n2 n3 bytes with
            | Some prefix_len =>
                do pre <- bytes_to bytes prefix_len ;
                Ok (match memchr m n4 pre with Some p => Some p | None => Some prefix_len end)
            | None => Ok (memchr m n4 bytes)
            end ;
  hole3_result s pos.
(** str.rs:297-301 *)
Definition rfind_split_hole_m m (s : str) (n : N) := hole_result s (memrchr m n (utf8s s)).
