(** * Base: strings, results, searching.

    A Rust [&str] is modelled by its list of Unicode scalar values ([str]).
    A byte slice [&[u8]] is also a [list N] (all elements < 256). *)
From Coq Require Export String Ascii List NArith Arith Bool Lia.
Export ListNotations.
Open Scope N_scope.
Open Scope list_scope.

Notation chr := N (only parsing).
Definition str := list N.

(** ASCII string literals, for readable constants and examples. *)
Fixpoint lit (s : string) : str :=
  match s with
  | EmptyString => []
  | String a r => N_of_ascii a :: lit r
  end.

(** Rust results with an explicit panic outcome. *)
Inductive res (E A : Type) : Type :=
| Ok (a : A)
| Err (e : E)
| Panic.
Arguments Ok {E A} a.
Arguments Err {E A} e.
Arguments Panic {E A}.

Definition bind {E A B} (x : res E A) (f : A -> res E B) : res E B :=
  match x with Ok a => f a | Err e => Err e | Panic => Panic end.
Notation "'do' p <- x ; y" := (bind x (fun p => y))
  (at level 200, p pattern, x at level 100, y at level 200).
Notation "x ;; y" := (bind x (fun _ => y)) (at level 199, right associativity).

Definition is_ok {E A} (x : res E A) : bool :=
  match x with Ok _ => true | _ => false end.
Definition is_err {E A} (x : res E A) : bool :=
  match x with Err _ => true | _ => false end.

(** Equality of strings ([==] on [&str]). *)
Fixpoint seqb (a b : str) : bool :=
  match a, b with
  | [], [] => true
  | x :: a', y :: b' => (x =? y) && seqb a' b'
  | _, _ => false
  end.

(** core: [str::is_ascii] / [char::is_ascii] / [u8::is_ascii]. *)
Definition is_ascii (c : chr) : bool := c <? 128.
Definition all_ascii (s : str) : bool := forallb is_ascii s.

(** core: [char::is_ascii_hexdigit], [is_ascii_digit], [is_ascii_alphabetic],
    [is_ascii_uppercase], [to_ascii_lowercase]. *)
Definition between (lo hi c : N) : bool := (lo <=? c) && (c <=? hi).
Definition is_digit (c : chr) : bool := between 48 57 c.
Definition is_upper (c : chr) : bool := between 65 90 c.
Definition is_lower (c : chr) : bool := between 97 122 c.
Definition is_alpha (c : chr) : bool := is_upper c || is_lower c.
Definition is_hexdigit (c : chr) : bool :=
  is_digit c || between 65 70 c || between 97 102 c.
Definition to_lower (c : chr) : chr := if is_upper c then c + 32 else c.

(** core: a [char] is a Unicode scalar value. *)
Definition is_scalar (c : chr) : bool := (c <? 55296) || between 57344 1114111 c.
Definition all_scalar (s : str) : bool := forallb is_scalar s.

(** UTF-8 length of a scalar ([char::len_utf8]) and of a string ([str::len]). *)
Definition clen (c : chr) : nat :=
  if c <? 128 then 1%nat
  else if c <? 2048 then 2%nat
  else if c <? 65536 then 3%nat
  else 4%nat.
Fixpoint blen (s : str) : nat :=
  match s with [] => 0%nat | c :: r => (clen c + blen r)%nat end.

(** First / last element satisfying a predicate:
    [(before, element, after)]. *)
Fixpoint split_first (p : N -> bool) (s : str) : option (str * N * str) :=
  match s with
  | [] => None
  | c :: r =>
      if p c then Some ([], c, r)
      else match split_first p r with
           | Some (a, x, b) => Some (c :: a, x, b)
           | None => None
           end
  end.

Fixpoint split_last (p : N -> bool) (s : str) : option (str * N * str) :=
  match s with
  | [] => None
  | c :: r =>
      match split_last p r with
      | Some (a, x, b) => Some (c :: a, x, b)
      | None => if p c then Some ([], c, r) else None
      end
  end.

(** [str::strip_prefix] with a string pattern. *)
Fixpoint strip_prefix (p s : str) : option str :=
  match p, s with
  | [], _ => Some s
  | x :: p', y :: s' => if x =? y then strip_prefix p' s' else None
  | _ :: _, [] => None
  end.
Definition starts_with (p s : str) : bool :=
  match strip_prefix p s with Some _ => true | None => false end.

Definition is_empty (s : str) : bool := match s with [] => true | _ => false end.
Definition is_some {A} (o : option A) : bool := match o with Some _ => true | None => false end.

(** Range slicing [&s[a..b]]: panics ([None]) when out of range. *)
Definition slice (s : str) (a b : nat) : option str :=
  if (Nat.leb a b && Nat.leb b (List.length s))%bool
  then Some (firstn (b - a) (skipn a s)) else None.

(** ASCII constants. *)
Definition COLON := 58.   Definition SLASH := 47.  Definition QMARK := 63.
Definition HASH := 35.    Definition AT := 64.     Definition LBRACK := 91.
Definition RBRACK := 93.  Definition PCT := 37.    Definition DOT := 46.
