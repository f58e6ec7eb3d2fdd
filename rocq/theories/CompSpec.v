(** * Independent specification: components of a reference (RFC 3986 sections 3, 4.1, 4.2, 5.3).
    Does not mention the code. *)
From Verif Require Import Base Chars Rfc3986.

(** RFC 3986 section 5.3, component recomposition. *)
Definition recompose (s a : option str) (p : str) (q f : option str) : str :=
  (match s with Some x => x ++ lit ":" | None => [] end)
  ++ (match a with Some x => lit "//" ++ x | None => [] end)
  ++ p
  ++ (match q with Some x => lit "?" ++ x | None => [] end)
  ++ (match f with Some x => lit "#" ++ x | None => [] end).

Definition opt_in (L : lang) (o : option str) : Prop :=
  match o with Some x => L x | None => True end.

(** The five components are what the grammar allows together: the path rule depends on the presence
    of an authority and of a scheme. *)
Definition components_ok (S : Spec) (s a : option str) (p : str) (q f : option str) : Prop :=
  opt_in scheme s /\ opt_in (authority S) a /\ opt_in (query S) q /\ opt_in (fragment S) f /\
  match a, s with
  | Some _, _ => path_abempty S p
  | None, Some _ => (path_absolute S <|> path_rootless S <|> path_empty) p
  | None, None => (path_absolute S <|> path_noscheme S <|> path_empty) p
  end.

(** Authority: [ userinfo "@" ] host [ ":" port ] *)
Definition authority_string (u : option str) (h : str) (p : option str) : str :=
  (match u with Some x => x ++ lit "@" | None => [] end) ++ h
  ++ (match p with Some x => lit ":" ++ x | None => [] end).
