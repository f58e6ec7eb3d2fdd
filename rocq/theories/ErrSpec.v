(** * Independent specification: which part of a rejected string an error message names.

    A string is first cut into components in the only way possible (RFC 3986 appendix B: the
    delimiters alone decide where the components are, whether or not their contents are valid);
    the message then names the first component, from left to right, that the grammar does not
    allow.  Messages are the texts a user sees.  Does not mention the code. *)
From Verif Require Import Base Chars Rfc3986 CompSpec.

Definition avoids (t : string) (s : str) : Prop := forall c, In c s -> one_of t c = false.
Definition oavoids (t : string) (o : option str) : Prop := match o with Some s => avoids t s | None => True end.

(** What follows the scheme: an authority runs from "//" to the next of "/?#", a path to the next of
    "?#", a query to the next "#", a fragment to the end. *)
Definition cut (r : str) (a : option str) (p : str) (q f : option str) : Prop :=
  r = recompose None a p q f /\ oavoids "/?#" a /\ avoids "?#" p /\ oavoids "#" q /\
  match a with
  | None => forall x, p <> lit "//" ++ x
  | Some _ => p = [] \/ exists x, p = lit "/" ++ x
  end.

Definition claim := (Prop * string)%type.
(** The message of the first claim that is false. *)
Inductive first_bad : list claim -> string -> Prop :=
| fb_here : forall (P : Prop) m l, ~ P -> first_bad ((P, m) :: l) m
| fb_next : forall (P : Prop) m l m', P -> first_bad l m' -> first_bad ((P, m) :: l) m'.

Section S.
Variable S : Spec.
Local Open Scope string_scope.

(** host [ ":" port ] *)
Definition hostport : lang := host S +++ opt (tok ":" +++ port).
(** The userinfo is what precedes the first "@"; host and port are not distinguished. *)
Definition authority_claims (x : str) (l : list claim) : Prop :=
  (avoids "@" x /\ l = [(hostport x, "invalid host")]) \/
  (exists u h, x = (u ++ lit "@" ++ h)%list /\ avoids "@" u /\
    l = [(userinfo S u, "invalid userinfo"); (hostport h, "invalid host")]).

(** [absent_path]: the rule for the path when there is no authority; [allow]: may a fragment be present.
    A type that forbids fragments only complains about a non-empty one (finding F1). *)
Definition blames_rest (absent_path : lang) (allow : Prop) (r : str) (m : string) : Prop :=
  exists a p q f la, cut r a p q f /\
    match a with Some x => authority_claims x la | None => la = [] end /\
    first_bad (la ++
      [ (match a with Some _ => path_abempty S p | None => absent_path p end, "invalid path");
        (opt_in (query S) q, "invalid query");
        (allow \/ f = None \/ f = Some [], "unexpected fragment");
        (opt_in (fragment S) f, "invalid fragment") ])%list m.

Definition rel_path : lang := path_absolute S <|> path_noscheme S <|> path_empty.
Definition abs_path : lang := path_absolute S <|> path_rootless S <|> path_empty.

(** [s] starts with a scheme and ":"; [r] is the rest. *)
Definition after_scheme (s r : str) : Prop := exists x, scheme x /\ s = (x ++ lit ":" ++ r)%list.

Definition blames_iri (allow : Prop) (s : str) (m : string) : Prop :=
  (avoids ":" s /\ m = "expected an absolute IRI but got a relative IRI") \/
  (~ avoids ":" s /\ (forall r, ~ after_scheme s r) /\ m = "invalid scheme") \/
  (exists r, after_scheme s r /\ blames_rest abs_path allow r m).
Definition blames_relative (s : str) (m : string) : Prop := blames_rest rel_path True s m.
Definition blames_reference (s : str) (m : string) : Prop :=
  ((forall r, ~ after_scheme s r) /\ blames_relative s m) \/
  (exists r, after_scheme s r /\ blames_rest abs_path True r m).

(** What the authority validator reports. *)
Definition blames_authority (x : str) (m : string) : Prop := exists l, authority_claims x l /\ first_bad l m.
End S.

(** A validator rejects exactly the strings for which some message is blamed, with that message. *)
Definition reports {E A} (f : str -> res E A) (show : E -> str) (B : str -> string -> Prop) : Prop :=
  forall s m, (exists e, f s = Err e /\ show e = lit "invalid IRI: " ++ lit m) <-> B s m.
