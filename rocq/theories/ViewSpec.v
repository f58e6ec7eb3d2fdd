(** * Specification for C76: what a program that splits and decodes the components of an IRI gets to see.
    Does not mention the code. *)
From Verif Require Import Base Chars Rfc3986 Utf8 CompSpec RfcResolve PctSpec NormSpec EncodeSpec EditSpec.

(** Percent-decoding of a part (C20: what the decoders of the crate return). *)
Definition decoded (s : str) : list N := percent_decode (utf8s s).
(** The segments of an absolute (or empty) path: "/a/b" has the segments a and b. *)
Definition path_segments (p : str) (l : list str) : Prop := p = flat_map (fun x => lit "/" ++ x) l /\ Forall no_slash l.

(** An IRI with an authority: the scheme and the host in lower case, the port without its ":", everything else
    decoded, the path segment by segment. *)
Record view := mkV {
  v_scheme : str; v_userinfo : option (list N); v_host : list N; v_port : str;
  v_path : list (list N); v_query : option (list N); v_fragment : option (list N) }.
Inductive views (S : Spec) (i : str) : view -> Prop :=
| views_intro : forall C s u h o l, dissects S i C u h o -> c_s C = Some s -> path_segments (c_p C) l ->
    views S i (mkV (map lower s) (option_map decoded u) (map lower (decoded h)) (match o with Some x => x | None => [] end)
                   (map decoded l) (option_map decoded (c_q C)) (option_map decoded (c_f C))).

(** Walking along decoded segments: "." stays, ".." goes up (but not above the root); if one of these is the
    last segment, what is reached is a directory: its path ends in an empty segment. *)
Section Visit.
Context {A : Type} (dot dotdot : A -> bool) (empty : A).
Fixpoint visit (out l : list A) : list A :=
  match l with
  | [] => out
  | x :: r =>
      if dot x then visit (match r with [] => out ++ [empty] | _ => out end) r
      else if dotdot x then visit (match r with [] => removelast out ++ [empty] | _ => removelast out end) r
      else visit (out ++ [x]) r
  end.
End Visit.
Definition walked (l : list (list N)) : list (list N) := visit (seqb (lit ".")) (seqb (lit "..")) [] [] l.

Definition moved_to (V : view) (l : list (list N)) : view :=
  mkV (v_scheme V) (v_userinfo V) (v_host V) (v_port V) l (v_query V) (v_fragment V).
(** Resolving a reference that consists of a path with the segments [l] ([rooted]: it begins with "/"),
    a query and a fragment. *)
Definition step_to (V : view) (rooted : bool) (l : list (list N)) (q f : option (list N)) : view :=
  mkV (v_scheme V) (v_userinfo V) (v_host V) (v_port V)
      (walked (if rooted then l else removelast (v_path V) ++ l)) q f.
(** Resolving a reference that has neither an authority nor a path. *)
Definition same_place (V : view) (q f : option (list N)) : view :=
  mkV (v_scheme V) (v_userinfo V) (v_host V) (v_port V) (v_path V) (match q with Some x => Some x | None => v_query V end) f.
