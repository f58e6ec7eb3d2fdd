(** * Specification for C74: the fragments of a percent-decodable byte string, one at a time. *)
From Verif Require Import Base Chars Rfc3986 PctSpec MTrusted MEncode MTemplate TemplateSpec.

(** [item b f rest]: [b] begins with the fragment [f], after which [rest] remains. *)
Inductive item : list N -> DecodedFragment -> list N -> Prop :=
| item_direct : forall x rest, x <> [] -> ~ In 37 x -> (rest = [] \/ exists r, rest = 37 :: r) ->
    item (x ++ rest) (Direct x) rest
| item_byte : forall u l rest, HEXDIG u = true -> HEXDIG l = true ->
    item (37 :: u :: l :: rest) (DecodedByte (16 * hex_value u + hex_value l)) rest
| item_stray : forall rest, (forall u l r, rest = u :: l :: r -> HEXDIG u && HEXDIG l = false) ->
    item (37 :: rest) StrayPercent rest.
(** [items b fs rest]: the fragments [fs] one after another. *)
Inductive items : list N -> list DecodedFragment -> list N -> Prop :=
| items_nil : forall b, items b [] b
| items_cons : forall b f b' fs rest, item b f b' -> items b' fs rest -> items b (f :: fs) rest.
(** The bytes a fragment stands for. *)
Definition fragment_bytes (f : DecodedFragment) : list N :=
  match f with Direct x => x | DecodedByte d => [d] | StrayPercent => [37] end.
(** [n] calls of [next] on an iterator with [not_yet_decoded() = b]: the answers and what
    [not_yet_decoded()] is afterwards. *)
Fixpoint next_calls (n : nat) (b : list N) : may (list (option DecodedFragment) * list N) :=
  match n with
  | O => Ok ([], b)
  | S n => do r <- fragments_next b ;
      match r with
      | None => do (xs, rest) <- next_calls n b ; Ok (None :: xs, rest)
      | Some (f, b') => do (xs, rest) <- next_calls n b' ; Ok (Some f :: xs, rest)
      end
  end.
(** A triplet lies across the boundary of [a] and [c]. *)
Definition straddles (a c : list N) : Prop :=
  (exists a' u l r, a = a' ++ [37] /\ c = u :: l :: r /\ HEXDIG u = true /\ HEXDIG l = true) \/
  (exists a' u l r, a = a' ++ [37; u] /\ c = l :: r /\ HEXDIG u = true /\ HEXDIG l = true).

(** [n] calls of [next] on an iterator of the variables of a template. *)
Fixpoint variable_calls (n : nat) (debug : bool) (it : VariablesIter) : may (list (option str) * VariablesIter) :=
  match n with
  | O => Ok ([], it)
  | S n => do (v, it) <- variables_next debug it ; do (vs, it) <- variable_calls n debug it ; Ok (v :: vs, it)
  end.
(** The variables of a part of a template, with their modifiers. *)
Definition varspecs (p : part) : list rspec := match p with Lit _ => [] | Expr _ rs => rs end.
