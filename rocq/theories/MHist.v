(** * A program that applies a list of API calls to one owned string. *)
From Verif Require Import Base Chars RfcResolve MValidate MTrusted MFormat MWriters MPct MPath MNormalize MEdit HistSpec.

(** One call: MEdit.v, MNormalize.v (src/types/generic/{absolute,normal,reference,relative}.rs,
    src/mask_password.rs:195-220, src/normalize.rs). *)
Definition apply_edit (debug : bool) (S : Spec) (t : ty) (e : edit) (i : str) : may str :=
  match e with
  | ESetFragment f => set_fragment debug S t i f
  | EClearPassword => remove_nonempty_password_inline debug S t i
  | EMask => match mask_to_dedicated_string debug true S t i with Ok x => Ok x | _ => Panic end
  | ERemovePassword => remove_password_inline debug S t i
  | EReplaceHost h only => do (_, s) <- replace_host debug true S t i h only ; Ok s
  | ENormalize keep => do n <- (if keep then normalize_preserve i else normalize i) ; to_dedicated_string debug S t n
  end.
(** The calls one after the other (the caller's own code, not part of the crate). *)
Fixpoint apply_edits (debug : bool) (S : Spec) (t : ty) (es : list edit) (i : str) : may str :=
  match es with
  | [] => Ok i
  | e :: r => do j <- apply_edit debug S t e i ; apply_edits debug S t r j
  end.
(** The calls that the type has, without the wrong debug assertion (F6). *)
Definition allowed (debug : bool) (t : ty) (C : comps) (e : edit) : Prop :=
  match e with
  | ESetFragment _ => fragmentable t = true
  | EReplaceHost _ _ => debug = false \/ t <> TIri \/ c_f C = None \/ c_f C = Some []
  | ENormalize _ => t = TIri \/ t = TAbsolute
  | _ => True
  end.
Inductive history (debug : bool) (S : Spec) (t : ty) : comps -> list edit -> comps -> Prop :=
| h_nil : forall C, history debug S t C [] C
| h_cons : forall C e C1 es C2, allowed debug t C e -> edited S C e C1 -> history debug S t C1 es C2 -> history debug S t C (e :: es) C2.
(** The types that have the method: set_fragment exists for the types with a fragment only
    (src/types/generic/{normal,reference,relative}.rs); normalization is not considered here. *)
Definition callable (t : ty) (e : edit) : Prop := match e with ESetFragment _ => fragmentable t = true | _ => True end.
