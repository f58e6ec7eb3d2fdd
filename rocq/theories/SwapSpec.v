(** * Independent specification: which part of the string an edit concerns, and what remains of a list of
    edits.  Does not mention the code. *)
From Verif Require Import Base Chars Rfc3986 CompSpec RfcResolve NormSpec EditSpec HistSpec.

(** The part an edit concerns; normalization concerns all. *)
Inductive concern := CPassword | CHost | CFragment.
Definition concerns (e : edit) : option concern :=
  match e with
  | ESetFragment _ => Some CFragment
  | EClearPassword | EMask | ERemovePassword => Some CPassword
  | EReplaceHost _ _ => Some CHost
  | ENormalize _ => None
  end.
(** The edit is defined on these components: the fragment is one, and there is no userinfo without ":" to
    remove a password from (F5 in DESIGN.md). *)
Definition possible (S : Spec) (C : comps) (e : edit) : Prop :=
  match e with
  | ESetFragment f => opt_in (fragment S) f
  | ERemovePassword => forall u h o, parts S C (Some u) h o -> In 58 u
  | ENormalize _ => False
  | _ => True
  end.
(** Edits that leave nothing of earlier edits of the same part. *)
Definition overriding (S : Spec) (e : edit) : Prop :=
  match e with
  | ESetFragment f => opt_in (fragment S) f
  | EClearPassword | EMask => True
  | EReplaceHost h only => only = false /\ host S h
  | _ => False
  end.
Fixpoint last_fragment (es : list edit) : option (option str) :=
  match es with
  | [] => None
  | e :: r => match last_fragment r with
              | Some f => Some f
              | None => match e with ESetFragment f => Some f | _ => None end
              end
  end.
Fixpoint last_host (es : list edit) : option str :=
  match es with
  | [] => None
  | e :: r => match last_host r with
              | Some h => Some h
              | None => match e with EReplaceHost h _ => Some h | _ => None end
              end
  end.
Definition clears (es : list edit) : Prop := In EClearPassword es \/ In EMask es.
(** What is left of a list of such edits: at most one edit of each part. *)
Definition summary (es rest : list edit) : Prop :=
  exists c h f, rest = c ++ h ++ f /\
    ((clears es /\ c = [EClearPassword]) \/ (~ clears es /\ c = [])) /\
    h = match last_host es with Some g => [EReplaceHost g false] | None => [] end /\
    f = match last_fragment es with Some g => [ESetFragment g] | None => [] end.
