(** * C48: the URI of an IRI has the same normal form. *)
From Verif Require Import Base Chars Rfc3986 Utf8 CompSpec PctSpec RfcResolve NormSpec EncodeSpec RoundSpec MValidate MTrusted MFormat MPct MPath MNormalize PRound.
Open Scope string_scope. Open Scope N_scope. Open Scope list_scope.

(** Normalizing the URI [to_uri i] (as an IRI) gives the normal form of [i], exactly if [i] has no
    private use characters. *)
Theorem C48_round_trip : forall (keep : bool) i, IRI IriSpec i -> exists n m out out',
  (if keep then normalize_preserve i else normalize i) = Ok n /\ display IriSpec n = Ok out /\
  (if keep then normalize_preserve (to_uri i) else normalize (to_uri i)) = Ok m /\ display IriSpec m = Ok out' /\
  (out = out' <-> no_private i).
Proof. exact round_trip. Qed.
Print Assumptions C48_round_trip.
(** So two IRIs that are mapped to the same URI have the same normal form. *)
Theorem C48_same_uri : forall (keep : bool) i j, IRI IriSpec i -> IRI IriSpec j -> no_private i -> no_private j -> to_uri i = to_uri j ->
  exists n m out,
  (if keep then normalize_preserve i else normalize i) = Ok n /\ display IriSpec n = Ok out /\
  (if keep then normalize_preserve j else normalize j) = Ok m /\ display IriSpec m = Ok out.
Proof. exact same_uri. Qed.
Print Assumptions C48_same_uri.
Example C48_ex :
  let norm i := do n <- normalize i ; display IriSpec n in
  let i := lit "HTTP://u" ++ [233] ++ lit "@EXAMPLE.com/%c3%a9/" ++ [945] ++ lit "%7e?" ++ [8364] ++ lit "#" ++ [128512] in
  new IriSpec TIri i = Ok i /\ forallb (fun c => negb (iprivate c)) i = true /\
  to_uri i = lit "HTTP://u%C3%A9@EXAMPLE.com/%c3%a9/%CE%B1%7e?%E2%82%AC#%F0%9F%98%80" /\
  norm i = Ok (lit "http://u" ++ [233] ++ lit "@example.com/" ++ [233] ++ lit "/" ++ [945] ++ lit "~?" ++ [8364] ++ lit "#" ++ [128512]) /\ norm (to_uri i) = norm i.
Proof. vm_compute. auto. Qed.
(** With a private use character the normal forms differ. *)
Example C48_private :
  let norm i := do n <- normalize i ; display IriSpec n in
  let i := lit "http://a/?" ++ [57344] in
  new IriSpec TIri i = Ok i /\ norm i = Ok i /\ to_uri i = lit "http://a/?%EE%80%80" /\ norm (to_uri i) = Ok (to_uri i).
Proof. vm_compute. auto. Qed.
