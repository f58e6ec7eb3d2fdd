(** * Proofs for C79: the statements of C20, C21, C27-C30 and C37 for the byte-level program. *)
From Verif Require Import Base Chars Rfc3986 Utf8 PctSpec EncodeSpec SearchSpec MValidate MFormat MSearch MEncode MTemplate MMaybePct MExpand MOffset MBytes MBytes2
  TemplateSpec TmplErrSpec ExpandSpec ReservedSpec POffset PBytes2 PEncode PEncode2 PTmpl1 PTmpl2 PTmpl3 PTmpl4 PExp6 PExp7 PExp8 PExp9 PExp10 PExp11 PReserved1 PReserved5 PReserved6.
Section M.
Context (m : option memchr_crate) (Hm : sound m).
Lemma b_decoding b :
  (exists fs, b_bytes_fragments m b = Ok fs /\ flat_map (fun f => match f with Direct x => x | DecodedByte d => [d] | StrayPercent => [37] end) fs = percent_decode b) /\
  (~ has_triplet b -> b_to_bytes m b = Ok (Some b) /\ percent_decode b = b) /\ (has_triplet b -> b_to_bytes m b = Ok None) /\
  (exists out, b_into_bytes m b = Ok out /\ (out = percent_decode b <-> ~ has_triplet b \/ ~ has_stray b)).
Proof using Hm. rewrite (fragments_eq m Hm), (to_bytes_eq m Hm), (into_bytes_eq m Hm). split; [apply bytes_fragments_ok|]. split; [apply to_bytes_ok|]. split; [apply to_bytes_ok|apply into_bytes_exact]. Qed.
Lemma b_mapped s : all_scalar s = true -> text (b_MappedToUri s) = Ok (to_uri s).
Proof. rewrite mapped_eq. apply mapped_text. Qed.
Lemma b_template s : (b_template_new m s = Ok s <-> crate_template s) /\
  (b_template_new m s = Panic <-> exists T r, Forall crate_part T /\ s = template_text T ++ 37 :: r /\ cut r) /\
  (forall e, b_template_new m s = Err e <-> exists k n, template_fault s k n /\ e = mkTE (kind k) n) /\
  (forall t, b_template_new m s = Ok t -> t = s).
Proof using Hm. rewrite (template_new_eq m Hm). split; [apply accepts|]. split; [apply panics|]. split; [intros e; apply errors|intros t; apply new_id]. Qed.
Lemma b_varname s : (crate_varname s /\ b_VarName_new s = Ok s) \/ (~ crate_varname s /\ b_VarName_new s = Err (mkTE InvalidExpression 0)).
Proof. rewrite varname_new_eq. apply varname_exact. Qed.
Lemma b_variables debug T : Forall crate_part T ->
  (Forall small_part T -> b_template_variables m debug (template_text T) = Ok (template_names T)) /\
  (b_template_variables m debug (template_text T) = Panic <-> ~ Forall small_part T).
Proof using Hm. intros H. rewrite (PBytes2.variables_eq m Hm). split; [exact (fun H2 => variables_ok debug T (proj2 (usable_parts T) (conj H H2)))|now apply variables_panic]. Qed.
Lemma b_expansion S debug ctx env T : supplies_env ctx env -> usable T ->
  (fine env T -> b_expand_to_string m S debug ctx (template_text T) = match written_template S debug ctx env T with Some s => Ok s | None => Panic end) /\
  (b_expand_to_string m S debug ctx (template_text T) = Panic <-> fine env T /\ written_template S debug ctx env T = None).
Proof using Hm. intros H U. rewrite (expand_eq m Hm). split; [now apply written_exact|now apply written_panics]. Qed.
End M.
