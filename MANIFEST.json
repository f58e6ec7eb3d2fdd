{
 "claims": [
  {
   "property": "C01",
   "status": "proved",
   "theorems": [
    "C01_iri_exact",
    "C01_reference_exact",
    "C01_relative_exact"
   ],
   "note": ""
  },
  {
   "property": "C02",
   "status": "partial",
   "theorems": [
    "C02_absolute_refuted",
    "C02_absolute_exact_partial"
   ],
   "note": "Full statement refuted (an empty fragment is accepted, e.g. foo:#); the exact language accepted is proved."
  },
  {
   "property": "C03",
   "status": "proved",
   "theorems": [
    "C03_port",
    "C03_scheme",
    "C03_authority",
    "C03_userinfo",
    "C03_host",
    "C03_reg_name",
    "C03_query",
    "C03_fragment",
    "C03_path",
    "C03_path_segment"
   ],
   "note": ""
  },
  {
   "property": "C04",
   "status": "proved",
   "theorems": [
    "C04_bracketed",
    "C04_ipv6",
    "C04_ipv4",
    "C04_dec_octet_value"
   ],
   "note": ""
  },
  {
   "property": "C05",
   "status": "proved",
   "theorems": [
    "C05_uri_is_iri",
    "C05_iri_to_uri",
    "C05_grammar"
   ],
   "note": ""
  },
  {
   "property": "C06",
   "status": "proved",
   "theorems": [
    "C06_into_iri",
    "C06_hierarchy",
    "C06_exclusive",
    "C06_to_iri",
    "C06_to_relative_iri"
   ],
   "note": ""
  },
  {
   "property": "C07",
   "status": "proved",
   "theorems": [
    "C07_lossless_unique",
    "C07_recompose_valid"
   ],
   "note": ""
  },
  {
   "property": "C08",
   "status": "partial",
   "theorems": [
    "C08_accessors",
    "C08_accessors_absolute_partial",
    "C08_absolute_query_refuted",
    "C08_resolver",
    "C08_absolute_exact"
   ],
   "note": "All accessors proved for RiStr/RiReferenceStr/RiRelativeStr/FixedBaseResolver; RiAbsoluteStr::query proved on the RFC absolute-IRI language and refuted on the extra strings of C02. C08_absolute_exact gives every accessor of RiAbsoluteStr on those extra strings."
  },
  {
   "property": "C09",
   "status": "proved",
   "theorems": [
    "C09_authority",
    "C09_unique",
    "C09_of_reference"
   ],
   "note": ""
  },
  {
   "property": "C10",
   "status": "proved",
   "theorems": [
    "C10_resolution",
    "C10_applies",
    "C10_resolution_letter"
   ],
   "note": ""
  },
  {
   "property": "C11",
   "status": "proved",
   "theorems": [
    "C11_output_valid",
    "C11_and_normalize",
    "C11_and_normalize_preserving"
   ],
   "note": ""
  },
  {
   "property": "C12",
   "status": "proved",
   "theorems": [
    "C12_exists_unique",
    "C12_single_path",
    "C12_single_path_authority",
    "C12_two_paths",
    "C12_no_dot_segments",
    "C12_idempotent",
    "C12_literal"
   ],
   "note": ""
  },
  {
   "property": "C13",
   "status": "proved",
   "theorems": [
    "C13_unambiguous",
    "C13_unambiguous_normalize"
   ],
   "note": ""
  },
  {
   "property": "C14",
   "status": "partial",
   "theorems": [
    "C14_and_normalize_exact",
    "C14_resolve",
    "C14_normalize",
    "C14_and_normalize_refuted",
    "C14_and_normalize_partial",
    "C14_doc_refuted"
   ],
   "note": "Exact for resolution and for normalization; for resolution followed by and_normalize() refuted when the reference has no scheme, authority and path (base foo:/..//bar, empty reference), exact otherwise. Two claims of the module documentation are refuted. C14_and_normalize_exact covers every reference: the check answers for the target before normalization."
  },
  {
   "property": "C15",
   "status": "proved",
   "theorems": [
    "C15_components",
    "C15_valid",
    "C15_valid_absolute"
   ],
   "note": ""
  },
  {
   "property": "C16",
   "status": "proved",
   "theorems": [
    "C16_idempotent",
    "C16_resolve_then_normalize",
    "C16_resolve_preserve_refuted"
   ],
   "note": "Idempotence proved in both modes; also resolve().and_normalize() = normalize of the resolved IRI. The analogous claim for the preserving mode (not part of C16) is refuted."
  },
  {
   "property": "C17",
   "status": "partial",
   "theorems": [
    "C17_empty_port_exact",
    "C17_refuted",
    "C17_fixpoint_partial",
    "C17_complete"
   ],
   "note": "Refuted for authorities ending in ':' (empty port); exact for all other IRIs in the three modes; the direction 'fixpoint implies is_normalized' holds for all IRIs. C17_empty_port_exact: such an IRI is judged like the IRI without the empty port."
  },
  {
   "property": "C18",
   "status": "proved",
   "theorems": [
    "C18_exact",
    "C18_same_bytes",
    "C18_idempotent",
    "C18_grammar",
    "C18_is_normalized",
    "C18_host",
    "C18_applies"
   ],
   "note": ""
  },
  {
   "property": "C19",
   "status": "proved",
   "theorems": [
    "C19_reg_name",
    "C19_user_or_password",
    "C19_path_segment",
    "C19_path",
    "C19_query",
    "C19_fragment",
    "C19_unreserve",
    "C19_character"
   ],
   "note": "All eight contexts, every chunking of the raw value."
  },
  {
   "property": "C20",
   "status": "partial",
   "theorems": [
    "C20_fragments",
    "C20_to_bytes",
    "C20_into_bytes_partial",
    "C20_into_bytes_exact",
    "C20_into_bytes_refuted",
    "C20_into_string"
   ],
   "note": "bytes_fragments, to_bytes and into_string proved; into_bytes is wrong exactly when a stray '%' and a triplet both occur (C20_into_bytes_exact, C20_into_bytes_refuted): a defect of the code (F4)."
  },
  {
   "property": "C21",
   "status": "proved",
   "theorems": [
    "C21_display",
    "C21_dedicated",
    "C21_components",
    "C21_denotes",
    "C21_ascii",
    "C21_inline",
    "C21_inline_alloc_failure",
    "C21_encode_into",
    "C21_encode_into_alloc_failure",
    "C21_try_into_uri"
   ],
   "note": "Streaming, in-place and consuming conversions of all six types, including allocation failure."
  },
  {
   "property": "C22",
   "status": "partial",
   "theorems": [
    "C22_cases",
    "C22_mask",
    "C22_mask_nothing",
    "C22_reveals_nothing",
    "C22_replace",
    "C22_replace_nothing_partial",
    "C22_replace_nothing_refuted",
    "C22_mask_alloc_failure",
    "C22_replace_nothing_exact"
   ],
   "note": "Masking (Display, Debug, to_dedicated_string) and replacement proved for all references; C22_replace_nothing_refuted: replace_password with userinfo lacking ':' inserts text (finding F5). C22_replace_nothing_exact says what is displayed in that case. Formatting options: C44."
  },
  {
   "property": "C23",
   "status": "partial",
   "theorems": [
    "C23_remove_partial",
    "C23_remove_nothing_partial",
    "C23_remove_refuted",
    "C23_remove_nonempty",
    "C23_remove_nonempty_nothing",
    "C23_remove_exact",
    "C23_remove_empty_exact"
   ],
   "note": "Proved for userinfo with ':' and for no userinfo; C23_remove_refuted shows remove_password_inline damages strings whose userinfo has no ':' (finding F5). remove_nonempty_password_inline proved completely. C23_remove_exact and C23_remove_empty_exact give the result for every userinfo without \":\"."
  },
  {
   "property": "C24",
   "status": "proved",
   "theorems": [
    "C24_set_fragment",
    "C24_absolute",
    "C24_from_prefixed"
   ],
   "note": "All fragment/absolute operations on borrowed and owned strings."
  },
  {
   "property": "C25",
   "status": "partial",
   "theorems": [
    "C25_accepts",
    "C25_only_partial",
    "C25_total",
    "C25_refuted",
    "C25_normalize_partial",
    "C25_normalize_only_partial",
    "C25_normalize_collapsing",
    "C25_normalize_refuted",
    "C25_from",
    "C25_setters",
    "C25_latest_unique",
    "C25_port_text",
    "C25_ip_text",
    "C25_exact",
    "C25_normalize_exact"
   ],
   "note": "Acceptance and exact read-back for every representable request, with and without normalization (excepting F7), the converse for paths made of path characters, totality, round trip From, setter histories (latest call wins), port/IP texts. Missing because false in the code: the builder never validates path characters (F8, C25_refuted) and a normalizing builder without scheme and authority leaves an absolute path that collapses to \"/\" unnormalized (F7, C25_normalize_refuted, exact behaviour in C25_normalize_collapsing). C25_exact and C25_normalize_exact give the accepted requests and their texts for paths of arbitrary characters (with normalization: well-formed percent-encoding)."
  },
  {
   "property": "C26",
   "status": "partial",
   "theorems": [
    "C26_agrees_partial",
    "C26_refuted",
    "C26_ensure"
   ],
   "note": "Agreement proved for every representable request with a scheme, and ensure_rfc3986_normalizable characterised. False in the code for a path with a stray % (F8, C26_refuted)."
  },
  {
   "property": "C27",
   "status": "partial",
   "theorems": [
    "C27_message",
    "C27_accepts_partial",
    "C27_id",
    "C27_rfc_partial",
    "C27_panics",
    "C27_error",
    "C27_location",
    "C27_varname",
    "C27_refuted"
   ],
   "note": "The accepted language and the panicking inputs are characterised exactly (C27_accepts_partial, C27_panics); equality with RFC 6570 is false in the code (C27_refuted: trailing/double dots in names, max-length 0 / leading zeros / five digits accepted, non-ASCII literals rejected, panic on '%' before a multi-byte character)."
  },
  {
   "property": "C28",
   "status": "partial",
   "theorems": [
    "C28_every_value",
    "C28_utf8_error",
    "C28_expands_partial",
    "C28_rfc_partial",
    "C28_simple",
    "C28_plain",
    "C28_open",
    "C28_type_error",
    "C28_refuted"
   ],
   "note": "C28_every_value: for every usable template, every value and every chunking, with all operators and modifiers, the output (or the panic) is exactly the one of a specification automaton (ReservedSpec.v). Earlier theorems: simple templates; templates without + and # (C28_open); all templates under tame; equality with RFC 6570 where regular. Status partial only because the code departs from the RFC: C28_refuted gives five departures. Type errors exact for every value."
  },
  {
   "property": "C29",
   "status": "partial",
   "theorems": [
    "C29_every_value",
    "C29_total_partial",
    "C29_release",
    "C29_exact",
    "C29_max_length",
    "C29_refuted"
   ],
   "note": "C29_every_value: for every usable template and every value in every chunking, exactly when an expansion panics. Also: none under tame; none in release builds without + and # (C29_release); exact for SimpleContext values without \"%\" (C29_exact); exactly the templates with a max-length over 65535 make expand itself panic (C29_max_length). Status partial because the property is false in the code (C29_refuted: four panicking families)."
  },
  {
   "property": "C30",
   "status": "partial",
   "theorems": [
    "C30_calls",
    "C30_variables_partial",
    "C30_panics",
    "C30_refuted"
   ],
   "note": "Exact for every accepted template whose max-lengths fit 16 bits; the iterator panics exactly for the other ones (C30_panics, C30_refuted). C30_calls: any number of calls of next(), each of which panics only if it comes to such a max-length."
  },
  {
   "property": "C31",
   "status": "proved",
   "theorems": [
    "C31_get",
    "C31_insert",
    "C31_visit",
    "C31_current"
   ],
   "note": "All histories of insert and clear."
  },
  {
   "property": "C32",
   "status": "proved",
   "theorems": [
    "C32_write_to_slice_fits",
    "C32_write_to_slice_overflow",
    "C32_append",
    "C32_append_alloc_failure",
    "C32_to_string",
    "C32_to_string_alloc_failure",
    "C32_eq_str_display"
   ],
   "note": "write_to_slice (fits / overflow, with the buffer contents), try_append_to_string and try_to_string (with arbitrary allocation failures) and eq_str_display for every Display that returns Ok, in any chunking."
  },
  {
   "property": "C33",
   "status": "proved",
   "theorems": [
    "C33_find_split",
    "C33_find_split2",
    "C33_rfind_split2",
    "C33_find_split3",
    "C33_find_split_hole",
    "C33_find_split_hole_bytes",
    "C33_find_split2_hole",
    "C33_find_split4_hole",
    "C33_rfind_split_hole",
    "C33_prior_byte2",
    "C33_rfind",
    "C33_first_meaning",
    "C33_last_meaning"
   ],
   "note": "All eleven helpers, for every memchr implementation meeting the crate's documented contract and every ASCII needle; the byte-level helpers equal the character-level ones used in the rest of the model."
  },
  {
   "property": "C34",
   "status": "partial",
   "theorems": [
    "C34_replace_partial",
    "C34_unchanged_partial",
    "C34_refuted",
    "C34_panics_exact"
   ],
   "note": "Proved except for the debug-assertion panic of RiString on IRIs with a non-empty fragment, refuted by C34_refuted (finding F6). C34_panics_exact: it panics on all of these, so the behaviour is known for every input."
  },
  {
   "property": "C35",
   "status": "partial",
   "theorems": [
    "C35_again_exact",
    "C35_scheme_ignores_base",
    "C35_fragment_only",
    "C35_query_only",
    "C35_base_fragment_irrelevant",
    "C35_again_partial",
    "C35_again_refuted"
   ],
   "note": "All laws proved; re-resolution is refuted for references without scheme, authority and path (as in the RFC itself). C35_again_exact gives the result for those."
  },
  {
   "property": "C36",
   "status": "proved",
   "theorems": [
    "C36_replace"
   ],
   "note": "Substitution of any one component (scheme, userinfo, host, port, path, query, fragment)."
  },
  {
   "property": "C37",
   "status": "proved",
   "theorems": [
    "C37_stops",
    "C37_writer",
    "C37_no_write_error",
    "C37_same",
    "C37_type_error_found",
    "C37_callbacks",
    "C37_agrees",
    "C37_type_error"
   ],
   "note": "Callbacks for every dynamic context and every writer; agreement with expand for contexts that do not change."
  },
  {
   "property": "C38",
   "status": "proved",
   "theorems": [
    "C38_bytes",
    "C38_bytes_error",
    "C38_string",
    "C38_upcast",
    "C38_downcast",
    "C38_template_bytes",
    "C38_template_string"
   ],
   "note": "All six IRI types and both template types."
  },
  {
   "property": "C39",
   "status": "proved",
   "theorems": [
    "C39_order",
    "C39_hash"
   ],
   "note": "The bytewise comparison that core performs equals the order by characters."
  },
  {
   "property": "C40",
   "status": "proved",
   "theorems": [
    "C40_cut_total",
    "C40_cut_unique",
    "C40_iri",
    "C40_absolute",
    "C40_reference",
    "C40_relative",
    "C40_query",
    "C40_fragment",
    "C40_authority",
    "C40_components",
    "C40_unique"
   ],
   "note": "Stated on the texts users see. Every string has exactly one cut into components (C40_cut_total, C40_cut_unique), so the specification is a function of the string."
  },
  {
   "property": "C41",
   "status": "proved",
   "theorems": [
    "C41_append",
    "C41_variables",
    "C41_expand",
    "C41_type_error"
   ],
   "note": "No condition on the context. If max-lengths over 65535 make a part panic, the whole panics too (the equations include that outcome)."
  },
  {
   "property": "C42",
   "status": "proved",
   "theorems": [
    "C42_characters",
    "C42_expression",
    "C42_try_from"
   ],
   "note": "Any chunking, also for values that fail to be displayed and for expansions that panic (what has been written until then)."
  },
  {
   "property": "C43",
   "status": "proved",
   "theorems": [
    "C43_userinfo",
    "C43_builder",
    "C43_built",
    "C43_from"
   ],
   "note": "A Debug implementation is modelled as the tree of its debug_struct/debug_tuple calls; std's escaping of strings is a parameter."
  },
  {
   "property": "C44",
   "status": "partial",
   "theorems": [
    "C44_default",
    "C44_built_partial",
    "C44_built_refuted",
    "C44_built_other_refuted",
    "C44_built_exact",
    "C44_built_exact_v4",
    "C44_mask_exact",
    "C44_mask_exact_user",
    "C44_mask_refuted",
    "C44_mask_hides",
    "C44_replace",
    "C44_pad"
   ],
   "note": "Refuted for built references and masked passwords (F14); the exact text with options is proved (C44_built_exact, C44_built_exact_v4, C44_mask_exact, C44_mask_exact_user), and that no options reveal the password (C44_mask_hides)."
  },
  {
   "property": "C45",
   "status": "proved",
   "theorems": [
    "C45_resolve",
    "C45_normalize",
    "C45_resolve_normalize"
   ],
   "note": "to_uri is the code's mapping (C21). Resolution, normalization in both modes, and resolution followed by normalization."
  },
  {
   "property": "C46",
   "status": "proved",
   "theorems": [
    "C46_decides",
    "C46_applies",
    "C46_text",
    "C46_sound"
   ],
   "note": "Equivalence is the closure of single spelling changes, given in EquivSpec.v without reference to the code."
  },
  {
   "property": "C47",
   "status": "partial",
   "theorems": [
    "C47_owned",
    "C47_owned_error",
    "C47_borrowed",
    "C47_borrowed_error",
    "C47_no_panic",
    "C47_template",
    "C47_template_error",
    "C47_template_panics",
    "C47_template_refuted",
    "C47_template_borrowed",
    "C47_roundtrip"
   ],
   "note": "IRI types: fully proved. Templates: refuted only in that the constructor's panic (F9) is reached by deserializing untrusted text; exactly when is proved (C47_template_panics)."
  },
  {
   "property": "C48",
   "status": "proved",
   "theorems": [
    "C48_round_trip",
    "C48_same_uri"
   ],
   "note": "to_uri is the code's mapping (C21). Both directions of the exactly-if are in C48_round_trip."
  },
  {
   "property": "C49",
   "status": "proved",
   "theorems": [
    "C49_mask_normalize",
    "C49_replace_normalize",
    "C49_remove_normalize",
    "C49_fragment_normalize",
    "C49_mask_uri",
    "C49_remove_uri",
    "C49_fragment_uri",
    "C49_host_normalize",
    "C49_host_uri"
   ],
   "note": "Each statement gives both chains of operations and the common result; removal and replacement assume the IRI has a password (without one see C24). Replacing the host by a host commutes except that in debug builds an IRI with a fragment panics (F6, excluded by hypothesis); replace_host_reg_name does not commute, since a host may become an IP address by normalization (Example C49_reg_name)."
  },
  {
   "property": "C50",
   "status": "proved",
   "theorems": [
    "C50_base_normal",
    "C50_dir",
    "C50_every_base",
    "C50_opaque"
   ],
   "note": "The condition on the last base path segment is in the statement; C50_needed is a pair for which it fails."
  },
  {
   "property": "C51",
   "status": "proved",
   "theorems": [
    "C51_round_trip",
    "C51_injective",
    "C51_normalized",
    "C51_to_uri",
    "C51_reference"
   ],
   "note": "All contexts, chunkings and specs; the decoder's defect F4 needs a stray % and so never concerns valid references."
  },
  {
   "property": "C52",
   "status": "proved",
   "theorems": [
    "C52_read_back",
    "C52_injective"
   ],
   "note": "Hypotheses: no + and #, no prefix modifier; names without triplets for named operators (F11); values without '.' for the operator '.', which does not encode it (Example C52_dot)."
  },
  {
   "property": "C53",
   "status": "proved",
   "theorems": [
    "C53_local",
    "C53_insert"
   ],
   "note": "Equality of the whole expansion (chunks, errors, panics)."
  },
  {
   "property": "C54",
   "status": "proved",
   "theorems": [
    "C54_values",
    "C54_exact"
   ],
   "note": "C54_values: simple sufficient condition on the literal IRI; C54_exact: for any literal IRI the reading is as described exactly if the tail attaches."
  },
  {
   "property": "C55",
   "status": "proved",
   "theorems": [
    "C55_reference",
    "C55_both"
   ],
   "note": "Dot segments of a reference with neither scheme nor authority nor leading slash are significant, hence equivalent S true there; bases as in C50."
  },
  {
   "property": "C56",
   "status": "proved",
   "theorems": [
    "C56_encodes",
    "C56_round_trip",
    "C56_injective"
   ],
   "note": "IRIs with an authority, built without normalization (the default)."
  },
  {
   "property": "C57",
   "status": "proved",
   "theorems": [
    "C57_encoded_normal"
   ],
   "note": "In PropDecode.v."
  },
  {
   "property": "C58",
   "status": "proved",
   "theorems": [
    "C58_expand"
   ],
   "note": "Every ending (text, type error, panic) is related."
  },
  {
   "property": "C59",
   "status": "proved",
   "theorems": [
    "C59_mask",
    "C59_fragment",
    "C59_remove",
    "C59_replace",
    "C59_host"
   ],
   "note": "remove/replace/host need a password (F5) and, in debug builds, no fragment (F6)."
  },
  {
   "property": "C60",
   "status": "proved",
   "theorems": [
    "C60_normalize",
    "C60_resolve",
    "C60_mask",
    "C60_encode",
    "C60_to_uri"
   ],
   "note": "Sizes in UTF-8 bytes."
  },
  {
   "property": "C61",
   "status": "proved",
   "theorems": [
    "C61_steps",
    "C61_composition",
    "C61_composition_exists"
   ],
   "note": "A second reference with neither path nor query keeps the query, hence the side condition."
  },
  {
   "property": "C62",
   "status": "proved",
   "theorems": [
    "C62_history",
    "C62_defined",
    "C62_unique"
   ],
   "note": "F5: removing a password from userinfo without ':' is excluded; F6: replace_host in debug builds on an IRI with a fragment is excluded. Both are characterised exactly in C23 and C34."
  },
  {
   "property": "C63",
   "status": "proved",
   "theorems": [
    "C63_panics_exact",
    "C63_release"
   ],
   "note": "An equivalence: a call panics exactly when it is in the list of exceptions (findings F1, F5, F6)."
  },
  {
   "property": "C64",
   "status": "partial",
   "theorems": [
    "C64_debug",
    "C64_release_partial",
    "C64_damaging_refuted",
    "C64_call"
   ],
   "note": "C64_debug is unrestricted. Without debug assertions F1 (query of an absolute IRI with empty fragment), F5 (remove_password_inline without ':') and F8 (builder path characters) break it; C64_damaging_refuted shows that each listed call really does."
  },
  {
   "property": "C65",
   "status": "proved",
   "theorems": [
    "C65_same_origin",
    "C65_below",
    "C65_confined",
    "C65_confined_normalized",
    "C65_applies",
    "C65_normalize"
   ],
   "note": "C65_same_origin, C65_below (k = 0), C65_confined, C65_confined_normalized; C65_leaves shows that the condition on the walk is needed."
  },
  {
   "property": "C66",
   "status": "proved",
   "theorems": [
    "C66_names",
    "C66_encodes",
    "C66_injective",
    "C66_unreserved",
    "C66_template",
    "C66_template_normalized"
   ],
   "note": "C66_names, C66_injective, C66_unreserved, C66_template; C66_parent shows that the exceptions are needed."
  },
  {
   "property": "C67",
   "status": "proved",
   "theorems": [
    "C67_depends",
    "C67_needed"
   ],
   "note": "C67_depends (all modes), C67_needed (converse)."
  },
  {
   "property": "C68",
   "status": "proved",
   "theorems": [
    "C68_commute",
    "C68_summary",
    "C68_summary_exists",
    "C68_own"
   ],
   "note": "C68_commute, C68_summary (lists of any length), C68_own. Removing a password is possible only where there is one to remove (F5)."
  },
  {
   "property": "C69",
   "status": "proved",
   "theorems": [
    "C69_prolonged",
    "C69_exact",
    "C69_accessors",
    "C69_normalized"
   ],
   "note": "C69_prolonged, C69_exact (converse), C69_accessors, C69_normalized."
  },
  {
   "property": "C70",
   "status": "proved",
   "theorems": [
    "C70_never",
    "C70_complete",
    "C70_percent",
    "C70_hash",
    "C70_brackets",
    "C70_joined"
   ],
   "note": "C70_never, C70_complete (converse), C70_percent, C70_hash, C70_brackets, C70_joined."
  },
  {
   "property": "C71",
   "status": "proved",
   "theorems": [
    "C71_forms",
    "C71_exactly",
    "C71_exists"
   ],
   "note": "C71_forms, C71_exactly (which IRIs have a relative form, both directions), C71_exists."
  },
  {
   "property": "C72",
   "status": "proved",
   "theorems": [
    "C72_literals",
    "C72_normalized",
    "C72_reserved"
   ],
   "note": "C72_literals, C72_normalized, C72_reserved."
  },
  {
   "property": "C73",
   "status": "proved",
   "theorems": [
    "C73_interrupted",
    "C73_uninterrupted",
    "C73_masked",
    "C73_replaced",
    "C73_failing_value"
   ],
   "note": "C73_interrupted and C73_uninterrupted for every text (C10, C15, C19, C21, C22, C25 and C28 say that the values of the crate are displayed as texts), C73_masked, C73_replaced, C73_failing_value."
  },
  {
   "property": "C74",
   "status": "proved",
   "theorems": [
    "C74_next",
    "C74_end",
    "C74_all",
    "C74_resume",
    "C74_split"
   ],
   "note": "C74_next, C74_end, C74_all (the fragments are exactly specified), C74_resume, C74_split."
  },
  {
   "property": "C75",
   "status": "proved",
   "theorems": [
    "C75_v4_valid",
    "C75_v6_valid",
    "C75_unique",
    "C75_address",
    "C75_reported",
    "C75_builder",
    "C75_distinct",
    "C75_normalize"
   ],
   "note": "C75_v4_valid, C75_v6_valid, C75_unique, C75_address, C75_reported, C75_builder, C75_distinct, C75_normalize."
  },
  {
   "property": "C76",
   "status": "proved",
   "theorems": [
    "C76_exists",
    "C76_unique",
    "C76_normalize",
    "C76_to_uri",
    "C76_resolve",
    "C76_resolve_empty",
    "C76_resolve_authority",
    "C76_resolve_full"
   ],
   "note": "C76_exists, C76_unique, C76_normalize, C76_to_uri, C76_resolve, C76_resolve_empty, C76_resolve_authority, C76_resolve_full."
  },
  {
   "property": "C77",
   "status": "proved",
   "theorems": [
    "C77_accessors",
    "C77_authority",
    "C77_no_authority",
    "C77_resolve",
    "C77_normalize",
    "C77_absolute_relative",
    "C77_password",
    "C77_host",
    "C77_fragment",
    "C77_percent",
    "C77_host_case",
    "C77_is_normalized"
   ],
   "note": "Byte-offset model (MOffset.v) refines the character-offset model; the other properties thereby hold for byte offsets."
  },
  {
   "property": "C78",
   "status": "proved",
   "theorems": [
    "C78_types",
    "C78_absolute",
    "C78_components",
    "C78_same_errors",
    "C78_reg_name_test"
   ],
   "note": "Byte-level validators equal the character-level ones, so C01-C06 hold for them; the absolute type accepts an empty fragment, as C02 says (F1)."
  },
  {
   "property": "C79",
   "status": "proved",
   "theorems": [
    "C79_decode",
    "C79_to_uri",
    "C79_template",
    "C79_varname",
    "C79_variables",
    "C79_expand",
    "C79_dynamic"
   ],
   "note": "Byte-level functions equal the character-level ones in both search configurations; the defects F4, F9, F10, F12, F13 described by C20, C27-C30 carry over exactly."
  },
  {
   "property": "C80",
   "status": "proved",
   "theorems": [
    "C80_exact",
    "C80_normalize_exact",
    "C80_total",
    "C80_ensure",
    "C80_from",
    "C80_same",
    "C80_from_prefixed"
   ],
   "note": "Byte-level builder equals the character-level one in both search configurations; the defects F7, F8 described by C25, C26 carry over exactly."
  },
  {
   "property": "C81",
   "status": "partial",
   "theorems": [
    "C81_panics_exact",
    "C81_release",
    "C81_debug",
    "C81_careful_partial",
    "C81_damaging_refuted",
    "C81_call",
    "C81_same"
   ],
   "note": "The interface on bytes in both search configurations has exactly the panics of C63 and the invariant of C64. Partial only because the code's release builds violate the property: C81_damaging_refuted shows every damaging call does (F1, F5)."
  },
  {
   "property": "C82",
   "status": "partial",
   "theorems": [
    "C82_call_partial",
    "C82_mask_refuted",
    "C82_limit",
    "C82_build",
    "C82_append",
    "C82_append_limit",
    "C82_program",
    "C82_program_valid"
   ],
   "note": "Partial because the code violates it in one case, characterized exactly: masking a string without userinfo clones it infallibly and aborts (C82_mask_refuted, F15)."
  },
  {
   "property": "C83",
   "status": "partial",
   "theorems": [
    "C83_same",
    "C83_normalize_partial",
    "C83_resolve_partial",
    "C83_normalize_plain",
    "C83_resolve_plain",
    "C83_linear_refuted"
   ],
   "note": "The English claim is false of the code (F16, C83_linear_refuted): a path of n names followed by one dot segment is scanned n/8 times. Proved for all inputs: at most (2*length+1)*(2*ceil(names/8)+3) steps, hence linear for at most eight names (or any fixed number), and at most 3*(2*length+1) steps when there is no dot segment. The counting version is proved to return the results of the model (C83_same). Only the segment scanning is counted, not the writing of the result (whose length is bounded by C60)."
  },
  {
   "property": "C84",
   "status": "proved",
   "theorems": [
    "C84_same",
    "C84_validate",
    "C84_validate_lower",
    "C84_same_parts",
    "C84_parts",
    "C84_same_template",
    "C84_template",
    "C84_same_read",
    "C84_read",
    "C84_same_variables",
    "C84_variables"
   ],
   "note": "Counted: characters looked at by searches, by checks over a string and by patterns at its ends; a search over bytes is counted in characters (at most four bytes each). Not counted: slicing and length, which are constant. The counting functions are proved to return the results of the model (C84_same*). Normalization and resolution are C83, where the bound fails."
  },
  {
   "property": "C85",
   "status": "proved",
   "theorems": [
    "C85_same",
    "C85_check",
    "C85_check_cheaper",
    "C85_same_display",
    "C85_display",
    "C85_same_decode",
    "C85_decode"
   ],
   "note": "Upper bounds: a comparison that stops at the first difference is counted as if it went on to the end. The counting functions are proved to return the results of the model (C85_same*). The last statement combines this with C83_linear_refuted."
  }
 ]
}