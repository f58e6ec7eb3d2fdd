{"id": "C01", "title": "IRI / IRI-reference / relative-reference validation is exactly the RFC grammar", "statement": "`RiStr::new`, `RiReferenceStr::new` and `RiRelativeStr::new` (and validate::iri / iri_reference / relative_ref) accept a string if and only if it is derivable from the RFC 3986 (UriSpec) resp. RFC 3987 (IriSpec) ABNF rule URI, URI-reference, relative-ref (IRI, IRI-reference, irelative-ref), and they never panic.", "quantifier": "every string of Unicode scalar values, for both specs", "why_tests_cant": "Tests sample a few strings; the claim is an equality of two infinite languages/functions. A single accepted invalid string breaks the unsafe new_unchecked conversions everywhere.", "anchors": ["src/parser/validate.rs: validate_uri, validate_uri_reference, validate_relative_ref, validate_uri_reference_common, validate_after_path", "src/parser/validate/path.rs", "src/validate.rs: iri, iri_reference, relative_ref"]}
{"id": "C02", "title": "absolute-IRI validation is exactly the RFC grammar", "statement": "`RiAbsoluteStr::new` (validate::absolute_iri) accepts a string iff it is derivable from absolute-URI / absolute-IRI, i.e. scheme ':' hier-part [ '?' query ] with no '#'.", "quantifier": "every string, for both specs", "why_tests_cant": "Tests sample a few strings; the claim is an equality of two infinite languages/functions.", "anchors": ["src/parser/validate.rs: validate_absolute_uri, validate_after_path:196-211", "src/types/generic/absolute.rs: RiAbsoluteStr::query_str"]}
{"id": "C03", "title": "Component validators are exactly their ABNF rules", "statement": "validate::{scheme, authority, userinfo, host, reg_name, query, fragment, path, path_segment} accept exactly the strings derivable from the corresponding RFC 3986/3987 rule (reg_name: reg-name that is not also an IPv4address).", "quantifier": "every string, both specs", "why_tests_cant": "Tests sample a few strings; the claim is an equality of two infinite languages/functions.", "anchors": ["src/parser/validate.rs: validate_scheme, validate_query, validate_fragment", "src/parser/validate/authority.rs", "src/parser/validate/path.rs", "src/validate.rs"]}
{"id": "C04", "title": "IP literals are validated exactly", "statement": "Inside brackets, a host is accepted iff it is an IPvFuture or matches one of the nine RFC 3986 IPv6address alternatives; IPv4 dotted quads are recognised iff each octet is 0..255 without leading zeros.", "quantifier": "every string between '[' and ']'", "why_tests_cant": "The h16/'::' counting state machine has unboundedly many inputs; the repository's own test enumerates only '1:' repetitions.", "anchors": ["src/parser/validate/authority.rs: split_v6_addr_part, validate_ipv6address, validate_ipv4address, is_dec_octet", "src/parser/trusted/authority.rs: is_host_reg_name"]}
{"id": "C05", "title": "URI is the ASCII fragment of IRI", "statement": "Every valid URI-type string is a valid string of the corresponding IRI type, and an IRI-type string converts to the URI type (as_uri / try_into_uri / TryFrom) iff it is ASCII-only, in which case it is a valid URI.", "quantifier": "every string, for each of iri, absolute, reference, relative, query, fragment", "why_tests_cant": "Tests sample a few strings; the claim is an equality of two infinite languages/functions.", "anchors": ["src/convert.rs", "src/types/iri.rs: as_uri, try_into_uri"]}
{"id": "C06", "title": "Type hierarchy and reference classification", "statement": "Every absolute IRI is an IRI, every IRI and every relative reference is an IRI reference; every IRI reference is exactly one of IRI or relative reference, so RiReferenceStr::to_iri and to_relative_iri (and the owned into_iri/into_relative_iri) succeed on exactly one side, returning the same string.", "quantifier": "every valid IRI reference", "why_tests_cant": "Tests sample a few strings; the claim is an equality of two infinite languages/functions.", "anchors": ["src/types/generic/reference.rs: to_iri, to_relative_iri", "src/types/generic.rs module doc", "src/types/generic/macros.rs"]}
{"id": "C07", "title": "Decomposition is lossless and unique", "statement": "For every valid IRI reference, the five components reported by the accessors, joined with ':', '//', '?' and '#' as in RFC 3986 section 5.3, give back the original string, and they are the only five-tuple of grammatical components that does so.", "quantifier": "every valid IRI reference", "why_tests_cant": "Tests sample a few strings; the claim is an equality of two infinite languages/functions.", "anchors": ["src/parser/trusted.rs: decompose_iri_reference", "src/components.rs: Splitter::split_into_major"]}
{"id": "C08", "title": "All accessors agree with the decomposition and return valid components", "statement": "scheme_str, authority_str, path_str, query_str, fragment of RiReferenceStr / RiStr / RiAbsoluteStr / RiRelativeStr, and of FixedBaseResolver, each equal the component of the one unique decomposition, and each returned component satisfies its own ABNF rule.", "quantifier": "every valid string of each type", "why_tests_cant": "Four families of extractors (general, absolute, relative, offset based) must agree on every input.", "anchors": ["src/parser/trusted.rs: extract_*", "src/components.rs: Splitter::*_range", "src/types/generic/*.rs", "src/resolve.rs: FixedBaseResolver::{scheme_str,authority_str,path_str,query_str}"]}
{"id": "C09", "title": "Authority decomposition is lossless and grammatical", "statement": "For every valid authority, userinfo ['@'], host, [':' port] returned by AuthorityComponents concatenate to the authority; userinfo, host and port satisfy their ABNF rules; reg_name() is Some iff the host is a reg-name and not an IP literal or IPv4 address.", "quantifier": "every valid authority", "why_tests_cant": "Tests sample a few strings; the claim is an equality of two infinite languages/functions.", "anchors": ["src/parser/trusted/authority.rs", "src/components/authority.rs"]}
{"id": "C10", "title": "Reference resolution is RFC 3986 section 5.2", "statement": "FixedBaseResolver::resolve / resolve_against yields, component by component, the result of the strict RFC 3986 section 5.2.2 transform-references algorithm (with section 5.2.3 merge and 5.2.4 remove_dot_segments, '%2e' counting as '.'), serialized by section 5.3, with '/.' inserted before a path starting with '//' when there is no authority.", "quantifier": "every absolute base and every reference", "why_tests_cant": "Tests sample a few strings; the claim is an equality of two infinite languages/functions.", "anchors": ["src/normalize.rs: create_normalization_input, NormalizedInner::fmt", "src/resolve.rs: FixedBaseResolver::resolve", "src/normalize/path.rs"]}
{"id": "C11", "title": "Resolution output is always a valid IRI", "statement": "The string produced by resolution (with or without normalization) is a valid IRI of the same spec, so the unchecked construction in to_dedicated_string is justified; in addition formatting it never panics.", "quantifier": "every base, every reference, each normalization mode", "why_tests_cant": "The unsafe new_unchecked relies on this for all inputs.", "anchors": ["src/normalize.rs: ToDedicatedString for Normalized, NormalizedInner::fmt"]}
{"id": "C12", "title": "Dot segment removal equals the RFC algorithm", "statement": "The queue based path writer produces exactly remove_dot_segments(path) of RFC 3986 section 5.2.4 (treating %2e/%2E as dots), for paths of any length and depth, and independently of how the path is split into base prefix and reference suffix.", "quantifier": "every path, any number and nesting of segments (more than the queue size 8 too)", "why_tests_cant": "The bounded 8-entry queue makes behaviour depend on depth: no finite test set covers all depths.", "anchors": ["src/normalize/path.rs: fmt_write_normalize, resolve_and_write_path_prefixes, emit_segment, remove_ignorable_prefix, PathSegmentsIter"]}
{"id": "C13", "title": "Authority-less '//' paths are serialized unambiguously", "statement": "When the result has no authority and its path would start with '//', the output path is '/.' followed by it, so re-parsing the output gives no authority; otherwise the path is emitted unchanged.", "quantifier": "every base/reference and every IRI to normalize", "why_tests_cant": "Tests sample a few strings; the claim is an equality of two infinite languages/functions.", "anchors": ["src/normalize/path.rs: emit_segment, fmt_write_normalize"]}
{"id": "C14", "title": "ensure_rfc3986_normalizable detects exactly the WHATWG fallback", "statement": "ensure_rfc3986_normalizable() returns Err iff the displayed result needed the '/./' WHATWG prefix, i.e. iff RFC 3986 resolution/normalization would give an authority-less path starting with '//'.", "quantifier": "every base/reference/mode", "why_tests_cant": "Tests sample a few strings; the claim is an equality of two infinite languages/functions.", "anchors": ["src/normalize.rs: ensure_rfc3986_normalizable", "src/normalize/path.rs: ensure_rfc3986_normalizable_with_authority_absent"]}
{"id": "C15", "title": "Normalization output is a valid IRI with the same structure", "statement": "normalize() and normalize_but_preserve_authorityless_relative_path() of a valid IRI never panic and yield a valid IRI (valid absolute IRI for RiAbsoluteStr), whose components are the normalized components of the input.", "quantifier": "every valid IRI, both specs", "why_tests_cant": "Tests sample a few strings; the claim is an equality of two infinite languages/functions.", "anchors": ["src/normalize.rs", "src/types/generic/normal.rs: normalize", "src/types/generic/absolute.rs: normalize"]}
{"id": "C16", "title": "Normalization is idempotent", "statement": "Normalizing the normalized string again changes nothing, in both normalization modes.", "quantifier": "every valid IRI, both specs", "why_tests_cant": "Tests sample a few strings; the claim is an equality of two infinite languages/functions.", "anchors": ["src/normalize.rs", "src/normalize/pct_case.rs", "src/normalize/path.rs"]}
{"id": "C17", "title": "is_normalized holds exactly on fixpoints of normalize", "statement": "is_normalized() (resp. is_normalized_but_authorityless_relative_path_preserved(), is_normalized_rfc3986()) returns true iff normalization in the corresponding mode returns the same string (for rfc3986: and no '/.//' fallback was needed).", "quantifier": "every valid IRI, both specs, three modes", "why_tests_cant": "Tests sample a few strings; the claim is an equality of two infinite languages/functions.", "anchors": ["src/parser/trusted.rs: is_normalized", "src/types/generic/normal.rs: is_normalized"]}
{"id": "C18", "title": "Percent-encoding normalization is correct", "statement": "Percent-encoding/case normalization of a component keeps the percent-decoded byte sequence, decodes exactly those triplet runs that spell an unreserved character, writes all remaining triplets in upper case hex, and leaves everything else alone; result is idempotent and stays in the component's grammar.", "quantifier": "every valid component string, both specs", "why_tests_cant": "Triplet runs can interleave broken UTF-8 in unboundedly many ways.", "anchors": ["src/normalize/pct_case.rs: PctCaseNormalized, into_char_trusted, NormalizedAsciiOnlyHost"]}
{"id": "C19", "title": "Percent-encoding of raw data is safe for its component", "statement": "PercentEncoded::from_{unreserve,reg_name,path_segment,path,query,fragment,userinfo} output is a valid string of the named component, and percent-decoding it returns the UTF-8 bytes of the input.", "quantifier": "every input string, each context, both specs", "why_tests_cant": "Tests sample a few strings; the claim is an equality of two infinite languages/functions.", "anchors": ["src/percent_encode.rs"]}
{"id": "C20", "title": "Percent-decoding follows the WHATWG algorithm", "statement": "percent_encode::decode::decode_whatwg_bytes: to_bytes / into_bytes / bytes_fragments yield exactly the WHATWG percent-decode of the input bytes.", "quantifier": "every byte string", "why_tests_cant": "Stray '%' can occur anywhere relative to real triplets.", "anchors": ["src/percent_encode/decode.rs"]}
{"id": "C21", "title": "IRI to URI conversion", "statement": "encode_to_uri / MappedToUri of a valid IRI-type string is a valid URI-type string of the same kind; it replaces every non-ASCII character by the triplets of its UTF-8 bytes and changes nothing else; the in-place encode_to_uri_inline gives the same string as the streaming one.", "quantifier": "every valid IRI, absolute IRI, reference, relative, query, fragment", "why_tests_cant": "Tests sample a few strings; the claim is an equality of two infinite languages/functions.", "anchors": ["src/convert.rs: MappedToUri, try_percent_encode_iri_inline", "src/types/iri.rs"]}
{"id": "C22", "title": "Password masking reveals nothing and keeps the rest", "statement": "mask_password().to_string / hide / replace_password change only the password part of the userinfo: the result (for hide) is a valid reference of the same type without the password, everything else (scheme, user name, host, port, path, query, fragment) is the same; when there is no password the string is unchanged.", "quantifier": "every valid reference", "why_tests_cant": "Tests sample a few strings; the claim is an equality of two infinite languages/functions.", "anchors": ["src/mask_password.rs: password_range_to_hide, PasswordMasked, PasswordReplaced"]}
{"id": "C23", "title": "In-place password removal is safe", "statement": "remove_password_inline / remove_nonempty_password_inline on owned strings leave a valid string of the same type, with the password (and only the password, resp. with its colon) removed; with no password the string is unchanged.", "quantifier": "every valid owned reference", "why_tests_cant": "Tests sample a few strings; the claim is an equality of two infinite languages/functions.", "anchors": ["src/types/generic/*.rs: remove_password_inline", "src/mask_password.rs: split_authority_password, remove_password"]}
{"id": "C24", "title": "Fragment and absolute part operations", "statement": "set_fragment(Some f) makes fragment() = Some f and keeps the part before '#'; set_fragment(None) removes it; to_absolute_and_fragment / to_absolute / into_absolute_and_fragment / strip_fragment split the string losslessly and the absolute part is a valid absolute IRI.", "quantifier": "every valid string and every valid fragment", "why_tests_cant": "Tests sample a few strings; the claim is an equality of two infinite languages/functions.", "anchors": ["src/raw.rs: set_fragment, remove_fragment, split_fragment_owned", "src/types/generic/normal.rs: to_absolute_and_fragment, to_absolute", "src/types/generic/reference.rs: set_fragment"]}
{"id": "C25", "title": "The builder only produces valid strings whose components are those requested", "statement": "If Builder::build::<T>() returns Ok, the displayed string is a valid T and (without normalization) decomposes into exactly the components given to the builder; building never fails for component sets that can be represented.", "quantifier": "every assignment of builder fields", "why_tests_cant": "Tests sample a few strings; the claim is an equality of two infinite languages/functions.", "anchors": ["src/build.rs: validate_builder_for_iri_reference, fmt_write_to"]}
{"id": "C26", "title": "Builder normalization agrees with normalize()", "statement": "With normalize() enabled and a scheme present, the built string equals normalizing the string built without normalization.", "quantifier": "every assignment of builder fields", "why_tests_cant": "Tests sample a few strings; the claim is an equality of two infinite languages/functions.", "anchors": ["src/build.rs: normalize, fmt_write_to", "src/normalize/path.rs: PathCharacteristic"]}
{"id": "C27", "title": "URI template validation matches RFC 6570", "statement": "UriTemplateStr::new accepts exactly the strings of the documented RFC 6570 grammar and never panics.", "quantifier": "every string", "why_tests_cant": "Tests sample a few strings; the claim is an equality of two infinite languages/functions.", "anchors": ["src/template/parser/validate.rs", "src/template/parser/char.rs"]}
{"id": "C28", "title": "URI template expansion matches RFC 6570 section 3", "statement": "UriTemplateStr::expand yields, for every valid template and context, the string described by RFC 6570 section 3.2 (operators, separators, ifemp, explode, prefix), or the documented error for a prefix modifier on a composite value.", "quantifier": "every template, every context, both specs", "why_tests_cant": "Tests sample a few strings; the claim is an equality of two infinite languages/functions.", "anchors": ["src/template/expand.rs", "src/template/components.rs"]}
{"id": "C29", "title": "Template expansion never panics", "statement": "Expanding a template accepted by UriTemplateStr::new never panics, whatever values the context supplies.", "quantifier": "every accepted template and every context value, however Display chunks its output", "why_tests_cant": "Tests sample a few strings; the claim is an equality of two infinite languages/functions.", "anchors": ["src/template/expand.rs", "src/parser/str/maybe_pct_encoded.rs", "src/template/components.rs: VarSpec::parse_trusted"]}
{"id": "C30", "title": "Template variables iterator", "statement": "UriTemplateStr::variables() yields exactly the variable names of the template's expressions, in order with repetitions, terminating for every valid template.", "quantifier": "every valid template", "why_tests_cant": "Tests sample a few strings; the claim is an equality of two infinite languages/functions.", "anchors": ["src/template/string.rs: UriTemplateVariables", "src/template/components.rs: ExprBody, VarListIter"]}
{"id": "C31", "title": "SimpleContext behaves as a finite map", "statement": "After any sequence of insert/clear operations, expansion sees for each variable name the last value inserted for it (undefined if none, or if Undefined was inserted or cleared), and insert returns the previous value.", "quantifier": "every operation sequence", "why_tests_cant": "Histories are unbounded.", "anchors": ["src/template/simple_context.rs"]}
{"id": "C32", "title": "Slice and string writers are exact", "statement": "format::write_to_slice returns Ok with exactly the displayed bytes iff they fit; otherwise CapacityOverflow, whatever chunking Display uses; try_append_to_string appends exactly the displayed text; eq_str_display(s,d) holds iff the displayed text equals s.", "quantifier": "every string, every chunking of Display, every buffer length", "why_tests_cant": "Tests sample a few strings; the claim is an equality of two infinite languages/functions.", "anchors": ["src/format.rs"]}
{"id": "C33", "title": "memchr and portable string search agree", "statement": "Every search helper gives the same result with the memchr feature and without it, so behaviour does not depend on the feature; and byte-position splitting always falls on character boundaries.", "quantifier": "every haystack and needles", "why_tests_cant": "Tests sample a few strings; the claim is an equality of two infinite languages/functions.", "anchors": ["src/parser/str.rs"]}
{"id": "C34", "title": "Host replacement", "statement": "set/replace host operations on owned strings replace exactly the host with the given valid host, leaving all other components unchanged and the string valid; with an invalid host or no authority (or non reg-name when restricted) nothing changes and None is returned.", "quantifier": "every valid owned reference and every new host string", "why_tests_cant": "Tests sample a few strings; the claim is an equality of two infinite languages/functions.", "anchors": ["src/types/generic.rs: replace_domain_impl", "src/types/generic/normal.rs: try_replace_host, try_replace_host_reg_name"]}
{"id": "C35", "title": "Resolution laws", "statement": "Resolving an IRI (reference with scheme) ignores the base; resolving the empty reference gives the base; resolving '#f' gives base#f; resolving an already resolved result again (as a reference) gives the same result.", "quantifier": "every base and reference", "why_tests_cant": "Tests sample a few strings; the claim is an equality of two infinite languages/functions.", "anchors": ["src/resolve.rs", "src/normalize.rs"]}
{"id": "C36", "title": "Validator rejects never depend on what follows a split point", "statement": "Replacing one component of a valid IRI reference by another valid component of the same kind (same structural class) yields a valid reference whose other accessors are unchanged (substitution property used by all in-place editing APIs).", "quantifier": "every valid reference, every replacement component", "why_tests_cant": "Tests sample a few strings; the claim is an equality of two infinite languages/functions.", "anchors": ["src/raw.rs", "src/types/generic.rs", "src/parser/trusted.rs"]}
{"id": "C37", "title": "Dynamic template contexts: callbacks and agreement", "statement": "expand_dynamic calls on_expansion_start exactly once before and on_expansion_end exactly once after all visits, visits every variable first for its type and then for its value in template order (stopping where the expansion stops), and for a context that does not change writes exactly what expand writes, ends like it (a panic included) and reports the same type errors at the same places (unless what it writes before panics); with values that can be displayed a type error is the only error of expand_dynamic_to_string.", "quantifier": "every accepted template, every dynamic context, every writer including failing ones", "why_tests_cant": "Contexts and writers are arbitrary stateful programs; the order of calls must hold for every template and every failure point.", "anchors": ["src/template/expand.rs: UriTemplateStr::expand_dynamic, expand_whole_dynamic", "src/template/context.rs: DynamicContext"]}
{"id": "C38", "title": "Construction from bytes and owned strings, conversions between types", "statement": "TryFrom<&[u8]> accepts exactly the UTF-8 encodings of the strings the validating constructor accepts (InvalidUtf8 otherwise); TryFrom<String> and the fallible conversions to narrower types agree with the validating constructor and hand the unchanged source back on failure; infallible conversions to wider types never change the string and never yield an invalid one.", "quantifier": "every byte sequence, every string, all types, both specs", "why_tests_cant": "The inputs are all byte sequences and all strings; UTF-8 validity has many boundary cases.", "anchors": ["src/types/generic/macros.rs: TryFrom<&[u8]>, TryFrom<String>, impl_trivial_conv_between_iri", "src/types/generic/error.rs: CreationError", "src/template/string.rs", "src/template/string/owned.rs"]}
{"id": "C39", "title": "Comparison and hashing are those of the text", "statement": "Equality, ordering and hashing of all string types (borrowed, owned, mixed with str, across specs) are those of the text: the order is the total lexicographic order by characters, consistent with equality and PartialOrd, and equal values (and only they) hash equally with every hasher.", "quantifier": "every pair of strings", "why_tests_cant": "Total order laws and hash consistency quantify over all pairs and all hashers.", "anchors": ["src/types/generic/macros.rs: impl_cmp, impl_cmp2, impl_cmp2_as_str, Ord, Hash"]}
{"id": "C40", "title": "Error messages name the first wrong component", "statement": "When a validating constructor or a component validator rejects a string, the displayed error names the first component, from left to right, that the grammar does not allow, where components are delimited as in RFC 3986 appendix B (text before the first ':' for the scheme, up to the next '/?#' for the authority, text before the first '@' for the userinfo, and so on; a bad port is reported as a bad host); a string without ':' given where a scheme is required is reported as relative, and a non-empty fragment where none is allowed as unexpected.", "quantifier": "every string, all six types, all component validators, both specs", "why_tests_cant": "The message is a function of every string; combinations of several wrong components are unbounded.", "anchors": ["src/validate.rs: Error, ErrorKind, port", "src/parser/validate.rs", "src/parser/validate/authority.rs", "src/parser/validate/path.rs"]}
{"id": "C41", "title": "Appending URI templates", "statement": "Appending an accepted template to an accepted template gives the concatenated text, which is again an accepted template (the debug assertion cannot fail); its variables are those of the first followed by those of the second; for every context it expands exactly if both parts do, to the concatenation of the expansions, and a type error is the first part's or the second part's shifted by the length of the first.", "quantifier": "every pair of accepted templates, every context", "why_tests_cant": "Closure of the accepted language under concatenation and distributivity of expansion quantify over all pairs of templates and all contexts.", "anchors": ["src/template/string/owned.rs: UriTemplateString::append", "src/template/parser/validate.rs", "src/template/expand.rs"]}
{"id": "C42", "title": "Expanded templates contain only URI/IRI characters, and values cannot inject delimiters", "statement": "Whatever the values of the variables, everything written by the expansion of an accepted template consists of characters allowed in URIs (IRIs) and well-formed percent-encoded triplets; an expression without the operators + and # adds only unreserved characters, triplets, the operator's own separators, ',' and '='. Converting the expansion to a URI/IRI string type returns exactly the expanded text if the type accepts it, and an error otherwise.", "quantifier": "every accepted template, every context, every chunking of Display, values that fail midway, both specs, all string types", "why_tests_cant": "Injection safety is a claim about all possible values and all ways they are written.", "anchors": ["src/template/expand.rs: Expanded, escape_write, TryFrom<Expanded>", "src/parser/str/maybe_pct_encoded.rs", "src/percent_encode.rs"]}
{"id": "C43", "title": "Debug output of a builder does not reveal the password", "statement": "The Debug output of UserinfoBuilder, Builder and Built shows the user name but never any part of a non-empty password: builders (and built values) whose setter histories differ only in non-empty passwords, given as a pair or as one 'user:password' string, and builders made from references that differ only in non-empty passwords, have the same Debug output ({:?} and {:#?}).", "quantifier": "every history of setter calls, every user name and password, every reference with a password, both specs", "why_tests_cant": "Non-interference is a claim about all pairs of executions that differ in the secret.", "anchors": ["src/build.rs: Debug for UserinfoBuilder, UserinfoBuilder::to_user_password, Builder, Built, From<&RiReferenceStr>", "src/format.rs: Censored"]}
{"id": "C44", "title": "Formatting options do not change the text", "statement": "Displaying a built reference or a password-masked reference with any formatting options (width, precision, fill, alignment) gives the same text as with {}, and in any case never reveals the masked password.", "quantifier": "every builder, every reference, all formatting options", "why_tests_cant": "The claim is about all combinations of options and all references; tests only use {}.", "anchors": ["src/build.rs: AuthorityBuilder::fmt_write_to, Display for Built", "src/mask_password.rs: write_with_masked_password, PasswordMasked, PasswordReplaced"]}
{"id": "C45", "title": "IRI to URI mapping commutes with resolution and normalization", "statement": "Encoding the base and the reference to URIs and then resolving (or normalizing, or both) gives exactly the encoding of the result of resolving (normalizing) the IRIs themselves; neither side fails.", "quantifier": "every IRI base and IRI reference, both normalization modes", "why_tests_cant": "A commuting square over all pairs of IRIs, with any mixture of non-ASCII characters, percent-encoded triplets and dot segments.", "anchors": ["src/convert.rs: MappedToUri", "src/resolve.rs: FixedBaseResolver::resolve", "src/normalize.rs: Normalized, RiStr::normalize"]}
{"id": "C46", "title": "Normalization identifies exactly the equivalent IRIs", "statement": "Two IRIs have the same normal form exactly if they are equivalent by RFC 3986 section 6.2.2 (case of scheme, of an ASCII host and of triplet digits; percent-encoded unreserved characters; dot segments; an empty port): equivalent IRIs are identified and nothing else is, and a normal form is equivalent to its IRI.", "quantifier": "all pairs of IRIs (URIs), both normalization modes", "why_tests_cant": "Both directions quantify over all pairs of IRIs and over chains of any length of spelling changes.", "anchors": ["src/normalize.rs: Normalized, RiStr::normalize, normalize_but_preserve_authorityless_relative_path", "src/normalize/pct_case.rs: PctCaseNormalized", "src/normalize/path.rs"]}
{"id": "C47", "title": "serde: round trip, and only valid strings are deserialized", "statement": "A value serializes to its text. Deserializing an owned IRI or template type succeeds exactly for string data (in any form, also a char) whose text the type accepts, and returns this text; a borrowed type needs borrowed string data; everything else is an error carrying the validation message (or a type error), never a panic. With every format that gives strings back, serializing and deserializing returns the value.", "quantifier": "every type, both specs, every piece of data and every deserializer, every format", "why_tests_cant": "Quantifies over all inputs of an untrusted deserializer and over all formats; the crate's tests use a few literals with one format.", "anchors": ["src/types/generic/macros.rs: __serde_slice, __serde_owned, derive(Serialize)", "src/template/string.rs: __serde_slice", "src/template/string/owned.rs: __serde_owned", "src/template/error.rs: Display for Error"]}
{"id": "C48", "title": "An IRI and its URI have the same normal form", "statement": "Normalizing (as an IRI) the URI an IRI is mapped to gives the same string as normalizing the IRI, exactly if the IRI has no private use characters; so two such IRIs mapped to the same URI have the same normal form.", "quantifier": "all IRIs, both normalization modes", "why_tests_cant": "Relates two transformations on every IRI, with every mix of non-ASCII characters, percent-encoded triplets and dot segments.", "anchors": ["src/convert.rs: MappedToUri", "src/normalize.rs: Normalized", "src/normalize/pct_case.rs: PctCaseNormalized"]}
{"id": "C49", "title": "Editing commutes with normalization and with the mapping to URIs", "statement": "Masking, replacing or removing the password, setting or removing the fragment and replacing the host give, after normalizing, what the same edit (with the normalized replacement) gives on the normalized IRI; masking, removing the password, setting the fragment and replacing the host commute with the mapping to URIs as well.", "quantifier": "all IRIs (with a password where one is replaced or removed, with a host where it is replaced, and in debug builds without a fragment there), all replacement texts in the grammar, both specs, both normalization modes, debug and release builds", "why_tests_cant": "Equality of two chains of operations for every IRI.", "anchors": ["src/mask_password.rs: PasswordMasked, PasswordReplaced", "src/types/generic/normal.rs, absolute.rs, reference.rs, relative.rs: set_fragment, remove_password_inline, replace_host", "src/normalize.rs: Normalized", "src/convert.rs: MappedToUri"]}
{"id": "C50", "title": "Normalizing the base before resolving does not change the normalized result", "statement": "Resolving a reference against a base or against the normal form of the base gives the same string after normalization, unless the last segment of the path of the base is a (percent-encoded or plain) double dot; then the normal form acts like the base with '/' appended to its path (opaque paths that are preserved are no exception).", "quantifier": "all bases, all references, both specs, both normalization modes", "why_tests_cant": "Quantifies over all bases and references; the exception was found while proving it.", "anchors": ["src/resolve.rs: FixedBaseResolver::resolve", "src/normalize.rs: Normalized", "src/normalize/path.rs: PathToNormalize"]}
{"id": "C51", "title": "Percent-decoding inverts percent-encoding", "statement": "Decoding (into_bytes, into_string) what PercentEncoded wrote gives back the text it was given, in every component context, so encoding is injective; decoding gives the same before and after percent-encoding normalization and before and after the mapping to URIs; decoding a valid reference is the WHATWG algorithm.", "quantifier": "all displayable texts in whatever chunks, all eight contexts, both specs, all IRI references, all texts in which every % begins a triplet", "why_tests_cant": "A round trip over all texts and contexts.", "anchors": ["src/percent_encode.rs: PercentEncoded", "src/percent_encode/decode.rs: into_bytes, into_string", "src/normalize/pct_case.rs: PctCaseNormalized", "src/convert.rs: MappedToUri"]}
{"id": "C52", "title": "Template values can be read back from an expansion", "statement": "Splitting the expansion of an expression (without + and #) at the separator of its operator, at '=' and at ',' and percent-decoding the pieces gives exactly the names and values supplied; with an operator, equal expansions come from equal names and values.", "quantifier": "all variable lists without prefix modifiers (names without triplets for named operators), all string, list and associative array values (without '.' for the operator '.'), both specs, debug and release builds", "why_tests_cant": "Injectivity over all values.", "anchors": ["src/template/expand.rs: Expanded, OpProps, visit_string, visit_list, visit_assoc", "src/template/string.rs: expand"]}
{"id": "C53", "title": "An expansion depends only on the variables the template names", "statement": "Two contexts that agree on the variables that variables() yields give the same expansion: same text, same chunks, same errors, same panics; inserting another variable into a SimpleContext has no effect.", "quantifier": "all templates whose variables() does not panic (F10), all pairs of contexts, both specs, debug and release builds", "why_tests_cant": "Quantifies over pairs of contexts.", "anchors": ["src/template/string.rs: expand, variables", "src/template/expand.rs: Expanded", "src/template/simple_context.rs: insert"]}
{"id": "C54", "title": "Values cannot change the components of the IRI a template begins with", "statement": "A template that begins with an IRI that has a fragment, a query or a path, followed by literals and expressions without + and #, expands to an IRI whose scheme and authority are those of the literal; the values stay in its last component, and a query begins only where the template has a '?'. For IRIs without a path the exact condition on what follows is given.", "quantifier": "all such templates, all contexts with any text values, both specs, debug and release builds", "why_tests_cant": "Injection safety quantifies over all values.", "anchors": ["src/template/expand.rs: Expanded", "src/template/string.rs: expand", "src/components.rs: RiReferenceComponents"]}
{"id": "C55", "title": "Resolution respects equivalence of references and bases", "statement": "If two references differ only in spellings that normalization identifies (case of schemes and ASCII hosts, percent-encoding, empty ports, and dot segments where they are not significant for resolution), resolving them against the same base, or against two equivalent bases neither of whose paths ends in a double dot segment, gives the same string after normalization.", "quantifier": "all bases, all pairs of equivalent bases and references, both specs, both normalization modes", "why_tests_cant": "Quantifies over all pairs of equivalent strings, an unbounded equivalence relation.", "anchors": ["src/resolve.rs: FixedBaseResolver::resolve", "src/normalize.rs: Normalized", "src/normalize/path.rs: PathToNormalize", "src/normalize/pct_case.rs: PctCaseNormalized"]}
{"id": "C56", "title": "Raw data survives encoding, building, parsing and decoding", "statement": "Any raw strings, percent-encoded for their components (user name, password, host, path segments, query, fragment) and given to the builder with a scheme and a port, are accepted; the built IRI is valid, its accessors return exactly the encoded pieces (no user name contains a colon, no segment a slash), and percent-decoding them gives the raw strings back. So different raw data give different IRIs.", "quantifier": "all strings for every component, all lists of segments, all ports, all schemes, both specs", "why_tests_cant": "Quantifies over arbitrary data in every component at once; a single unencoded delimiter would let one component change another.", "anchors": ["src/percent_encode.rs: PercentEncoded", "src/build.rs: Builder, Built", "src/components.rs: AuthorityComponents", "src/parser/trusted.rs: extractors"]}
{"id": "C57", "title": "Percent-encoding writes normalized text", "statement": "What the percent-encoding writers output, in every context and for both specs, is a fixpoint of percent-encoding normalization: upper-case digits, and no unreserved character encoded.", "quantifier": "all raw texts in all chunkings, all contexts, both specs", "why_tests_cant": "Quantifies over all Unicode texts; adjacent triplets could in principle combine into an unreserved character.", "anchors": ["src/percent_encode.rs: PercentEncoded", "src/normalize/pct_case.rs: PctCaseNormalized"]}
{"id": "C58", "title": "Template expansion for URIs is the URI of the expansion for IRIs", "statement": "For every accepted template and context, expanding with the URI spec gives exactly the RFC 3987 mapping to a URI of the expansion with the IRI spec; errors and panics coincide.", "quantifier": "all templates, all contexts of Unicode values (in any chunks), both build profiles", "why_tests_cant": "Relates two executions on all templates and values.", "anchors": ["src/template/expand.rs: Expanded, escape_write, escape_write_with_maxlen", "src/convert.rs: MappedToUri"]}
{"id": "C59", "title": "Editing commutes with resolution", "statement": "Masking the passwords of base and reference and then resolving gives the masked result of resolving; the fragment of the reference may be set before or after resolving; with a reference that has neither scheme nor authority, removing or replacing the password and replacing the host of the base can be done before or after resolving.", "quantifier": "all bases, references, fragments, passwords and hosts, both specs, both build profiles", "why_tests_cant": "Relates two executions of two operations on all pairs of a base and a reference.", "anchors": ["src/resolve.rs: FixedBaseResolver", "src/mask_password.rs: PasswordMasked, PasswordReplaced", "src/types/generic/reference.rs: set_fragment, remove_password_inline", "src/types/generic/normal.rs: replace_host"]}
{"id": "C60", "title": "Results fit in buffers of a size known beforehand", "statement": "Normalization and password masking never make the text longer (in bytes); resolution, in every normalization mode, yields at most one byte more than base and reference together; percent-encoding and the mapping to a URI at most triple the size. Hence writing the result into a buffer of that size never reports an overflow. The bounds are attained.", "quantifier": "all IRIs, bases, references, raw texts in all chunkings, all contexts, both specs, all buffers at least that large", "why_tests_cant": "A bound over all inputs: the '/.' that guards an authority-less '//' path could make the text longer than the input.", "anchors": ["src/normalize.rs: Normalized", "src/resolve.rs: FixedBaseResolver", "src/mask_password.rs: PasswordMasked", "src/percent_encode.rs: PercentEncoded", "src/convert.rs: MappedToUri", "src/format.rs: write_to_slice"]}
{"id": "C61", "title": "Resolving step by step", "statement": "Resolving a reference and then a second one against the result gives the same text as resolving, against the original base, the composition of the two references: RFC 3986 section 5.2.2 with the first reference in the place of the base and without removing dot segments, where a last segment '..' of the first counts as '../'. In particular, if the first path ends with '/' and the second is a relative path, resolving the concatenation at once, including when dot segments cross the boundary and when the intermediate result needs the '/.' guard.", "quantifier": "all bases with a scheme and all pairs of references, both specs", "why_tests_cant": "Relates three resolutions; dot segments of the second reference act on what remained of the first.", "anchors": ["src/resolve.rs: FixedBaseResolver", "src/normalize/path.rs: PathToNormalize"]}
{"id": "C62", "title": "Any history of edits keeps a string valid", "statement": "Whatever sequence of edits (set_fragment, replace_host, replace_host_reg_name, remove_password_inline, remove_nonempty_password_inline, masking, normalizing) is applied to a valid owned string, nothing panics, the string is valid for its type after every step, and its components are those obtained by applying the same edits to the components.", "quantifier": "all valid strings of the four reference types, all histories of edits of any length with any arguments, both specs, both build profiles (outside F5 and F6)", "why_tests_cant": "Quantifies over histories: each edit works on what the previous ones left.", "anchors": ["src/types/generic/normal.rs: set_fragment, remove_password_inline, remove_nonempty_password_inline, replace_host", "src/types/generic.rs: replace_domain_impl", "src/mask_password.rs: PasswordMasked", "src/normalize.rs: Normalized"]}
{"id": "C63", "title": "Calls on validated strings never panic, with a complete list of exceptions", "statement": "No method of the borrowed and owned string types (accessors, splitting, conversions, normalization, resolution, password and host editing, percent encoding and decoding) panics on a string that its type accepts, with arguments of the right types. The exceptions are listed completely: query accessors of an absolute IRI with an empty fragment, remove_password_inline on certain userinfos without ':', replace_host on an IRI with a fragment; without debug assertions only remove_password_inline on a userinfo whose last character is not ASCII.", "quantifier": "all strings accepted by the four reference types, all modelled calls with all arguments, both specs, both build profiles", "why_tests_cant": "Panic freedom quantifies over all strings and all calls; every slice, unwrap and debug assertion in every function is involved.", "anchors": ["src/types/generic/absolute.rs", "src/types/generic/normal.rs", "src/types/generic/reference.rs", "src/types/generic/relative.rs", "src/types/iri.rs", "src/normalize.rs", "src/resolve.rs", "src/mask_password.rs", "src/percent_encode/decode.rs"]}
{"id": "C64", "title": "Type invariant of client programs", "statement": "A program that uses only the safe API can never hold a string that does not belong to its type: whatever sequence of validating constructions, conversions between types and specs, splitting, editing, resolution, normalization, percent-encoding and building it performs, every string it gets passes the validation of its type. In builds without debug assertions this holds for programs that avoid a completely listed set of calls, each of which always breaks it, and that build only from paths made of path characters.", "quantifier": "all finite programs over the modelled API with all arguments, both specs, six types, both build profiles", "why_tests_cant": "It is an invariant over all histories of a program; every unchecked construction in the crate has to be justified.", "anchors": ["src/types/generic/macros.rs: new_unchecked_justified", "src/types/generic/absolute.rs", "src/types/generic/normal.rs", "src/types/generic/reference.rs", "src/types/generic/relative.rs", "src/types/iri.rs", "src/resolve.rs", "src/normalize.rs", "src/build.rs: Built"]}
{"id": "C65", "title": "Relative references do not escape", "statement": "A reference without scheme and authority is always resolved to an IRI with the scheme and authority of the base. If moreover its path is relative and, walked segment by segment ('..' or a percent-encoded spelling of it goes up, '.' stays, anything else goes down), never goes above its start by more than k levels, then the path of the result lies below the directory k levels above the directory of the base, and no dot segment follows that directory; also when the result is normalized.", "quantifier": "all bases with a scheme, all references, all k, both specs, with and without normalization", "why_tests_cant": "It must hold for every path, of every depth and mixture of segments, against every base; path traversal bugs live in the cases nobody tried.", "anchors": ["src/resolve.rs: FixedBaseResolver::resolve", "src/normalize/path.rs: PathToNormalize::fmt_write_normalize", "src/normalize.rs: NormalizationInput::with_resolution_params"]}
{"id": "C66", "title": "Encoded names resolve to entries of the directory", "statement": "Take any texts other than '.' and '..' (they may contain '/', ':', '?', '%' and any other character), percent-encode each as a path segment, join them by '/', and resolve './' followed by the result against any base: the outcome has the scheme and authority of the base, no query and fragment, and its path is the directory of the base followed by exactly these segments, each of which percent-decodes to its text. Different lists of texts give different results. The same holds for a single non-empty text encoded with everything but unreserved characters and resolved without './', and for the expansion of the template `./{x1}/.../{xn}`. For a base with authority whose path ends with `/`, the values of the template base{x1}/.../{xn} are the last segments of its expansion even after normalization.", "quantifier": "all bases with a scheme, all non-empty lists of texts, all template contexts and chunkings of values, both specs", "why_tests_cant": "It says that no text at all can break out of its segment; tests can only try some hostile texts.", "anchors": ["src/percent_encode.rs: PercentEncoded::from_path_segment, unreserve", "src/resolve.rs: FixedBaseResolver::resolve", "src/normalize/path.rs", "src/template/string.rs: UriTemplateStr::expand"]}
{"id": "C67", "title": "What a resolution depends on", "statement": "The result of resolving a reference, in every normalization mode, depends on the base only through: nothing, if the reference has a scheme; the scheme, if it has an authority; scheme and authority, if its path is absolute; scheme, authority and the directory of the path (the part up to the last '/'), if its path is relative; scheme, authority and path, if its path is empty and it has a query; all but the fragment otherwise. Conversely, equal results imply equal scheme, authority and query of the base in the cases that name them.", "quantifier": "all pairs of bases with a scheme, all references, three normalization modes, both specs", "why_tests_cant": "It compares two executions for every pair of bases; a dependence on an irrelevant part shows only for particular pairs.", "anchors": ["src/resolve.rs: FixedBaseResolver::resolve", "src/normalize.rs: NormalizationInput::with_resolution_params", "src/normalize/path.rs: Path, PathToNormalize::from_paths_to_be_resolved"]}
{"id": "C68", "title": "Edits of different parts commute and later edits override earlier ones", "statement": "Two calls that edit different parts of an owned string (set_fragment; clearing, masking or removing the password; replacing the host) can be made in either order with the same resulting string. Any list of such calls has the effect of at most one call for each part, with the last values (a cleared password stays cleared). Setting the fragment or the host to its present value changes nothing.", "quantifier": "all strings of every editable type, all lists of edits of any length in any order, both specs, debug and release (in debug the absolute-IRI type with a fragment is excluded, F6)", "why_tests_cant": "It compares executions of different histories of arbitrary length; the edits are splices at byte offsets computed anew from the string each time.", "anchors": ["src/types/generic/normal.rs: RiString::set_fragment, remove_password_inline, remove_nonempty_password_inline, try_replace_host", "src/mask_password.rs: password_range_to_hide", "src/raw.rs: set_fragment"]}
{"id": "C69", "title": "What a common prefix of two strings guarantees", "statement": "If a valid string begins with another valid string whose path has begun (so that it can be taken neither for the beginning of '//' nor for a scheme) or which has a query or fragment, then both have the same scheme and authority, and the rest only prolongs the last component or adds further ones. The condition is exact: for any other string some valid continuation has another scheme or authority ('http://trusted.example' and 'http://trusted.example@evil/'). If the prefix is a directory and the rest does not climb above it, the normalized text begins with the normalized prefix.", "quantifier": "all pairs of valid strings one of which is a prefix of the other, all types, both specs", "why_tests_cant": "Prefix tests on URLs are used for access control; their soundness is a statement about all continuations of a string.", "anchors": ["src/parser/trusted.rs: extract_scheme, extract_authority, extract_path, decompose_iri_reference", "src/components.rs: RiReferenceComponents", "src/normalize.rs: Normalized"]}
{"id": "C70", "title": "Characters that never occur", "statement": "No string of any type contains a control character, white space, a quotation mark, angle brackets, braces, backslash, caret, backtick or vertical bar; URI types contain ASCII only, IRI types no C1 controls, surrogates, noncharacters or tag characters. Every '%' begins a triplet, there is at most one '#', and brackets occur only around an IP literal. The list is complete. Strings joined by such a character can therefore be separated again unambiguously.", "quantifier": "all strings accepted by any of the types, all characters, both specs, lists of any length", "why_tests_cant": "It concerns every accepted string; the validators are table-driven with separate paths for ASCII and non-ASCII characters.", "anchors": ["src/parser/char.rs: TABLE, is_ucschar", "src/spec/internal.rs: is_nonascii_char_unreserved, is_nonascii_char_private", "src/parser/validate.rs: validate_uri_reference"]}
{"id": "C71", "title": "Relative forms of an IRI resolve back to it", "statement": "For a base and an IRI of the same scheme: dropping the scheme, the scheme and authority, or everything up to the query or the fragment, or replacing the directory by the right number of '../' (with or without a leading './'), gives a reference that resolves to exactly that IRI, provided what was dropped is shared with the base and the path kept has no dot segments. An IRI is reachable by some reference without a scheme if and only if it differs from the base in query and fragment only, or its path has no dot segments and it has an authority, a path from the root, or a path in the first directory of the base; then one of these forms is a valid reference.", "quantifier": "all bases, target IRIs and references, paths of any depth, both specs", "why_tests_cant": "It relates three strings of any length and, in the converse direction, excludes every possible reference.", "anchors": ["src/resolve.rs: FixedBaseResolver::resolve", "src/normalize.rs: PathToNormalize::from_paths_to_be_resolved", "src/normalize/path.rs: PathToNormalize::fmt_write_normalize"]}
{"id": "C72", "title": "Normalizing an expanded template leaves the values alone", "statement": "Percent-encoding normalization of an expanded template is the expansion of the template with normalized literals: the encoded values are not changed, and nothing in a value joins with the text around it to form another character. In particular the expansion of a template with normalized literals is normalized. For the operators '+' and '#' this holds for values without '%'. (Variable names that are written must be normalized; for IRIs a literal must not begin with the triplet of a UTF-8 continuation byte.)", "quantifier": "all templates, contexts and values in any chunks, both specs", "why_tests_cant": "It concerns every way in which literals, names and values can be adjacent, for all values.", "anchors": ["src/template/expand.rs: Expanded::fmt, expand_variable", "src/template/components.rs: Operator", "src/normalize/pct_case.rs: PctCaseNormalized::fmt", "src/percent_encode.rs: PercentEncoded::fmt"]}
{"id": "C73", "title": "Interrupted output", "statement": "Whatever is displayed (a normalized, resolved, masked, encoded, built or expanded value) and wherever the writer returns an error, what the writer has accepted by then is the beginning of the complete text; Ok is returned exactly after the whole text, and a writer that never fails gets all of it. Two references that differ only in the password give every writer, wherever it stops, exactly the same pieces when they are masked or their passwords are replaced by the same text, even if writing the replacement fails halfway. A value whose own Display fails makes write_to_slice report an overflow and try_append_to_string panic.", "quantifier": "all displayed values, all writers with any internal state, all points of failure, all pairs of references that differ in the password", "why_tests_cant": "It concerns every writer and every point at which it may fail, and pairs of runs.", "anchors": ["src/format.rs: write_to_slice, try_append_to_string, ByteBufWriter, StringWriter", "src/mask_password.rs: write_with_masked_password, PasswordMasked, PasswordReplaced"]}
{"id": "C74", "title": "Percent-decoding piece by piece", "statement": "The iterator bytes_fragments() yields exactly the fragments of the input: maximal non-empty runs without '%', bytes of triplets, and '%' that do not begin a triplet; each next() takes away exactly the source of its fragment from not_yet_decoded(). After any number of calls the bytes yielded so far followed by the decoding of not_yet_decoded() are the decoding of the whole input, a new iterator on not_yet_decoded() yields exactly the missing fragments, and after the end None is returned for ever. An input may be decoded in two parts exactly if no triplet lies across the boundary.", "quantifier": "all byte strings, all numbers of calls, all ways of splitting an input in two", "why_tests_cant": "It concerns every state of the iterator and every split point.", "anchors": ["src/percent_encode/decode.rs: PercentDecodedBytesFragments::next, not_yet_decoded, DecodedFragment"]}
{"id": "C75", "title": "IP address hosts", "statement": "A host that the validators accept as an IPv4 address or as an IP literal with an IPv6 address denotes exactly one address; every text that denotes an address by the rules of RFC 4291 is accepted. ac.host() is a registered name, an address or an IPvFuture literal, and reg_name() tells which. A builder that was given an IpAddr by ip_address() builds, with or without normalization, a text whose host denotes that very address, so different addresses give different texts. Normalization never changes the address.", "quantifier": "all hosts, all IPv4 and IPv6 addresses, all builders with an IP address, all IRIs with such a host, both kinds of normalization", "why_tests_cant": "There are 2^32 and 2^128 addresses with many texts each; the compression of zero runs, IPv4 parts and the case of digits all enter.", "anchors": ["src/build.rs: Builder::ip_address, HostRepr::IpAddr", "src/parser/validate/authority.rs: validate_ipv6address, validate_ipv4address", "src/components/authority.rs: AuthorityComponents::host, reg_name", "src/normalize.rs"]}
{"id": "C76", "title": "What a program reads out of an IRI survives normalization, resolution and mapping to a URI", "statement": "Take an IRI with an authority and read it the way a program does: scheme and decoded host in lower case, port, decoded userinfo, decoded path segments, decoded query and fragment. Every IRI with an authority has exactly one such view. Normalizing it changes nothing but the list of decoded segments, which becomes what is reached by walking along it ('.' stays, '..' goes up, not above the root); MappedToUri changes nothing at all; resolving a relative reference walks from the directory of the base (or from the root), a reference without a path keeps the path and possibly the query, one with an authority keeps only the scheme, a full IRI keeps nothing. In particular no operation turns an encoded '/' into a segment boundary or an encoded delimiter into a delimiter.", "quantifier": "all IRIs with an authority, all references, both kinds of normalization, both specs (mapping: IRI spec)", "why_tests_cant": "Relates several operations on arbitrary texts through decoding; encoded slashes, dots and delimiters can stand anywhere.", "anchors": ["src/normalize.rs: Normalized::fmt_write_normalize", "src/normalize/path.rs: PathToNormalize::fmt_write_normalize", "src/resolve.rs: FixedBaseResolver::resolve", "src/convert.rs: MappedToUri", "src/percent_encode"]}
{"id": "C77", "title": "Byte offsets: no operation cuts a string inside a character or at a wrong place", "statement": "All positions the library computes and keeps (ends of components, host range, password range, last slash of the base path, cursor and queue of the path iterator, three-byte prefix check) count bytes of UTF-8, and slicing a string inside a character panics. With these byte positions, for every valid reference: the accessors and to_major_components return the RFC 3986 components, authority_components returns userinfo, host, registered name and port, resolution gives the RFC 3986 target, normalization the normal form, ensure_rfc3986_normalizable tells whether the fallback was needed, and is_normalized answers as C17 says; percent-encoding normalization of a component, which skips three bytes per triplet, gives its normal form; nothing panics. For arbitrary strings the password, host and fragment operations do with byte positions exactly what they do with character positions. All of this with the portable search functions and with any memchr crate that keeps its contract.", "quantifier": "all references and all strings (with characters of one to four bytes), both specs, all memchr implementations satisfying their contract, debug and release builds", "why_tests_cant": "Whether a byte position is a character boundary depends on all characters before it; tests use mostly ASCII strings, where byte and character positions coincide.", "anchors": ["src/components.rs: Splitter", "src/components/authority.rs: AuthorityComponents", "src/parser/trusted.rs", "src/parser/trusted/authority.rs: decompose_authority", "src/mask_password.rs: password_range_to_hide", "src/types/generic.rs: replace_domain_impl", "src/raw.rs", "src/normalize.rs: NormalizationInput", "src/normalize/path.rs: PathToNormalize, PathSegmentsIter"]}
{"id": "C78", "title": "Validation reads bytes and still accepts exactly the grammar", "statement": "The validators walk over the UTF-8 bytes of the string, look ASCII bytes up in a 128-entry table (another index would panic), search for delimiters bytewise, cut at byte positions and contain unreachable!() branches, unwraps and debug assertions. Nevertheless, for every string: constructing an IRI, IRI reference, relative reference, query or fragment succeeds exactly for the strings of the RFC 3986/3987 grammar and otherwise returns an error (absolute IRIs: C02), likewise the validators of scheme, authority, userinfo, host, registered name, path and segment; no string panics, and the error kind does not depend on the search implementation. Both with the portable searches and with any memchr crate that keeps its contract.", "quantifier": "all strings (characters of one to four bytes), both specs, all types, all memchr implementations satisfying their contract, debug and release builds", "why_tests_cant": "A table index out of range, a cut inside a character or a reachable unreachable!() shows only for particular byte sequences; the set of strings is infinite and tests use mostly ASCII.", "anchors": ["src/parser/validate.rs", "src/parser/validate/authority.rs", "src/parser/validate/path.rs", "src/parser/str.rs: satisfy_chars_with_pct_encoded, strip_ascii_char_prefix, get_wrapped_inner", "src/parser/char.rs: TABLE, is_ascii_*"]}
{"id": "C79", "title": "Decoding, mapping to URIs and templates work on bytes with the same results", "statement": "Percent-decoding, the IRI to URI mapping, template validation, the variable iterator and template expansion look for percent signs, braces, commas and colons bytewise (with or without the memchr crate), cut strings at byte positions and look ASCII characters up in 128-entry tables. Nevertheless, for every input: decoded fragments spell the WHATWG decoding and into_bytes differs from it exactly in the cases of C20; the mapping writes the RFC 3987 section 3.1 URI; a template string is accepted, rejected (with the kind and byte position) or panics exactly as C27 says; variables() yields the names as in C30; and expansion, with immutable or dynamic contexts and values written in any chunks, gives the output, error or panic of C28, C29 and C37. The search configuration makes no difference.", "quantifier": "all byte strings, strings, templates, contexts, values in any chunks and writers; characters of one to four bytes; all memchr implementations satisfying their contract; debug and release builds; both specs", "why_tests_cant": "A cut inside a character or a position counted in the wrong unit shows only for particular mixtures of multibyte characters and delimiters; the inputs and the memchr implementations are unbounded.", "anchors": ["src/percent_encode/decode.rs: try_non_allocating_decode, into_bytes, PercentDecodedBytesFragments::next", "src/convert.rs: write_percent_encoded", "src/template/parser/validate.rs", "src/template/components.rs: VarSpec::parse_trusted, VarListIter::next", "src/template/expand.rs: Chunks::next, escape_write_with_maxlen, TruncatePercentEncodeWriter", "src/template/string.rs: UriTemplateVariables::next", "src/parser/str/maybe_pct_encoded.rs: DecomposeWriter::write_str"]}
{"id": "C80", "title": "The builder works on bytes with the same results", "statement": "The builder checks its fields bytewise (with or without the memchr crate), classifies the path by the bytes of its normalized form and takes references apart at byte positions. Nevertheless, for every request: build accepts, rejects and writes exactly what C25 says, with and without normalization; it never panics without normalization or when the percent-encoding of the path is well formed; ensure_rfc3986_normalizable answers as in C26; a builder made from a reference builds it again; from_prefixed of queries and fragments accepts exactly the prefixed valid ones. The search configuration makes no difference.", "quantifier": "all builder contents (with characters of one to four bytes), references, buildable types, both specs, debug and release builds, all memchr implementations satisfying their contract", "why_tests_cant": "A cut inside a character, or a byte of a multibyte character taken for a delimiter, shows only for particular mixtures of characters; field contents and memchr implementations are unbounded.", "anchors": ["src/build.rs: validate_builder_for_iri_reference, validate_authority, Builder::build, Builder::fmt_write_to, AuthorityBuilder::fmt_write_to, From<&RiReferenceStr>", "src/normalize/path.rs: PathCharacteristic::from_path_to_display", "src/parser/str.rs: prior_byte2", "src/types/generic/fragment.rs: from_prefixed", "src/types/generic/query.rs: from_prefixed"]}
{"id": "C81", "title": "The whole interface on bytes: panics and program validity", "statement": "The crate searches and cuts the bytes of its strings, with or without the memchr crate. In either configuration: a call of the interface (accessor, conversion, edit, normalization, resolution, encoding) on a string of its type panics exactly in the listed cases (those of C63), in release builds only when a password is removed from a userinfo without ':' ending in a non-ASCII character; and every string that a program of such calls and builds gets hold of, however long it runs, passes the validation of its type with debug assertions, and without them as long as no damaging call (C64) is made; every damaging call does return an invalid string. Both configurations return the same strings.", "quantifier": "all programs (sequences of constructions, calls and builds), strings with characters of one to four bytes, types, specs, debug and release builds, and all memchr implementations satisfying their contract", "why_tests_cant": "Programs, strings and memchr implementations are unbounded; a cut inside a character shows only for particular mixtures of characters and call histories.", "anchors": ["src/types/generic/reference.rs", "src/types/generic/normal.rs", "src/types/generic/absolute.rs", "src/types/generic/relative.rs", "src/types/iri.rs", "src/parser/trusted.rs", "src/parser/str.rs", "src/components.rs", "src/mask_password.rs", "src/convert.rs"]}
{"id": "C82", "title": "Running out of memory", "statement": "Whatever the allocator answers to each request, a fallible operation (try_to_dedicated_string of normalization, resolution, mapping, masking and building, try_replace_host, try_encode_to_uri_inline, try_encode_into_uri, try_append_to_string) returns the same string as with enough memory or reports TryReserveError, never panics for lack of memory, and leaves a string edited in place unchanged on failure; try_append_to_string keeps what was in the buffer and appends a prefix of the text. If strings may have at most n bytes the call succeeds exactly when its result has at most n bytes. Programs in which any call may run out of memory get hold of no string they could not have with enough memory, so all are valid for their types.", "quantifier": "all allocator behaviours (any request of any call may be refused), strings, calls and programs, types, both specs, debug and release builds", "why_tests_cant": "The point of failure ranges over all requests of all calls in all programs; allocation failure is hard to provoke in tests at all.", "anchors": ["src/format.rs: StringWriter, try_append_to_string, try_to_string, ToDedicatedString", "src/types/generic.rs: replace_domain_impl", "src/convert.rs: try_percent_encode_iri_inline", "src/mask_password.rs: try_to_dedicated_string", "src/types/iri.rs: try_encode_to_uri_inline, try_encode_into_uri", "src/normalize.rs, src/build.rs: try_to_dedicated_string"]}
{"id": "C83", "title": "The work of normalization and resolution", "statement": "Normalizing an IRI and resolving a reference take time proportional to the length of the path: counting the calls of the segment iterator and the characters it passes over, a constant number per character.", "quantifier": "all IRIs, bases and references of any length, all normalization modes, both specs", "why_tests_cant": "A bound on the running time quantifies over inputs of every length; tests on short paths cannot distinguish linear from quadratic growth, and the bad paths mix many names with a late dot segment.", "anchors": ["src/normalize/path.rs: fmt_write_normalize, resolve_and_write_path_prefixes, remove_ignorable_prefix, PathSegmentsIter", "src/normalize.rs", "src/resolve.rs"]}
{"id": "C84", "title": "Validation, templates and accessors take linear time", "statement": "Constructing any of the string types, constructing a URI template, splitting a string into its components and reading one component look at a number of characters that is at most a small constant times the length of the string, also when the string is rejected; and accepting a string needs a look at every character of it.", "quantifier": "all strings (valid or not), all six types, both specs, all templates", "why_tests_cant": "A bound on the running time quantifies over inputs of every length, including the hostile ones that are rejected; measuring a few inputs cannot exclude one on which a search is repeated.", "anchors": ["src/parser/validate.rs", "src/parser/validate/authority.rs", "src/parser/validate/path.rs", "src/parser/str.rs", "src/parser/trusted.rs", "src/parser/trusted/authority.rs", "src/template/parser/validate.rs"]}
{"id": "C85", "title": "Checking for normal form and percent-decoding take linear time", "statement": "The is_normalized family, the comparison and the writing of percent-encoding-normalized components and hosts, and percent-decoding (fragments, borrowed bytes, decoded bytes) look at and write a number of characters that is at most a small constant times the length of the string, for every string; so checking an IRI can be arbitrarily many times cheaper than normalizing it, which does not take linear time.", "quantifier": "all strings (valid or not), both specs, the three normal forms, all byte strings to decode", "why_tests_cant": "A bound on the running time quantifies over inputs of every length; the loops over triplets restart after characters that turn out not to be encoded, and only a proof shows that no restart repeats work without bound.", "anchors": ["src/parser/trusted.rs: is_normalized, is_ascii_only_host", "src/normalize/pct_case.rs", "src/percent_encode/decode.rs", "src/format.rs: eq_str_display"]}
