# Formal model of iri-string 0.7.13 in Rocq (Coq 8.16.1)

## Representation

* A Rust `&str`/`String` is a `list N` of Unicode scalar values (`str`).  Splitting a `&str` at a
  byte position found by searching for an ASCII byte is modelled as splitting the scalar list at
  that ASCII character; `Utf8.v` proves that this agrees with the byte-level operation on the
  UTF-8 encoding (C33).  Byte *offsets* kept in structs (`Splitter`, `AuthorityComponents`, the path
  iterator) are scalar offsets in the model used for the other properties; `MOffset.v` models the same
  code a second time with byte offsets into the UTF-8 text, slicing inside a character being a panic,
  and C77 proves that the two agree; `MBytes.v` does the same for the validators (C78) and `MBytes2.v` for decoding, the mapping to URIs and templates (C79), `MBytes3.v` for the builder (C80), `MBytes4.v` for all calls and programs (C81).  Byte *lengths* that are compared with constants (`prefix.len() >= 5`,
  `host.len()`) use the UTF-8 length `blen`.
* Code that works on bytes (percent encoding/decoding, in-place IRI->URI encoding,
  template truncation) is modelled on lists of bytes (`N < 256`).
* `Result`, `Option` stay data.  A panic (`unreachable!`, `expect`, slicing, arithmetic overflow in
  the debug profile) is the explicit constructor `Panic`; loops are structural or fuelled, fuel
  exhaustion is also `Panic` so "never panics" theorems exclude it.
* `Spec` (UriSpec/IriSpec) is a two-constructor type passed as an argument.
* `fmt::Formatter` output is the list of characters written; where chunking matters
  (`eq_str_display`, `write_to_slice`, template values) a Display value is a list of chunks.

## Layout (rocq/theories)

`*Spec.v` / `Rfc*.v`: independent specifications (ABNF combinators, RFC 5.2 algorithms, RFC 6570).
`M*.v`: model of the code with citations.  `P*.v`: proofs.  `Prop*.v`: property theorems only
(`exact lemma`, `Print Assumptions`, examples).

## Per-property plan

| id | modelled | proof |
|----|----------|-------|
| C01 | validators in parser/validate.rs, validate/path.rs | language equality with ABNF combinators: scanner characterisation + first-delimiter split lemmas |
| C02 | same with rule AbsoluteWithoutFragment | refuted (`foo:#` accepted); exact language of the code proved |
| C03 | all component validators, TABLE | as C01; TABLE by finite sweep over 128 entries |
| C04 | IPv6 state machine, IPv4, IPvFuture | invariant over the token loop; equivalence with 9 alternatives |
| C05 | conversions via is_ascii test | induction over grammar/scanner |
| C06 | to_iri, to_relative_iri | from C01 + first delimiter |
| C07 | Splitter, decompose_iri_reference | offset arithmetic + uniqueness lemma |
| C08 | extract_* | equality with the decomposition |
| C09 | decompose_authority, is_host_reg_name | split lemmas |
| C10 | create_normalization_input, NormalizedInner::fmt | refinement to RFC 5.2.2 |
| C11 | same | validity via C01 |
| C12 | fmt_write_normalize queue algorithm | loop invariant against segment-stack semantics, then equality with the literal RFC loop |
| C13 | emit_segment | corollary of C12 |
| C14 | ensure_rfc3986_normalizable | refuted for Done paths with and_normalize; proved for others |
| C15-C18 | pct_case.rs, normalize.rs, is_normalized | token view of strings |
| C19 | percent_encode.rs | per-char lemma |
| C20 | decode.rs | refuted for into_bytes; proved for fragments |
| C21 | convert.rs | streaming = map; inline = streaming by invariant on the backwards fill |
| C22,C23 | mask_password.rs, owned methods | C22 proved/refuted per method |
| C24 | raw.rs | list lemmas |
| C25,C26 | build.rs | refuted where path is unchecked; partial otherwise |
| C27 | template/parser/*.rs | token-level induction: exact language and exact panic set |
| C28 | expand.rs, maybe_pct_encoded.rs, components.rs | writer calculus `outs`: exact output per variable, then per expression, then per template; equality with the RFC where `regular`; for every value, including `+` and `#`, an automaton that reads the value chunk by chunk (`ReservedSpec.v`, `PropReserved.v`) |
| C29 | same | corollary of C28's exactness and of the type-check theorem; exact characterisations for `SimpleContext` values without "%" and for templates without + and #; for all templates and values via `ReservedSpec.v`; four refutations |
| C30 | string.rs, components.rs | the chunk iterator on `template_text T` |
| C31 | simple_context.rs | map refinement by induction over histories |
| C32 | format.rs | induction over chunks |
| C33 | parser/str.rs | position lemmas |
| C34 | types/generic.rs | substitution lemmas |
| C35,C36 | corollaries | from C10/C07 |
| C38 | macros.rs constructors and conversions | UTF-8 decoder correctness (both directions) + C06 |
| C39 | macros.rs comparison, hash | UTF-8 preserves the order of scalar values |
| C40 | all validators with their error kinds, messages | components cut by delimiters (ErrSpec.v); each validator is a sequence of checks; first failing check |
| C41 | UriTemplateString::append | a template is a list of parts; every traversal is a fold over the parts |
| C42 | expand.rs, maybe_pct_encoded.rs, percent_encode.rs | invariant `emits` of the writer calculus (every chunk written is a list of tokens), with an invariant of the decoder buffer (a list of triplets with a truncated last one) |
| C43 | build.rs (Debug of UserinfoBuilder, Builder, Built), format.rs Censored | Debug as the tree of builder calls (MDebug.v); two-run invariant `alike` over setter histories; `From` via the authority decomposition |
| C44 | build.rs, mask_password.rs with formatter options | `Formatter::pad` of std (MFlags.v); text as a homomorphism on write sequences; refuted by width/precision examples, exact text via a builder with padded parts |
| C45 | convert.rs + resolve.rs + normalize.rs | the mapping is a homomorphism on components; RFC 5.2.2 transform, remove_dot_segments and percent normal form each commute with it (PCommute.v) |
| C46 | normalize.rs, both modes | independent equivalence: reflexive-symmetric-transitive closure of single spelling changes (EquivSpec.v); each step preserves the normal form, and the normal form is reached by steps (PEquiv.v) |
| C47 | serde implementations of macros.rs, template/string.rs, template/string/owned.rs; template/error.rs texts | serde's visitor defaults as a small model (MSerde.v), any deserializer and any format as parameters; exact Ok/Err/Panic characterization, round trip |
| C48 | convert.rs, normalize.rs, pct_case.rs | spelling relation between an IRI and its URI (C21) component-wise inside the normal-form relation of NormSpec; private-use characters as the exact exception |
| C49 | mask_password.rs, set_fragment, remove_password_inline, replace_host with normalize.rs / convert.rs | the edits have exact component-wise results (C23–C26), so both chains are compared on components |
| C50 | resolve.rs, normalize.rs, normalize/path.rs | removal of dot segments of a path up to its last slash is a congruence (C50_dir), then both results compared through NormSpec; bases ending with ".." : a base and the base with "/" appended have the same normal form |
| C51 | percent_encode.rs, decode.rs, pct_case.rs, convert.rs | the encoded text denotes the bytes of the raw text (C19), and the decoder returns the denoted bytes of any text without stray "%" |
| C52 | template/expand.rs | the exact expansion (C28_simple) is a list of fields joined by the separator; no encoded value contains a separator, so splitting recovers the fields |
| C53 | template/expand.rs, string.rs, simple_context.rs | induction over the parts of the template; both runs look up the same names |
| C54 | template/expand.rs with components.rs | characters that an expression can write (C42) are characters of paths, queries and fragments, so the tail extends the last component |
| C55 | resolve.rs, normalize.rs | the targets of equivalent references are equivalent (EquivSpec), by the cases of 5.2.2; equivalent targets have equal normal forms (C46); bases through C50 |
| C56 | percent_encode.rs, build.rs, components.rs, decode.rs | the encoded data is representable (C19), so C25_accepts; accessors by C08 and C09_unique; decoding by C51 |
| C57 | percent_encode.rs, pct_case.rs | induction over the raw text: triplets of a character that is not unreserved spell no unreserved character (UTF-8 is prefix free) |
| C58 | template/expand.rs, maybe_pct_encoded.rs | relational proof over the model of both executions: same ending, texts with the same URI; the URI expansion is ASCII by C42 |
| C37 | expand.rs dynamic part | simulation of static and dynamic expansion; invariant on the event log; every place where a run can stop, with position and events (DynSpec.v); same writes and same result as the static expansion; no write error of its own (PSure.v) |
| C59 | resolve.rs, mask_password.rs, raw.rs, types/generic/* | C10 gives the components of the result; they depend on an authority only by its presence, and edits (C21 to C24) change one component |
| C60 | normalize.rs, resolve.rs, mask_password.rs, percent_encode.rs, convert.rs, format.rs | invariant of the RFC 5.2.4 loop: a text that lost a segment is at least two bytes shorter or a prefix of the input, so '/.' fits; then component by component from C10, C15, C19, C21, C22 and the slice writer (C32) |
| C61 | resolve.rs, normalize/path.rs | C10 on all three resolutions; removal of dot segments of x/r passes through that of x/ (simulation of the RFC loop), and the guard '/.' is removed by the second run; any two references: composition (StepSpec.v), by cases on 5.2.2 and what the removal of dot segments does to the last segment |
| C62 | raw.rs, types/generic/*, mask_password.rs, normalize.rs | refinement: a step of the code on the string simulates a step of HistSpec.v on the components, then induction over the history; the specification is total and deterministic where the theorem applies |
| C63 | types/generic/*, types/iri.rs, normalize.rs, resolve.rs, mask_password.rs, percent_encode | one inductive of calls, one inductive of panicking cases over the components; per call from the functional theorems (C06-C34) |
| C64 | types/*, resolve.rs, normalize.rs, mask_password.rs, convert.rs, build.rs | inductive reachability of pools of typed strings; invariant by induction over the program, one case per call |
| C65 | resolve.rs, normalize/path.rs | walks over segments (ConfineSpec.v); induction over the segments with the output buffer of remove_dot_segments k levels below the ancestor |
| C66 | percent_encode.rs, resolve.rs, normalize/path.rs, template/expand.rs | composition of C19/C51 (encoding), C10 (resolution) and C28_simple (expansion); induction over the segments; dot segments excluded by decoding |
| C67 | resolve.rs, normalize.rs | two-run statement (DependSpec.v) from functionality of the section 5.2.2 transformation and of normalization |
| C68 | types/generic, raw.rs, mask_password.rs | the edits of C62 act on (userinfo, host, port, fragment) as commuting, absorbing functions; strings are equal because components are |
| C69 | parser/trusted.rs, components.rs | uniqueness of the decomposition (C07) applied to the prolonged components; converse by explicit continuations |
| C70 | parser/validate.rs, parser/char.rs | from exactness of the validators (C01 to C05) and the character classes of the grammar |
| C71 | resolve.rs, normalize.rs, normalize/path.rs | from C11 (resolution is the transformation of the RFC) and an invariant of the removal of dot segments (what is left begins like the base) |
| C72 | template/expand.rs, normalize/pct_case.rs, percent_encode.rs | from C28 (what an expansion is), C57 and a lemma on the concatenation of normalized texts |
| C73 | format.rs, mask_password.rs | a [Display] is its sequence of pieces and its end; induction over the pieces for an arbitrary writer; for passwords the sequences of pieces are equal |
| C74 | percent_encode/decode.rs | fragments as an inductive relation; [next] equals it, then induction over the calls and over the first part of a split |
| C75 | build.rs, validate/authority.rs, normalize.rs | denotation of hosts as inductive relations; inductions over the words, scan of the longest zero run |
| C76 | normalize.rs, resolve.rs, convert.rs | walk over decoded segments as a fold, simulation of remove_dot_segments; views by composition of C15/C10/C22 |
| C77 | byte-offset model of components.rs, authority.rs, trusted.rs, mask_password.rs, generic.rs, raw.rs, path.rs, pct_case.rs, normalize.rs, resolve.rs (MOffset.v) over the memchr/portable searches of C33 | refinement: each byte-offset function equals the character-offset one (simulation relation between positions for path.rs), composed with C07-C15 |
| C78 | byte-level model of the validators with every table lookup, slice, unreachable!() and debug assertion as a possible panic (MBytes.v) | refinement: each byte-level validator equals the character-level one, composed with C01-C03 |
| C79 | byte-level model with both search configurations (MBytes2.v): every search, cut and table lookup may panic | refinement: each function equals the one of MEncode.v, MTemplate.v, MMaybePct.v, MExpand.v, composed with C20, C21, C27-C30, C37 |
| C80 | byte-level model of the builder with both search configurations (MBytes3.v), on top of MBytes.v and MOffset.v | refinement: equals MBuild.v where that does not panic, composed with C24-C26 |
| C81 | byte-level model of every call and of programs with both search configurations (MBytes4.v) | refinement: equals MCalls.v/MProg.v call by call where those return, composed with C63, C64; induction on the program |
| C82 | allocator as an arbitrary function of request number, length and additional bytes (OomSpec.v, MOom.v) | induction on the chunks written; case analysis of every fallible call against C63; simulation of programs (MProg.v) |
| C83 | the loops of MPath.v with a counter (MWork.v), proved to return the same results; exact cost on lists of segments; bound by induction on the rounds (each round consumes at least eight names); a family of IRIs with quadratic cost for the refutation |
| C84 | the functions of MValidate.v, MTemplate.v and MTrusted.v again with a counter of the characters looked at (MCost.v, MCost2.v for the iterator over template variables), proved to return the same results; upper bound by structural accounting (each search ends where the next begins), induction for the IPv6 and template loops; lower bound for accepted strings |
| C85 | the functions of MPct.v, MNormalize.v and MEncode.v again with a counter of the characters looked at and written (MCost3.v), proved to return the same results; potential argument: what a step looks at is paid for by the characters it consumes, the re-read triplet after an incomplete character by the first one |

## Trusted base

* Coq 8.16.1's kernel (including its VM, used by `vm_compute`), `coqc`, and the reading of the Rust
  source by which the `M*.v` files were written.  No extraction, no plugin, no `native_compute`.
* `Print Assumptions` after every theorem in `Prop*.v` says "Closed under the global context": no
  axioms at all, neither own nor from the standard library.  (A whole-library scan such as `coqchk -o`
  also lists the parameters of the module type `Coq.ssr.ssrunder.Under_rel`, seven names, because that
  standard-library file is loaded by `ssreflect`; no theorem depends on them.)
* No section variable outlives its section except as a universally quantified argument; no
  functor, module type, `Admitted`, axiom or kernel switch.
* The Rust language and its standard library are modelled as documented: `str` as a sequence of
  scalar values, `str::find`/`split_at`/`strip_prefix`,
  `String::{drain, replace_range, insert_str, truncate, pop}`, `core::str::from_utf8` (modelled by the
  table of well-formed sequences, Unicode table 3-7, in `MEncode.from_utf8` and `MMaybePct.utf8_error`),
  `fmt::Write` as a writer that may accept, fail or panic on each chunk, the `Display` of integers and
  of IP addresses (`MBuild.u16_dec`, `v4_text`, `v6_text` follow `core`'s implementation), `BTreeMap`
  of `SimpleContext` as a finite map (association list with the newest binding kept).
* serde's `Visitor` defaults (`visit_borrowed_str`, `visit_string`, `visit_char` fall back to `visit_str`,
  whose default is a type error), as documented (MSerde.v); deserializers and formats are parameters.
* `memchr` (feature) enters only through its documented contract (`MSearch`, C33: every implementation
  meeting the contract).

## What is modelled, and what is not

| file in /repo/src | model | not modelled |
|---|---|---|
| parser/char.rs | Chars.v (class tables, both specs), MValidate.v | — |
| parser/str.rs | MSearch.v (byte level), MValidate.v (character level) | — |
| parser/str/maybe_pct_encoded.rs | MMaybePct.v (all) | — |
| parser/validate.rs, validate/{authority,path}.rs, validate.rs | MValidate.v (all validators), MError.v (messages, `port`) | Debug of `validate::Error` |
| parser/trusted.rs, trusted/authority.rs, components.rs, components/authority.rs | MTrusted.v | — |
| types/generic/{absolute,normal,reference,relative,fragment,query}.rs, types/iri.rs, uri.rs, generic.rs, macros.rs | MTrusted.v, MEdit.v, MEncode.v; MTypes.v (byte-slice construction, comparison), MSerde.v (serde) | smart pointers, `Cow`, capacity, `Default`-like trivia |
| raw.rs, mask_password.rs | MEdit.v, MFlags.v (with width/fill/precision flags of `Formatter`) | `{:#}`/sign flags of user-supplied replacements |
| resolve.rs, normalize.rs, normalize/{path,pct_case,error}.rs | MNormalize.v, MPath.v, MPct.v | Display of the error |
| percent_encode.rs, percent_encode/decode.rs, convert.rs | MEncode.v | — |
| format.rs | MFormat.v, MWriters.v | — |
| build.rs | MBuild.v | the obsolete `&'a`-lifetime distinctions; Debug of the builder: MDebug.v |
| template/parser/*, string.rs, components.rs | MTemplate.v, MTypes.v (comparison, construction), MSerde.v (serde, error texts) | — |
| template/expand.rs, value.rs, context.rs | MExpand.v | the type-state of `Visitor` (a context's answer is data: undefined, string, list or associative array; C37 treats dynamic contexts as state transformers) |
| template/simple_context.rs | MExpand.v | iteration order (not observable through the API) |
| spec.rs, spec/internal.rs | Chars.v | — |

Simplifications, each also noted at the definition it concerns: byte offsets of `&str` found by ASCII
search are character offsets (justified by C33, C77, C78, C79, C80 and C81); `unsafe` constructors are modelled by their debug
assertion (`Panic` if it fails); memory is unbounded except where the code handles `TryReserveError`
(there the failure is an input); integer widths are modelled where a computation can overflow
(`u16` max-length, `usize` subtraction in prefix truncation), with a flag `debug` for overflow checks.

## Findings: where the code does not satisfy the English property

Each has a machine-checked `_refuted` theorem exhibiting the input.

| id | finding | theorem |
|---|---|---|
| F1 | `RiAbsoluteStr::new("foo:#")` succeeds: an *empty* fragment is accepted | C02_absolute_refuted, C08_absolute_query_refuted; exact: C08_absolute_exact |
| F2 | `is_normalized()` is true for an authority with an empty port (`http://h:`), which `normalize()` changes | C17_refuted; exact: C17_empty_port_exact |
| F3 | `ensure_rfc3986_normalizable()` succeeds although the result needs the "/.//" fallback, for resolution followed by `and_normalize()` with a reference without scheme, authority and path | C14_and_normalize_refuted (exact: C14_and_normalize_exact); documentation C14_doc_refuted |
| F4 | `percent_decode().into_bytes()` is wrong when a stray "%" and a triplet both occur | C20_into_bytes_refuted |
| F5 | `remove_password_inline`, `replace_password`: userinfo without ":" is damaged / gets a text inserted | C23_remove_refuted, C22_replace_nothing_refuted; exact: C23_remove_exact, C23_remove_empty_exact, C22_replace_nothing_exact |
| F6 | `RiString::replace_host` debug-asserts with the wrong validator, so it panics (debug) on IRIs with a fragment | C34_refuted; exact: C34_panics_exact |
| F7 | normalizing builder without scheme and authority leaves some absolute paths unnormalized | C25_normalize_refuted |
| F8 | builder never checks path characters | C25_refuted, C26_refuted; exact: C25_exact, C25_normalize_exact |
| F9 | template grammar: "{a.}", "{a..b}", max-length 0, leading zeros, five digits accepted; non-ASCII literals rejected; `UriTemplateStr::new` panics on "%" before some multi-byte characters | C27_refuted, C47_template_refuted (reached by deserializing), exact in C27_accepts_partial and C27_panics |
| F10 | max-length above 65535 is accepted and panics later | C30_refuted, C29_refuted |
| F11 | `{;x*}` with an empty item writes "x="; name with triplets encoded twice; keys of `{?x*}` lose their triplets | C28_refuted |
| F12 | `{+x:n}` miscounts triplets; `{+x}` drops a triplet after a truncated UTF-8 sequence, and a truncated triplet at the end of a chunk | C28_refuted, C42_hypotheses |
| F13 | `{x:n}` (overflow checks) and `{+x}` panic on some non-ASCII or percent-encoded values | C29_refuted |
| F14 | `format!("{:5}", ..)`/`{:.1}` of a built reference or a masked password pads or cuts the userinfo, password or IPv4 address | C44_built_refuted, C44_built_other_refuted, C44_mask_refuted |
| F15 | `mask_password().try_to_dedicated_string()` clones the string with `to_owned` when there is no userinfo: the process aborts instead of getting `TryReserveError` | C82_mask_refuted; exact: C82_call_partial |
| F16 | the loop that removes dot segments starts again after every eight names as long as a dot segment follows: normalizing or resolving a path of n names and one late `..` takes time proportional to n² | C83_linear_refuted; exact bounds: C83_normalize_partial, C83_resolve_partial |

## Conformance with the project's own tests

The model cannot be run against the Rust code here (no dependencies, no network), so its fidelity rests on the reading of the
source. As evidence for that reading, the project's tests are replayed on the model and evaluated by the kernel:
`Conform.v` (all of /repo/tests: the component table of 138 IRIs, 89 resolution rows, 115 template rows, the builder, percent
encoding and issue regressions), `ConformDoc.v` (the assertions of the documentation examples in /repo/src, about 640) and
`ConformUnit.v` (the `#[cfg(test)]` modules in /repo/src). The first two were produced by a script that translates the Rust test
tables. They are tests of the model, on literals: they are not counted as proofs of any property, and no theorem uses them.

## Mutation testing

`seeded/LOG.jsonl` records the edits made to scratch copies of the model and the theorems that then
failed to compile.  An edit that no theorem rejected is either semantically equivalent (noted) or led to
a tightened theorem.
