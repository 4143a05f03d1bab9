# Formal model of surrealdb/revision in Rocq (Coq 8.16.1)

Contents: approach; map of the files; trusted base; what is modelled and what is not; plan and
theorems per property; where the code and its documentation or a natural expectation disagree;
testing the theorems against wrong programs.

## Approach

The crate is a wire-format library: `SerializeRevisioned`, `DeserializeRevisioned`,
`SkipRevisioned` and `WalkRevisioned` implementations for a family of built-in types, plus a derive
macro which generates those implementations from a revisioned declaration. The model is a deep
embedding of that family:

* `ty` (Ty.v) is the universe of types: built-ins, containers, wrappers and named derived types.
  `val` is one untyped universe of values; `typed` (Typed.v) says which values inhabit which type.
* A *serializer* is a function from values to the list of `write`/`write_all` calls it makes
  (`wop`), or an error, or a panic.
* A *deserializer/skipper* is a program `prog A` (free monad, Prog.v) whose only effects are
  `read_exact n` and `allocate n bytes`, ending in a value, an error or a panic. It models code
  generic over `R: io::Read`. `run` interprets it over a byte slice; `run_sched` runs it over readers
  that fragment and interrupt. Functions written for slices (`SliceReader`, `BorrowedReader`,
  walkers, indexed views) are modelled directly on byte lists.
* Derived types are *schemas*: fields/variants with `start`, `end`, `default_fn`, `convert_fn`,
  `override`, `fixed`, `specialised`, `indexed_*`, and the history of legacy and optimised
  revisions. The functions generated by the macro are modelled by functions which interpret the
  schema. User-supplied functions are Coq functions stored in the schema and universally quantified
  in theorems. Macro.v models the macro's front end, from the attributes to the schema; Syntax.v its parsers and
  the type it emits.
* Recursion through named types is bounded by an explicit call-depth parameter; running out is the
  explicit outcome `Panic PStack`, never a default value. C15 shows depth `length input + 1` always
  suffices.
* Features (`fixed-width-encoding`, `specialised-vectors`), pointer width, overflow checking
  (debug/release), hash iteration order, key order, `size_of`, the largest allocation that
  succeeds, and the behaviour of external crates are fields of an environment record (`env`) that
  every theorem quantifies over. `wf_env` (Typed.v) lists what is assumed of it.
* "The program at an older revision" is a different environment: writer `E` and reader `E'` are
  related by `later` (Evol.v: the declarations of `E'` are those of `E` edited the way the
  documentation allows). Nothing is assumed about how `E'` decodes.

## Map of the files (rocq/theories)

| role | files |
|------|-------|
| model: bytes, outcomes, readers and writers | Base, Prog, SliceReader |
| model: primitives | Prim (varints, zig-zag), Utf8, Tag |
| model: types, encoders, decoders | Ty, Ser, De, Endian, Ext, Meter, Borrowed, Closure, Names, Unsafe, Partial, Custom, ErrText, RevOf, Index |
| model: skipping, walking, random access | Skip, SkipIdx, Walk, Hand, IdxWalk, FieldAt, Calls, Seqs, Retry, CustomSkip |
| model: front end of the derive macro | Syntax, Macro |
| specification: what values, declarations and environments are legal | Typed, Users, Evol |
| specification: what migration, parts, walks, forms, wrappers mean | Mig, Parts, OrderFree, Spec, WalkSpec, Format, Transp, Target, Size, MacroSpec, Steps, Legal, Script, Stream, Retype, SkipForm, SkipDiag, Diag, Local, Feature, SyntaxSpec, Tidy, Effort, WireSize, Bincode, Journal, CustomSpec |
| property theorems | PropInt, PropWire, PropIo, PropMig, PropTotal, PropVal, PropIdx, PropSkip, PropSlice, PropView, PropEnc, PropWalk, PropFormat, PropTransp, PropMacro, PropPort, PropSize, PropRoll, PropMem, PropUntrusted, PropSteps, PropLegal, PropHand, PropWalkSafe, PropStream, PropRetype, PropSkipForm, PropDiag, PropLocal, PropFeature, PropFeatSkip, PropExt, PropReject, PropCalls, PropSeqs, PropSyntax, PropTidy, PropEffort, PropMeter, PropLen, PropBincode, PropBorrowed, PropClosure, PropReader, PropWalkMem, PropEnvelope, PropNames, PropUnsafe, PropJournal, PropPartial, PropCustom, PropOwned, PropLater, WalkRef, MigRef, PropWalkLocal, PropRollSkip, PropSkipAfter, PropRetry, PropSet, PropFieldAt, PropSkipDiag, PropLimit, PropErrText, PropLimitB, PropRevOf, PropIndex, PropWalkLimit, PropStack, PropSessions, PropDebug, PropCut, PropCustomMem, PropCustomSkip, PropCustomRun |
| example program used to show hypotheses are met | Ex |
| the data of the tests in /repo run through the model | Vectors |
| lemmas | all others |

Specification files contain no readers and no writers and do not use the encoder or decoder (Journal.v is an application that calls them; Stream.v runs a given
reader program in the application's retry loop).
Property files contain the theorems named in MANIFEST.json, each followed by `Print Assumptions`,
and `Example`s showing that concrete, non-trivial cases meet the hypotheses.
Vectors.v compares the model with the tests in /repo (17 files in tests/ and the `mod tests` in src/): the pinned bytes, the
lengths under both integer encodings, the migrated values, the walker scripts and the errors those tests assert are what the model
computes. It proves no property; it is evidence that the model is of this code.

## Trusted base

* The kernel of Coq 8.16.1 (and `coqchk`, which rechecks the compiled files). `vm_compute` is used,
  `native_compute` is not.
* `Print Assumptions` prints "Closed under the global context" for every theorem in MANIFEST.json:
  no axioms at all, not even those of the standard library. No `Axiom`, `Parameter`, `Admitted`,
  section-less `Variable`/`Hypothesis`, functor or module type occurs.
* Libraries: only the Coq standard library (List, NArith, ZArith, Lia, Permutation, Sorted,
  ZifyBool, ...).
* That the model says what the Rust code does. Every definition of the model cites the lines of
  /repo it models. Section "What is modelled" says what was left out.
* What is assumed of the world outside the crate, as hypotheses visible in each statement:
  - `wf_env` (Typed.v): pointer width 32 or 64; the `Ord` of each key type is a total preorder;
    iteration of hash tables and heaps yields a permutation; re-reading the 16 bytes of a decimal
    is idempotent; an external constructor (chrono, regex, NotNan, geo) returns again what it
    returned (C65_law: true of chrono and NotNan; of geo unless a polygon's ring starts with a NaN); `SystemTime` holds fewer than 2^64 seconds; and schemas are well-formed
    (`wf_schema`). C50 proves that every declaration the macro accepts has a well-formed schema,
    given rustc's own checks (`type_checks`).
  - `users_typed`, `ext_typed`, `opt_stable` (Users.v), in the theorems about decoding data of older
    revisions or arbitrary bytes: user functions return well-typed values, which rustc checks. They
    may still fail or panic.
  - the Rust standard library: `String::from_utf8`, `char::encode_utf8`, `read_exact`, `write_all`,
    `Duration::new` and `SystemTime` arithmetic behave as documented (modelled in Utf8.v, Prog.v,
    De.v).

## What is modelled and what is not

Modelled, function by function:

| /repo | in |
|-------|----|
| src/lib.rs (to_vec, to_writer, from_slice, from_reader, skip entry points, traits) | Spec, Skip, Prog |
| src/implementations/primitives.rs | Prim, Ser, De, Skip |
| src/implementations/{arc,arrays,bound,boxes,bytes,collections,cow,decimal,duration,imbl,option,path,range,result,reverse,specialised,string,system_time,tuple,uuid,vecs,wrapping}.rs | Ser, De |
| src/implementations/{chrono,geo,notnan,regex}.rs | `TExt` in Ser, De: written as another type, validated on reading; Ext for what chrono, geo and ordered-float do (their constructors as documented) |
| src/implementations/skip.rs | Skip |
| src/implementations/walk.rs, src/walk.rs | Walk; Hand (StructWalker, EnumWalker) |
| src/optimised/{tag,envelope}.rs | Tag, Ser, De, Skip |
| src/optimised/validation.rs, indexed/{map,seq,struct}_walk.rs | IdxWalk, FieldAt |
| src/optimised/indexed/serialize.rs | Ser, De, SkipIdx |
| src/slice_reader.rs | SliceReader; Borrowed (the trait BorrowedReader and code generic over it) |
| revision-derive/src/ast/{attributes,history}.rs, expand/{mod,common,context,validate_version}.rs | Macro (Ty for discriminants) |
| the parsers in revision-derive/src/ast/{attributes,mod}.rs, expand/reexport.rs | Syntax |
| revision-derive/src/expand/{ser,de,skip,walk}.rs, expand/optimised/*.rs | Ser, De, Skip, Walk, Hand (tables, accessors) |
| the names of items, methods and local variables in revision-derive/src/expand/{ser,de,walk}.rs, expand/optimised/*.rs | Names |
| src/implementations/roaring.rs, hand-written implementations of the traits of src/lib.rs | Custom |
| the `unsafe` blocks of src/implementations/{specialised,uuid,decimal,vecs,collections,imbl}.rs, and bytes.rs | Unsafe (the one in slice_reader.rs: Borrowed) |

Simplifications (each also stated at the definition):

* Values of foreign types (Regex, chrono, geo) are the plain values they are written as; the foreign
  constructor is a partial function of the environment. Ext.v writes these constructors out for chrono, geo
  and ordered-float, and C65 shows that the two agree; Regex stays a parameter.
* Floats are bit patterns; chars are scalar values; strings are byte strings with a UTF-8 predicate.
* Tuples of any width are right-nested pairs ended by unit; named and positional fields are the same.
* Memory: an allocation request is an effect with its size; it fails if it is above the largest
  allocation `e_mem`. The sum over all requests is metered by a second copy of the decoder (Meter.v), proved
  to decode the same (C73_meter).
* Stack: call depth is counted once per call of a derived type's function.
* Hash tables: equality and iteration order only.
* A reader that runs out of data reports `UnexpectedEof`; other IO errors of a reader are one
  constructor. Error messages are dropped; error kinds are kept.
* The bulk vector code has a separate path for big-endian targets, modelled in Endian.v and proved
  equivalent (C51_big_endian_*); the rest of the code is the same for both.
* Names.v takes identifiers as ASCII text, ignores locals that start with two underscores, and takes a function whose
  parameter is shadowed before a use to be one that does not compile.
* Unsafe.v: memory is a list of blocks of bytes, each initialised or not. Alignment and aliasing rules are left out; a
  failing allocation is a panic; the elements of generic vectors are plain bytes without a destructor; the reborrow of
  `Vec<T>` as `Vec<u32>` after a `TypeId` test is the identity.

Not modelled:

* the roaring crate's own format (roaring.rs hands over to it; Custom.v takes it as a parameter, C83);
* `bytes.rs`' reference counting, `Cow` borrowing, and lifetimes in general: aliasing is not visible
  in a functional model. C43's "without copying" is modelled as "the slice handed out is a segment of
  the input at this offset".
* below the level of tokens: the lexer, what `syn` accepts as a type, generics or visibility path (each is one token in
  Syntax.v), spans, texts of errors, generated documentation
* Debug implementations, benches, tests, and size_table.rs (one trait that the
  macro does not use).

## Plan and theorems per property

| id | modelled | proof | theorems |
|----|----------|-------|----------|
| C01 | `ser`/`de` on all of `ty`, all features | induction on call depth and on `ty`; decoder run on `bytes ++ rest`; reading back with the writing program is the case where migration is the identity | C01_round_trip |
| C02 | same | same | C02_self_delimiting, C02_back_to_back |
| C03 | same | prefix argument: a successful run reads a prefix only | C03_no_strict_prefix, C03_end_of_input |
| C04 | same | corollary of C02 | C04_prefix_free, C04_injective |
| C05 | second interpreter over chunk/interrupt schedules | induction on `prog` | C05_fragmentation, C05_failing_reader, C05_failing_is_truncation, C05_skip |
| C06 | `wop` log run by a short-writing writer | induction on log; `bool` refutation by computation | C06_delivers_all, C06_error_prefix, C06_delivers_all_positive_writers, C06_bool_refuted |
| C07 | varint functions on `N` | little-endian byte lemmas, `lia` | C07_canonical, C07_minimal, C07_any_form |
| C08 | varint decoders | inversion of `run` | C08_decode_int, C08_decode_byte, C08_decode_fixed_width |
| C09 | zig-zag on `Z` | `lia` with explicit mod/div | C09_zigzag, C09_gazgiz, C09_small_first |
| C10 | `de` soundness against `typed` | induction on depth and `ty` | C10_decoded_is_well_typed, C10_utf8 |
| C11 | `de` then `ser` then `de` | C10 and C01 | C11_decoded_reencodes, C11_normal_form_stable |
| C12 | `skip` separately from `de` | simulation between programs | C12_skip_consumes_what_deserialize_consumes, C12_skip_encoding, C12_specialised_refuted, C12_skip_encoding_limited |
| C13 | `skip_slice` separately | simulation | C13_slice_skip, C13_skip_slice, C13_any_reader |
| C14 | `skip_check` separately | simulation; refutation by computation | C14_skip_check_is_deserialize, C14_accepts, C14_skip_check_slice, C14_system_time_refuted |
| C15 | `Panic` outcomes, allocation effect, depth | induction; refutations by computation | C15_panics_listed, C15_no_panic, C15_depth_bounded_by_input, C15_duration_refuted, C15_system_time_refuted, C15_declared_length_refuted |
| C16 | allocation effect of `skip` | induction | C16_skip_needs_no_memory, C16_path_refuted |
| C17 | schemas, histories, two programs | spec `migrate` (Mig.v) independent of the codec; induction | C17_later_programs_read, C17_struct_migration, C17_plain_fields, C17_built_in_fields_keep_their_value, C17_removed_indexed_refuted |
| C18 | same for enums | same; refutations by computation | C18_enum_migration, C17_later_programs_read, C18_optimised_fields_refuted, C18_size_class_refuted |
| C19 | revision header | inversion | C19_deserialize_rejects, C19_skip_rejects, C19_walk_rejects |
| C20 | revision header | inversion | C20_header_is_current |
| C21 | front end of the macro | induction over attribute lists | C21_accepted_histories, C21_order_irrelevant, C21_only_history_matters, C21_complete, C21_duplicate_rejected, C21_zero_rejected, C21_gap_rejected, C21_mixed_rejected, C21_one_source, C21_too_many_rejected |
| C22 | discriminant assignment | list induction, NoDup | C22_distinct, C22_rejected_iff_clash, C22_automatic, C22_lowest_free |
| C23 | discriminant assignment | list induction | C23_append_keeps_discriminants |
| C24 | envelope/tag functions and optimised code | run lemmas | C24_struct_layout, C24_struct_skip, C24_struct_extra_bytes, C24_struct_read, C24_variant_layout, C24_variant_skip, C24_variant_extra_bytes, C24_variant_read, C24_inline_helper, C24_fixed_helper, C24_varlen_helper, C24_struct_extra_limited, C24_variant_extra_limited |
| C25 | tag functions | exhaustive over bytes, by arithmetic | C25_round_trip, C25_distinct, C25_reserved_class_rejected, C25_extended, C25_never_extended, C25_reserved_bit_refuted |
| C26 | indexed map encoder/decoder | sorted list and offset-table lemmas | C26_indexed_map_round_trip, C26_limited |
| C27 | same | sorting is canonical | C27_indexed_map_order, C27_value_order |
| C28 | indexed seq/set encoder/decoder | offset-table lemmas | C28_indexed_seq_round_trip, C28_indexed_set_round_trip, C28_limited_seq, C28_limited_set |
| C29 | indexed skippers | run lemmas | C29_skip_indexed_seq, C29_skip_indexed_set, C29_skip_indexed_map, C29_limited_seq, C29_limited_set, C29_limited_map |
| C30 | map view | binary search invariant | C30_encoded, C30_validated, C30_small_refuted, C30_byte_order, C30_readme_refuted |
| C31 | map view | same | C31_encoded, C31_validated |
| C32 | seq/struct views | offset-table lemmas | C32_indexed_seq, C32_indexed_set, C32_indexed_map, C32_indexed_struct |
| C33 | view constructors on arbitrary bytes, explicit overflow/slice panics | case analysis; refutations by computation | C33_seq_panics_iff, C33_map_panics_iff, C33_struct_no_panic, C33_seq_refuted, C33_map_refuted, C33_empty_map_refuted |
| C34 | views | invariant established by validation | C34_seq, C34_map, C34_struct |
| C35 | views | case analysis | C35_map, C35_seq, C35_struct |
| C36 | views over encoder output | offset-table lemmas; refutations | C36_indexed_seq, C36_indexed_set, C36_indexed_map, C32_indexed_struct, C36_seq_refuted, C36_map_refuted, C36_struct_refuted |
| C37 | derived struct walkers | simulation with `de`; refutations | C37_visit_struct, C37_opening_fails, C37_encoded_opens, C37_field_bytes, C37_fixed_refuted, C37_indexed_refuted, C37_legacy_indexed_refuted, C37_view_refuted, C37_older_indexed_refuted, C37_length_refuted, C37_optimised_copy_refuted, C37_converted, C37_converted_limited |
| C38 | derived enum walkers | simulation with `de`; refutations | C38_variant_test, C38_decode_variant, C38_unit_variant, C38_optimised_copy_refuted, C38_added_field_refuted, C38_inserted_variant_refuted |
| C39 | container walkers | induction over visit scripts | C39_scripts_agree, C39_visit_seq, C39_visit_map, C39_map_sessions, C39_notnan_refuted, C39_abandoned_refuted |
| C40 | container walkers | case analysis | C40_bulk_refused, C40_walked_layout |
| C41 | map walker search | induction over entries | C41_find_hit, C41_find_miss, C41_find_bytes_hit, C41_find_bytes_miss, C41_map_order_ascends, C41_hash_refuted |
| C42 | SliceReader / BorrowedReader | state invariants | C42_consumed_and_remaining, C42_failed_operations_change_nothing, C42_consume, C42_sub, C42_sub_bytes, C42_sub_error, C42_no_panic, C42_slice_readers_agree |
| C43 | same | case analysis | C43_take, C43_bytes_of_what_decodes, C43_bytes_of_encoding, C43_exact_or_error |
| C44 | wrappers | relation on types (Transp.v), congruence of every function | C44_encode, C44_decode, C44_skip, C44_skip_slice, C44_wrapper, C44_specialised_refuted, C44_reverse_refuted, C44_decode_limited, C44_skip_limited, C44_skip_slice_limited |
| C45 | `ser` outcomes | induction | C45_errors_listed, C45_only_size_can_fail, C45_panics_listed, C45_failures_happen |
| C46 | usize codecs at two widths | arithmetic; refutation | C46_usize_portable, C46_usize_refuted, C46_exact, C46_isize_portable |
| C47 | map decoding | association list lemmas | C47_last_entry_wins, C47_set_keeps_elements |
| C48 | fixed(N) variants | run lemmas; refutation | C48_fixed_length, C48_skip_fixed, C48_wrong_size_undecodable, C48_release_refuted, C48_wrong_size_limited |
| C49 | grammar of forms (Format.v) | both inclusions by induction on depth and `ty` | C49_decodes_exactly, C49_decoded_is_form, C49_form_decodes, C49_rejected, C49_unambiguous, C49_written_is_form |
| C50 | front end of the macro; the rules in Legal.v | inversion of the expander; option loops characterised by counts of options; both directions of acceptance against Legal.v | C50_schema_of_declaration, C50_accepted_is_well_formed, C50_round_trip_of_declarations, C50_removed_have_convert, C50_lifetimes_in_range, C50_traits_implemented, C50_accepted_iff, C50_accepted_or_rejected, C50_option_order, C50_attribute_flags_refuted |
| C51 | two environments with the same features and declarations | relation between the two encoders' outcomes; C01 on the reading target | C51_same_outcome, C51_same_bytes, C51_reproducible, C51_read_elsewhere, C51_upgrade_elsewhere, C51_big_endian_bytes, C51_big_endian_read |
| C52 | a size measure on values by type; the decoder | accounting argument over the decoder's program: every byte read pays for 8 bits of size | C52_bounded, C52_no_defaults, C52_lengths, C52_zero_width, C52_units_refuted |
| C53 | Encoder of the newer program, decoder of the older one, edit relation of Evol.v | `C53_rollback` (RollL.v: the round-trip induction with a third outcome "newer revision"; success iff every derived part has the same revision in both programs), `C53_newer_type` | C53_rollback, C53_newer_type, C53_skip, C53_skip_data, C53_skip_slice, C53_skip_slice_limited |
| C54 | decoder under an allocator that refuses requests above a limit | `C54_limit_harmless` (MemL.v: each request is bounded by the bytes its continuation reads), corollaries; refutation by computation | C54_limit_harmless, C54_round_trip, C54_later_programs_read, C54_refused_is_malformed, C54_boxed_units_refuted |
| C55 | Skip.v (skip, skip_slice, skip_check), De.v for mirrored types | predicate `safe` (panics allowed, input length below the stack depth) closed under every combinator, induction over types, then over the stack depth because each derived type consumes at least one byte (SkipTot.v); slice version through C13; more stack changes nothing by `agree` | C55_panics_listed, C55_no_panic, C55_slice_no_panic, C55_depth_bounded_by_input, C55_check_panics_listed, C55_duration_refuted, C55_path_refuted |
| C56 | Three programs related by edits (Evol.v); migration (Mig.v); what stays and settled defaults (Steps.v) | migration of containers characterised as a relation ('carried') that composes; fields by induction over the aligned declarations; depth induction; bytes by C17 | C56_stepwise_is_direct, C56_upgrade, C56_default_refuted, C56_removed_refuted |
| C57 | Hand.v: the three tables, revision()/discriminant() of the generated walkers, StructWalker and EnumWalker as a state machine over the reader with a u32 position | PropHand.v: encoded structs split into the encodings of their fields (induction over the fields), each touched through the cross-version decode theorem (C17), C12 for skips and C39 for walks; names by uniqueness of discriminants and the name-preserving edits | C57_variant_table, C57_field_table, C57_struct_by_hand, C57_enum_by_hand, C57_optimised_named, C57_walker_named, C57_walker_revision, C57_walker_revision_refuted, C57_struct_limited, C57_enum_limited |
| C58 | Script.v: which scripts are accepted, by type alone; the walkers of Walk.v and SkipIdx.v on arbitrary bytes | WalkSafe.v: a safety judgement for reader calls (listed panic, or success with the reader at a suffix) closed under composition, invariant: fewer bytes than stack; induction over the script with one lemma per walker method, using Total.v and SkipTot.v for decode and skip, C10 and C45 for values that are encoded again; PropWalkSafe.v | C58_panics_listed, C58_find_panics_listed, C58_find_bytes_panics_listed, C58_field_bytes_panics_listed, C58_no_panic, C58_indexed_refuted |
| C59 | deserialize and skip as reader programs (De.v, Skip.v); the application's retry loop is Stream.v | every read of a decoder fails with the end-of-input error and (without envelopes) nothing else does: induction over types and derived types (EofL.v, StreamL.v); the loop by induction on the pieces | C59_rejection_is_final, C59_incomplete_is_eof, C59_feed, C59_feed_prompt, C59_eof_can_pass, C59_skip_rejection_is_final, C59_skip_incomplete_is_eof, C59_skip_eof_can_pass, C59_skip_feed, C59_result_refuted, C59_envelope_refuted |
| C60 | encoders and decoders of all types and derived types (Ser.v, De.v); the allowed changes are Retype.v | one-directional simulation between the two decoders (whatever one accepts the other accepts with the same result), induction over the change and over derived types; the same for encoders on well-typed values (RetypeL.v, RetypeS.v) | C60_widening, C60_old_data, C60_no_other_value, C60_same_bytes, C60_bytes, C60_u8_refuted, C60_fixed_width_refuted, C60_bulk_refuted, C60_sign_refuted, C60_skipping, C60_skipping_old_data, C60_bytes_limited |
| C61 | reader, slice, checking and indexed skippers (Skip.v, SkipIdx.v); the skippable strings are the grammar SkipForm.v | each skipper accepts exactly its grammar, induction over types and nesting depth (SkipFormL.v); slice and indexed skippers through the reader programs they follow; ambiguity and inclusion from C49 and C12 | C61_skips_exactly, C61_slice_exactly, C61_limited, C61_checks_exactly, C61_check_limited, C61_indexed_map_exactly, C61_indexed_seq_exactly, C61_forms_are_skippable, C61_checked_are_skippable, C61_unambiguous, C61_unknown_variant_refuted, C61_text_refuted |
| C62 | the decoder (Prim.v, Tag.v, De.v) with its error values; the faults are the relation Diag.v, written from the format, not from the decoder | each decoding program fails with e exactly on the inputs with fault e, induction over types and nesting depth (DiagL.v); with a memory limit through Agree.v; with C15 and C49 every input has a form or a fault, never both | C62_reports_exactly, C62_from_slice, C62_limited, C62_one_answer, C62_every_input, C62_cause_refuted, C62_eof_refuted |
| C63 | encoder, decoder, skipping, grammar (Ser.v, De.v, Skip.v, Format.v) with e_spec or e_fw replaced; Feature.v says which types are unaffected, in terms of the declarations used (Local.v) | encoder: elements in one go equal elements one by one, then congruence over types and depth; decoder: the same for the grammar, carried over by C49; restricted to the declarations used by C64 (FeatureL.v, PropFeature.v); skipping: one element steps over as many bytes as it takes of a vector skipped in one go, then congruence (FeatSkipL.v, PropFeatSkip.v); exactness by a value per type | C63_values, C63_specialised_encoding, C63_specialised_decoding, C63_specialised_decoding_exact, C63_specialised_exact, C63_fixed_width_same, C63_fixed_width_exact, C63_specialised_detected_refuted, C63_fixed_width_detected_refuted, C63_specialised_skipping, C63_specialised_skipping_exact, C63_fixed_width_skipping, C63_specialised_skipping_limited |
| C64 | encoder, decoder, skippers and well-typed values (Ser.v, De.v, Skip.v, Typed.v) with the declarations replaced by others; Local.v says which are used | congruence of every encoder, decoder and skipper in the declarations named in a type, then induction on the nesting depth with the set of used declarations, which is closed under fields (LocalL.v) | C64_encoding, C64_decoding, C64_any_reader, C64_skipping, C64_values, C64_new_declaration, C64_removed_field_refuted, C64_walking, C64_walking_bytes |
| C65 | Ext.v: the impls of chrono.rs, geo.rs, notnan.rs over values of these crates, whose constructors are written out as documented | integer round trips and division with remainder; polygons through C01 on the lists written, then closing of rings; the `_as` theorems identify these programs with the types `TExt` of the general model for a concrete environment (PropExt.v) | C65_duration_wire, C65_duration_kept, C65_duration_read, C65_date_kept, C65_date_read, C65_time_kept, C65_datetime_kept, C65_leap_second_refuted, C65_notnan, C65_polygon_read_back, C65_polygon_kept, C65_polygon_rings, C65_polygon_grows, C65_polygon_stable, C65_polygon_grows_refuted, C65_duration_as, C65_date_as, C65_time_as, C65_datetime_as, C65_notnan_as, C65_polygon_as, C65_encode_as, C65_law, C65_time_read, C65_datetime_read |
| C66 | the walkers of Walk.v on arbitrary bytes, beside the decoder of De.v | opening: case analysis against the decoder's first reads; items, entries and fields: induction over the number left, comparing the failure of the loop with that of the decoder's loop ; variants: the discriminant or tag names at most one declared variant, so the scan of the walker and that of the decoder stop at the same one (PropReject.v) | C66_open_error, C66_option, C66_result, C66_items, C66_entries, C66_fields, C66_variants, C66_variants_optimised, C66_result_error_refuted, C66_envelope_refuted, C66_items_limited, C66_entries_limited, C66_variants_limited |
| C67 | Calls.v: sequences of the methods of a struct walker, by field; what the walker and the reader are afterwards; the consuming methods as last call | indexed walkers: chain lemma of the struct encoder plus induction on the calls; in order: induction on the fields against the script of Walk.v; two counterexamples computed | C67_any_order, C67_history_free, C67_in_order, C67_last, C67_last_history_free, C67_last_bytes_total, C67_last_in_order, C67_order_refuted, C67_offsets_refuted, C67_last_walk, C67_any_order_limited, C67_last_limited |
| C68 | Seqs.v: SeqWalker and SeqItem as objects, one transition per method; scripts on item walkers from Walk.v | induction on the calls with the items still to come, each call by the general agreement lemma of Walk.v; one counterexample computed | C68_sessions, C68_dropped_refuted |
| C69 | token lists, syn's parse_terminated/peek/attributes, every option parser, parse_variant_size, the item parser (Syntax.v) | a grammar (SyntaxSpec.v) and, for each parser, soundness and completeness before a comma or the end; lists by induction on their length | C69_field_options, C69_variant_options, C69_item_options, C69_size, C69_items, C69_unambiguous, C69_accepts, C69_unknown_field_option, C69_unknown_variant_option, C69_unknown_item_option, C69_split, C69_discriminants_refuted |
| C70 | Reexport on the parsed declaration (Syntax.v), Macro.v's expand for the schema | the emitted tokens are read by the grammar as the kept part of the declaration; determinism of the grammar links it to the schema | C70_emitted, C70_shape, C70_unchanged, C70_again, C70_names |
| C71 | Tidy.v: tidied declarations (spec) over the schemas of Ty.v, encoder Ser.v, decoder De.v | fields and variants alive at r >= c are the same lists, discriminants by induction over both tables, migration by induction over typed values (TidyL.v), then the cross-version theorem for both programs | C71_same_values, C71_same_bytes, C71_same_writes, C71_same_reading, C71_history, C71_edits_are_a_history, C71_discriminants, C71_too_early_refuted, C71_skipping, C71_same_reading_limited, C71_skipping_limited |
| C72 | `calls`: the `Read` nodes performed by a decoder on an input (Effort.v) | credit argument: length prefixes and tags save up one call for the data that follows; induction over types, fields, declarations and depth | C72_deserialize, C72_skip, C72_skip_check, C72_pass_over |
| C73 | Meter.v: the decoders of De.v with the sum of all `alloc` sizes; C73_meter: same results | every element pays a reserve with its first byte, length prefixes and buffers pay for themselves; induction over types, fields, declarations and depth (MeterL.v); the lower bound by induction over a chain of nodes | C73_meter, C73_sum, C73_sum_not_optimised, C73_nesting_multiplies, C73_linear_refuted, C73_every_request |
| C74 | WireSize.v: size of a value, defined on values without the writers | induction over types, fields, declarations and depth (WireSizeL.v); sums over permutations for iteration orders | C74_length, C74_encodes, C74_any_order, C74_any_order_fails |
| C75 | Bincode.v: serde data model, bincode 1.3 format, presentation of each type | induction over types and depth, number by number (BincodeL.v); counterexamples for the excluded types | C75_bincode, C75_reads_bincode, C75_signed_refuted, C75_vectors_refuted, C75_bools_refuted, C75_uuid_refuted |
| C76 | an implementation of BorrowedReader as a state machine; functions generic over it as programs over its methods | induction over programs; the slice-reader instances are the functions of C29 and C37 | C76_any_reader, C76_slice, C76_slice_reader, C76_mut, C76_skip_indexed, C76_borrow, C76_view_code, C76_view, C76_encoded_field, C76_view_in_bounds, C76_borrow_in_bounds, C76_eager_refuted, C76_default_remaining_refuted, C76_encoded_field_limited |
| C77 | Closure.v: the three lookups with an FnMut comparison; Borrowed.v (skipping indexed collections over any reader); Skip.v | induction on the bisection for the interval halving (log2), the regions and the entries; symbolic execution of the skips on any reader; C72's loop for passing over bytes | C77_stateless, C77_any_closure, C77_validated, C77_skip_indexed, C77_skip_optimised |
| C78 | Walk.v (scripts), with the memory limit of De.v as a parameter | induction on scripts with an invariant on the walkers (nothing owned, component types lean), on top of C16 | C78_walk_without_memory, C78_find_bytes_without_memory, C78_field_bytes_without_memory, C78_legacy_view_refuted, C78_convert_refuted |
| C79 | Names: the methods of the walkers, the items and the local variables of the generated functions, by name, from the parsed declaration of Syntax | lists without repetition, cutting texts at underscores; induction over fields and variants; an accepted declaration for each clash | C79_struct, C79_tuple, C79_enum, C79_camel, C79_items, C79_writer, C79_reader, C79_methods_refuted, C79_locals_refuted, C79_items_refuted, C79_snake |
| C80 | Unsafe: allocations, uninitialised bytes, frees and unwinding, for any safe reader and writer; the vector code of specialised.rs, uuid.rs, decimal.rs and the generic loops | undefined behaviour is an outcome; an invariant on the vector and the heap through every step, induction over the element loop; on a slice the memory is related to what the decoders of De.v return | C80_bulk, C80_bytes, C80_i8, C80_elements, C80_write, C80_write_uuid, C80_numbers, C80_uuids, C80_byte_vectors, C80_any_elements, C80_decimals, C80_written |
| C81 | Journal: an application that reads all values of a file, appends values (which may fail half way, C82) and may die at any byte; processes of several releases one after the other | an inductive relation of all histories; the file is the concatenated encodings and one strict prefix, or a prefix of what a failed append wrote (invariant); C17, C53, C59, C82; encoders and migrations never report the end of input | C81_open, C81_upgrade, C81_restart, C81_result_refuted, C81_io_error_refuted, C81_failed_append_refuted, C81_restart_limited |
| C82 | Partial: serialisation as the sequence of write calls made before it stops (scratch buffers write nothing until complete) | the calls agree with Ser.v; induction over types, fields and nesting: where the writer stopped, the reader, given the same bytes, is still reading; prefixes, limits and the application of C81 follow; for earlier versions the induction runs with the rollback of C53 in place of the migration (PartialRollL) | C82_same_calls, C82_nothing_reads, C82_reports, C82_end_of_input, C82_reopen, C82_carry_on_refuted, C82_rolled_back, C82_taken_over, C82_reopen_limited |
| C83 | Custom: trait implementations as arbitrary functions over those of other types; roaring.rs and the documented example as instances; CustomSpec: the conditions; CustomSkip: skipping on slices and with checks | the lemmas for containers and derived types are parametric in the implementations of inner types; induction on nesting; instances checked for all formats; with limited memory by agreement with the unlimited run (PropCustomMem.v) | C83_round_trip, C83_no_prefix, C83_injective, C83_later, C83_skip, C83_bitmaps, C83_bitmap_errors, C83_documented, C83_kept, C83_alone_refuted, C83_derived_only, C83_round_trip_limited, C83_no_prefix_limited, C83_injective_limited, C83_later_limited, C83_refused, C83_skip_slice, C83_skip_slice_encoding, C83_skip_check_accepts, C83_skip_check, C83_skips_derived_only, C83_usual_skips |
| C84 | skip of both programs (Skip.v), the edits of Evol.v | simulation: the later program's skip gives what the earlier one's gives, by induction on depth, type and edit (PropLater.v); with C12 for encodings | C84_later_skips, C84_old_data, C84_old_slice, C84_old_slice_limited |
| C85 | sequence and map walkers, their items and entries, with the reader and counter after each failed call | induction over the calls; the safety lemmas of C58; for cut input, a decoder that stops at a read has taken the rest | C85_seq_counts, C85_map_counts, C85_seq_safe, C85_map_safe, C85_cut, C85_endless_refuted, C85_overrun_refuted, C85_map_overrun_refuted, C85_same_steps |
| C86 | indexed sets as in C28, C32; the user's binary search over element_bytes | sorted pieces, C04 (distinct values encode differently, none to nothing); invariant of the search; C34 for payloads that are not the encoder's | C86_member, C86_small_refuted, C86_untrusted, C86_order |
| C87 | decode_field, skip_field of the struct walker, opened for any number of fields | slices by the offset-table lemmas of C32, then C17 on the slice; refutations by computation | C87_decode_field, C87_count, C87_indexed_refuted, C87_skip_refuted |
| C88 | Skippers of Skip.v and SkipIdx.v; the specification SkipDiag.v gives for each type the error belonging to the first place at which the bytes cannot be passed over, after parts described by SkipForm.v | Each reader combinator is shown to report exactly a relation between errors and inputs (faults of DiagL.v) while passing over exactly a shape (SkipFormL.v); induction over types, fields and nesting depth | C88_reports_exactly, C88_slice_exactly, C88_limited, C88_checks_exactly, C88_check_limited, C88_indexed_map_exactly, C88_indexed_seq_exactly, C88_indexed_limited, C88_one_answer, C88_every_input, C88_decoding_rejects_too, C88_later_refuted, C88_cause_refuted |
| C89 | ErrText.v: all variants of Error, Display, source, decimal and hexadecimal formatting | Injectivity of the texts: prefixes differ, numbers end at a blank | C89_text_tells, C89_bool_refuted, C89_source, C89_source_shown, C89_kind |
| C90 | RevOf.v: types by name, with the wrappers told apart, and revision() of each | Induction over the chain of wrappers; C20 for the header | C90_header, C90_wrappers, C90_box_refuted, C90_readable |
| C91 | a program that indexes a file with skip_slice, reads at places and copies ranges (Index.v), on the models of skip_slice and from_slice | induction over the values, C84 for each skip and C17 for each read (PropIndex.v) | C91_index, C91_read, C91_copy |
| C92 | the walkers of Walk.v, Calls.v and Hand.v, with the limit of the machine (e_mem) | a relation between the limited and the unlimited walk, by induction over the script (WalkMem.v, PropWalkLimit.v) | C92_walk, C92_find, C92_into_bytes, C92_by_hand, C92_calls, C92_map_session, C92_seq_session |
| C93 | serializer, decoder, skippers and walkers with the stack depth they are given | the outcome with less stack is the same or the stack is exhausted, by induction over the type, the depth and the script (Agree.v, SkipTot.v, Deeper.v, Cut.v, PropStack.v, PropSessions.v, PropCut.v, PropCustomRun.v) | C93_encode, C93_decode, C93_skip, C93_walk, C93_find, C93_into_bytes, C93_by_hand, C93_calls, C93_agree, C93_map_session, C93_seq_session, C93_writes, C93_hand_written, C93_usual |
| C94 | serializer, decoder, skippers, indexed views and walkers with the build profile (e_dbg) | the outcome of the debug build is that of the release build or a failed check, by induction over the type, the depth and the script (Agree.v, Checked.v, Cut.v, PropDebug.v, PropCut.v, PropCustomRun.v) | C94_encode, C94_decode, C94_skip, C94_views, C94_walk, C94_find, C94_into_bytes, C94_by_hand, C94_calls, C94_map_session, C94_seq_session, C94_writes, C94_hand_written |

The properties are stated in full in properties.jsonl. MANIFEST.json has the same mapping with
notes. A name ending in `_refuted` proves that a natural reading of the property fails, by a concrete
counterexample; the statement of the property in properties.jsonl then mentions it.

## Where the code disagrees with its documentation or with a natural expectation

Each item is a theorem, so it holds of the model; the cited code is in the definitions it uses.

* C06_bool_refuted: `bool::serialize_revisioned` calls `write`, not `write_all`, and ignores the count:
  a writer that accepts 0 bytes loses the byte and `to_writer` still returns Ok.
* C12_specialised_refuted: without the feature specialised-vectors, skipping a `specialised` field
  reads varints although the field is written in bulk form.
* C14_system_time_refuted, C15_system_time_refuted, C15_duration_refuted: decoding a Duration or
  SystemTime from 10 or so bytes panics in time arithmetic; skip_check accepts such bytes.
* C15_declared_length_refuted, C16_path_refuted: declared lengths are allocated before reading, for
  strings, byte strings and (even when skipping) paths.
* C17_removed_indexed_refuted: a removed `indexed_*` field of an optimised struct is read with the plain
  decoder, so `convert_fn` gets a wrong value, silently.
* C18_optimised_fields_refuted: in optimised enum revisions neither `convert_fn` nor `default_fn` of
  a variant's fields is called, if the replaced field has the same type.
* C18_size_class_refuted: changing a variant's size class along with a new revision makes the data of
  older optimised revisions unreadable.
* C30_small_refuted: below 8 entries an indexed map has no offset table; `find_value_bytes` fails
  even for a key that is there.
* C33_seq/map/empty_map_refuted: opening a 10-byte payload panics; so does opening a validated indexed
  map with no entries.
* C36_seq/map/struct_refuted: the validating constructors refuse what the encoder wrote if an
  element or field takes no bytes.
* C37_*_refuted, C38_*_refuted, C39_notnan_refuted: walkers disagree with decoders on `fixed` fields, on
  indexed fields outside indexed structs and at other revisions, on trailing bytes inside an envelope,
  on variants inserted or fields added later, on converted copies of optimised types, and on NaN.
* C41_hash_refuted: `find` on the data of a HashMap misses keys, as it stops at the first larger one.
* C44_specialised_refuted, C44_reverse_refuted: `Vec<Box<u32>>` differs from `Vec<u32>` under
  specialised-vectors; sets of `Reverse` keys are written in the opposite order.
* C46_usize_refuted: a 32-bit reader truncates a `usize` above 2^32.
* C48_release_refuted: a `fixed(N)` variant that encodes to another length is written without an error in
  release builds and cannot be read back.
* C52_units_refuted: a `Vec<()>` of any length decodes from at most nine bytes (a loop of up to 2^64 steps).
* C54_boxed_units_refuted: `Vec<Box<()>>` reserves 8 bytes per declared element, none of which is on the wire.
* C55_duration_refuted, C55_path_refuted: skipping a Duration builds it, and can panic; skipping a PathBuf allocates the declared length.
* C56_default_refuted, C56_removed_refuted: going through an intermediate version can give another value than upgrading at once, when a `default_fn` uses its argument or when a field added meanwhile is removed again.
* C57_walker_revision_refuted: `revision()` of a generated walker reports the current revision for older optimised
  data although documented as the wire revision; `walk_revisioned_variant_name(revision(), discriminant())`, the
  documented use, then names a variant inserted meanwhile.
* C58_indexed_refuted: `decode_<field>` and `walk_<field>` of an indexed struct index the offset table unchecked: a short
  payload or a large offset panics. The decoder does not look at offsets, so bytes it accepts can panic in the walker;
  `into_<field>_bytes` and the views check.
* C59_result_refuted: Result and Bound report input that ended too early as a Deserialize error, so a reader that waits for more
  data on UnexpectedEof rejects good data.
* C59_envelope_refuted: an optimised payload shorter than its fields is reported as UnexpectedEof, although no further
  input can help.
* C60_u8_refuted, C60_fixed_width_refuted, C60_bulk_refuted, C60_sign_refuted: widening u8 to u16, widening any integer
  under fixed-width-encoding, widening the elements of a Vec under specialised-vectors, or changing signedness, without a new
  revision, makes old data decode without error to other values.
* C61_unknown_variant_refuted, C61_text_refuted: skipping passes over the tag of an optimised enum whose variant number does
  not exist, and over strings that are not UTF-8.
* C62_cause_refuted: an error inside a Result or a Bound is reported as a Deserialize error without its cause.
* C62_eof_refuted: the end-of-input error inside an optimised struct means that its payload ended, not the input. In passing:
  lengths of indexed containers report the 128-bit marker as an invalid integer, plain lengths as an overflow; Vec<Uuid>
  checks the byte count for overflow, Vec<Decimal> does not.
* C64_removed_field_refuted: a type that only a removed field refers to still decides how old data is read, although nothing it affects is written any more.
* C63_specialised_detected_refuted, C63_fixed_width_detected_refuted: data written by a build with other features can be read as other values without an error.
* C65_polygon_grows_refuted: a polygon with a ring that starts with a NaN coordinate gets one more point each
  time it is written and read (`Polygon::new` closes rings by `==`).
* C65_leap_second_refuted: a time with a leap second that is not at second 59 of a minute (chrono's
  `with_nanosecond` and `with_second` make them) is written and then rejected on reading.
* C66_result_error_refuted: inside a Result, the walker reports the error of the content, the decoder a Deserialize error.
* C66_envelope_refuted: the walker of an optimised struct that is not indexed reads the declared payload length and ignores it: it
  accepts payloads the decoder rejects, reading beyond them, and leaves the reader inside a payload longer than the fields.
* C67_order_refuted: the methods of a struct walker do not check the order of the calls.  On a struct that is not indexed, `decode_b()` before `decode_a()` returns the bytes of `a` as `b`, and a second `decode_a()` returns `b`, without an error.
* C67_offsets_refuted: the decoder of an indexed struct passes over the table of offsets and reads the fields one after the other; the walker goes by the table.  Bytes that decode can show other values through the walker.
* C68_dropped_refuted: a walker into an item that is dropped before its end leaves the reader inside the item; the next `next_item` reads the rest of it as an item, although `SeqItem::walk` documents that it yields the following one.
* C69_discriminants_refuted: the parser of variants looks for `:` where it means `=` (ast/mod.rs:125), so an enum with an
  explicit discriminant (`A = 1`), which it has a place for and re-emits, is always a compile error. (`A : = 1`, which rustc
  rejects before the macro runs, is what it would read.) `where` clauses are never read either, and the `impl`s are emitted
  without generic parameters.
* C71_too_early_refuted: deleting the declaration of a field or variant that ended is only safe once no data from before
  that `end` is left. Deleted earlier, older data is read with the bytes of the missing field taken for the next one, or
  with the variant of another discriminant, and no error is reported. Nothing in the macro can notice.
* C73_linear_refuted, C73_nesting_multiplies: every optimised struct or sized variant copies its payload into a fresh
  buffer before decoding it, so k nested optimised values hold k copies of the innermost data at once: 1 MB inside
  20000 nodes (1.14 MB on the wire) takes 20 GB. Decoding from a slice could borrow instead.
* C75_signed_refuted, C75_vectors_refuted, C75_bools_refuted, C75_uuid_refuted: the crate documentation says that
  primitive types are written in the bincode format.  With the feature fixed-width-encoding every non-zero signed
  integer of more than one byte is zigzag encoded before it is written at full width, which bincode does not do (the
  compatibility tests are not compiled with this feature).  Under the default features a Vec of integers wider than
  a byte, a Vec<bool> and a Uuid differ from bincode's.
* C76_eager_refuted: the contract of BorrowedReader lets `advance` go further than asked; views of fields then contain
  bytes of the next field (its documentation has a caveat to this effect).
* C76_default_remaining_refuted: an implementation that does not override `remaining` compiles; every view is then empty in
  release builds, without an error.
* C78_legacy_view_refuted, C78_convert_refuted: `<variant>_view` on a legacy revision, and opening any walker on an older revision of a type
  with a convert function, decode the value (and encode it again), with the allocations that takes.
* C79_methods_refuted: the macro accepts structs with fields `walk` and `bytes` (or `walk_x` and `x_bytes`), enums with variants `Is` and
  `View`, `IntoMap` and `MapView`, or names equal in snake case; the generated walker then has two methods of the same name.  Fields
  and variants named by raw identifiers (`r#type`) make the macro itself panic.
* C79_locals_refuted: a field named `writer`, or one named `reader` with a field after it, shadows the parameter of the generated
  function of a legacy revision, which then does not compile.
* C79_items_refuted: the structs generated for variants are named by joining enum and variant, so `Foo::BarBaz` and `FooBar::Baz` in one
  module clash.
* C25_reserved_bit_refuted: the documentation of tag.rs says bit 7 of a tag must be 0; a tag with the bit set
  reads like the one without it.
* C81_result_refuted, C81_io_error_refuted: an application that takes end of input for an interrupted write cannot open
  its file after a crash if the data contains Result or Bound, and erases data if a convert function returns an IO error.
* C81_failed_append_refuted: what a failed append left can contain a complete part that a later release refuses to migrate;
  that release then cannot open the file, although the value was never stored.
* C82_carry_on_refuted: `to_writer` is not all or nothing.  A value that cannot be written (a path that is not UTF-8) leaves
  its first bytes in the writer; if the application carries on and appends the next value, the reader returns, without an
  error, a value that nobody wrote.  Nothing in the documentation asks for truncating or closing the output after an error.
* C30_readme_refuted: the README's example of a lookup compares stored keys with `"bravo".as_bytes()`.  Stored keys are encodings, with a
  length in front: the example finds nothing (its `unwrap` panics), and for some texts such a lookup returns the value of another key.
* C83_alone_refuted: a hand-written implementation whose every value reads back from its own bytes can still corrupt a
  list of them; it must also leave the bytes that follow. C83_bitmap_errors: inside a roaring bitmap the end of the input
  is reported as Error::Deserialize, not Error::Io, so a reader that drops a cut-off last value (C81) cannot recognise it.
* C85_endless_refuted, C85_overrun_refuted, C85_map_overrun_refuted: the counter of a sequence or map walker goes down only when an item or value was handled. A loop over `next_item` that logs errors and goes on never ends once the input is used up; and when an item is complete but not valid (a string that is not UTF-8), the loop takes what follows the sequence for one more item.
* C86_small_refuted: a set of fewer than 8 elements written with `indexed_set` has no offset table, so the membership test through the
  walker that README.md and indexed/serialize.rs describe fails for it with "element_bytes called on non-indexed seq".
* C87_indexed_refuted: `IndexedStructWalker::decode_field` decodes with the field type's own format. A field declared
  `indexed_map`, `indexed_seq` or `indexed_set` is not written in that format. The flags byte is taken for the length: a map
  of two entries is returned as empty, and one of nine as a single entry that was never written. No error is reported.
* C87_skip_refuted: `IndexedStructWalker::skip_field` accepts indices that no field has.
* C88_later_refuted, C88_cause_refuted: the error of a failed skip is not the one decoding the same bytes reports. Skipping does not
  look into strings and payloads and may stop later at something else; and it reports the cause of an error within Result and Bound,
  which decoding turns into a Deserialize error with a text.
* C90_box_refuted: `Box<T>`, `Arc<T>`, `Wrapping<T>` and `Reverse<T>` say revision 1 while writing the header of `T`; `Cow<T>` says `T`'s.
* C89_bool_refuted: the text of `InvalidBoolValue` does not show the byte it carries.
* C39_abandoned_refuted: a map entry abandoned after its key makes its value the next key (documented misuse).
* C50_attribute_flags_refuted: the documented spelling `#[revision(serialize = false)]` on the item has no
  effect.

Other observations made while modelling, without a theorem of their own: explicit enum
discriminants never parse (ast/mod.rs looks for `:` and then requires `=`); an `override` given twice for one
revision silently keeps the last (Example `repeated_override`); the documentation says the declared
revision must match the largest one used, the macro only checks that none is larger; `from_slice` ignores trailing bytes.

## Testing the theorems against wrong programs

seeded/LOG.jsonl has one line per wrong program: a definition of the model is edited in a scratch copy as a
realistic bug would change the code, everything that depends on it is rebuilt, keeping going past failures, and
the property theorems that no longer prove are recorded. An edit that leaves all relevant theorems
provable although a claim is now false shows a theorem that is too weak; the line then names the theorem
that was added or tightened. Edits that are survived because they do not change behaviour are noted as such.
One survivor is left open: s93_bind0 gives all fields of a tuple the same local name, and no theorem says these names differ
(the statement of C79 is about methods, items and shadowed parameters, and does not claim it).
