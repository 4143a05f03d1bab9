{"id": "C01", "title": "Round trip of every supported type", "statement": "If to_vec(&v) returns Ok(bytes) then from_slice(&bytes) returns Ok(v'), with v' equal to v, for every built-in type, every nesting of built-in types and every derived type.", "quantifier": "all types of the modelled universe (arbitrarily nested, recursive derived types included), all well-formed values, all cargo-feature combinations of fixed-width-encoding and specialised-vectors, all hash-map iteration orders", "why_tests_cant": "Tests fix a handful of types, values and feature sets; the claim ranges over an infinite, mutually recursive family of types and all their values.", "anchors": ["src/lib.rs: to_vec, from_slice", "src/implementations/*.rs: SerializeRevisioned, DeserializeRevisioned", "revision-derive/src/expand/ser.rs", "revision-derive/src/expand/de.rs"]}
{"id": "C02", "title": "Encodings are self-delimiting", "statement": "Decoding from a reader positioned at an encoding followed by arbitrary further bytes returns the original value and leaves the reader exactly at the first following byte; so values written back to back are read back to back.", "quantifier": "all types, values and arbitrary trailing byte strings / sequences of values", "why_tests_cant": "The trailing context is an arbitrary byte string; tests only try empty or short suffixes.", "anchors": ["src/lib.rs: from_reader, SerializeRevisioned, DeserializeRevisioned", "src/implementations/*.rs"]}
{"id": "C03", "title": "No strict prefix of an encoding decodes", "statement": "Cutting an encoding short anywhere makes decoding return an Err; it never returns Ok and never a different value. The error is Error::Io (UnexpectedEof), or the Deserialize error that Result and Bound make of it.", "quantifier": "all types, values, and every cut position", "why_tests_cant": "Every crash/cut point of every encoding must be considered.", "anchors": ["src/implementations/*.rs", "src/implementations/primitives.rs: read_buffer", "revision-derive/src/expand/de.rs", "tests/corruption.rs"]}
{"id": "C04", "title": "Encoding is injective and prefix-free", "statement": "Two values of one type with the same bytes are equal, and the encoding of one value is never a proper prefix of the encoding of another.", "quantifier": "all types and all pairs of values", "why_tests_cant": "Pairs of values are infinite.", "anchors": ["src/implementations/*.rs", "src/lib.rs: to_vec"]}
{"id": "C05", "title": "Decoding does not depend on how the reader fragments its data", "statement": "from_reader gives the same result and consumes the same bytes for every way an io::Read may split the stream into short reads and spurious Interrupted errors; so do skip_revisioned and the checking skip. If the reader fails with another error part way, the result is either the one on the whole stream (the failure came after the value) or the error that a stream ending early would have given; it is never a different value.", "quantifier": "all types, all byte streams, all fragmentation/interruption/failure schedules", "why_tests_cant": "Schedules of short reads are unbounded; tests use whole slices.", "anchors": ["src/lib.rs: from_reader", "src/implementations/primitives.rs: read_buffer", "src/implementations/specialised.rs: Vec<u8> read_to_end"]}
{"id": "C06", "title": "to_writer delivers every byte or reports an error", "statement": "If to_writer returns Ok then the writer accepted exactly the bytes to_vec returns, for writers that may accept fewer bytes than offered or be interrupted. (Holds for types whose encoding does not write a bare bool; the bool implementation calls write, not write_all, and is a counterexample.)", "quantifier": "all types, values and short-write schedules", "why_tests_cant": "Writer behaviour is adversarial; in-memory tests never short-write.", "anchors": ["src/lib.rs: to_writer", "src/implementations/primitives.rs: impl SerializeRevisioned for bool"]}
{"id": "C07", "title": "Variable-length integers are canonical and minimal", "statement": "Unsigned integers are written in 1, 3, 5, 9 or 17 bytes depending only on their magnitude, no accepted encoding of the same number is shorter, and the decoder returns that number from any accepted form.", "quantifier": "all u64 and u128 values and all byte strings accepted by the decoder", "why_tests_cant": "2^128 values and arbitrary byte strings.", "anchors": ["src/implementations/primitives.rs: encode_u64, encode_u128, decode_u64, decode_u128"]}
{"id": "C08", "title": "Integer decoding never returns an out-of-range number", "statement": "Decoding any bytes as an integer type returns a value inside that type's range, IntegerOverflow when the encoded number does not fit, InvalidIntegerEncoding on the reserved tag 255, or an IO error; it never wraps.", "quantifier": "all integer types and all byte strings; (usize/isize only on 64-bit targets)", "why_tests_cant": "Arbitrary byte strings.", "anchors": ["src/implementations/primitives.rs: DeserializeRevisioned for u16..i128"]}
{"id": "C09", "title": "Signed integers survive zig-zag at the extremes", "statement": "The signed-to-unsigned mapping used on the wire is a bijection between i64 and u64 (and i128 and u128) with the documented small-magnitude-first order, including MIN and MAX, and none of its shifts or negations overflow.", "quantifier": "all i64/u64/i128/u128 values", "why_tests_cant": "2^128 values.", "anchors": ["src/implementations/primitives.rs: zigzag_64, gazgiz_64, zigzag_128, gazgiz_128"]}
{"id": "C10", "title": "Decoding only ever yields well-formed values", "statement": "Whatever the bytes, Ok(v) implies that v is a legal value of the target type: bools are 0/1, chars are Unicode scalar values, strings are valid UTF-8, integers are in range, NotNan is not NaN, maps and sets have unique keys, and derived values have every field present.", "quantifier": "all types and all byte strings", "why_tests_cant": "Arbitrary byte strings for arbitrary types.", "anchors": ["src/implementations/string.rs", "src/implementations/primitives.rs", "src/implementations/collections.rs", "src/implementations/notnan.rs"]}
{"id": "C11", "title": "Decode then encode normalises", "statement": "If arbitrary bytes decode to v, then encoding v and decoding again gives v; non-canonical inputs (long varints, Vec<bool> padding, duplicate or unordered keys) are mapped to the canonical encoding of the same value.", "quantifier": "all types and all byte strings that decode", "why_tests_cant": "Arbitrary accepted byte strings.", "anchors": ["src/implementations/*.rs", "src/lib.rs"]}
{"id": "C12", "title": "skip consumes exactly what deserialize consumes", "statement": "Whenever deserialize_revisioned succeeds on some bytes, skip_revisioned succeeds on them and leaves the reader at the same position, for every type whose skip is built in or derived. (Counterexample: a #[revision(specialised)] field when the specialised-vectors feature is off.)", "quantifier": "all types, all byte strings (not only canonical encodings), all feature combinations", "why_tests_cant": "A relation between two separately written families of functions over all inputs.", "anchors": ["src/lib.rs: SkipRevisioned", "src/implementations/skip.rs", "revision-derive/src/expand/skip.rs"]}
{"id": "C13", "title": "Slice skip agrees with reader skip", "statement": "skip_slice / skip_revisioned_slice succeed exactly when skip_revisioned does on the same bytes, report the same number of consumed bytes, and skip_slice's return value is that number.", "quantifier": "all types and all byte strings", "why_tests_cant": "Two implementations (consume vs chunked read) over arbitrary input, including lengths beyond the buffer size 4096.", "anchors": ["src/lib.rs: skip_slice, SkipRevisioned::skip_revisioned_slice", "src/slice_reader.rs: advance_read, SliceReader::consume", "src/implementations/skip.rs"]}
{"id": "C14", "title": "skip_check accepts exactly what deserialize accepts", "statement": "skip_check_revisioned succeeds on bytes iff deserialize_revisioned does, consuming the same bytes. (Counterexample: SystemTime, where skip_check accepts bytes on which deserialize panics.)", "quantifier": "all types and all byte strings", "why_tests_cant": "Arbitrary byte strings for arbitrary types.", "anchors": ["src/lib.rs: SkipCheckRevisioned, skip_check_slice", "src/implementations/skip.rs", "revision-derive/src/expand/mod.rs"]}
{"id": "C15", "title": "Decoding is total: no panic, no runaway recursion", "statement": "On every byte string, decoding any type terminates with Ok or Err using recursion no deeper than the number of input bytes; the only panics are time-arithmetic overflow in Duration/SystemTime, refused allocations of attacker-declared lengths, the unchecked offset-table size of an indexed map in debug builds, and whatever user-supplied default/convert functions do. (The first two are exhibited as counterexamples to plain totality.)", "quantifier": "all types, all byte strings, all memory limits", "why_tests_cant": "Arbitrary input and unbounded recursion depth.", "anchors": ["src/implementations/duration.rs", "src/implementations/system_time.rs", "src/implementations/vecs.rs: with_capacity", "src/implementations/collections.rs"]}
{"id": "C16", "title": "skip needs no memory proportional to declared lengths", "statement": "Skipping never allocates buffers sized by a length read from the input, except for the types whose skip is defined as deserialize.", "quantifier": "all types and all byte strings", "why_tests_cant": "Arbitrary declared lengths.", "anchors": ["src/implementations/skip.rs", "src/slice_reader.rs: advance_read"]}
{"id": "C17", "title": "Old struct bytes decode under newer code with the declared migration", "statement": "Bytes written by the program at revision r of a struct decode under the program at revision n >= r to the struct whose surviving fields keep their values, whose added fields get default_fn(r) (or Default), with convert_fn applied for each removed field in declaration order; nested revisioned types migrate by their own revisions. (Counterexample: a removed indexed_* field of an optimised struct is decoded with the wrong decoder, and silently lost.)", "quantifier": "all struct schemas with any histories, all r <= n, all values, any nesting, both legacy and optimised history entries", "why_tests_cant": "Quantifies over all evolution histories of all schemas.", "anchors": ["revision-derive/src/expand/de.rs: visit_struct, DeserializeFields", "revision-derive/src/expand/ser.rs", "revision-derive/src/ast/attributes.rs: FieldOptions", "README.md"]}
{"id": "C18", "title": "Old enum bytes decode under newer code with the declared migration", "statement": "Bytes written at revision r of an enum decode at revision n >= r to the same variant with migrated fields, or to convert_fn(old fields, r) when the variant was removed. (Counterexamples: in optimised revisions, convert_fn and default_fn of a variant's fields are never called; and a changed size class makes older data unreadable.)", "quantifier": "all enum schemas with any histories and overrides, all r <= n, all values", "why_tests_cant": "Quantifies over all evolution histories of all schemas.", "anchors": ["revision-derive/src/expand/de.rs: visit_enum, DeserializeVariant", "revision-derive/src/expand/common.rs: CalcDiscriminant"]}
{"id": "C19", "title": "Unknown revisions are rejected", "statement": "Bytes whose revision header is 0 or greater than the type's current revision are rejected with a Deserialize error by deserialize, skip, skip_check and walk, before any field is interpreted.", "quantifier": "all derived types, all header values in 0..=u16::MAX, all payloads", "why_tests_cant": "All schemas and payloads.", "anchors": ["revision-derive/src/expand/mod.rs: revision", "revision-derive/src/expand/walk.rs: emit_walk_impl"]}
{"id": "C20", "title": "The header written is always the current revision", "statement": "Every successful encoding of a derived type starts with the encoding of Revisioned::revision(), which equals the newest entry of the declared history.", "quantifier": "all derived types and values", "why_tests_cant": "All schemas and values.", "anchors": ["revision-derive/src/expand/mod.rs", "revision-derive/src/ast/history.rs"]}
{"id": "C21", "title": "Declared histories are exactly 1..=N", "statement": "A type's revision attribute is accepted only if its history covers 1..=N exactly once, whatever order entries are declared in, with 1 <= N <= u16::MAX; duplicates, gaps, zero and mixing the two syntaxes are compile errors.", "quantifier": "all lists of declared history entries", "why_tests_cant": "Infinite space of declarations.", "anchors": ["revision-derive/src/ast/attributes.rs: resolve_history", "revision-derive/src/expand/mod.rs"]}
{"id": "C22", "title": "Variant discriminants never collide within a revision", "statement": "At each revision, the variants alive at that revision get pairwise distinct discriminants, overrides are honoured, and a declaration with clashing overrides is rejected. The variants without an override get, in declaration order, the lowest numbers no override takes.", "quantifier": "all enum declarations and revisions", "why_tests_cant": "Infinite space of declarations.", "anchors": ["revision-derive/src/expand/common.rs: CalcDiscriminant, GatherOverrides"]}
{"id": "C23", "title": "Adding variants at the end keeps old discriminants", "statement": "Appending new variants (without overrides) after the existing ones leaves the discriminant of every older variant unchanged at every revision.", "quantifier": "all enum declarations, any appended variants", "why_tests_cant": "Infinite space of declarations.", "anchors": ["revision-derive/src/expand/common.rs: CalcDiscriminant"]}
{"id": "C24", "title": "Optimised envelopes can be skipped without knowing the fields", "statement": "An optimised struct or varlen variant carries exactly the byte length of its payload, so skipping or reading it lands exactly on the following byte even when the payload has extra trailing bytes unknown to the reader.", "quantifier": "all optimised types, all payloads, all trailing bytes", "why_tests_cant": "Arbitrary payloads and suffixes.", "anchors": ["src/optimised/envelope.rs", "revision-derive/src/expand/optimised/struct_codegen.rs", "revision-derive/src/expand/optimised/enum_codegen.rs"]}
{"id": "C25", "title": "Tag bytes round-trip and reserved size classes are rejected", "statement": "Tag::new(id, class) followed by variant_id/size_class returns id and class for all 32 ids and 3 classes, distinct pairs give distinct bytes, and every byte with size-class bits 0b11 is rejected as InvalidOptimisedTag. is_extended tells bit 7, no tag made by Tag::new has it; the documentation says it must be 0, but a tag with the bit set reads like the one without it (counterexample).", "quantifier": "all ids, all size classes, all bytes", "why_tests_cant": "Tests try a few ids; the claim is over all bytes and all pairs of tags.", "anchors": ["src/optimised/tag.rs: Tag, SizeClass, read_tag", "src/optimised/envelope.rs: read_optimised_tag"]}
{"id": "C26", "title": "Indexed maps round-trip", "statement": "A map field encoded with indexed_map decodes to the same map for every size, below and above the offset-table threshold, from any iteration order.", "quantifier": "all maps with any key and value types, all sizes, all iteration orders", "why_tests_cant": "All sizes and contents; the two layouts switch at 8 entries.", "anchors": ["src/optimised/indexed/serialize.rs: serialize_indexed_entries, deserialize_indexed_map"]}
{"id": "C27", "title": "Indexed map bytes do not depend on iteration order", "statement": "Two equal maps produce identical indexed encodings however their hash tables iterate.", "quantifier": "all maps and all permutations of their entries", "why_tests_cant": "All permutations.", "anchors": ["src/optimised/indexed/serialize.rs: serialize_indexed_entries, IndexedMapEncoded for HashMap"]}
{"id": "C28", "title": "Indexed sequences and sets round-trip", "statement": "A Vec or set field encoded with indexed_seq / indexed_set decodes to the same collection for every size, below and above the threshold.", "quantifier": "all sequences/sets, all element types and sizes", "why_tests_cant": "All sizes and contents.", "anchors": ["src/optimised/indexed/serialize.rs: serialize_indexed_seq_iter, deserialize_indexed_seq, deserialize_indexed_set"]}
{"id": "C29", "title": "Skipping an indexed field consumes exactly its encoding", "statement": "skip_indexed_map / skip_indexed_seq / skip_indexed_set on an encoding followed by any bytes stop exactly at the end of the encoding.", "quantifier": "all maps/sequences/sets and suffixes", "why_tests_cant": "All sizes and suffixes.", "anchors": ["src/optimised/indexed/serialize.rs: skip_indexed_map, skip_indexed_seq, skip_indexed_set"]}
{"id": "C30", "title": "Key lookup by binary search is exact", "statement": "On an indexed map encoding with at least 8 entries, and on every payload the validating constructor accepts as indexed, looking up a key's bytes returns exactly the bytes of the value stored under it, and None when no stored key has those bytes. (Below 8 entries the encoder writes no offset table and the lookup fails with an error even for keys that are present, although the documentation promises a linear scan.) (The key's bytes are its encoding. Looking up a string by its own bytes, as the README's example does, never finds its entry, and may find that of another key.)", "quantifier": "all indexed maps of any size and all probe keys", "why_tests_cant": "All sizes, contents and probes.", "anchors": ["src/optimised/indexed/map_walk.rs: find_value_bytes, binary_search_entry", "README.md: Indexed-map / indexed-seq / indexed-set fields"]}
{"id": "C31", "title": "Lookup hints never change the answer", "statement": "find_value_bytes_with_hint returns the same value bytes as find_value_bytes for every hint, including hints out of range, and the position it reports is that of the entry found.", "quantifier": "all indexed maps, probes and hints", "why_tests_cant": "All hints and maps.", "anchors": ["src/optimised/indexed/map_walk.rs: find_value_bytes_with_hint"]}
{"id": "C32", "title": "Random access into indexed sequences and structs agrees with the decoded value", "statement": "element_bytes(i) / field_bytes(i) is exactly the encoding of the i-th element / field, and the pieces partition the payload.", "quantifier": "all sequences/structs, all indices", "why_tests_cant": "All sizes and indices.", "anchors": ["src/optimised/indexed/seq_walk.rs: element_bytes", "src/optimised/indexed/struct_walk.rs: field_bytes"]}
{"id": "C33", "title": "Opening an indexed payload never panics on untrusted bytes", "statement": "Opening an indexed sequence or map payload, validated or not, returns Ok or Err except in exactly these cases, where it panics: the end of the declared offset table or of the two regions does not fit in a usize, or (maps, validated) the payload declares zero entries. Opening an indexed struct payload never panics. (So the natural claim, no panic on untrusted bytes, is false: 10-byte payloads panic in debug and release builds.)", "quantifier": "all byte strings", "why_tests_cant": "Arbitrary byte strings.", "anchors": ["src/optimised/indexed/map_walk.rs: from_payload_inner", "src/optimised/indexed/seq_walk.rs: from_payload_inner", "src/optimised/indexed/struct_walk.rs: from_payload", "src/optimised/validation.rs"]}
{"id": "C34", "title": "A validated indexed payload never misbehaves afterwards", "statement": "After from_payload succeeds, accessors and lookups do not panic: element i, field i and entry i are the i-th pieces of a partition of the bytes from the first offset to the end (for maps: of the key region and of the value region), with keys strictly ascending; an index out of range, or an accessor used on a payload that has no offset table, gives an error.", "quantifier": "all byte strings that validate, all indices and probes", "why_tests_cant": "Arbitrary byte strings.", "anchors": ["src/optimised/validation.rs", "src/optimised/indexed/map_walk.rs", "src/optimised/indexed/seq_walk.rs", "src/optimised/indexed/struct_walk.rs"]}
{"id": "C35", "title": "Unvalidated accessors stay in bounds", "statement": "On a walker opened without validation, map iteration and lookups never panic and return only bytes of the payload, whatever the offset table says; sequence element and struct field accessors return the bytes between the two offsets when these are in order and in range, and panic exactly when they are not.", "quantifier": "all byte strings opened unvalidated, all indices, probes and hints", "why_tests_cant": "Arbitrary offset tables.", "anchors": ["src/optimised/indexed/map_walk.rs", "src/optimised/indexed/seq_walk.rs", "src/optimised/indexed/struct_walk.rs"]}
{"id": "C36", "title": "What the encoder writes passes validation", "statement": "The walkers' validating constructor accepts every indexed map, sequence and struct the encoder produces. (Counterexample: elements or fields that encode to zero bytes are rejected as non-monotonic.)", "quantifier": "all encodable maps/sequences/structs", "why_tests_cant": "All sizes and contents.", "anchors": ["src/optimised/validation.rs", "src/optimised/indexed/serialize.rs", "revision-derive/src/expand/optimised/struct_codegen.rs"]}
{"id": "C37", "title": "Walking a struct field by field agrees with decoding it", "statement": "Visiting the fields of an encoded struct through its walker, decoding some and skipping others in order, yields for each decoded field the value the full decode gives, and ends at the end of the value. This holds for whatever bytes decode, of any supported revision, if the type has no optimised revision and no fixed or indexed field; and for whatever this program wrote, also for optimised and indexed types, if a current revision that is not optimised has no fixed or indexed field and no indexed field of an indexed struct is decoded through decode_<field>. Each restriction is needed: there are counterexamples for fixed fields, indexed fields, older data of indexed structs, and older data that is converted when the current revision is optimised. Older data that was converted into a copy whose current revision is not optimised is also seen correctly when fields are indexed: walk_<field> then gives the indexed encoding of the decoded field.", "quantifier": "all struct schemas within the restrictions, values, revisions and decode/skip choices", "why_tests_cant": "Exponentially many visit patterns over all schemas.", "anchors": ["revision-derive/src/expand/walk.rs: struct methods", "src/walk.rs: StructWalker"]}
{"id": "C38", "title": "Walking an enum agrees with decoding it", "statement": "The walker's variant test and decode methods report the variant and fields the full decode gives: for whatever bytes decode if the enum has no optimised revision, no fixed or indexed field and no field added to an existing variant; and for whatever this program wrote, also for optimised enums. Without the restrictions there are counterexamples: a variant inserted into an optimised enum, a field added to a variant, converted older data of an optimised enum.", "quantifier": "all enum schemas within the restrictions and all values", "why_tests_cant": "All schemas and values.", "anchors": ["revision-derive/src/expand/walk.rs: enum methods", "src/walk.rs: EnumWalker"]}
{"id": "C39", "title": "Container walkers agree with decoding under any interleaving", "statement": "Iterating a Vec, set, map, Option or Result through its walker, decoding or skipping each item in any pattern, yields the decoded items in order and leaves the reader at the end of the container.", "quantifier": "all containers, element types and decode/skip patterns", "why_tests_cant": "Exponentially many visit patterns.", "anchors": ["src/walk.rs: SeqWalker, MapWalker, OptionWalker, ResultWalker, MapEntry", "src/implementations/walk.rs"]}
{"id": "C40", "title": "Walking a specialised vector is refused, not misread", "statement": "Walking a Vec whose element type is bulk-encoded under the active features returns an error before consuming input, and every Vec that walks uses the per-element layout.", "quantifier": "all element types and feature combinations", "why_tests_cant": "All types.", "anchors": ["src/implementations/walk.rs: vec_uses_bulk_encoding, WalkRevisioned for Vec"]}
{"id": "C41", "title": "Map walker search is exact on ordered maps", "statement": "find / find_bytes on an encoded ordered map reports the value for a key that is present, None for an absent key (and then leaves the reader at the end of the map), and never skips past a matching entry: after a hit exactly the later entries are left.", "quantifier": "all ordered maps and probe keys", "why_tests_cant": "All maps and probes.", "anchors": ["src/walk.rs: MapWalker::find, find_bytes"]}
{"id": "C42", "title": "SliceReader never exposes bytes outside its input", "statement": "consume and sub succeed exactly when the requested range lies in the unread part, failed operations leave the reader unchanged, and consumed_len plus remaining length is constant.", "quantifier": "all slices and all sequences of operations", "why_tests_cant": "All operation sequences.", "anchors": ["src/slice_reader.rs: SliceReader"]}
{"id": "C43", "title": "Borrowed byte access returns exactly the encoded contents", "statement": "with_length_prefixed_bytes / take_bytes on a string or byte container give exactly its content bytes and advance past it, without copying, or fail leaving no partial success.", "quantifier": "all strings/byte containers and suffixes", "why_tests_cant": "All lengths and suffixes.", "anchors": ["src/walk.rs: with_length_prefixed_bytes", "src/slice_reader.rs: read_borrowed_bytes, take_bytes_slice, take_bytes_reader, BorrowedReader"]}
{"id": "C44", "title": "Transparent wrappers have the same wire format as their content", "statement": "Adding or removing transparent wrappers (Box, Arc, Cow, Wrapping, Reverse) anywhere in a type, and in the plain fields of all derived types below it, changes neither the bytes written nor the value, rest or error of decoding and skipping. Two exceptions must be respected: under specialised-vectors a vector's elements must keep their bulk form, and keys of maps and elements of sets and heaps must keep their order (Reverse does not).", "quantifier": "all programs, all pairs of types (and of families of derived types) that differ only in wrappers, all values, all inputs", "why_tests_cant": "All types and values.", "anchors": ["src/implementations/boxes.rs", "src/implementations/arc.rs", "src/implementations/cow.rs", "src/implementations/wrapping.rs", "src/implementations/reverse.rs", "src/implementations/vecs.rs"]}
{"id": "C45", "title": "Serialisation fails only for the documented reasons", "statement": "Encoding a well-formed value succeeds except for a pre-epoch SystemTime, a non-UTF-8 path, or (in optimised revisions only) a payload or table above u32::MAX bytes; it never panics, except that debug builds assert the declared size of fixed(N) variants.", "quantifier": "all types and values", "why_tests_cant": "All types and values.", "anchors": ["src/implementations/system_time.rs", "src/implementations/path.rs", "src/optimised/envelope.rs: encode_varlen", "revision-derive/src/expand/optimised/struct_codegen.rs"]}
{"id": "C46", "title": "usize and isize data on targets with other pointer widths", "statement": "A usize or isize written on one target decodes on another to the same number if that number exists there. If it does not exist there the answer is not an error (counterexample to the natural claim: a 32-bit reader silently truncates) but the number of the reader's type that is the same modulo the pointer width.", "quantifier": "all usize and isize values and pointer widths", "why_tests_cant": "All values.", "anchors": ["src/implementations/primitives.rs: DeserializeRevisioned for usize, isize"]}
{"id": "C47", "title": "Duplicate keys resolve to the last occurrence", "statement": "Decoding map bytes that repeat a key keeps the value of the last occurrence and loses no other key, for ordered and hash maps alike.", "quantifier": "all entry lists", "why_tests_cant": "All entry lists.", "anchors": ["src/implementations/collections.rs: BTreeMap, HashMap"]}
{"id": "C48", "title": "Fixed-size variants are exactly as long as declared", "statement": "A fixed(N) variant whose fields always encode to N bytes round-trips and skips by N without reading the fields; a variant whose fields encode to another length is written with a tag that makes it undecodable in release builds (counterexample).", "quantifier": "all fixed(N) variants and values", "why_tests_cant": "All schemas and values.", "anchors": ["src/optimised/envelope.rs: encode_fixed", "revision-derive/src/expand/optimised/enum_codegen.rs"]}
{"id": "C49", "title": "The decoders accept exactly one documented wire format", "statement": "There is a byte-level grammar (independent of any reader or writer) saying which byte strings are forms of which value of a type, at which revision and under which cargo features. Decoding succeeds exactly on inputs that begin with a form, returns the value of that form and consumes exactly that form; everything the encoder writes is a form; no form is a prefix of another and no byte string is a form of two values. In particular malformed bool, option, result, bound, tag, discriminant, UTF-8 and length bytes are rejected.", "quantifier": "all types, all byte strings (untrusted included), all values, all revisions and feature combinations", "why_tests_cant": "A test can show that some malformed inputs are rejected; that nothing outside the format is ever accepted ranges over all byte strings.", "anchors": ["src/implementations/primitives.rs", "src/implementations/option.rs", "src/implementations/result.rs", "src/implementations/collections.rs", "src/implementations/specialised.rs", "src/optimised/envelope.rs", "src/optimised/indexed/serialize.rs", "revision-derive/src/expand/de.rs", "revision-derive/src/expand/optimised/struct_codegen.rs", "revision-derive/src/expand/optimised/enum_codegen.rs"]}
{"id": "C50", "title": "A declaration means what its attributes say", "statement": "The attribute macro accepts exactly the declarations that meet its written rules (no option twice, nothing after the current revision, what ends has a convert_fn, fixed only on wide integers, no discriminant clash, size classes and at most 32 variants in optimised revisions, one complete history in one place), in whatever order the options of a field are written. When it accepts a declaration, the encoder, decoder, skipper and walker it generates treat every field and variant as present in exactly the revisions its start/end attributes say, with the default_fn, convert_fn, size class, encoding and last override it declares; removed fields and variants always have a convert_fn; no attribute names a revision after the current one; and every accepted declaration that type-checks gives a type for which the other properties hold. Which traits are implemented depends only on the flags among the macro's arguments. (Counterexample: the documented #[revision(serialize = false)] on the item is accepted and ignored.)", "quantifier": "all declarations (histories, fields, variants, attributes in any order and number)", "why_tests_cant": "there are infinitely many declarations and combinations of attributes; compile-fail tests try a handful", "anchors": ["revision-derive/src/ast/attributes.rs: FieldOptions::finish, VariantOptions::finish, ItemOptions::finish, build_history_entry, resolve_history", "revision-derive/src/expand/mod.rs: revision", "revision-derive/src/expand/validate_version.rs", "revision-derive/src/expand/common.rs: CalcDiscriminant"]}
{"id": "C51", "title": "Encodings are the same on every target", "statement": "Two builds of one program with the same cargo features write the same bytes (or fail with the same error) for the same value, whatever their pointer width, allocator, type layout and profile, and, for types whose bytes do not depend on iteration order, whatever order their hash tables iterate in; the only difference is that debug builds assert fixed(N) sizes. What one build writes every other build (and every later version on another target) reads back, provided the value exists on the reading target.", "quantifier": "all pairs of targets and profiles, all programs, all types, all values that exist on both targets, all iteration orders, all memory limits", "why_tests_cant": "Tests run on the targets in CI and with the hash seeds of that run; the claim is about every pair of targets and all iteration orders.", "anchors": ["src/implementations/primitives.rs: usize, isize", "src/implementations/specialised.rs", "src/implementations/collections.rs", "src/optimised/indexed/serialize.rs", "src/lib.rs: to_vec, from_slice"]}
{"id": "C52", "title": "A decoded value is no larger than the bytes it was read from", "statement": "Whatever bytes are decoded successfully, the strings, byte vectors and growable collections in the result, at every nesting, hold together no more bytes and elements than bytes were consumed (Vec<bool>: eight elements per byte); user-supplied defaults and converted variants add at most their own size per value read. Elements whose type takes no bytes are not counted: they are exactly the types whose decoder never reads, and a Vec<()> of any length decodes from at most nine bytes (counterexample).", "quantifier": "all byte strings, all types, all programs, all nesting depths, trailing data of any length", "why_tests_cant": "hostile inputs are unbounded; a fuzzer only tries some of them, and amplification needs a rare combination of lengths and nesting", "anchors": ["src/implementations/vecs.rs", "src/implementations/specialised.rs", "src/implementations/collections.rs", "src/optimised/indexed/serialize.rs: deserialize_indexed_*", "revision-derive/src/expand/de.rs"]}
{"id": "C53", "title": "Rolling back is safe", "statement": "When an older version of a program reads what a newer version of it wrote, it either gets exactly the value that was written or an error (invalid revision, or that error wrapped by Result/Bound); it never gets a different value and never panics. It succeeds exactly when every derived value in the data is of a type whose latest revision is the same in both versions. Skipping is safe as well: whatever bytes the newer version skips, the older one skips to the same place or refuses with the invalid revision error; inside an optimised envelope it even skips data of newer revisions that it could not decode.", "quantifier": "all pairs of programs where the newer is obtained from the older by any number of edits following the README workflow, all types closed in the older program, all well-typed values that the newer program can encode, all bytes that follow, all sufficient recursion depths and memory limits", "why_tests_cant": "a test uses two fixed program versions and a few values; the claim ranges over all evolutions of all types and over all nestings of old and new types in a value", "anchors": ["revision-derive/src/expand/mod.rs: match on revision, error arm", "src/implementations/result.rs, bound.rs: error rewrapping", "README.md: workflow"]}
{"id": "C54", "title": "Decoding asks for no more memory than the input pays for", "statement": "If a byte string decodes given unlimited memory, it decodes to the same value under an allocator that refuses any single request above max(8, G) times the number of bytes consumed, where G is the largest size in memory of an element or entry of a collection. So reading back one's own or an older program's data never fails for lack of memory under that limit, and a refused allocation on a small input means the input is malformed. Elements that take no bytes on the wire must take none in memory: a Vec<Box<()>> asks for any amount from nine bytes (counterexample).", "quantifier": "all types, values, byte strings, memory limits, element sizes, declarations, histories", "why_tests_cant": "The allocation size comes from length prefixes in the data, over all nestings of collections, packed vectors, indexed tables and payload buffers; tests do not run under a limiting allocator and cannot cover every nesting.", "anchors": ["src/implementations/vecs.rs", "src/implementations/specialised.rs", "src/implementations/string.rs", "src/implementations/bytes.rs", "src/optimised/indexed/serialize.rs: deserialize_indexed_*", "revision-derive/src/expand/optimised/struct_codegen.rs", "revision-derive/src/expand/optimised/enum_codegen.rs"]}
{"id": "C55", "title": "Skipping untrusted bytes", "statement": "Whatever bytes it is given, skipping a value (from a reader or from a slice) ends with success, leaving a suffix of the input, or with an error. It never panics and never depends on a memory limit or on user functions, provided the parts it goes through one by one are not PathBuf, Duration or external types skipped by decoding them; types that are optimised at the encoded revision are jumped over and do not count. For all types the possible panics are those of decoding: a refused allocation, a time that cannot be represented, an overflow check in debug builds, a panicking user function. The nesting of calls is at most the number of input bytes. Checking (skip_check) has the panics of decoding.", "quantifier": "all programs that compile, all types, all input byte strings, all stack depths above the input length, all memory limits", "why_tests_cant": "It is about all byte strings an attacker may choose, at any nesting; fuzzing only samples them.", "anchors": ["src/implementations/skip.rs", "src/slice_reader.rs: advance_read, SliceReader::consume", "revision-derive/src/expand/skip.rs", "revision-derive/src/expand/optimised/enum_codegen.rs", "revision-derive/src/expand/optimised/struct_codegen.rs", "src/lib.rs: skip_reader, skip_slice, skip_check_reader"]}
{"id": "C56", "title": "Upgrading in steps or all at once", "statement": "Data written by version 1 of a program, read and rewritten by version 2 and then read by version 3, gives the same value as when version 3 reads the version 1 data directly, provided neither upgrade removes fields or variants, the default of a field that version 2 added means the same in version 3, defaults do not depend on the revision being read, and derived types are not used as keys or set elements. Without these conditions it can give different values: a default_fn that uses its argument, or a field added and later removed whose convert_fn runs only on the way through the middle version, are counterexamples.", "quantifier": "all triples of programs related by any number of edits, all types, all values, all bytes that follow", "why_tests_cant": "a test fixes three versions and one value; the claim is about every history of edits and every value, including nested derived types at different revisions", "anchors": ["revision-derive/src/expand/de.rs", "revision-derive/src/ast/attributes.rs: default_fn, convert_fn, start, end", "README.md"]}
{"id": "C57", "title": "Looking into data by hand", "statement": "For every type, the tables the derive emits (walk_revisioned_variant_table, walk_revisioned_variant_name, walk_revisioned_field_names) list, for each revision the program knows, exactly the variants and fields that exist there, with the discriminants used on the wire and in wire order, and are empty for any other revision. For every value written by any earlier version of the program at a revision that is not optimised, a caller that reads the revision, looks up the fields in the table and goes through them with a StructWalker (for enums: an EnumWalker, the variant named by the discriminant) in any mixture of decode, skip and walk sees the fields as a full decode would, position() counts them, and the reader ends exactly behind the value. The tag of an optimised enum names its variant the same way. discriminant() of a generated walker names, in the table for its revision(), the variant that a full decode gives. (revision() of a generated walker is the wire revision or the current one; for older optimised or converted data it is the latter, against its documentation, and an inserted variant is then misnamed.)", "quantifier": "all types, pairs of an earlier and a later version of a program, values, trailing bytes, and mixtures of decode, skip and walk calls", "why_tests_cant": "the tables, the encoder and the positional walkers are generated or written separately and must agree for every history of a type and every order of calls", "anchors": ["src/walk.rs: StructWalker, EnumWalker, read_enum_discriminant", "revision-derive/src/expand/walk.rs: emit_variant_tables, emit_field_tables, revision_method"]}
{"id": "C58", "title": "Walking untrusted bytes", "statement": "For every type, every byte string and every sequence of walker calls the Rust type checker accepts (decode, skip, with_bytes, walk, is_some/into_some/into_ok/into_err, next_item, next_entry, skip_remaining, the methods of struct fields and enum variants, find/find_bytes of maps, into_<field>_bytes), the calls end in a value, an error, or a panic from a fixed list: those of decoding (C15); PAssert of a wrong fixed(N) size in debug builds; and, only in programs with an indexed struct, an out-of-range slice, or, only in programs with convert functions, exhausted stack or memory. Without indexed structs, convert functions, time types, a memory limit, indexed maps and panicking user functions there is no panic at all. Nesting is bounded by the input: stack for one more call than there are bytes is enough. Success leaves the reader inside the input: it has only moved forward. (Malformed offsets in an indexed struct do make decode_<field> and walk_<field> panic, even on bytes the decoder accepts; into_<field>_bytes checks them.)", "quantifier": "all types, byte strings of any length, accepted call sequences of any length, build configurations, and user functions that return what their types say", "why_tests_cant": "no finite set of byte strings or call sequences covers all malformed input; a single unchecked index in one walker method is a denial of service", "anchors": ["src/walk.rs: LeafWalker, OptionWalker, ResultWalker, SeqWalker, MapWalker", "revision-derive/src/expand/walk.rs: emit_struct_methods, emit_enum_methods", "src/optimised/indexed/serialize.rs: skip_indexed_map, skip_indexed_seq"]}
{"id": "C59", "title": "Data that arrives in pieces", "statement": "An application that decodes from a growing buffer, retrying whenever it gets Error::Io (UnexpectedEof) and stopping on any other answer, gets exactly the answer decoding the complete stream would give, however the stream is cut into pieces, and gets it as soon as the value is complete: an incomplete prefix of acceptable input is always reported as end of input, and every other error (or panic) is final whatever bytes follow. Holds for types without Result and Bound (these rewrite the end-of-input error of their content, so the loop gives up on good data: counterexample). If no derived type has an optimised revision, end of input is moreover never reported when no continuation could help (counterexample otherwise: an optimised payload shorter than its fields makes the loop wait for ever). Skipping has all of these properties for every type, optimised, Result and Bound included.", "quantifier": "every program, type, byte stream, way to cut it into pieces, and continuation", "why_tests_cant": "Tests try a few truncations of a few values; the claim is about every prefix of every accepted input and all its continuations.", "anchors": ["src/lib.rs: from_slice, from_reader, skip_reader", "src/error.rs: Error::Io", "src/implementations/result.rs: deserialize_revisioned", "src/implementations/bound.rs: deserialize_revisioned", "revision-derive/src/expand/optimised/struct_codegen.rs: payload decoding"]}
{"id": "C60", "title": "Changing a field's type in place", "statement": "Some changes of a field's type need no new revision: a wider integer of the same signedness other than from u8/i8 (with variable-length integers), usize and u64 or isize and i64 on 64-bit targets, String, PathBuf to each other or to Bytes, dropping a validating wrapper, adding or removing Box/Arc/Cow/Wrapping/Reverse, Vec and imbl::Vector (elements without bulk form), hash based and ordered maps and sets whose keys are equal only if identical, and any of these inside options, results, bounds, tuples, arrays, collections and the fields of structs and enum variants that carry no encoding attribute. After such a change every input the program accepted before is accepted with the same value and the same rest; in particular all stored data; it can also be skipped as before. Going back, the old program reading new data returns the value that was written or an error, never another value; and for values that fit the old types both programs write the same bytes. Vec<u8> and Bytes decode the same bytes to the same content in every configuration. Widening from u8, under fixed-width-encoding, inside a bulk vector or across signedness instead silently turns old data into other values (counterexamples).", "quantifier": "every program, every such change in any set of its types, every input, value, configuration and memory limit", "why_tests_cant": "Tests would compare two versions of one program on a few stored values; the claim covers every pair of programs related by the change and every byte string.", "anchors": ["src/implementations/primitives.rs: decode_u64, decode_u128, deserialize_revisioned of the integer types", "src/implementations/string.rs", "src/implementations/path.rs", "src/implementations/bytes.rs", "src/implementations/vecs.rs", "src/implementations/specialised.rs", "src/implementations/collections.rs", "src/implementations/imbl.rs"]}
{"id": "C61", "title": "Exactly what skipping passes over", "statement": "For every type, skipping (from a reader or from a slice, plain or checking, and over fields declared indexed_map / indexed_seq / indexed_set) succeeds exactly on the inputs that begin with a string of a fixed, unambiguous set given by the type's declaration, and stops directly behind that string. The set contains every string that decodes. It is strictly larger: skipping checks lengths, tags, revisions and whatever it has to decode on the way, but not the content of strings, of bulk vectors, of the payloads of optimised structs and variants (whose number need not exist), the range of times, nor offset tables. The checking skip passes over exactly the strings that decode, save times directly inside tuples, ranges and arrays. With a memory limit the only further outcome is running out of memory.", "quantifier": "every program, type, revision, byte string and continuation, any nesting, both integer encodings and every memory limit", "why_tests_cant": "Tests skip values they have just encoded; the claim is about every byte string, in particular those no encoder produces.", "anchors": ["src/implementations/skip.rs", "src/lib.rs: skip_reader, skip_slice, skip_check_reader, skip_check_slice", "src/optimised/indexed/serialize.rs: skip_indexed_map, skip_indexed_seq", "revision-derive/src/expand/skip.rs", "revision-derive/src/expand/optimised/struct_codegen.rs", "revision-derive/src/expand/optimised/enum_codegen.rs"]}
{"id": "C62", "title": "Which error a rejected input gets", "statement": "For every type, the error a rejected input gets is a function of the input given by the type's declaration: the first part, reading from the front, that cannot be continued to the encoding of a value determines the error kind, and the byte or tag it names. An input has at most one such fault, none if it begins with the encoding of a value, and exactly one otherwise where decoding does not panic. With a memory limit the only further outcome is running out of memory. Result and Bound replace the error of their content by a Deserialize error, and inside an optimised struct the end-of-input error refers to the payload, not to the input.", "quantifier": "every program, type, revision and byte string, any nesting, both integer encodings and every memory limit", "why_tests_cant": "Tests name the error for a handful of broken inputs; the claim covers every byte string, including those with several things wrong at once.", "anchors": ["src/error.rs: Error", "src/lib.rs: DeserializeRevisioned, from_slice", "src/implementations/", "src/optimised/tag.rs", "src/optimised/indexed/serialize.rs", "revision-derive/src/expand/de.rs", "revision-derive/src/expand/optimised/struct_codegen.rs", "revision-derive/src/expand/optimised/enum_codegen.rs"]}
{"id": "C64", "title": "Data depends on the declarations in use only", "statement": "What a value of a type is written as, what decoding or skipping any byte string as that type gives (value, rest, error or panic), which values the type has, and what every sequence of walker calls gives, depend only on the declarations the type uses: those named in it, in their fields, and so on. Adding a type to a program, or changing or removing one that is not used, changes nothing. A type that only a field removed long ago refers to counts as used: changing it leaves all new data the same but changes how old data is read.", "quantifier": "every program, type and set of declarations of another program that agrees on those used; every value, byte string, reader behaviour and nesting", "why_tests_cant": "The claim compares two whole programs on every value and input; tests run one program.", "anchors": ["src/lib.rs: SerializeRevisioned, DeserializeRevisioned, SkipRevisioned", "revision-derive/src/expand/ser.rs", "revision-derive/src/expand/de.rs", "revision-derive/src/expand/skip.rs"]}
{"id": "C63", "title": "Which data the cargo features change", "statement": "Two builds of one program that differ only in the feature specialised-vectors write every value of a type alike, read every input alike (same value, same rest; only the memory asked for at once differs) and skip every input alike, unless the type, or a declaration it uses, contains a vector of bool or of integers of 16 bits or more; with fixed-width-encoding unsigned ones are harmless too. Every such vector type has a value that is written differently. Two builds that differ in fixed-width-encoding agree on types without lengths, tags of Result and Bound, revision numbers and integers wider than 8 bits, and every other standard type has a value they write differently. Nothing in the data says which features it was written with: such a build may read other values without an error.", "quantifier": "every program, type, value and byte string shorter than the address space, any nesting", "why_tests_cant": "The claim compares two builds on every value and every input; tests run in one build with the features it was compiled with.", "anchors": ["Cargo.toml: features", "src/implementations/vecs.rs", "src/implementations/specialised.rs", "src/implementations/primitives.rs", "src/implementations/uuid.rs", "src/implementations/decimal.rs"]}
{"id": "C65", "title": "Values of other crates are kept", "statement": "With the chrono, geo and ordered-float features: every Duration, including negative ones and the extremes, is written without an error and read back unchanged; every NaiveDate is read back, and only real calendar dates are ever read; a NaiveTime or DateTime<Utc> is read back exactly unless it holds a leap second that is not at the end of a minute, which is then a Deserialize error; a NotNan is read exactly from non-NaN bits; a polygon is read back as Polygon::new of its rings, that is unchanged exactly if all rings are closed, which holds of every polygon whose rings start with numbers. A ring that starts with a NaN grows by one point at each round trip.", "quantifier": "every value of these types within the ranges chrono can represent, every byte string, any bytes following, all features and pointer widths", "why_tests_cant": "The claim is about every duration, date, time and ring; the tests of the repository encode a handful of values and the round trip of random polygons.", "anchors": ["src/implementations/chrono.rs", "src/implementations/geo.rs: Polygon", "src/implementations/notnan.rs"]}
{"id": "C66", "title": "Walkers reject what the decoder rejects, with the same error", "statement": "Opening a walker on input fails only with the error deserialize_revisioned gives on that input, but for the documented refusal of bulk vectors and for older data of a type with convert functions, which opening decodes and encodes again. Walking on: decoding an option or a result through its walker, every item of a vector, set or heap, every entry of a map, or every field of a struct (legacy revisions, no fixed, indexed or convert options) fails exactly when decoding the whole value fails, with the same error or panic; only a Result's decoder replaces the error of its content. Asking an enum walker for variants one by one and decoding the one found (legacy revisions as for structs, or the current optimised revision) fails as decoding the enum does, unless the encoded variant is none of those asked for; if every variant was asked for, decoding the enum then fails with the unknown variant error. A walker of an optimised struct ignores the declared length of the payload, so it accepts input the decoder rejects.", "quantifier": "all types, declarations, byte strings (in particular all malformed and truncated ones), readers, stack depths; any number of items, entries and fields", "why_tests_cant": "malformed inputs are unbounded in number and kind; the walkers repeat the decoding logic in separate code that tests compare on valid data only", "anchors": ["src/walk.rs", "src/implementations/walk.rs", "revision-derive/src/expand/walk.rs", "src/implementations/option.rs", "src/implementations/result.rs"]}
{"id": "C67", "title": "Fields of a struct walker in any order", "statement": "The methods of a struct walker may be called in any order and any number of times when the current revision of the struct is indexed: on what the same program encoded, decode_<field> gives the value of that field, walk_<field> of an indexed_* field the bytes of that field, skip_<field> succeeds, walk_<field> of any other field is refused, and the reader stands behind the struct throughout. On any other bytes, once such a walker is open and as long as no call panics, every call shows what it would have shown as the first call, also after calls that failed. After any such calls, into_<field>_bytes of any field gives bytes that decode to that field and nothing more, and into_walk_<field> does what walk_<field> does; on any bytes into_<field>_bytes returns a part of the struct's payload or an error and never panics. A walker of any kind whose methods are called once for each field in declaration order behaves as the scripted walks of C37. Not so otherwise: on a struct that is not indexed a call out of order, or a repeated one, takes one field for another without an error; and bytes the decoder accepts can show other values through the walker of an indexed struct, because only the walker reads the table of offsets.", "quantifier": "all struct declarations, values, sequences of method calls of any length, trailing bytes, and (history independence) all byte strings", "why_tests_cant": "The number of call sequences is unbounded, and whether a call depends on the ones before it can only be seen by comparing all of them; tests go through the fields in order or fetch one field.", "anchors": ["revision-derive/src/expand/walk.rs: decode_<field>, skip_<field>, walk_<field>, into_walk_<field>, into_<field>_bytes", "src/optimised/indexed: offset table"]}
{"id": "C68", "title": "Sequence walkers call by call", "statement": "Any sequence of calls on the walker of a sequence, set or heap and on the item handles it gives out shows the decoded items in order: remaining() is the number of items not yet consumed, next_item() gives a handle as long as that is not zero and None afterwards, giving a handle up or asking again changes nothing, and decode, skip, with_bytes or a finished walk on the handle show the next item and move on by exactly one; when all items are consumed the reader is behind the sequence. This needs walkers into items to be run to their end: one that is dropped earlier leaves the reader inside the item, and the next handle reads the rest of it without an error, contrary to the documentation of SeqItem::walk.", "quantifier": "all element types, values, byte strings that decode or were encoded, sequences of calls of any length, nested scripts on item walkers", "why_tests_cant": "The number of call sequences and their interleavings with item handles is unbounded; tests use the straight loop.", "anchors": ["src/walk.rs: SeqWalker::{new, remaining, next_item}, SeqItem::{decode, skip, walk, with_bytes}"]}
{"id": "C69", "title": "Attributes are read to the last token", "statement": "The arguments of #[revisioned(..)] and every #[revision(..)] on a type, variant or field are accepted exactly when they are a comma-separated list of known options, each with the value it takes (a number, a string, true/false, a parenthesised list), with at most one trailing comma; everything written is taken into account, in order, and nothing else is. A word that names no option, anywhere in the list, is a compile error. size = \"..\" accepts inline, varlen and fixed(n) with n < 256, with white space around the parts, and nothing else. A declaration is read exactly when it is a struct or enum written in the usual way, it can be read in one way only, and several #[revision(..)] on a type mean what one with all their options means. (Found: explicit discriminants, although the parser has a place for them, are never accepted; nor are where clauses.)", "quantifier": "all token sequences as arguments and as declarations; all texts of size strings; all positions of an unknown word", "why_tests_cant": "The compile-fail tests show a handful of misspellings; that no other token sequence slips through with part of it ignored concerns every token sequence.", "anchors": ["revision-derive/src/ast/attributes.rs: FieldOption::parse, VariantOption::parse, ItemOption::parse, RevisionEntryOption::parse, parse_variant_size, FilteredAttributes::parse", "revision-derive/src/ast/mod.rs: Item, Enum, Struct, Variant, Fields, Field parsers", "revision-derive/src/expand/mod.rs: revision"]}
{"id": "C70", "title": "The emitted type is the declaration at the current revision", "statement": "The type that #[revisioned(..)] puts in the place of a declaration consists of exactly the fields and variants that live at the current revision, with the names, types, visibility and other attributes they were declared with, in the order they were declared, and carries no #[revision(..)] attribute any more. These are the fields and variants, with the types, that the derived code encodes and decodes at the current revision. A declaration without #[revision(..)] attributes comes out token for token as it went in, and so does what the macro emitted when it is run again.", "quantifier": "all arguments and all declarations that compile", "why_tests_cant": "Tests contain a few dozen declarations; that no field is lost, duplicated, reordered or left behind, and that separators stay well-formed when the last fields are gone, concerns every declaration and every combination of start and end.", "anchors": ["revision-derive/src/expand/reexport.rs: Reexport", "revision-derive/src/expand/mod.rs: revision", "revision-derive/src/ast/attributes.rs: FieldOptions::exists_at, VariantOptions::exists_at"]}
{"id": "C71", "title": "Declarations that ended can be deleted once no older data is left", "statement": "Let every program that still has data around have its types at revision c or later. Then deleting from a declaration any fields and variants whose `end` is at most c changes nothing: the type has the same values, to_vec gives the same bytes, deserialize of everything those programs wrote gives the same value or the same failure and stops at the same byte, and the discriminants of all revisions from c on stay the same. This holds for any sequence of edits and such deletions, and skipping passes over the same bytes. Deleting earlier is not safe: data of an older revision is then read wrongly without an error.", "quantifier": "all programs and their types, all sets of deleted declarations, all earlier programs that wrote data, all values, all bytes after the value, all sequences of edits and deletions", "why_tests_cant": "a test fixes one type, one deletion and a few values; the claim is about every declaration and every program version whose data may still be stored", "anchors": ["revision-derive/src/ast/attributes.rs: FieldOptions, VariantOptions (start, end)", "revision-derive/src/expand/common.rs: CalcDiscriminant", "revision-derive/src/expand/de.rs", "revision-derive/src/expand/ser.rs", "README.md"]}
{"id": "C72", "title": "Work is paid for by the input", "statement": "Decoding, skipping and checked skipping ask the reader for data at most twice per byte they consume, and once more when they fail; passing over n bytes takes one request per started 4096 bytes. So no input, whatever lengths it announces, makes them poll the reader more often than its own size warrants.", "quantifier": "all types, declarations, byte strings, feature settings", "why_tests_cant": "Hostile lengths nest arbitrarily; a test counts the calls for the inputs it has.", "anchors": ["src/slice_reader.rs: advance_read", "src/implementations/*.rs: deserialize_revisioned, skip_revisioned", "revision-derive/src/expand/de.rs", "revision-derive/src/expand/optimised/*_codegen.rs"]}
{"id": "C73", "title": "All the memory requested during one decoding", "statement": "The sum of all requests for memory a successful decoding makes (strings, byte vectors, collections, packed vectors, payload buffers; freed or not) is at most max(9, 2G) bytes per byte consumed, plus one byte per byte for every level of nested derived types, where G is the size in memory of the largest element or entry. Without optimised revisions the levels do not count. With them they do: m bytes wrapped in k optimised structs take m + 15 + 7k bytes on the wire and at least (k + 2)m bytes of memory, all alive at once, so that no bound linear in the input holds (counterexample).", "quantifier": "all types, declarations, byte strings, nesting depths, element sizes", "why_tests_cant": "The sum depends on how hostile or honest data nests; a test measures a few nestings and cannot show that nothing worse exists.", "anchors": ["revision-derive/src/expand/optimised/struct_codegen.rs: __payload_buf", "revision-derive/src/expand/optimised/enum_codegen.rs: __body_buf", "src/implementations/vecs.rs", "src/implementations/specialised.rs", "src/optimised/indexed/serialize.rs"]}
{"id": "C74", "title": "Which values can be encoded, and how long the encoding is", "statement": "to_vec succeeds exactly on the values that have a size, and then returns that many bytes, where the size is computed from the value alone: the sum of the sizes of its parts, prefixes and offset tables. A value has no size only if it contains a path that is not UTF-8, a time before the epoch, an optimised struct or varlen variant with a payload of 4 GiB or more, or (in builds with debug assertions) a fixed-size variant whose fields do not have the declared size. So neither success nor the length depends on the order in which hash tables and heaps happen to iterate, although the bytes do.", "quantifier": "all types, declarations, values of these types, feature settings, iteration orders", "why_tests_cant": "Sizes depend on every length and magnitude at once; iteration orders differ from run to run.", "anchors": ["src/lib.rs: to_vec", "src/implementations/*.rs: serialize_revisioned", "src/optimised/indexed/serialize.rs", "revision-derive/src/expand/ser.rs", "revision-derive/src/expand/optimised/struct_codegen.rs", "revision-derive/src/expand/optimised/enum_codegen.rs"]}
{"id": "C75", "title": "Encodings are bincode's", "statement": "For the types of the standard library and revisioned types without optimised features, to_vec returns exactly what bincode's options with_varint_encoding (with_fixint_encoding under feature fixed-width-encoding) produce for the value as serde presents it, a revisioned type being presented as the revision followed by its fields or variant; to_vec fails exactly where serde cannot present the value. Conversely deserialize reads what bincode wrote. Counterexamples delimit the claim: with fixed-width-encoding every non-zero i16, i32, i64, i128 and isize is written differently; under the default feature specialised-vectors vectors of multi-byte integers and of bools are; uuids have no length prefix.", "quantifier": "all types, declarations in legacy form, values, both integer encodings, following bytes", "why_tests_cant": "The compatibility tests compare a few values, are compiled without fixed-width-encoding, and none covers a vector of integers; the claim is made for the format.", "anchors": ["src/lib.rs: crate documentation (bincode-like format)", "README.md", "src/implementations/mod.rs: assert_bincode_compat", "src/implementations/primitives.rs", "src/implementations/vecs.rs", "src/implementations/uuid.rs"]}
{"id": "C76", "title": "Readers of the user's own that lend out their bytes", "statement": "Code that is generic over BorrowedReader gives the same results, errors and final position on every implementation that stands before the same bytes and advances by exactly what it is asked for; &[u8], SliceReader and &mut R of such a reader are such implementations. On these, the borrowed view of a field is exactly what skipping the field passes over, and for an indexed field that was encoded it is that encoding. On any implementation at all, a view lies within the bytes remaining() gave before the skip, and remaining() growing is reported as BorrowedReaderContractViolation. (Counterexamples to the natural claim that bullets 1-4 of the documented contract are enough: a reader that advances too far, as they permit, gives views with bytes of the next field or fails; and a reader that leaves remaining() to the trait's default gives empty views in release builds and panics in debug builds.)", "quantifier": "all implementations of BorrowedReader (any state machine with the trait's methods), all functions generic over it, all unread bytes, all indexed field types and values", "why_tests_cant": "Tests exercise the two implementations of the crate on a few inputs; the property ranges over all downstream implementations of an unsafe trait and over all generic code.", "anchors": ["src/slice_reader.rs: BorrowedReader, SliceReader, read_borrowed_bytes", "src/optimised/envelope.rs: read_varlen_slice, skip_varlen_borrowed", "src/optimised/indexed/serialize.rs: skip_indexed_map, skip_indexed_seq, skip_indexed_set", "src/walk.rs: with_length_prefixed_bytes", "revision-derive/src/expand/walk.rs: fast_path_wire, into_field_bytes_body", "src/error.rs: Error::BorrowedReaderContractViolation"]}
{"id": "C77", "title": "What lookups and skips cost, and comparison closures with a state of their own", "statement": "The comparison passed to find_value_bytes and find_value_bytes_with_hint of an indexed map is an FnMut: its answers may depend on everything it was shown before. Whatever it answers, and also on payloads that were never validated, a lookup does not panic, returns and shows to the closure only byte ranges of the payload, and calls the closure at most once per binary digit of the number of entries (floor(log2 n)+1 times, not at all on an empty map), plus once if an in-range hint is given. On a validated payload the keys shown are keys of entries, and the result is the value (and, with a hint, the position) of the entry whose key was answered Equal, or nothing exactly if no key was answered Equal; a hint that points at an entry answered Equal costs exactly one call. A closure whose answers depend on the key alone gives what the lookups of C30, C31, C34 and C35 give. Skipping an indexed map takes at most 6 calls to the reader however many entries it has, for any BorrowedReader; an indexed sequence or set at most 6 plus those of skipping one element. Skipping a value written by an optimised revision takes at most 5 calls plus one per 4096 bytes, whatever its fields contain.", "quantifier": "all payloads (valid or not), all numbers of entries, all comparison closures including stateful and inconsistent ones, all hints, all BorrowedReader implementations, all types and values", "why_tests_cant": "A test runs a few closures on a few maps; an adversarial or buggy closure may answer in any pattern, and the bounds on calls concern maps of every size.", "anchors": ["src/optimised/indexed/map_walk.rs: IndexedMapWalker::find_value_bytes, find_value_bytes_with_hint, binary_search_entry", "src/optimised/indexed/serialize.rs: skip_indexed_map, skip_indexed_seq", "revision-derive/src/expand/optimised/struct_codegen.rs, enum_codegen.rs: skip bodies", "src/slice_reader.rs: advance_read, BorrowedReader"]}
{"id": "C78", "title": "Walking without decoding allocates nothing", "statement": "Any sequence of walker calls that decodes nothing (opening walkers of options, results, sequences, maps, structs and enums; next_item, next_entry, into_some/ok/err, into_<variant>; with_bytes; skip, skip_remaining; is_<variant>; views of indexed fields and of variants of optimised revisions; find_bytes; into_<field>_bytes after skipping) sees the same, fails the same and leaves the reader at the same place whatever limit is put on memory requests, even if every request for memory fails: declared lengths in the input cannot make it allocate. Needed: no type in reach has a convert function, no field is of a type whose skip decodes (PathBuf, mirrored external types), and <variant>_view is used on optimised revisions only; the view of a variant of a legacy revision, and opening an older revision of a type with a convert function, do decode and allocate (refuted).", "quantifier": "all revisioned type declarations meeting the conditions, all inputs (valid or not), all scripts of walker calls without decoding, all memory limits", "why_tests_cant": "An allocation sized by an attacker's length on some path of some script only shows on inputs with such lengths; tests run with plenty of memory and well-formed data.", "anchors": ["src/walk.rs: LeafWalker, OptionWalker, ResultWalker, SeqWalker, MapWalker, with_length_prefixed_bytes, find_bytes", "revision-derive/src/expand/walk.rs", "src/implementations/skip.rs"]}
{"id": "C79", "title": "Which names of fields and variants a declaration may use", "statement": "The walker generated for a struct with named fields has no two methods of the same name exactly if no live field is a raw identifier, no two live fields are `walk` and `bytes`, and no two are `walk_x` and `x_bytes`; tuple structs are always fine. For enums: exactly if no live variant is raw, no two have the same snake-case name, and no `into_`/`is_`-style prefix of one makes the view method of another; variants in camel case never share a snake-case name. The items one declaration adds to its module differ by name. The encoder's parameter is shadowed exactly if a live field is named `writer`; the decoder's exactly if a field named `reader` is followed by another read at a legacy revision. The macro accepts the declarations that break these rules, so the error the user sees is one about generated code (counterexamples), and two enums in one module can add structs of the same name (counterexample).", "quantifier": "all declarations the macro accepts, all names of fields and variants, all revisions", "why_tests_cant": "Ranges over all identifiers and all combinations of fields; the tests use a few harmless names.", "anchors": ["revision-derive/src/expand/walk.rs", "revision-derive/src/expand/ser.rs", "revision-derive/src/expand/de.rs", "revision-derive/src/expand/optimised/struct_codegen.rs", "revision-derive/src/expand/optimised/enum_codegen.rs", "revision-derive/src/ast/mod.rs: fields_name"]}
{"id": "C80", "title": "The unsafe code has no undefined behaviour", "statement": "Decoding or encoding a vector (numbers, bool, uuid, decimal, bytes, i8, any element type) never reads uninitialised or freed memory, never accesses memory out of bounds, never frees a block twice and never breaks a promise given to assert_unchecked, whatever the reader or writer written in safe code does: also one that reports success without filling the buffer, returns more or fewer bytes than asked for, fails or panics. When the call returns a vector, this is valid and is the only allocation left; when it fails or panics nothing is left. On a byte slice the memory of the vector holds exactly the values the decoder is specified to return, and a writer receives the length and the contents.", "quantifier": "all readers and writers in safe code, all states, all inputs, all lengths, all element sizes and element decoders, all spare capacities an allocator may give", "why_tests_cant": "Undefined behaviour depends on readers that no test contains, and a test run that shows no symptom does not exclude it.", "anchors": ["src/implementations/specialised.rs: impl_revisioned_specialised_vec, Vec<i8>", "src/implementations/uuid.rs: SerializeRevisioned, DeserializeRevisioned for Vec<Uuid>", "src/implementations/decimal.rs", "src/implementations/vecs.rs", "src/implementations/collections.rs", "src/implementations/imbl.rs", "src/implementations/bytes.rs"]}
{"id": "C81", "title": "A file of values across releases and crashes", "statement": "An application keeps values of a derived type in a file: each process reads them one after the other with deserialize_revisioned, drops an incomplete value at the end (end-of-input error) and appends values with serialize_revisioned; it may be a later or an earlier release of the program than the ones before, may rewrite the file, may fail to append a value that cannot be serialised, and may die at any byte. Then, after any history, a process that opens the file gets exactly the values whose append was completed, in order, each migrated to its release (or, for an earlier release, as it is), and the file holds exactly these; if a value cannot be migrated, or is of a revision this release does not have, opening fails with that error and the file is left as it is. Never is a value lost, changed, or read from the remains of an interrupted or failed write. What a failed append left is dropped too, except that another release may refuse to open the file because of a part of it (counterexample). For types without Result and Bound and convert functions that do not fail with an IO error; without these conditions the file cannot be opened after a crash, or data is erased (counterexamples).", "quantifier": "all sequences of process starts, appends, failed appends, rewrites, stops and crashes, all crash points, all releases related by any number of edits in both directions, all types and values", "why_tests_cant": "Ranges over all histories of several programs and over every byte a crash can stop at.", "anchors": ["src/lib.rs: SerializeRevisioned, DeserializeRevisioned", "revision-derive/src/expand/ser.rs", "revision-derive/src/expand/de.rs", "README.md"]}
{"id": "C82", "title": "A failed to_writer leaves nothing that reads as a value", "statement": "When to_writer/serialize_revisioned returns an error or panics (a path that is not UTF-8, a time before 1970, a wrong fixed size in a debug build, at any depth), the bytes it has already handed to the writer, and every prefix of them, do not decode to any value of that type: in the program that wrote them, decoding reports the end of the input (or, inside Result/Bound, the Deserialize error these make of it), no later version of the program reads a value from them either (it reports the end of the input or a failure of a function that migrates a part), and neither does an earlier one (end of the input, or the error that refuses newer data). So an application that drops an incomplete value at the end of its file also drops what a failed append left. to_writer is however not all-or-nothing: appending the next value behind those bytes can make the reader return, without error, a value that nobody wrote (counterexample).", "quantifier": "all programs, all types and values including unserialisable ones, every prefix of the bytes written before the failure, all later and earlier program versions, all memory and depth limits", "why_tests_cant": "Ranges over every type, every position of the failing part inside a value, every later version and every byte at which the output may end.", "anchors": ["src/lib.rs: to_writer, SerializeRevisioned", "src/implementations/path.rs", "src/implementations/system_time.rs", "revision-derive/src/expand/ser.rs", "revision-derive/src/expand/optimised/enum_codegen.rs", "revision-derive/src/expand/optimised/struct_codegen.rs"]}
{"id": "C83", "title": "Types with hand-written implementations, and roaring bitmaps, fit in with derived ones", "statement": "If every hand-written SerializeRevisioned/DeserializeRevisioned pair of a program reads back what it writes and leaves what follows (assuming the same of the types it contains), then every type built from hand-written and derived types, in every container and at every depth, round-trips, is self-delimiting, has no strict prefix that decodes and gives different values different bytes; a later program whose derived types are edited within the rules, and whose hand-written readers read the old bytes as stated, reads the migrated value; and if each hand-written skip_revisioned skips what its reader reads, skip_revisioned of every type built from them stops where deserialize_revisioned does. The documented example (MyType), the usual field-after-field implementation and the roaring bitmaps (given the roaring crate's own round trip) meet these conditions. It is not enough that each value reads back from its own bytes (counterexample). An error inside a bitmap, the end of the input included, is always reported as Error::Deserialize, so cut-off data is not recognisable there as it is elsewhere. On a machine with limited memory reading gives the same or an allocation is refused. skip_slice of types built from hand-written ones gives the length that skip_revisioned reads, with the default skip_revisioned_slice or one that does what skip_revisioned does; and if each hand-written skip_check_revisioned accepts what its reader reads (and rejects what it rejects), so do skip_check_revisioned and skip_check_slice of every type built from them (times directly inside tuples and arrays excepted for rejection, see C14).", "quantifier": "all programs, all hand-written implementations meeting the stated conditions (as arbitrary functions), all types built from them, all values, all following bytes, all later program versions", "why_tests_cant": "Ranges over every implementation a user may write and every way of nesting it; a test shows one implementation in one place.", "anchors": ["src/lib.rs: SerializeRevisioned, DeserializeRevisioned, SkipRevisioned, Revisioned (example implementation)", "src/implementations/roaring.rs", "src/implementations/skip.rs: skip_mirror_both", "README.md", "src/lib.rs: skip_revisioned_slice, SkipCheckRevisioned, skip_slice, skip_check_slice"]}
{"id": "C84", "title": "Later versions skip old data, whether or not they can migrate it", "statement": "Whatever bytes a program can skip, every later version of the program skips too, ending at the same place: all data of the older revisions, also data that was not written by this library. In particular what the earlier version wrote is skipped exactly, even when the later version cannot decode it because a default or convert function fails, and even where optimised revisions are migrated wrongly. Provided the third-party types that are skipped by decoding hold no derived types and the libraries are the same.", "quantifier": "all programs and later versions, types, byte strings, values and depths", "why_tests_cant": "Ranges over all pairs of program versions related by any number of edits, and all byte strings.", "anchors": ["src/lib.rs: skip_reader, skip_slice", "revision-derive/src/expand/skip.rs", "revision-derive/src/expand/optimised/struct_codegen.rs: skip", "revision-derive/src/expand/optimised/enum_codegen.rs: skip"]}
{"id": "C85", "title": "Walkers after a failed call", "statement": "A sequence or map walker can be used on after a call on an item, key or value failed. Whatever the bytes and whichever calls fail: remaining() is the number of items (entries) minus the number of items (values) that were decoded, skipped, looked at or given a walker successfully; next_item/next_entry gives a handle exactly as long as that is not zero; the reader has only moved forward within the input; and the next call again gives a value, an error or one of the panics that walking can end in on any input, never one of its own. When the input is a sequence cut off behind its length, decoding item after item shows the original items in order and then only errors, however often it is tried. (Found: a caller who passes over errors is not safe: a failed item stays counted, so a loop over the items that ignores errors never ends on cut input, and after an item that is complete but invalid it takes what follows the sequence or map for one more item or entry.)", "quantifier": "all inputs, element types, programs, sequences of calls and scripts, positions of failures, and cut points", "why_tests_cant": "Ranges over all byte strings, all sequences of calls and all places where calls fail.", "anchors": ["src/walk.rs: SeqWalker, SeqItem, MapWalker, MapEntry", "src/slice_reader.rs: SliceReader, Read for SliceReader"]}
{"id": "C86", "title": "Membership tests in indexed sets", "statement": "The view of a field marked indexed_set with at least 8 elements always opens, its elements ascend strictly in the order of their bytes, and a binary search over element_bytes for the encoding of a value finds it exactly if the value is in the set, with at most log2 n + 1 looks. The bytes do not depend on the order in which a hash set yields its elements. On any payload that passes validation the search ends without a panic. A set of fewer than 8 elements has no table: element_bytes fails for every index and the test is not to be had.", "quantifier": "all element types, sets, values looked for, hash iteration orders and payloads", "why_tests_cant": "membership must be right for every set and every value looked for, and the search must end on every payload", "anchors": ["src/optimised/indexed/serialize.rs: serialize_indexed_set_iter, IndexedSetView", "src/optimised/indexed/seq_walk.rs: IndexedSeqWalker::element_bytes", "README.md: sorted-bytes set; membership via walker"]}
{"id": "C87", "title": "Single fields of an indexed struct payload", "statement": "IndexedStructWalker::decode_field(i), on the payload of a struct written in the indexed layout by the same program or an earlier version of it, returns the value of the i-th field that was written, migrated. It does so for every field count up to the number of fields written, so a program may open only the fields it knows; a validating constructor refuses every larger count. Fields that are themselves declared indexed_map/indexed_seq/indexed_set are the exception: decode_field reads them silently as something else.", "quantifier": "all programs and their later versions, all struct values, all field counts, all field indices", "why_tests_cant": "Ranges over every pair of program versions, every value and every count; the last field's slice runs to the end of the payload, so the claim needs self-delimiting decoding of every type.", "anchors": ["src/optimised/indexed/struct_walk.rs: IndexedStructWalker::from_payload, from_payload_unvalidated, field_bytes, decode_field, skip_field"]}
{"id": "C88", "title": "Which error skipping a rejected input gets", "statement": "For every type, the error that skipping a rejected input reports (from a reader or from a slice, plain or checking, and over fields declared indexed_map / indexed_seq / indexed_set) is a function of the input given by the type's declaration: the first part, reading from the front, at which the input cannot be passed over determines the error kind and the byte or tag it names. An input has at most one such obstacle, none if it begins with something that can be skipped, and exactly one otherwise where skipping does not panic. Such an input does not decode either, but decoding may report another error: it looks into parts that skipping jumps over, and inside Result and Bound it replaces the error of the content by a text, which skipping does not. With a memory limit the only further outcome is running out of memory.", "quantifier": "every program, type, revision and byte string, any nesting, both integer encodings and every memory limit", "why_tests_cant": "Tests skip a handful of truncated values; the claim covers every byte string, including those with several things wrong at once.", "anchors": ["src/implementations/skip.rs", "src/error.rs: Error", "src/lib.rs: skip_reader, skip_slice, skip_check_reader, skip_check_slice", "src/slice_reader.rs: advance_read, SliceReader::consume", "src/optimised/tag.rs", "src/optimised/indexed/serialize.rs: skip_indexed_map, skip_indexed_seq", "revision-derive/src/expand/skip.rs", "revision-derive/src/expand/optimised/struct_codegen.rs", "revision-derive/src/expand/optimised/enum_codegen.rs"]}
{"id": "C89", "title": "The text of an error tells which error it is", "statement": "Two errors with the same Display text are the same error and carry the same (tag byte, offset and length, message), with one exception: the byte of InvalidBoolValue is not in the text. source() is present exactly for Io and Utf8Error, is the error they carry, and its text is the end of the error's text.", "quantifier": "every pair of errors, with any messages, tag bytes, offsets and lengths", "why_tests_cant": "A test compares a few texts; that no message, offset or length makes one kind of error read like another needs every string and number.", "anchors": ["src/error.rs: Error, Display, source"]}
{"id": "C90", "title": "What revision() says about data", "statement": "What a derived type writes, in whatever Box, Arc, Cow, Wrapping or Reverse, begins with the derived type's T::revision(), and it reads data only of revisions 1 to T::revision(). A wrapper's own revision() is that number exactly if all the wrappers are Cows or the type has had a single revision: Box<T>::revision() is 1 whatever Box<T> writes.", "quantifier": "every program, derived type, chain of wrappers, value and byte string", "why_tests_cant": "Tests check a box around a string; the claim is about every nesting, every history and every input.", "anchors": ["src/lib.rs: Revisioned::revision", "src/implementations/boxes.rs", "src/implementations/arc.rs", "src/implementations/cow.rs", "src/implementations/wrapping.rs", "src/implementations/reverse.rs", "revision-derive/src/expand/mod.rs"]}
{"id": "C91", "title": "Indexing and copying values without decoding them", "statement": "A program that walks over a file of encoded values of a derived type with skip_slice, noting each start and length, finds exactly the values that were written, in order, whichever earlier releases of the program wrote them and even if the current release can no longer read some of them (a convert function refuses, a variant is gone). from_slice at a noted start gives the value written there, migrated to the current release, whatever stands before or behind it. A file made by copying the noted byte ranges, in any order and with any repetitions, is a file of exactly those values. Under a memory limit each of the calls may also fail with out of memory.", "quantifier": "all programs and histories of releases, all types, all sequences of values and writers, all selections of places", "why_tests_cant": "The files are arbitrary sequences of values by arbitrary releases; a test fixes one history and a few values.", "anchors": ["src/lib.rs: skip_slice, from_slice, SkipRevisioned", "src/implementations/skip.rs", "revision-derive/src/expand/skip.rs"]}
{"id": "C92", "title": "Memory limits never change what a walk shows", "statement": "On a machine where large allocations are refused, every walk (any sequence of walker calls: decode, skip, bytes, views, nested walkers, find and find_bytes in maps, into_<field>_bytes, the generic StructWalker and EnumWalker) over any bytes has the same outcome and leaves the reader at the same place as on a machine without a limit, or it ends in the refused allocation; it never gives another value or another error. For a struct walker called field by field, or a sequence or map walker called item by item, the calls before the refused one show the same.", "quantifier": "all programs, types, inputs, sequences of calls and limits", "why_tests_cant": "Allocation failure can strike at any call of any walk; tests neither exhaust memory at each point nor range over walks.", "anchors": ["src/walk.rs", "src/implementations/walk.rs", "revision-derive/src/expand/walk.rs"]}
{"id": "C93", "title": "The size of the stack changes no outcome", "statement": "The codec, the skippers and the walkers recurse into nested derived types. Two machines with stacks of any two sizes write the same bytes for a value, and give the same value or error for the same input when decoding, skipping (reader, slice, checked) or walking it with the same calls, and leave the reader at the same place, unless the stack of one of them is exhausted; whatever the smaller stack gives, the larger gives too. For a struct walker called field by field, or a sequence or map walker called item by item, the calls before the one that exhausts the stack show the same. What reached the writer before the smaller stack was exhausted is the beginning of what the larger stack writes. The same holds for encoding, decoding and skipping in programs with hand-written implementations that catch no panic.", "quantifier": "all programs, types, values, inputs, sequences of calls and stack sizes", "why_tests_cant": "Tests run with one stack and shallow values; the claim is about every nesting depth and every pair of stacks.", "anchors": ["src/lib.rs", "src/walk.rs", "src/slice_reader.rs", "revision-derive/src/expand/mod.rs", "revision-derive/src/expand/walk.rs"]}
{"id": "C94", "title": "Debug and release builds agree", "statement": "A debug build of a program (with debug assertions and overflow checks) writes the same bytes, gives the same values and errors, and leaves the reader at the same place as its release build, for encoding, decoding, all forms of skipping, opening views of indexed sequences and maps, and every walk, or it panics in a failed assertion or overflow check; it never gives another outcome. So whatever was seen to work in a debug build works the same in release. For walkers called one call at a time, the calls before the failed check show the same. What reached the writer before a failed check is the beginning of what the release build writes. The same holds for encoding, decoding and skipping in programs with hand-written implementations that catch no panic.", "quantifier": "all programs, types, values, inputs and sequences of calls", "why_tests_cant": "Tests compare the two profiles on the inputs they have; the claim is about all inputs, corrupt ones included, where wrapping arithmetic could go another way.", "anchors": ["src/optimised/tag.rs: Tag::new", "src/optimised/indexed/map_walk.rs", "src/optimised/indexed/seq_walk.rs", "src/walk.rs", "revision-derive/src/expand/optimised/enum_codegen.rs: debug_assert_eq"]}
