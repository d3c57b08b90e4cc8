{"id": "C01", "title": "Empty, full and singleton sets have exactly the right members", "statement": "EnumSet::new(), empty(), EnumSet::EMPTY, default(), and clear() give a set for which contains(v) is false for every variant v; all() and EnumSet::ALL give a set for which contains(v) is true for every variant; only(t) and EnumSet::from(t) give a set for which contains(v) is true exactly when v is t.", "quantifier": "every accepted enum, every variant t and v", "why_tests_cant": "Unit tests fix a handful of enums; the claim must hold for every discriminant layout and every storage the derive may choose.", "anchors": ["enumset/src/set.rs: EnumSet::new, empty, all, only, clear, Default, From<T>", "enumset_derive/src/lib.rs: variant_map, enum_set_type_impl (all_variants)"]}
{"id": "C02", "title": "insert adds exactly one element and reports whether it was new", "statement": "After insert(v) the set contains v, membership of every other variant is unchanged, and the returned bool is true exactly when v was absent before.", "quantifier": "every enum the derive accepts (any number of variants, any literal discriminants, any repr attribute), every set reachable through the API, every variant inserted and every variant observed", "why_tests_cant": "The frame condition (no other variant changes) ranges over every pair of discriminants and every storage word.", "anchors": ["enumset/src/set.rs: EnumSet::insert, contains", "enumset/src/repr/primitive.rs: add_bit, has_bit", "enumset/src/repr/array.rs: add_bit, has_bit, split_bit"]}
{"id": "C03", "title": "remove deletes exactly one element and reports whether it was present", "statement": "After remove(v) the set does not contain v, membership of every other variant is unchanged, and the returned bool is true exactly when v was present before.", "quantifier": "every enum the derive accepts (any number of variants, any literal discriminants, any repr attribute), every set reachable through the API, every variant removed and every variant observed", "why_tests_cant": "Same frame argument as insert over all pairs of discriminants and storages.", "anchors": ["enumset/src/set.rs: EnumSet::remove", "enumset/src/repr/primitive.rs: remove_bit", "enumset/src/repr/array.rs: remove_bit"]}
{"id": "C04", "title": "Binary set operations and complement are pointwise Boolean operations", "statement": "For every variant v, contains(v) of union / intersection / difference / symmetrical_difference of two sets is or / and / and-not / xor of the memberships in the operands, and contains(v) of complement is the negation of membership.", "quantifier": "every enum the derive accepts (any number of variants, any literal discriminants, any repr attribute), every set reachable through the API (pairs of sets), every variant", "why_tests_cant": "Needs all pairs of sets; there are 2^(2n) of them.", "anchors": ["enumset/src/set.rs: union, intersection, difference, symmetrical_difference, complement", "enumset/src/repr/array.rs: BitAnd, BitOr, BitXor, Not, and_not", "enumset/src/repr/primitive.rs: and_not"]}
{"id": "C05", "title": "Bits that do not belong to a variant are never set", "statement": "For every set obtainable through the safe API (or an unsafe constructor whose safety condition is met), every set bit of the numeric representation is the discriminant of some variant.", "quantifier": "every finite sequence of API calls from any starting constructor, for every accepted enum", "why_tests_cant": "It is an invariant over unbounded histories; it is also what makes the unsafe enum_from_u32 in the iterator sound.", "anchors": ["enumset/src/set.rs: EnumSet (Numeric representation docs), every constructor", "enumset_derive/src/lib.rs: variant_map, deserialize templates"]}
{"id": "C06", "title": "Equality is extensional", "statement": "a == b holds exactly when a and b contain the same variants; there are no two different representations of one set. Comparing a set with a bare variant (either way round) is true exactly when the set is that singleton.", "quantifier": "every enum the derive accepts (any number of variants, any literal discriminants, any repr attribute), every set reachable through the API (pairs of sets)", "why_tests_cant": "Requires canonicity of the representation over all histories.", "anchors": ["enumset/src/set.rs: derive(PartialEq, Eq), PartialEq<T> for EnumSet<T>", "enumset_derive/src/lib.rs: PartialEq<EnumSet> for the enum"]}
{"id": "C07", "title": "len counts the elements and is_empty means len == 0", "statement": "len() is the number of variants v for which contains(v) is true; is_empty() is true exactly when there is none; all().len() equals variant_count().", "quantifier": "every enum the derive accepts (any number of variants, any literal discriminants, any repr attribute), every set reachable through the API", "why_tests_cant": "Population count must agree with membership for all 2^n sets.", "anchors": ["enumset/src/set.rs: len, is_empty, variant_count", "enumset/src/repr/array.rs: count_ones, is_empty", "enumset/src/repr/primitive.rs: count_ones, is_empty"]}
{"id": "C08", "title": "Iteration yields exactly the elements, once each, in increasing discriminant order", "statement": "Collecting iter() (or into_iter()) yields a list that contains a variant exactly when the set contains it, without repetition, strictly increasing in discriminant; reverse iteration yields the reverse list. The unsafe bit-to-variant conversion is never applied to a bit that is no variant.", "quantifier": "every enum the derive accepts (any number of variants, any literal discriminants, any repr attribute), every set reachable through the API", "why_tests_cant": "All sets over all layouts; soundness of the unsafe conversion is a claim about every execution.", "anchors": ["enumset/src/set.rs: iter, EnumSetIter, IntoIterator", "enumset/src/repr/primitive.rs: PrimitiveIter", "enumset/src/repr/array.rs: ArrayIter", "enumset_derive/src/lib.rs: enum_from_u32"]}
{"id": "C09", "title": "The iterator is a double-ended queue under every interleaving of next and next_back", "statement": "For every finite sequence of next / next_back calls, in any interleaving, the results are those of popping the front / back of the ascending element list; once exhausted it keeps returning None from both ends.", "quantifier": "every enum the derive accepts (any number of variants, any literal discriminants, any repr attribute), every set reachable through the API, every finite interleaving of next and next_back", "why_tests_cant": "Interleavings are unbounded; the array iterator keeps two cursors and a done flag that meet in the middle.", "anchors": ["enumset/src/repr/array.rs: ArrayIter::next, next_back", "enumset/src/repr/primitive.rs: PrimitiveIter::next, next_back", "enumset/src/set.rs: EnumSetIter"]}
{"id": "C10", "title": "size_hint is exact at every point of the iteration", "statement": "After any interleaving of next / next_back, size_hint() returns (k, Some(k)) with k the number of elements still to come; hence ExactSizeIterator::len is k.", "quantifier": "every enum the derive accepts (any number of variants, any literal discriminants, any repr attribute), every set reachable through the API, every prefix of every interleaving", "why_tests_cant": "ExactSizeIterator is a promise about every iterator state.", "anchors": ["enumset/src/repr/array.rs: ArrayIter::size_hint", "enumset/src/repr/primitive.rs: PrimitiveIter::size_hint", "enumset/src/set.rs: ExactSizeIterator for EnumSetIter"]}
{"id": "C11", "title": "Subset, superset and disjointness tests decide the set relations", "statement": "is_subset(a,b) is true exactly when every member of a is a member of b; is_superset is its converse; is_disjoint is true exactly when no variant is in both.", "quantifier": "every enum the derive accepts (any number of variants, any literal discriminants, any repr attribute), every set reachable through the API (pairs of sets)", "why_tests_cant": "Decision procedures over all pairs of sets.", "anchors": ["enumset/src/set.rs: is_subset, is_superset, is_disjoint"]}
{"id": "C12", "title": "In-place bulk operations and assignment operators equal their functional counterparts", "statement": "insert_all / |= give the union, remove_all / -= the difference, &= the intersection, ^= the symmetric difference; the right operand (a set or a bare variant, converted by Into) is unchanged.", "quantifier": "every enum the derive accepts (any number of variants, any literal discriminants, any repr attribute), every set reachable through the API (pairs), every variant operand", "why_tests_cant": "All pairs of sets and both operand kinds.", "anchors": ["enumset/src/set.rs: insert_all, remove_all, SubAssign, BitAndAssign, BitOrAssign, BitXorAssign"]}
{"id": "C13", "title": "Operators on bare variants treat the variant as a singleton set", "statement": "For a variant t, t|x, t&x, t^x, t-x and !t (x a set or variant) contain exactly the variants that the corresponding operation on only(t) and x contains; == between two variants decides identity of variants.", "quantifier": "every enum the derive accepts (any number of variants, any literal discriminants, any repr attribute), every set reachable through the API, every variant operand", "why_tests_cant": "All variants and sets.", "anchors": ["enumset_derive/src/lib.rs: ops quote block (Sub, BitAnd, BitOr, BitXor, Not), eq_impl"]}
{"id": "C14", "title": "EnumSets form a Boolean algebra", "statement": "With | & ! empty all: commutativity, associativity, distributivity, absorption, identity, complement and De Morgan laws hold as equalities of EnumSets; a - b == a & !b; a ^ b == (a-b)|(b-a); !!a == a.", "quantifier": "every enum the derive accepts (any number of variants, any literal discriminants, any repr attribute), every set reachable through the API (triples of sets)", "why_tests_cant": "Equational laws over all triples of sets.", "anchors": ["enumset/src/set.rs: BitAnd, BitOr, BitXor, Sub, Not"]}
{"id": "C15", "title": "as_uN returns the sum of 2^discriminant, or fails exactly when it does not fit", "statement": "try_as_uN (u8..u128, usize) returns Some(sum over members of 2^discriminant) when every member's discriminant is less than N, otherwise None; as_uN returns that number or panics in exactly the None case; as_uN_truncated returns the number modulo 2^N.", "quantifier": "every enum the derive accepts (any number of variants, any literal discriminants, any repr attribute), every set reachable through the API, all six integer types, 16/32/64-bit usize", "why_tests_cant": "Needs all sets, all integer widths and all storages.", "anchors": ["enumset/src/set.rs: conversion_impls ($to, $try_to, $to_truncated)", "enumset/src/repr/array.rs: to_u*_opt, to_u*", "enumset/src/repr/primitive.rs: to_u*_opt, to_u*"]}
{"id": "C16", "title": "from_uN accepts exactly the numbers whose set bits are all variants", "statement": "try_from_uN(x) is Some(s) with contains(s,v) = bit discriminant(v) of x when every set bit of x is a discriminant, otherwise None; from_uN panics in exactly the None case; from_uN_truncated(x) always succeeds and contains v exactly when that bit is set in x.", "quantifier": "every accepted enum, all six integer types, every value x of the type", "why_tests_cant": "2^128 inputs times all layouts.", "anchors": ["enumset/src/set.rs: conversion_impls ($from, $try_from, $from_truncated)", "enumset/src/repr/array.rs: from_u*_opt, from_u*", "enumset/src/repr/primitive.rs: from_u*_opt, from_u*"]}
{"id": "C17", "title": "Numeric conversions round-trip", "statement": "If try_as_uN(s) = Some(x) then try_from_uN(x) = Some(s); if try_from_uN(x) = Some(s) then try_as_uN(s) = Some(x).", "quantifier": "every enum the derive accepts (any number of variants, any literal discriminants, any repr attribute), every set reachable through the API, all six integer types", "why_tests_cant": "Round-trip over all sets and values.", "anchors": ["enumset/src/set.rs: conversion_impls"]}
{"id": "C18", "title": "Array conversions: little-endian u64 limbs, failing exactly on overflow", "statement": "try_as_array::<O> is Some(limbs) with bit d of the concatenated little-endian limbs set exactly when the variant with discriminant d is a member, if all members fit in O limbs, else None; as_array panics in exactly the None case; as_array_truncated drops the members that do not fit and keeps the others.", "quantifier": "every enum the derive accepts (any number of variants, any literal discriminants, any repr attribute), every set reachable through the API, every O including 0", "why_tests_cant": "Unbounded O and array lengths.", "anchors": ["enumset/src/set.rs: as_array, try_as_array, as_array_truncated", "enumset/src/repr/array.rs: to_u64_array, to_u64_array_opt", "enumset/src/repr/primitive.rs: to_u64_array, to_u64_array_opt"]}
{"id": "C19", "title": "from_array / from_slice accept exactly the limb sequences whose set bits are all variants", "statement": "try_from_array and try_from_slice return Some(s) with contains(s,v) = bit discriminant(v) of the limbs when every set bit (including in excess limbs) is a discriminant, otherwise None; from_array / from_slice panic exactly in the None case; the truncated versions keep exactly the variant bits. Array and slice versions agree.", "quantifier": "every accepted enum, every limb sequence of any length", "why_tests_cant": "Unbounded sequences.", "anchors": ["enumset/src/set.rs: from_array, try_from_array, from_array_truncated, from_slice, try_from_slice, from_slice_truncated", "enumset/src/repr/array.rs: from_u64_array_opt, from_u64_slice_opt", "enumset/src/repr/primitive.rs: from_u64_array_opt, from_u64_slice_opt"]}
{"id": "C20", "title": "copy_into_slice overwrites the whole slice or leaves it untouched", "statement": "try_copy_into_slice(out) returns Some(()) and overwrites every limb of out with the limbs of the set (zero-filling beyond it) exactly when all members fit, and otherwise returns None with out unchanged; copy_into_slice panics in exactly the None case; copy_into_slice_truncated always overwrites every limb.", "quantifier": "every enum the derive accepts (any number of variants, any literal discriminants, any repr attribute), every set reachable through the API, every slice length and previous content", "why_tests_cant": "Stale contents of any slice of any length must not leak.", "anchors": ["enumset/src/set.rs: copy_into_slice, try_copy_into_slice, copy_into_slice_truncated", "enumset/src/repr/array.rs: to_u64_slice, to_u64_slice_opt", "enumset/src/repr/primitive.rs: to_u64_slice, to_u64_slice_opt"]}
{"id": "C21", "title": "to_vec is loss-free", "statement": "to_vec() has the storage's preferred length (1 for u8..u64, 2 for u128, N for arrays), its limbs hold exactly the members, and try_from_slice(to_vec(s)) = Some(s); likewise try_from_array(as_array::<len>(s)) = Some(s).", "quantifier": "every enum the derive accepts (any number of variants, any literal discriminants, any repr attribute), every set reachable through the API", "why_tests_cant": "All sets of all layouts.", "anchors": ["enumset/src/set.rs: to_vec, from_slice, as_array, from_array"]}
{"id": "C22", "title": "repr conversions are the identity on valid bits", "statement": "For an enum with an explicit integer repr: as_repr(s) is the sum of 2^discriminant over members; try_from_repr(x) is Some exactly when all set bits are discriminants and then contains the right variants; from_repr panics exactly otherwise; from_repr_truncated keeps exactly the variant bits; from_repr(as_repr(s)) == s. An explicit repr (other than array) is what the derive uses and the only case in which these methods exist.", "quantifier": "every accepted enum with explicit repr, every value of the repr type", "why_tests_cant": "All 2^w values.", "anchors": ["enumset/src/set.rs: as_repr, from_repr_unchecked, from_repr, try_from_repr, from_repr_truncated", "enumset_derive/src/lib.rs: impl_with_repr"]}
{"id": "C23", "title": "Ordering is a total order consistent with equality", "statement": "cmp returns Equal exactly when the sets are equal, is antisymmetric and transitive, and partial_cmp is Some(cmp). For integer storages the order is the numeric order of the bit values; for array storages it is the lexicographic order of limbs starting at the LEAST significant limb, hence not the numeric order.", "quantifier": "every enum the derive accepts (any number of variants, any literal discriminants, any repr attribute), every set reachable through the API (pairs and triples of sets)", "why_tests_cant": "Order laws over triples of sets.", "anchors": ["enumset/src/set.rs: PartialOrd, Ord for EnumSet", "enumset/src/repr/array.rs: derive(Ord) for ArrayRepr"]}
{"id": "C24", "title": "Hash is consistent with equality and injective on the written data", "statement": "Equal sets feed identical data to every Hasher, and different sets of the same type feed different data.", "quantifier": "every enum the derive accepts (any number of variants, any literal discriminants, any repr attribute), every set reachable through the API (pairs of sets)", "why_tests_cant": "All pairs of sets.", "anchors": ["enumset/src/set.rs: Hash for EnumSet", "enumset/src/repr/array.rs: derive(Hash)"]}
{"id": "C25", "title": "extend, collect and sum compute the union of the items", "statement": "Extend / FromIterator / Sum, over variants or over EnumSets (by value or reference), give a set containing v exactly when v was in the initial set (empty for collect and sum) or equal to / contained in some item, independent of order and repetition. If the iterator given to extend panics midway, the set left behind is the one extended by the items delivered so far. Extending a set by an iterator over another set, some of whose elements have already been taken from either end, inserts exactly the elements that are left and uses the iterator up.", "quantifier": "every enum the derive accepts (any number of variants, any literal discriminants, any repr attribute), every set reachable through the API, every finite item sequence", "why_tests_cant": "Unbounded item sequences.", "anchors": ["enumset/src/set.rs: Extend, FromIterator, Sum impls"]}
{"id": "C26", "title": "Debug and Display print the elements in order, separated by ' | '", "statement": "Display writes the elements' own formatting joined by ' | ' in increasing discriminant order; Debug additionally wraps them in 'EnumSet(' and ')'. If the sink or an element's formatter fails, the error is returned and what was written so far is a prefix of that text.", "quantifier": "every enum the derive accepts (any number of variants, any literal discriminants, any repr attribute), every set reachable through the API, every element formatter, every failure point of the sink", "why_tests_cant": "All sets and all failure points.", "anchors": ["enumset/src/set.rs: Debug, Display for EnumSet"]}
{"id": "C27", "title": "The derive computes the discriminants rustc computes", "statement": "For every accepted enum, the bit position the derive assigns to each variant is the discriminant the compiler assigns to it (literal if given, otherwise previous plus one, starting at zero); they are pairwise distinct and at most 0xFFFFFFBF; variant-to-bit and bit-to-variant conversions are mutually inverse.", "quantifier": "every accepted enum declaration", "why_tests_cant": "Unbounded variant lists mixing implicit and explicit discriminants.", "anchors": ["enumset_derive/src/lib.rs: push_variant, enum_into_u32, enum_from_u32"]}
{"id": "C28", "title": "The derive accepts exactly the well-formed enums and rejects the others with the right error", "statement": "The derive succeeds exactly when the item is a non-generic enum with allowed #[repr], known repr/serialize_repr names, unit variants with distinct names and distinct literal discriminants at most 0xFFFFFFBF, and both representations large enough; the internal u32 arithmetic never overflows.", "quantifier": "every enum declaration and attribute combination", "why_tests_cant": "Unbounded declarations.", "anchors": ["enumset_derive/src/lib.rs: derive_enum_set_type_0, push_repr, push_serialize_repr, push_variant, validate"]}
{"id": "C29", "title": "The chosen storage always holds every variant and is the documented one", "statement": "The storage width is greater than every discriminant; an explicit repr is honoured; without it the smallest of u8/u16/u32/u64 that fits is chosen, or an array of exactly floor(max/64)+1 limbs (at least one); the mask literal fits in the storage; bit positions, widths and counts fit in u32.", "quantifier": "every accepted enum declaration", "why_tests_cant": "All maximum discriminants up to 0xFFFFFFBF.", "anchors": ["enumset_derive/src/lib.rs: internal_repr, supported_variants, variant_map, enum_set_type_impl"]}
{"id": "C30", "title": "variant_count and bit_width describe the enum", "statement": "variant_count() is the number of variants; for a non-empty enum bit_width() is the largest discriminant plus one, and the two agree exactly when the discriminants are 0..n-1 in some order. (For the empty enum bit_width() is 1 although variant_count() is 0.)", "quantifier": "every accepted enum declaration", "why_tests_cant": "Unbounded declarations.", "anchors": ["enumset/src/set.rs: bit_width, variant_count", "enumset_derive/src/lib.rs: bit_width, variant_count"]}
{"id": "C31", "title": "The const macros agree with the run-time operations", "statement": "enum_set!, enum_set_union!, enum_set_intersection!, enum_set_difference!, enum_set_symmetric_difference! and enum_set_complement!, applied to any list of variants and constant sets, give the same EnumSet as folding the run-time operators over the same operands.", "quantifier": "every accepted enum, every operand list", "why_tests_cant": "Unbounded operand lists and separate generated code per storage.", "anchors": ["enumset/src/macros.rs: enum_set, enum_set_union, enum_set_intersection, enum_set_complement, enum_set_difference, enum_set_symmetric_difference", "enumset_derive/src/lib.rs: inherent_impl_blocks"]}
{"id": "C32", "title": "Integer serialization round-trips and ignores or denies unknown bits as configured", "statement": "With an integer serialize_repr, serialize writes the sum of 2^discriminant in that integer type (never truncating) and deserialize of it gives the set back; for any integer input deserialize yields the set of variants whose bit is set, or, with serialize_deny_unknown, an error exactly when an unknown bit is set; deserializer errors are propagated.", "quantifier": "every enum the derive accepts (any number of variants, any literal discriminants, any repr attribute), every set reachable through the API, every integer input", "why_tests_cant": "All sets and all inputs.", "anchors": ["enumset_derive/src/lib.rs: serde_ops integer branch"]}
{"id": "C33", "title": "List serialization round-trips", "statement": "With serialize_repr=list, serialize announces len() and writes the members in increasing discriminant order; deserializing any sequence of variants gives the set of the variants in it (order and repetition irrelevant), or the first element error.", "quantifier": "every enum the derive accepts (any number of variants, any literal discriminants, any repr attribute), every set reachable through the API, every input sequence", "why_tests_cant": "Unbounded sequences.", "anchors": ["enumset_derive/src/lib.rs: serde_ops List branch"]}
{"id": "C34", "title": "Map serialization round-trips", "statement": "With serialize_repr=map, serialize announces len() and writes (member,true) entries in increasing discriminant order; deserializing any entry sequence gives the set of variants that occur with true at least once, or the first entry error.", "quantifier": "every enum the derive accepts (any number of variants, any literal discriminants, any repr attribute), every set reachable through the API, every entry sequence", "why_tests_cant": "Unbounded sequences.", "anchors": ["enumset_derive/src/lib.rs: serde_ops Map branch"]}
{"id": "C35", "title": "Array serialization round-trips and ignores unknown bits", "statement": "With array serialization, serialize writes a prefix of the limbs that contains every non-zero limb and deserializing it gives the set back; for any limb sequence deserialize yields the set of variants whose bit is set, silently dropping unknown bits as documented.", "quantifier": "every enum the derive accepts (any number of variants, any literal discriminants, any repr attribute), every set reachable through the API, every limb sequence", "why_tests_cant": "Unbounded sequences. (The second half is FALSE of the code: it panics.)", "anchors": ["enumset_derive/src/lib.rs: serde_ops Array branch"]}
{"id": "C36", "title": "Deserialization never yields an invalid set", "statement": "Whatever the deserializer feeds in, in every serialization format, a successfully deserialized EnumSet has only variant bits set.", "quantifier": "every accepted enum, every input event sequence, every error position", "why_tests_cant": "Adversarial inputs are unbounded.", "anchors": ["enumset_derive/src/lib.rs: serde_ops"]}
{"id": "C37", "title": "No panic, overflow, out-of-bounds access or undefined behaviour in total operations", "statement": "For every accepted enum whose bit width is representable in usize, none of the operations other than the documented panicking conversions and Ord::clamp with wrong bounds panics, overflows an integer, indexes out of bounds, loops forever or executes undefined behaviour.", "quantifier": "every enum the derive accepts (any number of variants, any literal discriminants, any repr attribute), every set reachable through the API, every finite sequence of operations", "why_tests_cant": "A claim about every execution.", "anchors": ["enumset/src/set.rs: all", "enumset/src/repr/array.rs: all", "enumset/src/repr/primitive.rs: all"]}
{"id": "C38", "title": "Every history of API calls behaves like an abstract set machine", "statement": "For every finite sequence of API calls on any number of set variables and iterator variables, including the provided iterator methods (nth, find, any, all, position, count, last, fold, partition, collect), the comparison operators, max, min, clamp, set.extend(&mut iterator), for integer storages the methods with repr in their name and foreign functions that take and return a set as its integer (keeping the bits of no variant clear), every returned value equals that of an abstract machine whose variables are mathematical sets of variants and lists; in particular sets are values (changing one never changes another or a running iterator).", "quantifier": "every accepted enum, every finite sequence of operations", "why_tests_cant": "Unbounded histories.", "anchors": ["enumset/src/set.rs: all"]}
{"id": "C39", "title": "Observable behaviour does not depend on the chosen storage", "statement": "Two enums with the same discriminants but different repr attributes give identical results for every sequence of membership, algebra, iteration, size and numeric-conversion calls.", "quantifier": "every pair of accepted declarations with equal discriminants, every operation sequence", "why_tests_cant": "Relational property over all pairs of storages.", "anchors": ["enumset_derive/src/lib.rs: push_repr, internal_repr", "enumset/src/repr/array.rs: all", "enumset/src/repr/primitive.rs: all"]}
{"id": "C40", "title": "Unchecked constructors equal the checked ones when their safety condition holds", "statement": "If try_from_uN / try_from_array / try_from_slice / try_from_repr of some bits is Some(s), then the corresponding *_unchecked constructor returns s.", "quantifier": "every accepted enum, every bit pattern", "why_tests_cant": "All bit patterns.", "anchors": ["enumset/src/set.rs: from_*_unchecked"]}
{"id": "C41", "title": "The 16-bit usize limit", "statement": "On targets whose usize is at least 32 bits the discriminant limit 0xFFFFFFBF guarantees that bit positions, limb indexes and element counts fit, so every accepted enum is supported. On a 16-bit target the same holds for enums without a #[repr] of more than 15 bits; an enum with #[repr(u32)] and a discriminant of 65536 or more is accepted and two of its variants share one bit, and len of the full set of an enum with 65536 variants is 0.", "quantifier": "every accepted enum on 32/64-bit targets and every such enum on 16-bit targets; witnesses on 16-bit targets", "why_tests_cant": "Needs all enums up to the limit; the failing target is not in CI.", "anchors": ["enumset/src/repr/array.rs: split_bit", "enumset_derive/src/lib.rs: push_variant (0xFFFFFFC0)"]}
{"id": "C42", "title": "Legacy serialization attributes and explicit serialize_repr are resolved in the documented order", "statement": "serialize_as_list overrides serialize_as_map, which overrides serialize_repr; without any the smallest integer type that fits is used, and an array above 128 bits; an integer serialization type is always wide enough.", "quantifier": "every accepted enum declaration and attribute combination", "why_tests_cant": "All attribute combinations and maxima.", "anchors": ["enumset_derive/src/lib.rs: derive_enum_set_type_0, serde_repr, validate"]}
{"id": "C43", "title": "When the generated serde code compiles", "statement": "Apart from enums with the names of C75, the generated serde code of an accepted enum fails to compile exactly when serialize_deny_unknown is given and either the serialization format is array, or it is an integer type while the storage is an array, or when the format is list or map and the enum itself does not implement Serialize and Deserialize. The integer literals the macro writes fit the types they are used at.", "quantifier": "every accepted enum declaration and attribute combination", "why_tests_cant": "All combinations of attributes and discriminants; a test crate with a non-compiling enum cannot be in the suite.", "anchors": ["enumset_derive/src/lib.rs: serde_ops check_unknown"]}
{"id": "C44", "title": "What array deserialization does with any input", "statement": "With array serialization, deserialize propagates the first error; otherwise, if all set bits in the words up to the storage's length belong to variants it yields exactly these variants (further words are read and ignored), and if not it panics with 'Bitset contains invalid variants.'. If the sequence access reports its end and then goes on, the further answers are read only as far as the next end; their words are ignored and only an error among them has an effect.", "quantifier": "every accepted enum with array serialization, every input sequence with every error position", "why_tests_cant": "Unbounded sequences, all bit patterns.", "anchors": ["enumset_derive/src/lib.rs: serde_ops Array branch"]}
{"id": "C45", "title": "A release build behaves like a debug build", "statement": "The derive macro accepts the same declarations, with the same error messages, whether or not overflow checks are compiled in; and every history of API calls gives the same results in a release build (arithmetic wraps, shift amounts are masked) as in a debug build (overflow panics): no operation of the crate ever overflows or shifts by the bit width or more.", "quantifier": "every enum declaration, every history of API calls of any length on any number of sets and iterators", "why_tests_cant": "Test suites run in one build mode; overflow depends on values, enums and histories that no finite suite covers.", "anchors": ["enumset/src/repr/primitive.rs", "enumset/src/repr/array.rs", "enumset_derive/src/lib.rs: push_variant"]}
{"id": "C46", "title": "Which invocations the macros accept, and what they compute", "statement": "enum_set! accepts exactly: any number of `|`, or paths separated by single `|` followed by any number of `|`; its value has exactly the members of its operands. The comma-separated macros accept exactly: one or more paths separated by single commas followed by at most one comma (or by two, when there is only one path); their value is the left fold of the operation over the operands. enum_set_complement! accepts one path and at most one comma. Everything else is rejected at compile time; no invocation is ambiguous.", "quantifier": "every token sequence of any length, every enum, every assignment of variants and constant sets to paths", "why_tests_cant": "Infinitely many token sequences; rejected invocations cannot appear in ordinary tests.", "anchors": ["enumset/src/macros.rs: all macro_rules"]}
{"id": "C47", "title": "One value per set of variants", "statement": "Every set of variants is the membership of some value obtainable through the API, two obtainable values with the same members are identical, and there are exactly 2^n obtainable values for n variants.", "quantifier": "every accepted enum, every subset of its variants", "why_tests_cant": "The number of subsets is exponential in the number of variants, which is unbounded.", "anchors": ["enumset/src/set.rs"]}
{"id": "C48", "title": "Sizes of results", "statement": "len satisfies |a∪b| + |a∩b| = |a| + |b|, |a−b| + |a∩b| = |a|, |a△b| + 2|a∩b| = |a| + |b|, |!a| + |a| = variant_count, and if a is a subset of b then |a| ≤ |b| with equality only for equal sets.", "quantifier": "every accepted enum, every two obtainable sets", "why_tests_cant": "All pairs of sets of all enums.", "anchors": ["enumset/src/set.rs: len"]}
{"id": "C49", "title": "Serialized data when the enum changes", "statement": "When an enum gains variants or its variants are reordered while existing variants keep their discriminants, the new program reads the integers and word arrays the old program wrote as the same set. The old program reads integers written by the new one as the set without the variants it does not know, or reports 'enumset contains unknown bits' under serialize_deny_unknown; for word arrays it panics if a member it does not know has a discriminant within its storage, and ignores unknown members beyond it. Lists and maps written by the old program are read as the same set. The old program reads lists and maps written by the new one as the same set if every member is known to it, and otherwise reports the deserializer's error for the first unknown member. The two programs may run on targets with different pointer widths.", "quantifier": "every pair of accepted enums with such an embedding, every obtainable set", "why_tests_cant": "Quantifies over pairs of programs.", "anchors": ["enumset_derive/src/lib.rs: serde_ops"]}
{"id": "C50", "title": "The condition of the unsafe constructors is needed", "statement": "If a set is made by an unchecked constructor from a value with a bit that is not a variant, then collecting it is undefined behaviour if the enum has at least two variants, panics if it has none, and if it has one variant the variant is yielded once per set bit (so more than once if its own bit is set too). enum_from_u32 of an enum with at least two variants, given any integer, yields the variant whose discriminant is the integer modulo 2 to the number of bits the compiler gave the enum, and is undefined behaviour if there is none; below the width of the storage no integer but a discriminant yields a variant.", "quantifier": "every accepted enum, every representation value with a bit that is not a variant", "why_tests_cant": "Undefined behaviour cannot be tested for.", "anchors": ["enumset/src/set.rs: from_repr_unchecked, iter", "enumset_derive/src/lib.rs: enum_from_u32"]}
{"id": "C51", "title": "The order extends inclusion", "statement": "If a is a subset of b then a compares less than or equal to b, and less if they differ, for integer as well as array storage.", "quantifier": "every accepted enum, every two obtainable sets", "why_tests_cant": "All pairs of sets of all enums.", "anchors": ["enumset/src/set.rs: derive Ord", "enumset/src/repr/array.rs: derive Ord"]}
{"id": "C52", "title": "The conversions agree with each other", "statement": "copy_into_slice, as_array, to_vec and the as_uN family describe the same words: the truncated array of length k is to_vec cut or padded with zeroes to k words, a slice of length k receives the array of length k, the array of one word is as_u64, the array of two words is as_u128 split in halves, each narrower as_uN_truncated is the wider one reduced, and each checked form fails exactly when the wider result does not fit.", "quantifier": "every accepted enum, every obtainable set, every length, every slice, every pair of integer types", "why_tests_cant": "All sets, all lengths.", "anchors": ["enumset/src/set.rs: conversion_impls, as_array, to_vec, copy_into_slice"]}
{"id": "C53", "title": "The order of declaration does not matter", "statement": "If two enums with the same attributes declare the same discriminants in different orders, they get the same storage and serialization format, and corresponding sets have the same length, words and integers, compare the same, and iterate over corresponding variants in the same order.", "quantifier": "every two accepted enums that are reorderings of each other, every two pairs of corresponding sets", "why_tests_cant": "All permutations of all enums.", "anchors": ["enumset_derive/src/lib.rs: push_variant, variant_map", "enumset/src/set.rs"]}
{"id": "C54", "title": "Generated impls and warnings", "statement": "The derive implements EnumSetType always, EnumSetTypeWithRepr exactly for an explicit integer repr, PartialEq, Eq, Clone and Copy exactly without no_super_impls, the operators exactly without no_ops, and no trait twice; together with the traits the user implements this is accepted by the compiler exactly if the user implements each of PartialEq, Eq, Clone, Copy exactly under no_super_impls and no operator except under no_ops. A deprecation warning is given exactly for each of serialize_as_map, serialize_as_list (and the std feature), and following its advice yields identical generated code.", "quantifier": "every accepted declaration, every combination of options, every set of further impls", "why_tests_cant": "All declarations and combinations of options; compile errors are not run-time tests.", "anchors": ["enumset_derive/src/lib.rs: ops, super_impls, impl_with_repr, warnings", "enumset/src/traits.rs"]}
{"id": "C55", "title": "The storages behave like integers", "statement": "Every value of each storage (u8 to u128 and [u64; N] for every N the derive can choose), reachable by the public API or not, behaves like the integer it stands for: the bit operations act bit by bit, add_bit, remove_bit and has_bit on the given bit alone, count_ones, leading_zeros and trailing_zeros count as their names say, the iterator is a double-ended queue over the set bits in ascending order with exact size hints, and every conversion to or from integers, arrays and slices keeps exactly the bits that fit or reports that not all do.", "quantifier": "every storage, all values, all bits below WIDTH, all array lengths, every interleaving of calls on the iterator, both build modes, 16/32/64-bit usize", "why_tests_cant": "All values of all storages; most values and several methods (leading_zeros, trailing_zeros of storages) are not exercised by the tests.", "anchors": ["enumset/src/repr/primitive.rs", "enumset/src/repr/array.rs", "enumset/src/repr/mod.rs"]}
{"id": "C56", "title": "Counting laws", "statement": "len(a|b) + len(a&b) = len(a) + len(b); len(a-b) + len(a&b) = len(a); len(a^b) + 2 len(a&b) = len(a) + len(b); len(!a) + len(a) = variant_count; a and b are disjoint exactly if len(a|b) = len(a) + len(b), a is a subset (superset) of b exactly if len(a&b) is len(a) (len(b)), and a = b exactly if a^b is empty.", "quantifier": "every accepted enum, all reachable sets a and b", "why_tests_cant": "All pairs of sets of all enums.", "anchors": ["enumset/src/set.rs: len, union, intersection, difference, symmetrical_difference, complement, is_disjoint, is_subset, is_superset", "enumset/src/repr/array.rs: count_ones"]}
{"id": "C57", "title": "Conversions turn set operations into bitwise operations", "statement": "The truncating conversions to an integer or an array of words turn union, intersection, difference, symmetric difference and complement into |, &, & !, ^ and & ! under the mask of all(), word by word for arrays; the truncating conversion from integers turns the bitwise operations into the set operations, whatever other bits the integers have.", "quantifier": "every accepted enum, all reachable sets, all integer types, all integers, all array lengths", "why_tests_cant": "All pairs of sets and integers.", "anchors": ["enumset/src/set.rs: as_*_truncated, from_*_truncated, as_array_truncated", "enumset/src/repr/array.rs: to_*, from_*"]}
{"id": "C58", "title": "Provided iterator methods", "statement": "On an iterator from which any number of items has been taken at both ends, count, last, fold, rfold, nth, nth_back, find, rfind, position, any and all (core's default methods, built on next and next_back) give the results they have for the list of remaining members in ascending order, and nth, find, position, any and all leave an iterator over exactly the items behind the last one looked at.", "quantifier": "every accepted enum, all reachable sets, every interleaving of calls before, every index, predicate and closure, both build modes", "why_tests_cant": "All sets, interleavings, predicates and closures.", "anchors": ["enumset/src/set.rs: EnumSetIter, Iterator, DoubleEndedIterator", "enumset/src/repr/array.rs: ArrayIter", "enumset/src/repr/primitive.rs: PrimitiveIter"]}
{"id": "C59", "title": "Only discriminants, storage and serialization format matter", "statement": "Two declarations with the same list of discriminants, the same storage and the same serialization format give identical results for every program over the whole API, including conversions, hashing, ordering and serialization: names of variants, explicit or implicit discriminants and the attributes that led to the storage do not matter.", "quantifier": "every pair of such declarations, every operation sequence", "why_tests_cant": "Relational property over all pairs of declarations and all programs.", "anchors": ["enumset_derive/src/lib.rs: push_variant, internal_repr, enum_set_type_impl", "enumset/src/set.rs: all"]}
{"id": "C60", "title": "The pointer width of the target does not matter", "statement": "A program that converts no set to usize gives the same results on targets with 16, 32 and 64 bit usize, for every enum supported on both.", "quantifier": "every pair of targets, every enum supported on both, every operation sequence", "why_tests_cant": "Tests run on one target.", "anchors": ["enumset/src/repr/primitive.rs: usize conversions, set_bit", "enumset/src/repr/array.rs: split_bit, usize conversions", "enumset/src/set.rs: len, size_hint"]}
{"id": "C61", "title": "Programs that react to the results they see", "statement": "A program that chooses each API call from the results of the calls before it behaves like the same program on the abstract set machine. It never ends in undefined behaviour, and panics only where the documentation says so. Its results do not depend on the variant names, on the storage (when it uses only calls whose results are storage independent), or on the pointer width (when it converts no set to usize).", "quantifier": "every accepted enum, every program given as a function from earlier results to the next call, every number of steps", "why_tests_cant": "Quantifies over all programs and all lengths of execution.", "anchors": ["enumset/src/set.rs: all"]}
{"id": "C62", "title": "Which compile error is reported, and where", "statement": "When a declaration has several faults, the derive reports exactly one: the earliest in the order generics, kind of item, #[repr] attributes, repr name, serialize_repr name, variants from first to last (for one variant: name, fields, form of the discriminant, size, duplicate), size of the storage, size of the serialization. The error points at the offending item: the attribute, the name, the variant, the discriminant, or for a size error the variant with the largest discriminant. It never falls back to the macro's call site.", "quantifier": "every enum declaration and attribute combination, every combination of faults", "why_tests_cant": "Unbounded declarations and combinations of faults.", "anchors": ["enumset_derive/src/lib.rs: derive_enum_set_type_0, push_repr, push_serialize_repr, push_variant, validate"]}
{"id": "C63", "title": "Serialized forms are self-delimiting and injective", "statement": "In every serialization format, what is written for one set is never a prefix of what is written for a different set: if the events written for s followed by anything equal the events written for s' followed by anything, then s = s' and the continuations agree. Equal sets are written identically.", "quantifier": "every enum the derive accepts (any number of variants, any literal discriminants, any repr attribute), every pair of sets reachable through the API, every continuation", "why_tests_cant": "Pairs of sets of unbounded size, and arbitrary continuations.", "anchors": ["enumset_derive/src/lib.rs: serde_ops, serialize of all formats"]}
{"id": "C64", "title": "Bytes written with bincode", "statement": "With bincode, as in the crate's tests, a set is written as: a little-endian bit set of the integer's width; for lists the number of members in 8 bytes and the index of each member in 4 bytes by increasing discriminant; for maps the same with a byte 1 after each index; for arrays the number of words in 8 bytes and the words. Reading these bytes, followed by anything, gives the same set; reading any proper part of them gives an end-of-input error. Bytes are read as a set exactly when they start with such an encoding in the wider sense: a list or map in any order, with repetitions and, in maps, with entries marked 0, which are left out; an array of any number of words; an integer whose other bits are ignored unless deny_unknown is given; the set read is the one they stand for. Reading panics (C44) exactly when the bytes start with an array of which the words that fit the storage have a bit that belongs to no variant. All other bytes give an error; never undefined behaviour.", "quantifier": "every enum the derive accepts (any number of variants, any literal discriminants, any repr attribute), every set reachable through the API, every sequence of bytes", "why_tests_cant": "The tests write nine sets of eight variants each; the claim is about all sets and all byte sequences.", "anchors": ["enumset_derive/src/lib.rs: serde_ops", "enumset/tests/serde.rs: serde_test_simple, serde_test"]}
{"id": "C65", "title": "Comparison operators, max, min and clamp", "statement": "<, <=, >, >=, != agree with cmp and ==: <= is a total order, < is its strict part, > and >= are the mirror images, and a subset is <= its superset. max and min return one of their arguments, are bounds of both and do not depend on the order of the arguments; of a subset and its superset min is the subset and max the superset. clamp panics exactly if the bounds are in the wrong order, otherwise its result lies between them and is the argument if that does.", "quantifier": "every enum the derive accepts (any number of variants, any literal discriminants, any repr attribute), every triple of sets reachable through the API", "why_tests_cant": "Order laws over triples of sets of unbounded size.", "anchors": ["enumset/src/set.rs: PartialOrd, Ord for EnumSet", "enumset/src/repr/array.rs: derive(Ord) for ArrayRepr"]}
{"id": "C66", "title": "Rebuilding, filtering and partitioning", "statement": "Collecting (or summing) the elements that iteration over a set yields, in any order and with any repetitions, gives the identical set value back; extending another set by them is the union. Collecting the elements satisfying a predicate gives exactly those members. Iterator::partition gives two disjoint sets, one of the members satisfying the predicate and one of the others; their union is the original value and each is the difference of the original and the other.", "quantifier": "every enum the derive accepts (any number of variants, any literal discriminants, any repr attribute), every set reachable through the API, every predicate, every list with the same elements", "why_tests_cant": "All sets of unbounded size, all predicates and all orders of the elements.", "anchors": ["enumset/src/set.rs: Extend, FromIterator, Sum, Default for EnumSet, Iterator for EnumSetIter"]}
{"id": "C67", "title": "Sets of one enum converted to sets of another", "statement": "Converting a set of one enum to an integer (or with to_vec to words) and the result to a set of another enum gives, with the truncating constructors, exactly the variants whose discriminants are those of members of the original; the checking constructors give the same set if each member has a counterpart, and then converting back gives the original value; otherwise they give None. The two enums may have different storages and belong to programs with different pointer widths.", "quantifier": "every pair of enums the derive accepts, every set reachable through the API, every integer type the set fits into", "why_tests_cant": "Pairs of arbitrary enums with arbitrary discriminants and storages.", "anchors": ["enumset/src/set.rs: conversion_impls, to_vec, from_slice, try_from_slice, from_slice_truncated"]}
{"id": "C68", "title": "Sets on any lawful storage", "statement": "EnumSet relies on its storage only through a contract: values behave like unsigned integers of WIDTH bits, and the iterator is a double-ended queue over the ascending list of set bits. The five integer types and all word arrays meet the contract, and the code the derive generates implements the traits over it. For every implementation of the traits over any storage meeting the contract, also one the crate does not have, construction, insertion, removal, membership, the set operations, len, comparisons, iteration from both ends and the conversions to and from integers and words act as the mathematical operations on sets of variants, and never panic or reach undefined behaviour.", "quantifier": "every storage type meeting the contract, every implementation of EnumSetType over it for any enum with distinct discriminants, every value whose bits are discriminants of variants, every variant, every sequence of next and next_back", "why_tests_cant": "Quantifies over all implementations of the storage trait, not only those the crate has.", "anchors": ["enumset/src/repr/mod.rs: EnumSetTypeRepr", "enumset/src/repr/primitive.rs", "enumset/src/repr/array.rs", "enumset/src/traits.rs: EnumSetTypePrivate", "enumset/src/set.rs: EnumSet"]}
{"id": "C69", "title": "Programs over several enums that catch panics", "statement": "A program that works on sets and iterators of any number of enums, chooses each call by all results so far, catches panics and goes on, and extends sets of one enum from iterators of another through closures that may panic, gets from every call the result the abstract machine on mathematical sets gives. A panic of the crate is one of the documented ones and leaves all variables as they were. When the closure panics midway, the set holds its old members and the results before the panic, and the iterator continues behind the item at which the closure panicked.", "quantifier": "every family of enums the derive accepts, every program, every closure between their variants, any number of calls", "why_tests_cant": "Unboundedly many programs over all combinations of enums and storages, with panics at any point.", "anchors": ["enumset/src/set.rs: all methods; 843-849 extend", "enumset/src/repr/array.rs: ArrayIter::next"]}
{"id": "C70", "title": "The name of the crate", "statement": "The generated code refers to the crate as ::n, where n is the crate_name attribute if given, otherwise the name found in Cargo.toml if the feature proc-macro-crate is on and finds one, otherwise enumset. Apart from this path neither has any influence on the result. The macro succeeds exactly for the well-formed enums whose crate name is an identifier; if the attribute is not an identifier, then on every non-generic enum, also one with other faults, the macro panics instead of reporting an error.", "quantifier": "for all declarations, attributes, features, results of the lookup, notions of identifier and build modes", "why_tests_cant": "The name is any string and combines with every other fault of the declaration; the crate's tests never use the attribute.", "anchors": ["enumset_derive/src/lib.rs:31", "enumset_derive/src/lib.rs:152-155", "enumset_derive/src/lib.rs:323-344"]}
{"id": "C71", "title": "Sets as JSON text", "statement": "With serde_json, as in the crate's tests, a set is written as: the sum of 2^discriminant in decimal; for lists an array of the members' names by increasing discriminant; for maps an object with the value true for each of these names; for arrays an array of the words in decimal. This text, with any white space added between its tokens, is read back as the same set. Any array of names, in any order, repeated, each as a string, with or without escape sequences, or as an object {name: null}, is read as the set of these variants; any object from names to booleans as the set of the variants mapped to true at least once; any number and any array of numbers as C32 and C35 say for the integer and the words, a number too large for its type giving an error. No other text is read as a set. The panic of C44 occurs exactly in the array format, on text that begins with an array of words with an unknown bit in a stored word. All remaining text gives an error; never undefined behaviour.", "quantifier": "every enum the derive accepts (any number of variants, any literal discriminants, any repr attribute), all distinct names without quotes, backslashes and control characters, every set reachable through the API, every text, any reading of escape sequences that leaves plain text alone", "why_tests_cant": "The tests read five texts and write nine sets per enum; the claim is about all sets, all texts and all enums.", "anchors": ["enumset_derive/src/lib.rs: serde_ops", "enumset/tests/serde.rs:76-83", "enumset/tests/serde.rs:109-131"]}
{"id": "C72", "title": "Attributes of the derive macro", "statement": "The items of all #[enumset(..)] attributes are decoded together; other attributes are ignored and a bare #[enumset] gives nothing. Decoding succeeds exactly if every item is named after one of the eight options, no option is given twice, the five flags are given as a word, a boolean or the strings \"true\" or \"false\", and the three texts as strings; the result then holds exactly what was given, with the defaults false and none, so neither the order of the items nor their distribution over attributes matters. Otherwise all faults are reported, each once, in the order of the text: values that do not fit, unknown names, literals, repeated options (also if the first one had a bad value), unreadable attributes, #[enumset = ..]; and they are reported whatever else is wrong with the declaration. The whole macro succeeds exactly if there is no such fault, every #[repr(..)] is a single name rustc knows, the rest of the declaration is well-formed and the crate's name an identifier; if only the declaration is at fault, the error of C62 is reported. On success the generated code is that of the declaration with the given options, and the path of the crate, the impl blocks and the warnings are those the items ask for, each once.", "quantifier": "for all lists of attributes of any length, all items in them, all declarations, features, build modes and pointer widths", "why_tests_cant": "The tests try one duplicate option; the combinations of options, faults and attributes are infinitely many.", "anchors": ["enumset_derive/src/lib.rs:20-36", "enumset_derive/src/lib.rs:972-982", "enumset_test_trybuild/tests/compile-fail/syntax.rs:21-25", "enumset_derive/src/lib.rs:997-1011"]}
{"id": "C73", "title": "From annotated declarations to the results of programs", "statement": "On 32- and 64-bit targets, in debug and release builds: for every family of enum declarations whose attributes have no fault (C72), that are well-formed and whose crate names are identifiers, the derive macro succeeds on each of them, and every program over sets and iterators of these enums that chooses each call by the results so far and catches panics computes exactly what the machine of mathematical sets computes for the declared variants, discriminants and options. Whatever the macro accepts is covered by all claims about sets.", "quantifier": "for all families of declarations with all attributes, all programs of any length, features, build modes and both pointer widths", "why_tests_cant": "The claim ranges over all declarations and all programs over them.", "anchors": ["enumset_derive/src/lib.rs", "enumset/src/set.rs", "enumset/src/repr/mod.rs"]}
{"id": "C74", "title": "Discriminants in any spelling", "statement": "The text of a discriminant is read as an integer exactly if it is an integer literal of the Rust reference, in decimal, binary, octal or hexadecimal, with underscores and a suffix anywhere the reference allows them, or one whose suffix begins with the letter e without making it a float (which rustc refuses itself); the value read is the value of its digits. The discriminants of an accepted declaration are those the reference gives to its literals, counting on from the last one where none is written. Two declarations that differ only in the spelling of their literals give the same code or the same error. A declaration with any other text (a float, a digit outside the base, no digits, a value above 0xFFFFFFBF) as discriminant is refused.", "quantifier": "for all texts of ASCII characters of any length, all declarations, attributes, build modes and pointer widths", "why_tests_cant": "The tests write their discriminants in plain decimal and in one hexadecimal spelling; there are infinitely many spellings and texts.", "anchors": ["enumset_derive/src/lib.rs:208-219"]}
{"id": "C75", "title": "Names that do not go with the generated code", "statement": "In the generated code every unqualified name of a type or trait means what the macro intends (the enum, a type parameter or struct of the generated code, or a primitive type or prelude trait) exactly if the enum is not called one of these: __EnumSetConstHelper, u32; O or Into unless no_ops is given; S or D with the serde feature, and then A or Visitor if it is serialized as a list, map or array; the integer type of the storage or of the serialization; any integer type if it has two variants or more; u64 if it is serialized as an array; usize if it is stored as one; bool if it has two variants or more, operators, super impls or is serialized as a map. So a capitalised name other than A, D, Into, O, S and Visitor is always safe. The paths Self::Repr and Self::Output that it writes are unambiguous exactly if no variant is called Repr, nor, unless no_ops is given, Output.", "quantifier": "for all accepted declarations, all names of the enum and its variants, with and without serde, all switches", "why_tests_cant": "The tests use a handful of enum names; an enum with a captured name does not compile and cannot be in the suite.", "anchors": ["enumset_derive/src/lib.rs:320-970"]}
{"id": "C76", "title": "What the serialization options change", "statement": "Giving an accepted declaration other values of serialize_repr, serialize_deny_unknown, serialize_as_list and serialize_as_map changes the serialization format and nothing else in the generated implementation, impls and names; it is accepted exactly if serialize_repr is a known name and the format in force can hold the largest discriminant, with or without the serde feature, and otherwise rejected with the corresponding error. Programs that do not serialize give the same results under all such options (including orders, hashes and storage-dependent calls); programs that do not deserialize do not notice serialize_deny_unknown; and deserialization with serialize_deny_unknown differs from that without only in answering integers with unknown bits by an error.", "quantifier": "for all accepted declarations, all values of the options, all adaptive programs, all deserializer inputs", "why_tests_cant": "The tests check a few enums per format; that the options leave every other result alone quantifies over all enums and programs.", "anchors": ["enumset_derive/src/lib.rs:172-186", "enumset_derive/src/lib.rs:276-301", "enumset_derive/src/lib.rs:429-644", "enumset/src/lib.rs:155-163"]}
{"id": "C77", "title": "Exactly which enums compile, and that those work", "statement": "An enum with #[derive(EnumSetType)], with what the user writes beside it, is accepted by the macro and by rustc's checks of the declaration and the generated code exactly if: its enumset attributes are without fault and its repr attributes single known names; the declaration is well-formed (no generics, unit variants, literal or implicit distinct discriminants up to 0xFFFFFFBF that fit the chosen representations); the path of the crate is an identifier; rustc can represent the discriminants; the user implements PartialEq, Eq, Clone and Copy exactly if no_super_impls is given and operators only if no_ops is, none twice; neither the enum nor its variants have names that collide with the generated code; and, with serde, serialize_deny_unknown is used only with integers stored as integers, and lists and maps only if the enum implements Serialize and Deserialize. Neither build mode nor deprecation warnings matter. If it is accepted, every program over sets of such enums behaves as one over mathematical sets. In particular a plain enum with a capitalised name other than six reserved ones, no attributes, and up to 2^31 variants not called Repr or Output is accepted, with or without serde.", "quantifier": "for all annotated declarations, names, user impls, features, build modes, word sizes of 32 and 64 bits (for programs), all programs", "why_tests_cant": "Every rejected declaration is a separate compilation that must fail; the tests contain a few dozen such files and a few dozen accepted enums.", "anchors": ["enumset_derive/src/lib.rs:320-982", "enumset_derive/src/lib.rs:990-1048", "enumset/src/traits.rs:1-60"]}
{"id": "C78", "title": "The macros are strongly typed and compute the right sets", "statement": "With operands that are variants or constant sets of any number of enums, each of the macros enum_set!, enum_set_union!, enum_set_intersection!, enum_set_difference!, enum_set_symmetric_difference! and enum_set_complement! is accepted by the compiler exactly if its arguments have the documented syntax (with the trailing separators of C46) and all operands belong to one enum; enum_set!() with no operand also needs the name EnumSet to be imported, and can have the set type of any enum. The result is a set of the enum of the operands. Evaluating the block the macro expands to, with its local variables helper, value and new shadowing each other, always yields a set and no error: the union, intersection, difference of the first and the others, odd-membership, or complement of the operands.", "quantifier": "for all sequences of tokens, all assignments of paths to enums, variants and constant sets, all enums, all numbers of operands", "why_tests_cant": "One doc test shows one ill-typed invocation that does not compile. A type error for every mixture of enums in every position of every macro cannot be compiled one by one.", "anchors": ["enumset/src/macros.rs:18-56", "enumset/src/macros.rs:58-214", "enumset_derive/src/lib.rs:773-941", "enumset/src/set.rs:290-301"]}
{"id": "C79", "title": "What deserialization makes of data of any shape", "statement": "Whatever call a deserializer makes to the visitor (a Boolean, an integer of any type, a float, a string, bytes, an option, a unit, a newtype, a sequence, a map or an enum): a set results exactly if the data has the shape of the chosen format and stands for that set; an error results exactly if the data is of another shape, an integer out of range, an integer with unknown bits where those are denied, or contains an item that is an error, and then it is, respectively, 'invalid type: .., expected ..' naming what was found and 'a list of E', 'a map from E to bool', 'a list of u64' or the integer type; 'invalid value: .., expected ..'; 'enumset contains unknown bits'; or the first error among the items. In the one remaining case, words of the array format with unknown bits, the code panics.", "quantifier": "for all enums with the array, list, map and integer formats, all calls to the visitor with all data, all names", "why_tests_cant": "The tests read back what was written and a few inputs with unknown bits; no test gives data of another shape, and the texts of the errors are untested.", "anchors": ["enumset_derive/src/lib.rs:433-644", "enumset_derive/src/lib.rs:476-511", "enumset_derive/src/lib.rs:516-555", "enumset_derive/src/lib.rs:606-640"]}
{"id": "C80", "title": "Compile errors and warnings say what is wrong", "statement": "What the text of a compile error of the derive macro says is true of the declaration at the place it points at: there are generics, the variant has fields, the name occurs twice, the discriminant is too large, the quoted name is none of the known representations, and so on. A declaration of which one of these texts is true at some place is refused, with a text that is true at the place reported, and with that very text and place if no other is true of it. Different errors have different texts, whatever names are quoted in them, and a text determines the name it quotes. A deprecation warning '#[enumset(serialize_as_v)] is deprecated. Use `#[enumset(serialize_repr = \"v\")]` instead.' is given exactly if that option is, and the one about the feature std exactly if that is on; different warnings have different texts. Where one deprecated option is given, replacing it by what the warning recommends changes nothing about the generated sets and ends the warning.", "quantifier": "every enum declaration and attribute combination whose #[repr(..)] attributes parse, every combination of faults, every name quoted in a text", "why_tests_cant": "Unbounded declarations, combinations of faults and quoted names; the tests compare fourteen recorded texts.", "anchors": ["enumset_derive/src/lib.rs: derive_enum_set_type_0, push_repr, push_serialize_repr, push_variant, validate, error"]}
{"id": "C81", "title": "Iteration takes as many steps as there are words and elements", "statement": "Whatever sequence of calls of next and next_back is made on the iterator of an array of n words, their loops together evaluate their condition at most n + 1 times plus once for every element yielded, so scanning empty words is never repeated; no single call evaluates it more than n + 1 times; and once an answer was None no later call enters the loop at all. A loop over a set, from either end, asks the iterator exactly once more than the set has elements.", "quantifier": "every number of words, every content, every sequence of calls from both ends, every set a program can obtain", "why_tests_cant": "Unbounded numbers of words and call sequences, and how often a loop goes round is not visible in its results.", "anchors": ["enumset/src/repr/array.rs: ArrayIter::next, ArrayIter::next_back", "enumset/src/set.rs: EnumSetIter"]}
{"id": "C82", "title": "What cargo features change", "statement": "With every choice of cargo features the crate refers to serde only if it depends on it, and the derive macro generates exactly the functions its trait asks for; to_vec exists exactly with alloc or std, the serde impls of sets exactly with serde. Turning on more features never changes the generated sets or impls; it adds the deprecation warning exactly for std, and changes the path of the crate only where the lookup of its name is newly on, to the name found. A declaration that compiled keeps compiling unless serde is newly on (or the name found is no identifier), and then it keeps compiling exactly if its names and its serialization options go with the serde code. In particular an enum called S or D compiles exactly without serde, though cargo turns serde on for every user of the crate as soon as one asks for it.", "quantifier": "every pair of feature sets one of which contains the other, every declaration, every result of the lookup", "why_tests_cant": "Unbounded declarations; the tests are run with few choices of features, and never compare two builds of the same program.", "anchors": ["enumset/Cargo.toml: features", "enumset_derive/Cargo.toml: features", "enumset_derive/src/lib.rs: enum_set_type_impl", "enumset/src/traits.rs: EnumSetTypePrivate", "enumset/src/set.rs: to_vec, Serialize, Deserialize"]}
