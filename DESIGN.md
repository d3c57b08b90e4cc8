# Formal model of Lymia/enumset in Rocq (Coq 8.16.1)

The model is written from the text of `/repo` at its pinned commit; nothing in
`/repo` was built, run or changed.

## Layout (rocq/theories)

| Files | Content |
|---|---|
| `Base.v` | result monad (`Ret`/`Panic`/`UB`/`OutOfFuel`), machine integers, indexed reads/writes, `for` loops |
| `Prim.v` | model of `enumset/src/repr/primitive.rs` |
| `ArrayRepr.v` | model of `enumset/src/repr/array.rs` |
| `Repr.v` | model of `enumset/src/repr/mod.rs`: the trait `EnumSetTypeRepr` as a record and its instances |
| `Syntax.v` | input of the derive macro; the discriminants *rustc* assigns (Rust reference) |
| `Derive.v` | model of `enumset_derive/src/lib.rs`: checks, storage choice, generated code as functions |
| `EnumSet.v` | model of `enumset/src/set.rs`: `EnumSet<T>`, `EnumSetIter<T>` |
| `IterMethods.v`, `CmpMethods.v` | core's default methods of `Iterator` on `EnumSetIter<T>`, of `PartialOrd` and `Ord` on `EnumSet<T>` |
| `Bincode.v`, `Json.v` | the formats bincode 1 and JSON (serde_json) as sinks and sources of the serde code (not part of the repository; its tests use them) |
| `Macros.v`, `Fmt.v`, `Serde.v` | models of the code the macros expand to, of `Debug`/`Display`, of the generated serde code |
| `Impls.v` | which impl blocks and warnings the derive generates; rustc's check of supertraits |
| `CrateName.v` | the path under which the generated code refers to the crate |
| `Attrs.v` | the decoding of the attributes, and the entry point of the derive macro |
| `Names.v` | the unqualified names in the generated code and what is bound around them |
| `Whole.v` | a declaration with what the user writes beside it: the macro and the checks of rustc together |
| `Features.v` | what the cargo features turn on, and a declaration built with them |
| `Literal.v` | how the text of a discriminant is read as a number (syn 2) |
| `Messages.v` | the texts of the derive's compile errors and warnings |
| `MacroRules.v` | model of the arms of the macros in `macros.rs` and of rustc's `macro_rules` matcher |
| `Expansion.v` | the blocks those macros expand to as expressions: their types and values |
| `Shape.v` | the generated visitors given data of any shape, with the texts of the errors |
| `Spec.v` | the separate specification; uses only `Syntax.v` and the standard library |
| `ApiSpec.v` | notions relating the model to the specification (`Supported`, `Reachable`, `Denotes`, ..) |
| `MacroRulesSpec.v`, `ExtraSpec.v`, `StorageSpec.v`, `WireSpec.v`, `JsonSpec.v`, `AttrsSpec.v`, `LiteralSpec.v`, `NamesSpec.v`, `OptionSpec.v`, `WholeSpec.v`, `ExpansionSpec.v`, `ShapeSpec.v`, `MessageSpec.v`, `CostSpec.v` | specification of the macro syntax; of one enum extending another; of the storages; of the bytes and of the text written; of the attributes; of integer literals; of name resolution; of declarations that differ in serialization options; of acceptable declarations; of the results of the macros; of data of any shape; of the texts of errors; of the number of steps |
| `HistorySpec.v`, `History.v` | call sequences over set and iterator variables, and programs that choose each call by the results so far: an abstract machine on mathematical sets, and the same run on the model |
| `MultiSpec.v`, `Multi.v` | the same for programs over several enums that catch panics |
| `*Facts.v`, `ReprLaws.v` | proofs |
| `*Claims.v` | the final statements as lemmas with their proofs |
| `Examples.v`, `HistoryExamples.v`, `ExtraExamples.v`, `AttrsExamples.v`, `EndExamples.v`, `LiteralExamples.v`, `NamesExamples.v`, `OptionExamples.v`, `WholeExamples.v`, `ExpansionExamples.v`, `Refutations.v` | concrete enums, sets, sinks, inputs and counterexamples |
| `ListStorage.v` | a storage the crate does not have (ascending list of bits), as the example of C68 |
| `Tests.v` | the crate's own test suite (`enumset/tests`), run on the model in both build modes |
| `DocTests.v` | the examples in the crate's documentation, run on the model |
| `BuildTests.v` | the crate's compile tests (`enumset_test_trybuild/tests`) on the model: messages and positions as in the `.stderr` files |
| `Prop*.v` | the property theorems only: statement, `exact`, `Print Assumptions`, and an `Example` with a concrete case |

Proofs never live in the model files. `MANIFEST.json` maps property ids to
theorem names; `seeded/LOG.jsonl` records the mutation tests.

## Trusted base

1. Coq's kernel, including the reduction machine `vm_compute` (used for concrete
   examples, refutation witnesses and some closed lemmas).
2. Axioms: none. `Print Assumptions` under every property theorem answers
   "Closed under the global context". (`coqchk -o` also lists seven sealed constants of the standard
   library's `Coq.ssr.ssrunder`, which `lia` loads; nothing depends on them.)
3. That the model files (`Base`, `Prim`, `ArrayRepr`, `Repr`, `Syntax`, `Derive`,
   `EnumSet`, `Macros`, `MacroRules`, `Expansion`, `Fmt`, `Serde`, `Shape`, `Impls`, `Messages`, `CrateName`, `IterMethods`, `CmpMethods`) describe the Rust code. Each
   definition cites the lines it models. `Syntax` (discriminants of an enum),
   `MacroRules` (the matcher), `Expansion` (typing of a block) and `Impls` (supertraits) also describe rustc, from the Rust reference.
   `Bincode` and `Json` describe the formats of bincode and serde_json; only C64 and C71 depend on them.
   `Attrs` describes the decoder darling 0.20 generates for `EnumsetAttrs`, written from the documented behaviour of darling,
   whose source is not in the repository; only C72, C73 and C77 depend on it.
   `Features` describes how cargo reads the `[features]` tables; only C82 depends on it.
   `Literal` describes `parse_lit_int` of syn 2, from its known source, for ASCII texts; only C74 depends on it.
   `Shape` also describes the default methods of `Visitor`, the visitors of integers and the error texts of serde 1, from its
   known source; only C79 depends on them.
   `Names` lists names read off the `quote!` templates, and `NamesSpec` how rustc resolves them; only C75, C76 and C77 depend on it.
4. That the specification files (`Spec`, `ApiSpec`, `MacroRulesSpec`, `ExtraSpec`,
   `StorageSpec`, `WireSpec`, `JsonSpec`, `AttrsSpec`, `LiteralSpec`, `NamesSpec`, `OptionSpec`, `WholeSpec`, `ExpansionSpec`, `ShapeSpec`, `MessageSpec`, `CostSpec`, `HistorySpec`, `MultiSpec`) say what the
   English properties say.

## Modelling decisions

* **Integers** are `N`; every operation that can wrap, truncate or overflow has
  the wrap or check written out. Overflow and shifts are modelled for both build
  modes (`build` in Base.v): in a debug build they yield `Panic`, in a release
  build they wrap and mask the shift amount. Every theorem holds for both; C45
  compares them.
* **`usize`** has a parametric width `pw` (16, 32 or 64). The proc macro runs on
  the host, whose `usize` is taken to be 64 bits wide.
* **Arrays** `[u64; N]` and slices are `list N`; indexing out of bounds is
  `Panic`. `for` loops over ranges are folds over the index list with
  `break`/`return`. Loops driven by the crate's own iterators have fuel, and the
  theorems exclude `OutOfFuel`. C81 counts with it: the least fuel with which a
  call ends is the number of times its loop condition is evaluated. The iterators
  of the integer storages have no loop.
* **Variants** are indices in declaration order. `self as u32` is the
  discriminant *rustc* assigns; the table in the derive is what the macro
  computed; that they agree is a theorem (C27).
* **`unsafe { enum_from_u32 }`** on a bit without variant is `UB`. The trailing
  match arms of the generated code, which reinterpret integers, are all `UB`.
  `C50_reinterpretation` proves that this loses nothing: on the bits a storage
  has, those arms never yield a variant, whatever size rustc gave the enum.
* **The trait `EnumSetTypeRepr`** is a record of operations, `EnumSet<T>` is
  generic in it as in Rust. C68 proves the sets correct over every storage that
  meets the contract `Lawful`, not only over the two kinds the crate has.
* **The derive macro** is a function from the syntax of the enum to a compile
  error or to the record of generated functions. `quote!` templates are
  functions; whether rustc accepts the generated serde code is a separate
  predicate (C43).
* **Sinks** (`Formatter`, `Serializer`) are arbitrary state transformers, any
  call of which may fail. **Deserializers** are arbitrary: for each request an
  error or a finite sequence of items, any of which may be an error.
* **Caught panics** (C69): a call that panics is taken to leave all variables as
  they were; the calls that may panic take `&self` or no set, and C20 covers the
  slice they are given. `extend` over a closure that panics is modelled step by step.
* **Sets obtainable by a program** are the inductive closure `Reachable` of all
  set-valued functions, including macros, deserialization and the unsafe
  constructors under their documented condition.

Proof architecture: `ReprLaws` says that a storage behaves like an integer below
`2^WIDTH`; both storages satisfy it, and all of `set.rs` is verified once
against it.

## Modelled

COVERAGE.md lists every `fn` of the sources with the definition that models it.

* `repr/primitive.rs`: everything, for the five integer widths.
* `repr/array.rs`: everything, for every length.
* `repr/mod.rs`, `traits.rs`: the traits, as records.
* `set.rs`: every method and trait implementation of `EnumSet` and
  `EnumSetIter`, except those listed below.
* `macros.rs`: the arms of the six macros (token matching, recursion) and the
  code they expand to. A path is one token, everything that is neither a path,
  `|` nor `,` is another token.
* `enumset_derive/src/lib.rs`: all checks, their order, errors and what the errors point at; both
  representation choices; `variant_map`; the generated helper functions,
  operators, `enum_into_u32`/`enum_from_u32`, `PartialEq`, serde code; which
  impls (`no_ops`, `no_super_impls`) and warnings there are; the decoding of the
  attributes (`EnumsetAttrs`) and the entry point that puts all this together.
* `Cargo.toml` of both crates: the features.
* Of the Rust core library, only what the crate calls: integer operations, `Option::expect`,
  `copy_from_slice`, `ExactSizeIterator::len`, `Hash`/`Ord`/`PartialEq` of integers and arrays;
  and the default methods `count`, `last`, `fold`, `nth`, `find`, `position`, `any`, `all`, `partition` and
  the mirror images of `Iterator`, as documented; the comparison operators, `max`, `min`, `clamp`.

## Not modelled

* Parsing of tokens: `syn` (attributes are modelled from `syn::Meta` on, discriminants from the text of the literal),
  parsing of paths in macro arguments, the spans of generated code, the syntax of identifiers.
* The lookup of the crate's name in Cargo.toml (its result is arbitrary in C70). Name resolution, except that of
  unqualified types and traits in the generated code next to the enum itself (C75): other items of the user's module
  that hide names of the prelude, values, macros and nested items reaching for outer type parameters (see C43) are left out.
* `Clone`/`Copy` (a copy of the state), derived `Debug` of `EnumSetIter`.
* Memory layout (`repr(transparent)`): that a set is passed to a foreign function as its integer is assumed in the
  histories of C37 and C38 (`CForeign`), which call any function on that integer. Performance beyond the steps of iteration (C81), constant evaluation as such
  (const functions are ordinary functions here).
* Data formats of serde, and the (de)serialization of single variants, except in `Bincode.v` and `Json.v`. In
  `Json.v` the kinds of errors are not told apart and escape sequences in strings are a parameter.
* rustc's own checks on the enum, e.g. that a discriminant fits `#[repr(u8)]`;
  the theorems do not need them, except C41 and C77, which state that one (`rustc_accepts`).
* Iterators given to `extend`, `collect`, `sum` are finite; for `extend` they may
  panic midway (C25, C69). A `SeqAccess` or `MapAccess` keeps answering `None` once it did;
  `C44_unfused_input` drops this for the array format, the only one whose code
  asks again.

## What the proofs found in the code

1. Array deserialization without `serialize_deny_unknown` goes through
   `from_array` (derive/src/lib.rs:583-585) and *panics* on unknown bits inside
   the stored words. The documentation says unknown bits are ignored, and words
   beyond the storage are in fact ignored. C35 is refuted in that part
   (`C35_unknown_words_ignored_refuted`), C44 states what happens.
2. `serialize_deny_unknown` with the array format, or with an integer format on
   an array storage, generates code that does not compile (C43).
3. Array serialization trims trailing zero words off by one: one zero word more
   than needed if the storage has one; the empty set writes one zero word.
   Harmless; `words_written` states the exact number.
4. `bit_width()` of an empty enum is 1 (`C30_empty_enum_width`).
5. `Ord` on array storages compares the least significant word first, so it is
   not the numeric order (`C23_array_order_not_numeric`).
6. On a 16-bit `usize`, discriminants of 65536 and more collide with smaller
   ones (`C41_shared_bit_16`), and `len()` of 65536 members wraps to 0
   (`C41_len_wraps_16`). rustc accepts such enums only with a `#[repr]` of 16
   bits or more; without one this cannot happen (`C41_supported_16`), nor on 32
   and 64 bits (`C41_supported_32_64`).
7. The documentation says arrays are used above 128 variants; the code uses
   them from discriminant 64 on unless a `repr` is given (`C29_storage_chosen`).
8. The documentation examples of `enum_set_difference!` and
   `enum_set_symmetric_difference!` use each other's macro, and the text of
   `try_as_uN` says "will panic" where `None` is returned.
9. `enum_set_union!` and the other macros with comma-separated operands accept
   two trailing commas after a single operand, `enum_set_union!(A,,)`
   (`C46_fold_syntax`).
10. `enum_set!()` expands to the unqualified `EnumSet::empty()`, where every
    other arm uses `$crate::`; it compiles only if the caller has imported
    `EnumSet` (`C78_literal_typed`, where `imported` says so; with operands the import is not needed).
11. Serialized data is safe to read after variants were added (C49), but data
    of a newer program in the array format can make an older one *panic*
    (finding 1), while the integer formats ignore the unknown bits.
12. `#[enumset(crate_name = "..")]` with a string that is no identifier (`"my-enumset"`,
    `"a::b"`) makes the macro panic instead of reporting an error (`C70_crate_path`).
13. The generated code is not hygienic: an enum called `O` or `Into` (unless `no_ops`), `S` or `D` (with serde), `A` or
    `Visitor` (with serde, as list, map or array) captures names of the generated code, or is captured, and does not
    compile (`C75_type_names`).
14. A variant called `Repr`, or `Output` (unless `no_ops`), makes the paths `Self::Repr` and `Self::Output` of the generated
    code ambiguous, which rustc refuses (`C75_variant_names`).
15. The documentation says the serialization options have no effect without the `serde` feature; they are checked all the
    same, so `serialize_repr = "u8"` on an enum with a discriminant of 8 or more is rejected without it, too
    (`C76_options_checked`). `serialize_repr = "u128"` is accepted, but missing from the documented list.
16. The feature `serde` is not additive: an enum called `S` or `D` compiles until any crate of the program turns `serde`
    on (`C82_serde_breaks`; in general `C82_more_features`). Findings 2 and 13 break declarations in the same way.
