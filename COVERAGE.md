# Where each function of the code is modelled

Every `fn` in the sources of the crates, with its line and the definition in `rocq/theories` that models it.
Macros (`macros.rs`) are in `MacroRules.v`, `Macros.v` and `Expansion.v`; the checks, names and impl blocks of the
derive macro as a whole in `Derive.v`, `Attrs.v`, `Impls.v`, `Names.v`, `CrateName.v` and `Whole.v`.


## enumset/src/set.rs

| line | function | model |
|---|---|---|
| 139 | `new` | `EnumSet.es_new` |
| 145 | `only` | `EnumSet.es_only` |
| 155 | `empty` | `EnumSet.es_empty` |
| 161 | `all` | `EnumSet.es_all` |
| 171 | `bit_width` | `EnumSet.es_bit_width` |
| 180 | `variant_count` | `EnumSet.es_variant_count` |
| 186 | `len` | `EnumSet.es_len` |
| 191 | `is_empty` | `EnumSet.es_is_empty` |
| 196 | `clear` | `EnumSet.es_clear` |
| 203 | `is_disjoint` | `EnumSet.es_is_disjoint` |
| 209 | `is_superset` | `EnumSet.es_is_superset` |
| 215 | `is_subset` | `EnumSet.es_is_subset` |
| 221 | `union` | `EnumSet.es_union` |
| 226 | `intersection` | `EnumSet.es_intersection` |
| 231 | `difference` | `EnumSet.es_difference` |
| 237 | `symmetrical_difference` | `EnumSet.es_symmetrical_difference` |
| 242 | `complement` | `EnumSet.es_complement` |
| 248 | `contains` | `EnumSet.es_contains` |
| 258 | `insert` | `EnumSet.es_insert` |
| 265 | `remove` | `EnumSet.es_remove` |
| 273 | `insert_all` | `EnumSet.es_insert_all` |
| 278 | `remove_all` | `EnumSet.es_remove_all` |
| 290 | `__impl_enumset_internal__const_helper` | `Expansion.XHelper` (type), identity on the enum |
| 299 | `__impl_enumset_internal__const_only` | `Macros.mc_const_only` |
| 306 | `default` | `EnumSet.es_default` |
| 314 | `sub` | `EnumSet.es_sub` |
| 321 | `bitand` | `EnumSet.es_bitand` |
| 328 | `bitor` | `EnumSet.es_bitor` |
| 335 | `bitxor` | `EnumSet.es_bitxor` |
| 342 | `sub_assign` | `EnumSet.es_sub_assign` |
| 348 | `bitand_assign` | `EnumSet.es_bitand_assign` |
| 354 | `bitor_assign` | `EnumSet.es_bitor_assign` |
| 360 | `bitxor_assign` | `EnumSet.es_bitxor_assign` |
| 368 | `not` | `EnumSet.es_not` |
| 374 | `from` | `EnumSet.es_from` |
| 380 | `eq` | `EnumSet.es_eq_var` (the derived one: `es_eq`) |
| 386 | `fmt` | `Fmt.fmt_debug` |
| 402 | `fmt` | `Fmt.fmt_display` |
| 417 | `hash` | `EnumSet.es_hash` |
| 423 | `partial_cmp` | `EnumSet.es_partial_cmp` |
| 428 | `cmp` | `EnumSet.es_cmp` |
| 435 | `serialize` | `Serde.es_serialize` |
| 442 | `deserialize` | `Serde.es_deserialize` |
| 475 | `as_repr` | `EnumSet.es_as_repr` |
| 492 | `from_repr_unchecked` | `EnumSet.es_from_repr_unchecked` |
| 504 | `from_repr` | `EnumSet.es_from_repr` |
| 516 | `try_from_repr` | `EnumSet.es_try_from_repr` |
| 530 | `from_repr_truncated` | `EnumSet.es_from_repr_truncated` |
| 555 | `$to` | `EnumSet.es_as` |
| 566 | `$try_to` | `EnumSet.es_try_as` |
| 577 | `$to_truncated` | `EnumSet.es_as_truncated` |
| 586 | `$from` | `EnumSet.es_from_num` |
| 595 | `$try_from` | `EnumSet.es_try_from` |
| 609 | `$from_truncated` | `EnumSet.es_from_truncated` |
| 625 | `$from_unchecked` | `EnumSet.es_from_unchecked` |
| 662 | `as_array` | `EnumSet.es_as_array` |
| 671 | `try_as_array` | `EnumSet.es_try_as_array` |
| 679 | `as_array_truncated` | `EnumSet.es_as_array_truncated` |
| 686 | `from_array` | `EnumSet.es_from_array` |
| 693 | `try_from_array` | `EnumSet.es_try_from_array` |
| 706 | `from_array_truncated` | `EnumSet.es_from_array_truncated` |
| 719 | `from_array_unchecked` | `EnumSet.es_from_array_unchecked` |
| 726 | `to_vec` | `EnumSet.es_to_vec` |
| 735 | `copy_into_slice` | `EnumSet.es_copy_into_slice` |
| 745 | `try_copy_into_slice` | `EnumSet.es_try_copy_into_slice` |
| 753 | `copy_into_slice_truncated` | `EnumSet.es_copy_into_slice_truncated` |
| 760 | `from_slice` | `EnumSet.es_from_slice` |
| 767 | `try_from_slice` | `EnumSet.es_try_from_slice` |
| 780 | `from_slice_truncated` | `EnumSet.es_from_slice_truncated` |
| 793 | `from_slice_unchecked` | `EnumSet.es_from_slice_unchecked` |
| 806 | `new` | `EnumSet.es_iter` |
| 817 | `iter` | `EnumSet.es_iter` |
| 825 | `next` | `EnumSet.es_next` |
| 828 | `size_hint` | `EnumSet.es_size_hint` |
| 834 | `next_back` | `EnumSet.es_next_back` |
| 844 | `extend` | `EnumSet.es_extend`; `es_extend_unwind`, `IterMethods.es_extend_iter` |
| 852 | `from_iter` | `EnumSet.es_from_iter` |
| 860 | `extend` | `EnumSet.es_extend_sets` |
| 868 | `from_iter` | `EnumSet.es_from_iter_sets` |
| 879 | `into_iter` | `EnumSet.es_into_iter` |
| 884 | `sum` | `EnumSet.es_sum_sets` |
| 889 | `sum` | `EnumSet.es_sum_sets` |
| 894 | `sum` | `EnumSet.es_sum` |
| 899 | `sum` | `EnumSet.es_sum` |

## enumset/src/repr/array.rs

| line | function | model |
|---|---|---|
| 11 | `split_bit` | `ArrayRepr.a_split_bit` |
| 18 | `bitand` | `ArrayRepr.a_bitand` |
| 27 | `bitor` | `ArrayRepr.a_bitor` |
| 36 | `bitxor` | `ArrayRepr.a_bitxor` |
| 45 | `not` | `ArrayRepr.a_bitnot` |
| 58 | `is_empty` | `ArrayRepr.a_is_empty` |
| 62 | `add_bit` | `ArrayRepr.a_add_bit` |
| 66 | `remove_bit` | `ArrayRepr.a_remove_bit` |
| 70 | `has_bit` | `ArrayRepr.a_has_bit` |
| 75 | `count_ones` | `ArrayRepr.a_count_ones` |
| 78 | `leading_zeros` | `ArrayRepr.a_leading_zeros` |
| 88 | `trailing_zeros` | `ArrayRepr.a_trailing_zeros` |
| 99 | `and_not` | `ArrayRepr.a_and_not` |
| 108 | `iter` | `Repr.array_repr` (`r_iter`) |
| 112 | `from_u8` | `ArrayRepr.a_from` |
| 115 | `from_u16` | `ArrayRepr.a_from` |
| 118 | `from_u32` | `ArrayRepr.a_from` |
| 121 | `from_u64` | `ArrayRepr.a_from_u64` |
| 126 | `from_u128` | `ArrayRepr.a_from_u128` |
| 134 | `from_usize` | `ArrayRepr.a_from` |
| 138 | `from_u8_opt` | `ArrayRepr.a_from_opt` |
| 141 | `from_u16_opt` | `ArrayRepr.a_from_opt` |
| 144 | `from_u32_opt` | `ArrayRepr.a_from_opt` |
| 147 | `from_u64_opt` | `ArrayRepr.a_from_opt` |
| 150 | `from_u128_opt` | `ArrayRepr.a_from_opt` |
| 157 | `from_usize_opt` | `ArrayRepr.a_from_opt` |
| 161 | `to_u8` | `ArrayRepr.a_to` |
| 164 | `to_u16` | `ArrayRepr.a_to` |
| 167 | `to_u32` | `ArrayRepr.a_to` |
| 170 | `to_u64` | `ArrayRepr.a_to_u64` |
| 173 | `to_u128` | `ArrayRepr.a_to_u128` |
| 177 | `to_usize` | `ArrayRepr.a_to` |
| 181 | `to_u8_opt` | `ArrayRepr.a_to_opt` |
| 184 | `to_u16_opt` | `ArrayRepr.a_to_opt` |
| 187 | `to_u32_opt` | `ArrayRepr.a_to_opt` |
| 190 | `to_u64_opt` | `ArrayRepr.a_to_u64_opt` |
| 198 | `to_u128_opt` | `ArrayRepr.a_to_u128_opt` |
| 206 | `to_usize_opt` | `ArrayRepr.a_to_opt` |
| 210 | `to_u64_array` | `ArrayRepr.a_to_u64_array` |
| 216 | `to_u64_array_opt` | `ArrayRepr.a_to_u64_array_opt` |
| 227 | `from_u64_array` | `ArrayRepr.a_from_u64_array` |
| 230 | `from_u64_array_opt` | `ArrayRepr.a_from_u64_array_opt` |
| 234 | `to_u64_slice` | `ArrayRepr.a_to_u64_slice` |
| 242 | `to_u64_slice_opt` | `ArrayRepr.a_to_u64_slice_opt` |
| 254 | `from_u64_slice` | `ArrayRepr.a_from_u64_slice` |
| 260 | `from_u64_slice_opt` | `ArrayRepr.a_from_u64_slice_opt` |
| 281 | `new` | `ArrayRepr.a_iter_new` |
| 293 | `next` | `ArrayRepr.a_iter_next` |
| 308 | `size_hint` | `ArrayRepr.a_iter_size_hint` |
| 318 | `next_back` | `ArrayRepr.a_iter_next_back` |

## enumset/src/repr/primitive.rs

| line | function | model |
|---|---|---|
| 6 | `lo` | `Prim.p_lo` |
| 9 | `hi` | `Prim.p_hi` |
| 19 | `is_empty` | `Prim.p_is_empty` |
| 24 | `add_bit` | `Prim.p_add_bit` |
| 28 | `remove_bit` | `Prim.p_remove_bit` |
| 32 | `has_bit` | `Prim.p_has_bit` |
| 37 | `count_ones` | `Prim.p_count_ones` |
| 41 | `leading_zeros` | `Prim.p_leading_zeros` |
| 45 | `trailing_zeros` | `Prim.p_trailing_zeros` |
| 50 | `and_not` | `Prim.p_and_not` |
| 56 | `iter` | `Repr.prim_repr` (`r_iter`) |
| 61 | `from_u8` | `Prim.p_from` |
| 65 | `from_u16` | `Prim.p_from` |
| 69 | `from_u32` | `Prim.p_from` |
| 73 | `from_u64` | `Prim.p_from` |
| 77 | `from_u128` | `Prim.p_from` |
| 81 | `from_usize` | `Prim.p_from` |
| 86 | `to_u8` | `Prim.p_to` |
| 90 | `to_u16` | `Prim.p_to` |
| 94 | `to_u32` | `Prim.p_to` |
| 98 | `to_u64` | `Prim.p_to` |
| 102 | `to_u128` | `Prim.p_to` |
| 106 | `to_usize` | `Prim.p_to` |
| 111 | `from_u8_opt` | `Prim.p_from_opt` |
| 115 | `from_u16_opt` | `Prim.p_from_opt` |
| 119 | `from_u32_opt` | `Prim.p_from_opt` |
| 123 | `from_u64_opt` | `Prim.p_from_opt` |
| 127 | `from_u128_opt` | `Prim.p_from_opt` |
| 131 | `from_usize_opt` | `Prim.p_from_opt` |
| 136 | `to_u8_opt` | `Prim.p_to_opt` |
| 140 | `to_u16_opt` | `Prim.p_to_opt` |
| 144 | `to_u32_opt` | `Prim.p_to_opt` |
| 148 | `to_u64_opt` | `Prim.p_to_opt` |
| 152 | `to_u128_opt` | `Prim.p_to_opt` |
| 156 | `to_usize_opt` | `Prim.p_to_opt` |
| 161 | `to_u64_array` | `Prim.p_to_u64_array` |
| 172 | `to_u64_array_opt` | `Prim.p_to_u64_array_opt` |
| 183 | `from_u64_array` | `Prim.p_from_u64_array` |
| 193 | `from_u64_array_opt` | `Prim.p_from_u64_array_opt` |
| 209 | `to_u64_slice` | `Prim.p_to_u64_slice` |
| 222 | `to_u64_slice_opt` | `Prim.p_to_u64_slice_opt` |
| 234 | `from_u64_slice` | `Prim.p_from_u64_slice` |
| 244 | `from_u64_slice_opt` | `Prim.p_from_u64_slice_opt` |
| 275 | `next` | `Prim.p_iter_next` |
| 285 | `size_hint` | `Prim.p_iter_size_hint` |
| 292 | `next_back` | `Prim.p_iter_next_back` |

## enumset/src/repr/mod.rs

| line | function | model |
|---|---|---|
| 35 | `is_empty` | `Repr.ReprTrait`, `r_is_empty` |
| 37 | `add_bit` | `Repr.ReprTrait`, `r_add_bit` |
| 38 | `remove_bit` | `Repr.ReprTrait`, `r_remove_bit` |
| 39 | `has_bit` | `Repr.ReprTrait`, `r_has_bit` |
| 41 | `count_ones` | `Repr.ReprTrait`, `r_count_ones` |
| 42 | `leading_zeros` | `Repr.ReprTrait`, `r_leading_zeros` |
| 43 | `trailing_zeros` | `Repr.ReprTrait`, `r_trailing_zeros` |
| 45 | `and_not` | `Repr.ReprTrait`, `r_and_not` |
| 48 | `iter` | `Repr.ReprTrait`, `r_iter` |
| 50 | `from_u8` | `Repr.ReprTrait`, `r_from` |
| 51 | `from_u16` | `Repr.ReprTrait`, `r_from` |
| 52 | `from_u32` | `Repr.ReprTrait`, `r_from` |
| 53 | `from_u64` | `Repr.ReprTrait`, `r_from` |
| 54 | `from_u128` | `Repr.ReprTrait`, `r_from` |
| 55 | `from_usize` | `Repr.ReprTrait`, `r_from` |
| 57 | `to_u8` | `Repr.ReprTrait`, `r_to` |
| 58 | `to_u16` | `Repr.ReprTrait`, `r_to` |
| 59 | `to_u32` | `Repr.ReprTrait`, `r_to` |
| 60 | `to_u64` | `Repr.ReprTrait`, `r_to` |
| 61 | `to_u128` | `Repr.ReprTrait`, `r_to` |
| 62 | `to_usize` | `Repr.ReprTrait`, `r_to` |
| 64 | `from_u8_opt` | `Repr.ReprTrait`, `r_from_opt` |
| 65 | `from_u16_opt` | `Repr.ReprTrait`, `r_from_opt` |
| 66 | `from_u32_opt` | `Repr.ReprTrait`, `r_from_opt` |
| 67 | `from_u64_opt` | `Repr.ReprTrait`, `r_from_opt` |
| 68 | `from_u128_opt` | `Repr.ReprTrait`, `r_from_opt` |
| 69 | `from_usize_opt` | `Repr.ReprTrait`, `r_from_opt` |
| 71 | `to_u8_opt` | `Repr.ReprTrait`, `r_to_opt` |
| 72 | `to_u16_opt` | `Repr.ReprTrait`, `r_to_opt` |
| 73 | `to_u32_opt` | `Repr.ReprTrait`, `r_to_opt` |
| 74 | `to_u64_opt` | `Repr.ReprTrait`, `r_to_opt` |
| 75 | `to_u128_opt` | `Repr.ReprTrait`, `r_to_opt` |
| 76 | `to_usize_opt` | `Repr.ReprTrait`, `r_to_opt` |
| 78 | `to_u64_array` | `Repr.ReprTrait`, `r_to_u64_array` |
| 79 | `to_u64_array_opt` | `Repr.ReprTrait`, `r_to_u64_array_opt` |
| 81 | `from_u64_array` | `Repr.ReprTrait`, `r_from_u64_array` |
| 82 | `from_u64_array_opt` | `Repr.ReprTrait`, `r_from_u64_array_opt` |
| 84 | `to_u64_slice` | `Repr.ReprTrait`, `r_to_u64_slice` |
| 86 | `to_u64_slice_opt` | `Repr.ReprTrait`, `r_to_u64_slice_opt` |
| 88 | `from_u64_slice` | `Repr.ReprTrait`, `r_from_u64_slice` |
| 89 | `from_u64_slice_opt` | `Repr.ReprTrait`, `r_from_u64_slice_opt` |

## enumset/src/traits.rs

| line | function | model |
|---|---|---|
| 52 | `enum_into_u32` | `Derive.enum_into_u32` |
| 54 | `enum_from_u32` | `Derive.enum_from_u32` |
| 61 | `serialize` | `Serde.es_serialize` |
| 65 | `deserialize` | `Serde.es_deserialize` |

## enumset_derive/src/lib.rs

| line | function | model |
|---|---|---|
| 15 | `error` | `Messages.v` |
| 56 | `supported_variants` | `Derive.ir_supported` |
| 90 | `supported_variants` | `Derive.sr_supported` |
| 149 | `new` | `Derive.info_new` |
| 173 | `push_serialize_repr` | `Derive.push_serialize_repr` |
| 189 | `push_repr` | `Derive.push_repr` |
| 203 | `push_variant` | `Derive.push_variant` |
| 248 | `internal_repr` | `Derive.internal_repr` |
| 262 | `serde_repr` | `Derive.serde_repr` |
| 277 | `validate` | `Derive.validate` |
| 306 | `variant_map` | `Derive.variant_map` |
| 320 | `enum_set_type_impl` | `Derive.enum_set_type_impl` |
| 388 | `sub` | `EnumSet.var_sub` |
| 395 | `bitand` | `EnumSet.var_bitand` |
| 402 | `bitor` | `EnumSet.var_bitor` |
| 409 | `bitxor` | `EnumSet.var_bitxor` |
| 416 | `not` | `EnumSet.var_not` |
| 422 | `eq` | `EnumSet.var_eq_set` |
| 456 | `serialize` | `Serde.ser_int` |
| 463 | `deserialize` | `Serde.de_int` |
| 478 | `serialize` | `Serde.ser_list` |
| 488 | `deserialize` | `Serde.de_list` |
| 494 | `expecting` | `Shape.visit_list` |
| 499 | `visit_seq` | `Serde.de_list_loop` |
| 518 | `serialize` | `Serde.ser_map` |
| 528 | `deserialize` | `Serde.de_map` |
| 534 | `expecting` | `Shape.visit_map` |
| 539 | `visit_map` | `Serde.de_map_loop` |
| 588 | `serialize` | `Serde.ser_array` |
| 606 | `deserialize` | `Serde.de_array` |
| 612 | `expecting` | `Shape.visit_array` |
| 617 | `visit_seq` | `Serde.de_array`, `Serde.de_array_answers` |
| 653 | `enum_into_u32` | `Derive.enum_into_u32` |
| 656 | `enum_from_u32` | `Derive.enum_from_u32` |
| 663 | `enum_into_u32` | `Derive.enum_into_u32` |
| 666 | `enum_from_u32` | `Derive.enum_from_u32` |
| 684 | `enum_into_u32` | `Derive.enum_into_u32` |
| 687 | `enum_from_u32` | `Derive.enum_from_u32` |
| 723 | `eq` | `Derive.enum_eq` |
| 732 | `clone` | the identity (a copy) |
| 773 | `__impl_enumset_internal__const_only` | `Derive.prim_ty` (`et_const_only`) |
| 783 | `const_union` | `Derive.prim_ty` (`et_const_union`) |
| 793 | `const_intersection` | `Derive.prim_ty` (`et_const_intersection`) |
| 803 | `const_symmetric_difference` | `Derive.prim_ty` (`et_const_symmetric_difference`) |
| 813 | `const_complement` | `Derive.prim_ty` (`et_const_complement`) |
| 835 | `__impl_enumset_internal__const_only` | `Derive.array_const_only` |
| 851 | `const_union` | `Derive.array_const_union` |
| 864 | `const_intersection` | `Derive.array_const_intersection` |
| 877 | `const_symmetric_difference` | `Derive.array_const_symmetric_difference` |
| 890 | `const_complement` | `Derive.array_const_complement` |
| 937 | `__impl_enumset_internal__const_helper` | `Expansion.XHelper` (type) |
| 966 | `__enumset_derive__generated_warnings` | `Impls.warnings` |
| 974 | `derive_enum_set_type` | `Attrs.derive_item` |
| 983 | `derive_enum_set_type_0` | `Derive.derive_info` |
