{
 "claims": [
  {
   "property": "C01",
   "status": "proved",
   "theorems": [
    "C01_history",
    "C01_set_one_bit",
    "C01_blocks"
   ],
   "note": "Any history of the modelled operations on any number of variables, among them SetBlock, assignments through the proxy of operator[], UnboundedReset and Write to a buffer. AppendBits is included with arguments that satisfy C11's side condition, construction from a signed negative value is excluded (C10)."
  },
  {
   "property": "C02",
   "status": "proved",
   "theorems": [
    "C02_no_stale_bits"
   ],
   "note": "Same histories as C01; the defects of C10, C11, C12 and C18 are the only ways to dirty the storage."
  },
  {
   "property": "C03",
   "status": "proved",
   "theorems": [
    "C03_resize",
    "C03_shrink_then_grow"
   ],
   "note": ""
  },
  {
   "property": "C04",
   "status": "proved",
   "theorems": [
    "C04_shift_left",
    "C04_shift_right"
   ],
   "note": "Any distance, including 0, block multiples and beyond the size."
  },
  {
   "property": "C05",
   "status": "proved",
   "theorems": [
    "C05_logic",
    "C05_not"
   ],
   "note": "Any aliasing of destination and operands, any pair of sizes."
  },
  {
   "property": "C06",
   "status": "proved",
   "theorems": [
    "C06_find_first",
    "C06_find_next",
    "C06_iteration"
   ],
   "note": ""
  },
  {
   "property": "C07",
   "status": "proved",
   "theorems": [
    "C07_queries",
    "C07_intersects"
   ],
   "note": ""
  },
  {
   "property": "C08",
   "status": "proved",
   "theorems": [
    "C08_reverse"
   ],
   "note": ""
  },
  {
   "property": "C09",
   "status": "proved",
   "theorems": [
    "C09_string_to_bits_and_back",
    "C09_bits_to_string_and_back",
    "C09_bad_character"
   ],
   "note": ""
  },
  {
   "property": "C10",
   "status": "partial",
   "theorems": [
    "C10_integer_roundtrip",
    "C10_to_value",
    "C10_negative_refuted",
    "C10_size_depends_on_width_refuted"
   ],
   "note": "Round trip and weighted sum are proved for unsigned values; the property is refuted for negative signed values, and the size depends on the width of the type."
  },
  {
   "property": "C11",
   "status": "partial",
   "theorems": [
    "C11_append_partial",
    "C11_append_undefined_refuted",
    "C11_append_leak_refuted",
    "C11_visible_bits"
   ],
   "note": "Proved under the exact side condition; outside it the refutations show an undefined shift (32/64-bit blocks) or stray bits."
  },
  {
   "property": "C12",
   "status": "partial",
   "theorems": [
    "C12_write_partial",
    "C12_chunks_partial",
    "C12_no_stray_whole_bytes",
    "C12_bytes_partial",
    "C12_zero_bits_refuted",
    "C12_leak_refuted"
   ],
   "note": "Proved when the last byte has no stray bit that falls in the same block; refuted for zero bits and for a partial last byte."
  },
  {
   "property": "C13",
   "status": "proved",
   "theorems": [
    "C13_equality",
    "C13_equivalence"
   ],
   "note": ""
  },
  {
   "property": "C14",
   "status": "partial",
   "theorems": [
    "C14_less_exact",
    "C14_one_block_partial",
    "C14_not_antisymmetric_refuted",
    "C14_different_sizes_refuted"
   ],
   "note": "operator< is characterised exactly; it is right on one block, and refuted otherwise."
  },
  {
   "property": "C15",
   "status": "proved",
   "theorems": [
    "C15_unbounded"
   ],
   "note": ""
  },
  {
   "property": "C16",
   "status": "partial",
   "theorems": [
    "C16_postfix_refuted"
   ],
   "note": "Refuted: the theorem shows the operator never advances the iterator."
  },
  {
   "property": "C17",
   "status": "partial",
   "theorems": [
    "C17_move_destination_partial",
    "C17_moved_from_refuted",
    "C17_clear_recovers_partial"
   ],
   "note": "The destination is proved; the source is refuted for every non-empty bitset."
  },
  {
   "property": "C18",
   "status": "proved",
   "theorems": [
    "C18_bit_proxy",
    "C18_proxy_exists",
    "C18_no_bound_check_refuted"
   ],
   "note": "For indices below the size; the missing bound check of operator[] is refuted."
  },
  {
   "property": "C19",
   "status": "partial",
   "theorems": [
    "C19_count_bits",
    "C19_narrow_negative_refuted",
    "C19_wide_negative_refuted"
   ],
   "note": "Proved for unsigned types and nonnegative signed values; refuted for negative values (narrow types at run time, int and wider in constant evaluation)."
  },
  {
   "property": "C20",
   "status": "partial",
   "theorems": [
    "C20_find_first_bit",
    "C20_find_last_bit",
    "C20_find_last_bit_negative",
    "C20_narrow_negative_refuted"
   ],
   "note": "FindFirstBit is proved for every value; FindLastBit for nonnegative values and negative values of 32/64 bits, refuted for negative 8/16-bit values at run time."
  },
  {
   "property": "C21",
   "status": "partial",
   "theorems": [
    "C21_log2_partial",
    "C21_zero",
    "C21_log2_refuted",
    "C21_negative"
   ],
   "note": "Proved for every positive value, of signed and unsigned types, whose upper 32-bit word is not 1; refuted for all the others. The value given for negative numbers is stated exactly."
  },
  {
   "property": "C22",
   "status": "proved",
   "theorems": [
    "C22_log2_pot",
    "C22_zero"
   ],
   "note": ""
  },
  {
   "property": "C23",
   "status": "partial",
   "theorems": [
    "C23_align",
    "C23_align_pow2",
    "C23_agree",
    "C23_negative_refuted"
   ],
   "note": "Proved for nonnegative offsets (Align) and all offsets (AlignPow2) whose sums fit; Align is refuted on negative multiples."
  },
  {
   "property": "C24",
   "status": "partial",
   "theorems": [
    "C24_round",
    "C24_nearest",
    "C24_nearest_negative",
    "C24_is_pow2",
    "C24_nearest_diverges_refuted",
    "C24_round_refuted",
    "C24_round_signed_refuted"
   ],
   "note": "Proved up to the highest representable power of two; above it RoundToPow2 gives 0 (unsigned), the least value (narrow signed types) or undefined behaviour (int and wider), and GetNearestPowerOfTwo never returns."
  },
  {
   "property": "C25",
   "status": "proved",
   "theorems": [
    "C25_byte_swap",
    "C25_endianness",
    "C25_swap_buffer",
    "C25_swap_empty_refuted"
   ],
   "note": "SwapBytes on an empty buffer is refuted separately."
  },
  {
   "property": "C26",
   "status": "proved",
   "theorems": [
    "C26_reverse_bits"
   ],
   "note": ""
  },
  {
   "property": "C27",
   "status": "proved",
   "theorems": [
    "C27_single_bits",
    "C27_out_of_range"
   ],
   "note": ""
  },
  {
   "property": "C28",
   "status": "partial",
   "theorems": [
    "C28_clamp",
    "C28_approach_partial",
    "C28_unsigned_refuted",
    "C28_signed_overflow_refuted"
   ],
   "note": "Clamp is proved; Approach is proved when no sum leaves the range of the type, and refuted otherwise."
  },
  {
   "property": "C29",
   "status": "partial",
   "theorems": [
    "C29_number_equals_partial",
    "C29_narrow_same_sign_partial",
    "C29_narrow_refuted"
   ],
   "note": "Proved for all types but signed 8/16 bits with operands of opposite signs, which are refuted."
  },
  {
   "property": "C30",
   "status": "partial",
   "theorems": [
    "C30_shift_cpp20",
    "C30_shift_cpp17",
    "C30_shift_unsigned_count_partial",
    "C30_shift_unsigned_count_refuted",
    "C30_pow",
    "C30_pow_exact",
    "C30_pow_u16_refuted",
    "C30_mod",
    "C30_mod_refuted"
   ],
   "note": "Refuted for an unsigned shift count over a logical >>, for UInt16 powers, and for the least Int32 or Int64 modulo -1 (undefined behaviour)."
  },
  {
   "property": "C31",
   "status": "proved",
   "theorems": [
    "C31_vector_history",
    "C31_vector_refuses",
    "C31_vector_construct",
    "C31_empty_range_refuted"
   ],
   "note": "The one exception, that an empty range is not position-checked, is stated as C31_empty_range_refuted."
  },
  {
   "property": "C32",
   "status": "proved",
   "theorems": [
    "C32_lifetimes",
    "C32_lifetimes_hybrid"
   ],
   "note": "Element constructors are assumed not to throw."
  },
  {
   "property": "C33",
   "status": "proved",
   "theorems": [
    "C33_hybrid_history",
    "C33_capacity_unobservable",
    "C33_hybrid_construct",
    "C33_hybrid_refuses",
    "C33_spilled_pop_refuted"
   ],
   "note": "Once spilled, a wrong pop_back or range is undefined instead of an assertion (C33_spilled_pop_refuted)."
  },
  {
   "property": "C34",
   "status": "partial",
   "theorems": [
    "C34_state_holding",
    "C34_reachable_state",
    "C34_copy_construct",
    "C34_copy_assign_partial",
    "C34_self_assign_refuted",
    "C34_assign_leak_refuted"
   ],
   "note": "Copy construction is proved; assignment is proved except self-assignment of an inline vector and a spilled source over inline elements, both refuted."
  },
  {
   "property": "C35",
   "status": "partial",
   "theorems": [
    "C35_move_construct",
    "C35_move_assign_partial",
    "C35_move_leak_refuted",
    "C35_self_move_refuted"
   ],
   "note": "Same exceptions as C34 for move assignment."
  },
  {
   "property": "C36",
   "status": "partial",
   "theorems": [
    "C36_stack_own_push",
    "C36_stack_own_insert_partial",
    "C36_stack_own_insert_refuted",
    "C36_own_push_partial",
    "C36_own_insert_partial",
    "C36_own_spill_refuted",
    "C36_own_insert_refuted"
   ],
   "note": "Proved for push_back below capacity, insertion after the element, and any spilled vector, StackVector included; refuted otherwise."
  },
  {
   "property": "C37",
   "status": "partial",
   "theorems": [
    "C37_inline_moves_partial",
    "C37_spilled_copies_refuted",
    "C37_emplace_moves"
   ],
   "note": "Proved inline and for emplace_back/insert; refuted for push_back once spilled."
  },
  {
   "property": "C38",
   "status": "proved",
   "theorems": [
    "C38_stack_vector_history",
    "C38_stack_vector_refuses",
    "C38_null_vector"
   ],
   "note": "Element constructors are assumed not to throw; as in C31 an empty range is not position-checked. StackVector has no reserve."
  },
  {
   "property": "C39",
   "status": "partial",
   "theorems": [
    "C39_moved_vector_partial",
    "C39_moved_vector_refuted",
    "C39_move_assigned_vector_partial",
    "C39_moved_array_partial",
    "C39_moved_array_refuted",
    "C39_move_assigned_array_partial"
   ],
   "note": "Proved for at most one element (move construction) and for equal sizes (move assignment); refuted otherwise."
  },
  {
   "property": "C40",
   "status": "proved",
   "theorems": [
    "C40_history",
    "C40_fresh"
   ],
   "note": "Over every history of Allocate (constructing or deferred), Free, Free(NoDestruction), Clear and user construction and destruction: the pool hands out the indices of the slot specification; Allocate always succeeds, its entry was not allocated, every allocated entry keeps its pointer, and pointers are distinct when the blocks do not overlap. Clear is excluded for a block size of 1 (see C46)."
  },
  {
   "property": "C41",
   "status": "proved",
   "theorems": [
    "C41_counters",
    "C41_lowest",
    "C41_reuse"
   ],
   "note": "Counters equal the specification, a block is added only when no entry is free, Allocate takes the lowest free index, Free makes exactly that index available again."
  },
  {
   "property": "C42",
   "status": "proved",
   "theorems": [
    "C42_correspondence",
    "C42_unallocated",
    "C42_stable"
   ],
   "note": "For entries whose stride is sizeof(T): RetrieveFromIndex and RetrieveEntryIndex are inverse; addresses are stable through any history without Clear; unallocated indices are refused by an assertion."
  },
  {
   "property": "C43",
   "status": "partial",
   "theorems": [
    "C43_first_entry_partial",
    "C43_over_aligned_refuted"
   ],
   "note": "Refuted: when the alignment makes the stride larger than sizeof(T), RetrieveEntryIndex never returns the index of an entry that is not the first of its block (it returns InvalidIndex, asserts or is undefined). Proved for the first entry of each block."
  },
  {
   "property": "C44",
   "status": "proved",
   "theorems": [
    "C44_iteration"
   ],
   "note": "Iteration visits the allocated entries in ascending order, once each, with the pointer RetrieveFromIndex gives."
  },
  {
   "property": "C45",
   "status": "partial",
   "theorems": [
    "C45_destroys_partial",
    "C45_capacity_refuted",
    "C45_stale_entries_refuted"
   ],
   "note": "Refuted: Reset calls Bitset::Reset(true/false), which clears bit 1 or 0 instead of the whole set. From every reachable pool that holds something, fewer allocations than the capacity succeed before one asserts; a concrete run then iterates over destroyed entries and destroys them twice. Proved: Reset destroys each object once and zeroes the counters."
  },
  {
   "property": "C46",
   "status": "partial",
   "theorems": [
    "C46_free",
    "C46_clear_partial",
    "C46_block_of_one_refuted",
    "C46_no_destruction",
    "C46_no_destruction_unchecked_refuted",
    "C46_moved",
    "C46_move_assign_refuted"
   ],
   "note": "Free destroys exactly its object, Clear and the destructor destroy exactly the remaining ones (block size >= 2, every entry constructed), NoDestruction leaves memory alone. Refuted: with block size 1 Clear and the destructor assert when something is allocated; move assignment leaks the target's objects; Free(NoDestruction) accepts an entry that is already free."
  },
  {
   "property": "C47",
   "status": "proved",
   "theorems": [
    "C47_emission_calls_each_slot_once",
    "C47_actions_succeed"
   ],
   "note": "For every world reachable by creating, destroying, moving (see C52), connecting, disconnecting, clearing and emitting, whatever callbacks did in earlier emissions. Fewer than 2^64 - 4 slots."
  },
  {
   "property": "C48",
   "status": "proved",
   "theorems": [
    "C48_disconnecting_callbacks"
   ],
   "note": "Callbacks may disconnect any connection and clear any signal that exists; termination is proved too."
  },
  {
   "property": "C49",
   "status": "partial",
   "theorems": [
    "C49_connecting_callbacks_partial",
    "C49_self_replacing_callback_refuted"
   ],
   "note": "Holds for every emission that ends, if no callback connects to the signal after disconnecting itself. Refuted in general: the first slot disconnecting itself and then connecting ends the emission. Emission inside callbacks is C51."
  },
  {
   "property": "C50",
   "status": "proved",
   "theorems": [
    "C50_is_connected",
    "C50_nothing_is_not_connected",
    "C50_disconnect",
    "C50_disconnect_ends_only_its_slot",
    "C50_connect",
    "C50_clear",
    "C50_destroy",
    "C50_guards"
   ],
   "note": "All connections of all reachable worlds. ConnectionGuard::operator=(Connection&&) does not compile when instantiated and is not modelled."
  },
  {
   "property": "C51",
   "status": "partial",
   "theorems": [
    "C51_nested_emission_refuted",
    "C51_nested_emission_from_last_partial"
   ],
   "note": "Refuted: for every slot count and position k, when the callback at position k emits again the outer emission calls only the first k + 1 slots. It holds when the emitting slot is the last one."
  },
  {
   "property": "C52",
   "status": "partial",
   "theorems": [
    "C52_move_partial",
    "C52_movable",
    "C52_move_construct_partial",
    "C52_moved_from_inline_refuted",
    "C52_move_leaks_target_refuted",
    "C52_move_copies_refuted"
   ],
   "note": "Holds when the source is empty and inline, or spilled into the std::vector with a target that is empty or spilled (always for two or more slots on the source and none or several on the target). Refuted for a source with a single inline slot (undefined behaviour on emitting the source, or the slot called by both) and for a spilled source with a target holding an inline slot (slot leaked)."
  },
  {
   "property": "C53",
   "status": "proved",
   "theorems": [
    "C53_CRC32_bytes",
    "C53_CRC32_view",
    "C53_CRC32_cstr",
    "C53_table",
    "C53_unterminated"
   ],
   "note": "For signed and unsigned char. Texts without terminator are undefined behaviour."
  },
  {
   "property": "C54",
   "status": "partial",
   "theorems": [
    "C54_FNV1a32_bytes",
    "C54_FNV1a64_bytes",
    "C54_FNV1a32_text_partial",
    "C54_FNV1a64_text_partial",
    "C54_FNV1a32_negative_char_refuted",
    "C54_FNV1a64_negative_char_refuted"
   ],
   "note": "The (UInt8*, size) overloads are FNV-1a for all bytes; the text overloads are when char is unsigned or all bytes are below 0x80. Refuted otherwise: with signed char every text whose only byte above 0x7F is the last gets another hash."
  },
  {
   "property": "C55",
   "status": "proved",
   "theorems": [
    "C55_HashCombine_lossless",
    "C55_HashCombine_all_lossless"
   ],
   "note": "HashCombine(seed, v) for every seed; HashCombine(v, args...) in its last argument, given a lossless std::hash<std::size_t>."
  },
  {
   "property": "C56",
   "status": "partial",
   "theorems": [
    "C56_expressions",
    "C56_test",
    "C56_equal",
    "C56_bool",
    "C56_to_int",
    "C56_complement_by_value_refuted"
   ],
   "note": "Proved for every expression over Set, Clear, Test and all operators, for numbered enumerators and for the bits of enumerators declared by value. Refuted for enumerators declared by value (1, 2, 4, ...): the complement contains bits that are no enumerator."
  },
  {
   "property": "C57",
   "status": "proved",
   "theorems": [
    "C57_iteration",
    "C57_iteration_by_value",
    "C57_count",
    "C57_elements",
    "C57_end"
   ],
   "note": "Numbered enumerators up to 64 values; enumerators declared by value up to bit 31 (C58 for the rest)."
  },
  {
   "property": "C58",
   "status": "partial",
   "theorems": [
    "C58_high_enumerator_refuted",
    "C58_sixty_four_refuted",
    "C58_iterate_by_value_refuted",
    "C58_low_enumerators_partial",
    "C58_sets_partial"
   ],
   "note": "Refuted: enumerators of value 32 or more, 64 enumerators, iteration over flags declared by value beyond bit 31. Proved: expressions naming enumerators below 32, and the set operations on bitfields, up to 63 enumerators."
  },
  {
   "property": "C59",
   "status": "partial",
   "theorems": [
    "C59_index_partial",
    "C59_sub_partial",
    "C59_associative_partial",
    "C59_inverse_partial",
    "C59_inverse_sub_partial",
    "C59_difference_partial",
    "C59_increment",
    "C59_decrement",
    "C59_construction",
    "C59_u32_index_refuted",
    "C59_int_index_refuted",
    "C59_size_t_index_refuted",
    "C59_size_t_index_flat_partial",
    "C59_stride_zero_refuted"
   ],
   "note": "Proved, in ISO and flat memory, whenever index * stride is representable in the promoted index type; ++ and -- without condition. Refuted: UInt32 indices with a negative or over-long product, int overflow for narrower indices, std::size_t indices over a negative stride in ISO C++, differences with stride 0."
  },
  {
   "property": "C60",
   "status": "proved",
   "theorems": [
    "C60_order",
    "C60_total",
    "C60_negative_stride_refuted"
   ],
   "note": "The stated property, for positive strides. For negative strides the order is reversed (C60_negative_stride_refuted)."
  },
  {
   "property": "C61",
   "status": "partial",
   "theorems": [
    "C61_one_side_partial",
    "C61_throwing_move_refuted",
    "C61_accessors",
    "C61_ok_err",
    "C61_value_or",
    "C61_convert",
    "C61_assignment",
    "C61_void"
   ],
   "note": "Accessors, conversions and GetValueOr are proved for all results. That exactly one of IsOk/IsErr holds is proved over every history when the payload moves do not throw (copies may); refuted otherwise: an assignment that throws while changing sides leaves neither."
  },
  {
   "property": "C62",
   "status": "proved",
   "theorems": [
    "C62_map",
    "C62_map_move",
    "C62_map_void",
    "C62_identity",
    "C62_composition",
    "C62_noexcept_refuted",
    "C62_throwing_error"
   ],
   "note": "Functors are state transformers that may fail. Result<V,E>, Result<void,E> and void functors. Map's noexcept ignores a throwing error copy (C62_noexcept_refuted)."
  },
  {
   "property": "C63",
   "status": "proved",
   "theorems": [
    "C63_try",
    "C63_first_error",
    "C63_sequence",
    "C63_void_sequence",
    "C63_void_try"
   ],
   "note": "Bodies mixing NAZARA_TRY and NAZARA_TRY_VALUE with arbitrary steps; all steps of one body share V and E."
  },
  {
   "property": "C64",
   "status": "partial",
   "theorems": [
    "C64_lvalue_partial",
    "C64_void_refuted",
    "C64_void_trivial_partial"
   ],
   "note": "Holds for Result<V,E>; refuted for Result<void,E>, which moves out of the variable."
  },
  {
   "property": "C65",
   "status": "proved",
   "theorems": [
    "C65_literal",
    "C65_literal_move",
    "C65_pointer",
    "C65_pointer_history",
    "C65_move_assign_source"
   ],
   "note": "Over every history of construction, default construction, move construction and move assignment. Move assignment swaps, so its source carries the former value of the target (C65_move_assign_source)."
  },
  {
   "property": "C66",
   "status": "partial",
   "theorems": [
    "C66_const_lvalue_partial",
    "C66_lvalue_refuted",
    "C66_construct"
   ],
   "note": "Holds for const lvalues; refuted for non-const variables of T or of MovableValue<T>, from which the assignment moves."
  },
  {
   "property": "C67",
   "status": "partial",
   "theorems": [
    "C67_exactly_once",
    "C67_empty",
    "C67_throwing_refuted",
    "C67_reentrant_refuted"
   ],
   "note": "Proved for every history when the functor does not throw and does not start by calling its own CallAndReset. Refuted otherwise: a functor that throws out of CallAndReset runs again at destruction; a re-entrant one never stops."
  },
  {
   "property": "C68",
   "status": "partial",
   "theorems": [
    "C68_engaged_source_refuted",
    "C68_dropped_target_refuted",
    "C68_moved_from_throws_refuted",
    "C68_reset_source_partial"
   ],
   "note": "Refuted: the source stays engaged, so both objects call, and the former functor of the target is dropped. Holds with an empty target and a source reset by hand. Needs an assignable functor type (std::function, function pointer), as the move assignment is deleted otherwise."
  },
  {
   "property": "C69",
   "status": "partial",
   "theorems": [
    "C69_step_partial",
    "C69_history_partial",
    "C69_no_leak_partial",
    "C69_empty_copy_refuted",
    "C69_self_assign_refuted",
    "C69_observers",
    "C69_emplace_full",
    "C69_throwing_assign_refuted",
    "C69_ended",
    "C69_buffer_step_partial",
    "C69_buffer_self_assign_refuted",
    "C69_buffer_throwing_assign_refuted",
    "C69_buffer_ended"
   ],
   "note": "Proved over every history in which copies come from non-empty handles, Emplace is on empty handles, a T that is not copy assignable is not self-assigned and its copy does not throw while replacing an object. Each condition is refuted otherwise (except Emplace, which asserts). For the buffered version: no self-assignment, no throwing assignment."
  },
  {
   "property": "C70",
   "status": "proved",
   "theorems": [
    "C70_count",
    "C70_subscript",
    "C70_outside",
    "C70_iteration",
    "C70_read",
    "C70_write",
    "C70_random_access"
   ],
   "note": "For every underlying type and number of enumerators 0..n-1 representable in it, every array and every loop body; random access and comparisons of the iterators too. operator+ and operator- of the iterator do not compile and are not modelled."
  },
  {
   "property": "C71",
   "status": "proved",
   "theorems": [
    "C71_find",
    "C71_has",
    "C71_remove",
    "C71_unique",
    "C71_at",
    "C71_build",
    "C71_apply",
    "C71_apply_rvalue"
   ],
   "note": "Types are elements of any type with decidable equality. For lists shorter than 2^64-1. An rvalue argument of TypeListApply reaches the second functor already moved from (C71_apply_rvalue)."
  },
  {
   "property": "C72",
   "status": "partial",
   "theorems": [
    "C72_gcc_partial",
    "C72_clang_partial",
    "C72_long_refuted",
    "C72_msvc_partial",
    "C72_long_others_refuted",
    "C72_cut_refuted",
    "C72_strip",
    "C72_not_found"
   ],
   "note": "Exact: with gcc's signature text the name is right iff it has at most 48 characters, with clang's iff at most 33; with MSVC's up to 57. Longer names are cut at the last ; or ] (MSVC: >) near enough (C72_cut_refuted), or else come with the end of the signature (C72_long_refuted, C72_long_others_refuted)."
  },
  {
   "property": "C73",
   "status": "partial",
   "theorems": [
    "C73_prvalue_partial",
    "C73_representable",
    "C73_enum_source",
    "C73_signed_narrowing_refuted",
    "C73_lvalue_refuted",
    "C73_enum_target_refuted",
    "C73_safecaster_refuted",
    "C73_integer_to_pointer_refuted",
    "C73_bool_refuted",
    "C73_bool_source",
    "C73_pointer_to_integer"
   ],
   "note": "Exact for prvalues of every pair of integer types except from a signed type to a narrower unsigned type, which checks nothing but the sign (refuted). Refuted too for variables (From is deduced as a reference, so no check is compiled), enum destinations, SafeCaster, IntegerToPointer and bool destinations."
  },
  {
   "property": "C74",
   "status": "proved",
   "theorems": [
    "C74_forwards",
    "C74_once",
    "C74_bool",
    "C74_lifetime",
    "C74_null"
   ],
   "note": "Programs over any number of callables and FunctionRefs; calls through null or dangling FunctionRefs are undefined (C74_null)."
  },
  {
   "property": "C75",
   "status": "proved",
   "theorems": [
    "C75_capacity"
   ],
   "note": ""
  },
  {
   "property": "C76",
   "status": "partial",
   "theorems": [
    "C76_array_lifetime",
    "C76_array_write",
    "C76_front_refuted",
    "C76_noinit"
   ],
   "note": "front() of an empty array is not checked (C76_front_refuted)."
  },
  {
   "property": "C77",
   "status": "proved",
   "theorems": [
    "C77_CRC32_detects_a_changed_byte",
    "C77_FNV1a_changes_with_a_byte"
   ],
   "note": ""
  },
  {
   "property": "C78",
   "status": "partial",
   "theorems": [
    "C78_convert_partial",
    "C78_convert_refuted"
   ],
   "note": "Holds for a base class at offset 0 only; refuted for every other offset."
  },
  {
   "property": "C79",
   "status": "partial",
   "theorems": [
    "C79_prvalue_partial",
    "C79_sound",
    "C79_rounding_refuted",
    "C79_large_refuted",
    "C79_lvalue_refuted",
    "C79_unchecked",
    "C79_not_finite_refuted"
   ],
   "note": "Exact for prvalues whose truncation fits long long, except at the first value above the limit when the limit is not representable in the float type; every value returned is right. Refuted at that value (2^31 as a float to Int32), for UInt64 from 2^63 on and for variables."
  },
  {
   "property": "C80",
   "status": "partial",
   "theorems": [
    "C80_downcast_refuted",
    "C80_right_partial",
    "C80_classes"
   ],
   "note": "Refuted: std::is_base_of is asked about pointer and reference types, so the check is never compiled in; a wrong downcast is undefined behaviour. Right downcasts succeed."
  },
  {
   "property": "C81",
   "status": "proved",
   "theorems": [
    "C81_removal_never_throws",
    "C81_erase_keeps_the_vector_sound",
    "C81_erase_range_keeps_the_vector_sound",
    "C81_bounds"
   ],
   "note": "For both vectors and throwing or non-throwing moves. After an exception the elements may be moved-from."
  },
  {
   "property": "C82",
   "status": "partial",
   "theorems": [
    "C82_push_back_throws_refuted",
    "C82_push_back_returns",
    "C82_emplace_exactly",
    "C82_emplace_throws_refuted"
   ],
   "note": "Refuted: m_size is incremented before the construction, so after the exception the destructor destroys an object that does not exist (undefined behaviour); with throwing moves emplace can also leak one object. C82_emplace_exactly says which happens when."
  },
  {
   "property": "C83",
   "status": "partial",
   "theorems": [
    "C83_resize_grow_exactly",
    "C83_after_failed_resize_refuted",
    "C83_range_constructor_exactly",
    "C83_copy_constructor_exactly",
    "C83_fill_constructor_exactly"
   ],
   "note": "Refuted with exact counts: a growing resize, the copy and the fill constructor leak every element constructed before the exception; the range and initializer_list constructors have undefined behaviour. All succeed when nothing throws."
  },
  {
   "property": "C84",
   "status": "partial",
   "theorems": [
    "C84_spill_keeps_the_vector_sound",
    "C84_push_on_full_is_strong",
    "C84_throwing_move_refuted"
   ],
   "note": "Strong guarantee proved for elements whose move does not throw, when the vector is full or already uses its fallback (with room left in the inline storage C82 applies). Refuted for throwing moves: undefined behaviour in the destructor."
  },
  {
   "property": "C85",
   "status": "partial",
   "theorems": [
    "C85_constructor_throws_refuted",
    "C85_repair",
    "C85_failed_block_refuted",
    "C85_failed_block_destroys"
   ],
   "note": "Refuted: after a throwing constructor the entry counts as allocated, and Free, Clear, Reset and the destructor have undefined behaviour; Free(index, NoDestruction) repairs it. A bad_alloc inside AllocateBlock leaves a block that makes the next Allocate fail, though destruction still works."
  },
  {
   "property": "C86",
   "status": "partial",
   "theorems": [
    "C86_throwing_callbacks",
    "C86_emission_after_exceptions",
    "C86_nested_exception",
    "C86_no_exceptions",
    "C86_swallowed_exception_refuted"
   ],
   "note": "The worlds of C47-C52 are those reached with exceptions too, so all of them hold after any number of exceptions. Refuted for a callback that emits its own signal again and swallows the exception: the outer emission goes on after the slot that threw."
  },
  {
   "property": "C87",
   "status": "proved",
   "theorems": [
    "C87_constexpr_agrees",
    "C87_one_class",
    "C87_finite_value"
   ],
   "note": "Without -ffast-math."
  },
  {
   "property": "C88",
   "status": "partial",
   "theorems": [
    "C88_paths_agree",
    "C88_symmetric",
    "C88_complete",
    "C88_sound",
    "C88_exact_partial",
    "C88_reflexive",
    "C88_infinity_refuted",
    "C88_exact_refuted",
    "C88_rounded"
   ],
   "note": "Exactly: the difference rounded to nearest is compared (C88_rounded). Symmetry, agreement of the two paths, reflexivity for finite numbers and completeness (difference at most d implies true) for every format; conversely true implies a difference below any number greater than d. Refuted: the rounded difference can be d when the exact one is more; an infinity does not equal itself."
  },
  {
   "property": "C89",
   "status": "partial",
   "theorems": [
    "C89_clamp",
    "C89_clamp_in_range",
    "C89_clamp_twice",
    "C89_clamp_reversed",
    "C89_clamp_nan_refuted",
    "C89_clamp_nan_limits"
   ],
   "note": "Exact for all values that are not NaN, infinities included, and for reversed limits. Refuted for NaN, which is returned as it is; NaN limits are ignored."
  },
  {
   "property": "C90",
   "status": "partial",
   "theorems": [
    "C90_approach_up",
    "C90_approach_down",
    "C90_approach_there",
    "C90_no_progress_refuted",
    "C90_infinite_refuted",
    "C90_monotone"
   ],
   "note": "Between value and objective, exactly the objective when the increment covers the distance, and monotone in the value, for every finite value, every objective and every non-negative increment. Refuted: repeated application may stall (2^24 by steps of 1 in float); from minus infinity by infinite steps gives NaN."
  },
  {
   "property": "C91",
   "status": "partial",
   "theorems": [
    "C91_lerp_zero_partial",
    "C91_lerp_same",
    "C91_lerp_one_partial",
    "C91_lerp_one_refuted",
    "C91_lerp_beyond_refuted",
    "C91_lerp_zero_refuted",
    "C91_monotone",
    "C91_between"
   ],
   "note": "Monotone in the factor, never before the start for factors from 0 on nor beyond what factor 1 gives for factors up to 1, when the difference does not overflow; factor 0, factor 1 when the difference is representable, equal ends for every finite factor. Refuted otherwise: factor 1 can miss the end and pass it, factor 0 gives NaN when b - a overflows."
  },
  {
   "property": "C92",
   "status": "partial",
   "theorems": [
    "C92_odd",
    "C92_half_turn",
    "C92_turns",
    "C92_round_trip_refuted",
    "C92_monotone",
    "C92_degrees_accuracy",
    "C92_radians_accuracy",
    "C92_round_trip_accuracy"
   ],
   "note": "Odd and monotone for every format and every value, accurate up to two roundings and a round trip up to four (normal results); half, quarter and whole turns exact in float, half turns in double. Refuted: one degree does not survive a round trip in float, nor three in double."
  },
  {
   "property": "C93",
   "status": "partial",
   "theorems": [
    "C93_zero",
    "C93_paths_refuted",
    "C93_infinite_divisor_refuted",
    "C93_large_quotient_refuted",
    "C93_fmod_exact",
    "C93_integers",
    "C93_smaller"
   ],
   "note": "At run time the remainder is exact. The paths agree for integers below 2^prec and 2^63, for a dividend smaller than the divisor and for a zero dividend, in every format. Refuted: 1 mod 0.1f is 0 in a constant expression; an infinite divisor gives NaN; a quotient of 2^63 or more is undefined."
  },
  {
   "property": "C94",
   "status": "partial",
   "theorems": [
    "C94_round_trip",
    "C94_elements",
    "C94_pointers",
    "C94_standards",
    "C94_copy_refuted"
   ],
   "note": "Bytes, lengths and addresses kept and round trips proved for strings, views and pointers; pointers without a zero are undefined behaviour. Refuted for FromUtf8String(const char8_t*) in C++20: it returns a view of the caller's buffer, while the C++17 overload returns a string."
  },
  {
   "property": "C95",
   "status": "proved",
   "theorems": [
    "C95_lookup",
    "C95_overloads",
    "C95_embedded_zero"
   ],
   "note": "Through a pointer, a text is the part before its first zero (C95_embedded_zero)."
  },
  {
   "property": "C96",
   "status": "proved",
   "theorems": [
    "C96_retrieve",
    "C96_assign"
   ],
   "note": "Undefined behaviour for a missing key when assertions are disabled."
  },
  {
   "property": "C97",
   "status": "proved",
   "theorems": [
    "C97_posix",
    "C97_windows",
    "C97_every_text"
   ],
   "note": "Windows conversions modelled as UTF-8 to UTF-16 and back, invalid input throwing."
  },
  {
   "property": "C98",
   "status": "proved",
   "theorems": [
    "C98_round_trip",
    "C98_defined",
    "C98_integers",
    "C98_bytes",
    "C98_memcpy"
   ],
   "note": "Except for bool as a destination, which is undefined for bytes other than 0 and 1 (stated in C98_defined)."
  },
  {
   "property": "C99",
   "status": "proved",
   "theorems": [
    "C99_access",
    "C99_disjoint"
   ],
   "note": "NazaraOffsetOf is taken as the offset the compiler gives it; formally the macro dereferences a null pointer."
  },
  {
   "property": "C100",
   "status": "partial",
   "theorems": [
    "C100_exactly",
    "C100_callables",
    "C100_wrappers",
    "C100_arguments",
    "C100_noexcept_refuted"
   ],
   "note": "Proved exactly, for every type C++ can form. Refuted for noexcept function types and references to them, although pointers to them work, for variadic functions and for volatile pointers."
  },
  {
   "property": "C101",
   "status": "partial",
   "theorems": [
    "C101_exactly",
    "C101_classes",
    "C101_functor_refuted"
   ],
   "note": "Never ambiguous, and exact for classes. Refuted for function pointers and references (false although FunctionTraits works), and for variadic and noexcept functions (true although it does not); false for generic lambdas."
  },
  {
   "property": "C102",
   "status": "partial",
   "theorems": [
    "C102_overload",
    "C102_const_refuted"
   ],
   "note": "Proved exactly: selected iff the only function with these parameters, volatile and variadic ones not counted, and no template in the set. Refuted for member functions overloaded on const, which the parameters alone cannot tell apart, and for volatile ones."
  },
  {
   "property": "C103",
   "status": "partial",
   "theorems": [
    "C103_enum_count",
    "C103_enum_both_refuted",
    "C103_remove_cvref",
    "C103_pointers",
    "C103_packs",
    "C103_complete"
   ],
   "note": "Refuted only for enumerations that have both Count and Max: the two partial specialisations are ambiguous."
  },
  {
   "property": "C104",
   "status": "partial",
   "theorems": [
    "C104_float",
    "C104_double",
    "C104_multiples",
    "C104_long_double_refuted",
    "C104_limits",
    "C104_min_refuted",
    "C104_integers"
   ],
   "note": "Nearest in float and double, pi being the limit of Machin's series. Refuted for long double, as the literals are doubles, and for MinValue of floating point types, which is the smallest positive normal number."
  },
  {
   "property": "C105",
   "status": "partial",
   "theorems": [
    "C105_expansion",
    "C105_no_effect",
    "C105_else_refuted",
    "C105_braces",
    "C105_enabled"
   ],
   "note": "Refuted when followed by else without braces: the macro ends in an if, which takes the else. Proved for every program in which no assertion stands directly before an else, and for conditions without side effects."
  },
  {
   "property": "C106",
   "status": "partial",
   "theorems": [
    "C106_integer_exact",
    "C106_integer_modular",
    "C106_integer_refuted",
    "C106_fast_rounds_once",
    "C106_agree_partial",
    "C106_integers",
    "C106_monotone",
    "C106_same_sign",
    "C106_special",
    "C106_agree_refuted",
    "C106_overflow_refuted"
   ],
   "note": "The fast version rounds the exact value once; the other gives the same when the product is representable (all integers of at most prec bits), and both are monotone. Refuted otherwise: the product is rounded first, so the result can be 0 instead of 2^-46, infinite instead of finite, NaN instead of infinite. Integers: exact when product and sum are representable, modular for UInt8, UInt32, UInt64; UInt16 operands and overflowing products are undefined."
  },
  {
   "property": "C107",
   "status": "partial",
   "theorems": [
    "C107_memory_partial",
    "C107_defined",
    "C107_stack_overflow_refuted",
    "C107_disjoint",
    "C107_constructor",
    "C107_evaluations",
    "C107_overflow_refuted",
    "C107_side_effect_refuted",
    "C107_side_effect_order",
    "C107_overaligned_refuted"
   ],
   "note": "Proved for sizes without side effects whose bytes fit in std::size_t and alignments that divide 16. Refuted otherwise: the size is evaluated two or three times, so i++ constructs elements outside the memory, depending on the order of evaluation; the product wraps; alloca aligns to 16 only."
  },
  {
   "property": "C108",
   "status": "partial",
   "theorems": [
    "C108_finally",
    "C108_compiles",
    "C108_names",
    "C108_reverse_order",
    "C108_lines",
    "C108_same_line_refuted",
    "C108_if_refuted",
    "C108_throwing_refuted"
   ],
   "note": "try/finally for every block whose deferred code does not throw. Refuted: two on one line, or in one macro, do not compile; as the substatement of an if it runs at once; deferred code that throws ends the program."
  },
  {
   "property": "C109",
   "status": "partial",
   "theorems": [
    "C109_message",
    "C109_condition",
    "C109_arguments",
    "C109_without_source",
    "C109_stops",
    "C109_silent",
    "C109_percent_refuted",
    "C109_line_refuted"
   ],
   "note": "Text and end of the program proved for all messages without arguments and for messages with arguments that are valid formats. Refuted: with arguments a stray % is undefined behaviour; a line number from 2^31 on is undefined behaviour (unsigned printed with %d)."
  },
  {
   "property": "C110",
   "status": "partial",
   "theorems": [
    "C110_one_compiler",
    "C110_versions_partial",
    "C110_versions_refuted",
    "C110_clang",
    "C110_icc_refuted",
    "C110_compiler",
    "C110_other_versions",
    "C110_language",
    "C110_platform",
    "C110_platform_found",
    "C110_architecture",
    "C110_architecture_found",
    "C110_architecture_macros",
    "C110_arm64ec_refuted",
    "C110_user_order",
    "C110_byte_order_partial",
    "C110_byte_order_exactly",
    "C110_byte_order_refuted",
    "C110_desktop_refuted",
    "C110_mips_name"
   ],
   "note": "One compiler, one platform, the only architecture defined, the user's byte order or that of __BYTE_ORDER__. Refuted: icc on Linux is taken for gcc, ARM64EC is an error, PowerPC with little endian order is taken for big endian, versions with minor 100 or more, FreeBSD is neither desktop nor mobile."
  },
  {
   "property": "C111",
   "status": "proved",
   "theorems": [
    "C111_vector_read",
    "C111_vector_write",
    "C111_stack_vector_read",
    "C111_stack_vector_write",
    "C111_array",
    "C111_null"
   ],
   "note": "Loops that compare with != and dereference as std::reverse_iterator does, after any accepted history (StackArray: any contents). capacity and max_size are not modelled."
  },
  {
   "property": "C112",
   "status": "partial",
   "theorems": [
    "C112_history",
    "C112_pairs",
    "C112_less",
    "C112_hybrid",
    "C112_capacity",
    "C112_capacity_enough",
    "C112_copy",
    "C112_self_assign_refuted"
   ],
   "note": "Every history without self-assignment, element accesses of the containers with their assertions. Refuted for self-assignment of a FixedBitset (or of a HybridBitset with inline blocks): the blocks are lost and the size stays."
  },
  {
   "property": "C113",
   "status": "partial",
   "theorems": [
    "C113_arrays",
    "C113_arrays_moved",
    "C113_bytes",
    "C113_numbers",
    "C113_texts",
    "C113_const_array_partial",
    "C113_buffer_refuted",
    "C113_literal_and_buffer_refuted",
    "C113_hash_combine",
    "C113_hash_combine_others"
   ],
   "note": "Pointers, strings, views and const arrays proved. Refuted for arrays that are not const: the template is selected, which hashes the terminator and all that follows. HashCombine(x, y) with a std::size_t variable x changes x and returns nothing."
  },
  {
   "property": "C114",
   "status": "partial",
   "theorems": [
    "C114_set_refuted",
    "C114_set_others",
    "C114_reset",
    "C114_bitset_value",
    "C114_bitset_size_partial",
    "C114_bitset_zero_refuted",
    "C114_sparse_refuted",
    "C114_sparse_null",
    "C114_sparse_const",
    "C114_vector_refuted",
    "C114_vector_range"
   ],
   "note": "Proved for Reset, Bitset(value) and Bitset(size, value). Refuted: Bitset::Set(5) is ambiguous for every type but bool and std::size_t, Bitset(0, n) reads characters from a null pointer, SparsePtr(p, 4u) is ambiguous, FixedVector<int, 8>(3, 7) does not compile."
  },
  {
   "property": "C115",
   "status": "partial",
   "theorems": [
    "C115_bitset",
    "C115_bitset_buffer_refuted",
    "C115_bitset_assignment",
    "C115_bitset_assigned",
    "C115_bitset_number",
    "C115_private_impl",
    "C115_private_impl_derived_refuted",
    "C115_connect",
    "C115_movable",
    "C115_sparse_difference",
    "C115_sparse_difference_refuted",
    "C115_count_of"
   ],
   "note": "Proved for the overload sets as declared. Refuted: Bitset of a char buffer or char* selects the template for integers and does not compile, PrivateImpl of a pointer to a derived class constructs an object from it, SparsePtr<const T> minus SparsePtr<T> does not compile, CountOf of a string literal has no definition."
  },
  {
   "property": "C116",
   "status": "proved",
   "theorems": [
    "C116_guards",
    "C116_no_guard_no_slot",
    "C116_copy",
    "C116_reconnect"
   ],
   "note": "Histories of guards created empty and connected through the guard (guards made from connections that are still held elsewhere are C50), fewer than 2^64 - 5 operations; undefined exactly when a destroyed guard or a signal that does not exist is used."
  },
  {
   "property": "C117",
   "status": "partial",
   "theorems": [
    "C117_values",
    "C117_references",
    "C117_each_parameter",
    "C117_emission",
    "C117_moves_refuted"
   ],
   "note": "Proved for parameters passed by value, const reference and reference. Refuted for move-only types and rvalue references: the callbacks are called with lvalues, so such signals cannot be emitted."
  },
  {
   "property": "C118",
   "status": "partial",
   "theorems": [
    "C118_nested_partial",
    "C118_kept_slots",
    "C118_nested_refuted",
    "C118_captures_partial",
    "C118_captures_refuted"
   ],
   "note": "Proved, for all behaviours of all callbacks and nested emissions at every depth: captures can be used exactly as long as the slot is still connected to the signal that called it, so callbacks that nobody disconnects, of signals nobody clears, can always use them. Refuted otherwise: disconnecting itself or clearing its signal destroys the running callback, and any later use of its captures is undefined; ending the own slot last is enough without nested emission, and not enough with it."
  },
  {
   "property": "C119",
   "status": "partial",
   "theorems": [
    "C119_count_x86_partial",
    "C119_count_x86_refuted",
    "C119_count_arm_partial",
    "C119_count_arm_refuted",
    "C119_first_partial",
    "C119_first_refuted",
    "C119_last_partial",
    "C119_last_refuted"
   ],
   "note": "Proved apart from these: on x86 and x64 CountBits counts 8 more bits for a negative Int8 and does not compile for long; on ARM it is undefined for negative values of int and wider. FindLastBit gives 32 for negative Int8 and Int16. In debug on 32-bit machines FindFirstBit asserts for negative Int64 values with a zero lower half, FindLastBit for all negative Int64 values."
  },
  {
   "property": "C120",
   "status": "partial",
   "theorems": [
    "C120_declared",
    "C120_expressions_partial",
    "C120_required",
    "C120_auto_flag_refuted",
    "C120_by_value_refuted",
    "C120_empty"
   ],
   "note": "Proved for numbered enumerators; which declarations are required is proved exactly. Refuted: EnumAsFlags<E>::AutoFlag is ignored and an enumerator AutoFlag does not compile; for enumerators declared by value the maximum counts bits, and from a maximum of 64 on the complement does not compile."
  },
  {
   "property": "C121",
   "status": "partial",
   "theorems": [
    "C121_likely",
    "C121_likely_else",
    "C121_assume_partial",
    "C121_assume_refuted",
    "C121_unreachable",
    "C121_unreachable_else_partial",
    "C121_unreachable_else_refuted",
    "C121_consteval",
    "C121_runtime",
    "C121_consteval_alone",
    "C121_runtime_alone",
    "C121_provided",
    "C121_constexpr20",
    "C121_attributes",
    "C121_braces_refuted",
    "C121_constant_refuted",
    "C121_unused_partial",
    "C121_unused_refuted"
   ],
   "note": "Proved for NAZARA_LIKELY and NAZARA_UNLIKELY, for NAZARA_UNREACHABLE inside braces and for the two evaluation macros before blocks. Refuted: the GCC form of NAZARA_ASSUME has one pair of parentheses too few (reached by compilers with __GNUC__ of 13 or more without the standard attribute); the fallback of NAZARA_UNREACHABLE cannot stand before else; from C++23 on the evaluation macros need braces; without compiler support constexpr functions take the run-time path; NazaraUnused of an expression with an operator does not compile."
  },
  {
   "property": "C122",
   "status": "partial",
   "theorems": [
    "C122_resize",
    "C122_resize_needs_memory",
    "C122_unbounded_set",
    "C122_logic",
    "C122_not",
    "C122_append_uninterrupted",
    "C122_append_refuted",
    "C122_write_uninterrupted",
    "C122_write_refuted",
    "C122_recover"
   ],
   "note": "Proved for Resize, UnboundedSet and the logical operators. Refuted for AppendBits and Write: the size is changed before the blocks exist, so reading the last bits is out of range after the exception; the old bits are kept and Resize to the former size restores the bitset."
  },
  {
   "property": "C123",
   "status": "partial",
   "theorems": [
    "C123_history",
    "C123_queries",
    "C123_specified",
    "C123_set_refuted",
    "C123_test",
    "C123_find_next",
    "C123_blocks_refuted",
    "C123_to"
   ],
   "note": "Histories whose assertions hold give the same results in both modes (proved). Violations: Set outside the size writes the unused bits of the last block, so that counting, searching and comparing see them (refuted), and is undefined past the blocks; FindNext from the end starts again at the first bit; GetBlock, SetBlock, Test and operator< outside are undefined or read unused bits; To of a too narrow type truncates or is undefined."
  },
  {
   "property": "C124",
   "status": "partial",
   "theorems": [
    "C124_history",
    "C124_members",
    "C124_constructors",
    "C124_specified",
    "C124_violations_refuted",
    "C124_reads"
   ],
   "note": "Histories whose assertions hold give the same results in both modes (proved). Violations are undefined, with three exceptions (proved exactly): Reserve beyond the capacity and erasing an empty range anywhere do nothing, and inserting beyond the end of a vector with room succeeds and leaves a hole, over which reading and the destructor are undefined (refuted)."
  },
  {
   "property": "C125",
   "status": "partial",
   "theorems": [
    "C125_history",
    "C125_members",
    "C125_specified",
    "C125_violations_refuted",
    "C125_null",
    "C125_array"
   ],
   "note": "Histories whose assertions hold give the same results in both modes (proved). Violations are undefined, except that erasing an empty range anywhere does nothing and that inserting beyond the end of a vector with room leaves a hole, over which reading and the destructor are undefined (refuted)."
  },
  {
   "property": "C126",
   "status": "partial",
   "theorems": [
    "C126_numbers",
    "C126_bits_refuted",
    "C126_zero_refuted",
    "C126_not_a_power_refuted",
    "C126_iterator",
    "C126_iterator_end_refuted",
    "C126_stride",
    "C126_emplace_refuted",
    "C126_pimpl"
   ],
   "note": "Calls whose assertions hold give the same results in both modes (proved). Violations with a silent result: a bit index between the width of a narrow type and 31 (nothing changes, TestBit of a negative number is true), IsPow2 of 0 is true, AlignPow2 to 0 gives 0, AlignPow2 of 1 to any number that is not a power of two is not a multiple of it, the stride of a SparsePtr wraps, PrivateImpl::Emplace over an object leaks it (all refuted, proved in general)."
  },
  {
   "property": "C127",
   "status": "partial",
   "theorems": [
    "C127_history",
    "C127_members",
    "C127_specified",
    "C127_unallocated_refuted",
    "C127_over_aligned_refuted",
    "C127_reset_refuted"
   ],
   "note": "Every history within the contract has the specified effect, blocks of one entry included (with assertions Clear fails for those), and histories that end do so in the same way in both modes (proved). Refuted: RetrieveFromIndex gives the address of a free entry; RetrieveEntryIndex gives the index of another entry when entries are wider than sizeof(T); after Reset an allocation is undefined. Freeing what is not held is undefined (proved). The counter of a block that wraps below zero is not modelled."
  },
  {
   "property": "C128",
   "status": "partial",
   "theorems": [
    "C128_widening_partial",
    "C128_narrowing_partial",
    "C128_exact",
    "C128_rounding_refuted",
    "C128_unchecked_refuted",
    "C128_integers",
    "C128_integers_refuted"
   ],
   "note": "Widening keeps every finite value, narrowing accepts exactly the values up to the largest number and keeps those the target has (proved for all formats). Refuted: infinities and NaN are refused although the target has them, narrowing rounds silently, lvalues and release builds turn large values into infinity, integers are never checked and round."
  },
  {
   "property": "C129",
   "status": "partial",
   "theorems": [
    "C129_simple_partial",
    "C129_lvalue_partial",
    "C129_rvalue_partial",
    "C129_const_refuted",
    "C129_void_refuted",
    "C129_ref_qualified_refuted",
    "C129_temporary_refuted",
    "C129_parameter"
   ],
   "note": "Callables that are not const with one function call operator, functions and function pointers are taken exactly when the result serves, and calls reach them; so are all operator sets through variables, and through temporaries without ref-qualifiers; a temporary argument lives through the call it is passed to (proved). Refuted: const callables and callables with a result for a signature returning void are accepted but do not compile; ref-qualified operators are checked as rvalues and called as lvalues; a FunctionRef variable made from a temporary, &function included, dangles after its declaration and still tests true."
  },
  {
   "property": "C130",
   "status": "proved",
   "theorems": [
    "C130_burst",
    "C130_burst_33",
    "C130_two_bits"
   ],
   "note": "For both overloads that take sized data. The order of x modulo the CRC polynomial is shown to be 2^32 - 1 from the factorisation 3\u00b75\u00b717\u00b7257\u00b765537."
  },
  {
   "property": "C131",
   "status": "proved",
   "theorems": [
    "C131_concatenation",
    "C131_affine",
    "C131_residue",
    "C131_forge",
    "C131_leading_zeros"
   ],
   "note": "The number of leading zeros uses the discrete logarithm of the initial register, checked by matrix powers."
  },
  {
   "property": "C132",
   "status": "partial",
   "theorems": [
    "C132_suffix",
    "C132_leading_zeros",
    "C132_trailing_zeros_refuted",
    "C132_prefix_refuted",
    "C132_seed_refuted",
    "C132_first_refuted",
    "C132_zeros_refuted",
    "C132_32_bits_refuted"
   ],
   "note": "Common suffixes and leading zero bytes proved exactly, for both widths. Refuted: a common prefix separates equal hashes; messages that hash to 0 do so with any number of zero bytes appended; for every hash there are two seeds that HashCombine does not distinguish (so the first of several values can be lost), any number of zeros combines to 0 where std::hash is the identity, and with a 32-bit std::size_t values are lost (with 64 bits they are not, C55)."
  },
  {
   "property": "C133",
   "status": "partial",
   "theorems": [
    "C133_destroy_is_clear_partial",
    "C133_fair_partial",
    "C133_destroy_emitted_refuted",
    "C133_destroy_emitted_UB_refuted",
    "C133_move_emitted_refuted"
   ],
   "note": "Proved when the emission ends, which requires that the signal emitted is still there: destroying is clearing, the emission is fair (C49), and programs may go on (the worlds of C47-C52 include those reached this way). Refuted: a callback that destroys the signal being emitted leads to undefined behavior for every behavior besides and every number of slots; a callback that moves it into another signal prevents the slots that follow from being called though they stay connected."
  },
  {
   "property": "C134",
   "status": "partial",
   "theorems": [
    "C134_visits_partial",
    "C134_ends_partial",
    "C134_free_all",
    "C134_allocating_refuted",
    "C134_clear_refuted"
   ],
   "note": "Proved for every body that respects the contract of the pool when the loop ends; bodies that do not allocate make it end after at most as many visits as there are entries; freeing each visited entry empties the pool. Refuted: a body that allocates one entry per visit on a pool without holes before its last entry never ends, a body that clears the pool makes the increment fail an assertion."
  },
  {
   "property": "C135",
   "status": "partial",
   "theorems": [
    "C135_visits_partial",
    "C135_ends_partial",
    "C135_reset_all",
    "C135_growing_refuted",
    "C135_clear_refuted"
   ],
   "note": "The loop is proved equal to one that goes to the least set bit after the current position, as the bits are by then, faults included. It ends if the body does not make the bitset longer; resetting each visited bit visits all and leaves none. Refuted: setting the bit after each visited one with UnboundedSet never ends, Clear in the body makes the increment fail an assertion."
  },
  {
   "property": "C136",
   "status": "partial",
   "theorems": [
    "C136_requirements_partial",
    "C136_pool_refuted",
    "C136_sparse_refuted",
    "C136_enum_refuted",
    "C136_traits",
    "C136_traits_refuted",
    "C136_member_types",
    "C136_const",
    "C136_temporary",
    "C136_sparse_compiles",
    "C136_enum_compiles",
    "C136_sparse",
    "C136_enum_partial",
    "C136_enum_assign_refuted"
   ],
   "note": "Proved: the operators of the Bitset, Flags and MemoryPool iterators (entries that are not classes) suffice; expressions over SparsePtr compile as over pointers except n + p and compute the same; those over EnumArrayKvIterator do if the result of += or -= is not changed. Refuted: the lists of what is missing from EnumArrayKvIterator (nine items; (r += x) += y advances by x), SparsePtr (reference is const T&, n + p) and MemoryPoolIterator (->); no iterator_traits for the Bitset iterator and, before C++20, for those of Flags and EnumArray."
  },
  {
   "property": "C137",
   "status": "partial",
   "theorems": [
    "C137_nested",
    "C137_misuse",
    "C137_plain",
    "C137_tree",
    "C137_clear_partial",
    "C137_clear_refuted",
    "C137_clear_allocating_refuted"
   ],
   "note": "Proved: nested Allocate and Free act on the pool as on a row of slots (C137_nested), what is freed twice or while under construction or destruction faults (C137_misuse), trees of any shape are freed as a whole (C137_tree), and Clear and the destructor work if every object belongs to one tree and owners come before what they own (C137_clear_partial). Refuted: an owner after what it owns makes Clear destroy an object twice or assert (C137_clear_refuted); destructors that allocate during Clear leak or leave the loop with a dangling reference (C137_clear_allocating_refuted)."
  },
  {
   "property": "C138",
   "status": "partial",
   "theorems": [
    "C138_copy",
    "C138_ok_err",
    "C138_void",
    "C138_direct_partial",
    "C138_direct_class",
    "C138_nested_refuted",
    "C138_conversion",
    "C138_convertible_refuted",
    "C138_error_tag_partial",
    "C138_error_tag_refuted",
    "C138_wrapper_refuted",
    "C138_void_error_moves"
   ],
   "note": "Proved for all types: copies and moves, Ok and Err, conversions between Results, objects of the value type except as follows. Refuted: an rvalue or const lvalue of type Result<V, E> given to Result<Result<V, E>, E> is converted, so an inner error becomes the outer one, while an lvalue is stored (C138_nested_refuted); converting constructors default construct a value first, and do not compile without default constructor although std::is_convertible accepts them, as it accepts Ok of anything (C138_convertible_refuted); Result<void, E>(ErrorTag) without arguments is a value and with two or more does not compile (C138_error_tag_refuted)."
  },
  {
   "property": "C139",
   "status": "partial",
   "theorems": [
    "C139_declaring_partial",
    "C139_own",
    "C139_inherited_partial",
    "C139_inherited_refuted",
    "C139_types_refuted",
    "C139_constant_refuted",
    "C139_designator_refuted",
    "C139_abstract_refuted",
    "C139_access",
    "C139_const",
    "C139_member"
   ],
   "note": "Proved exactly: it compiles for unambiguous data members that are not arrays and have no qualifiers unless of class type, and gives the offset in the class that declares them; so the right one for own members and for bases at the start. Refuted: &T::m has the type of a pointer to member of the base, so members of a second base, or of a base behind the pointer to virtual functions, get the offset of another member; arrays, const scalars, nested members and, in C++17, members of abstract classes do not compile; it is never a constant expression. AccessByOffset: proved."
  },
  {
   "property": "C140",
   "status": "partial",
   "theorems": [
    "C140_nested_partial",
    "C140_grows",
    "C140_owns",
    "C140_clear",
    "C140_clear_endless_refuted",
    "C140_pop_adding_refuted",
    "C140_clear_reading_refuted",
    "C140_resize_adding_refuted",
    "C140_resize_removing_refuted",
    "C140_plain"
   ],
   "note": "Proved: every nesting without resize does what a specification on the elements alone says, with the same faults; constructors that add (trees, in preorder), destructors that pop what they own, and clear with destructors that add, all destroyed once if they fit. Refuted: a destructor run by pop_back that adds constructs in its own place; one run by clear that reads the vector, or clears it, meets elements already destroyed; a constructor run by resize that adds constructs in its own place, and one that pops leaves a hole below the size."
  },
  {
   "property": "C141",
   "status": "partial",
   "theorems": [
    "C141_ends",
    "C141_trivial",
    "C141_literal",
    "C141_newer",
    "C141_wrappers",
    "C141_dynamic_bitset",
    "C141_fixed_refuted",
    "C141_fixed_reason",
    "C141_fixed_inside_refuted",
    "C141_number_equals",
    "C141_number_equals_refuted",
    "C141_bitset_text",
    "C141_never_refuted",
    "C141_index_const",
    "C141_movable",
    "C141_result_conversion",
    "C141_endianness",
    "C141_multiply_add",
    "C141_placement_destroy",
    "C141_flags",
    "C141_flags_calls"
   ],
   "note": "Proved: literal types by their subobjects; each class literal exactly when what it holds permits, from C++17 or C++20; for each modelled call, exactly when it is constant. Refuted: FixedVector and the bitsets on it are never literal, bitsets from C strings, Write, the reference to a bit, PlacementNew and ByteSwap of long double are never constant, NumberEquals in C++17 only if its first argument is not the smaller, converting a Result and moving a MovableLiteral only from C++20, loops over Flags only if empty. Rules are those of the standards; compilers accept some more. Each function is modelled by the steps that matter to constant evaluation."
  },
  {
   "property": "C142",
   "status": "partial",
   "theorems": [
    "C142_earlier_partial",
    "C142_reset_own_refuted",
    "C142_emplace_own_in_destructor_refuted",
    "C142_emplace_own_refuted",
    "C142_later_refuted",
    "C142_afterwards",
    "C142_access"
   ],
   "note": "Proved: if objects use only handles declared before their own, and merely access their own, then every program ends, nothing undefined happens, each handle holds exactly its living object, and after the scope ends all objects created are destroyed; only the assertion of Emplace can fail. Refuted: a destructor that resets its own handle deletes twice, one that emplaces in it fails the assertion, a constructor that emplaces in its own handle leaks the inner object, a destructor that uses a handle declared later uses an ended handle."
  },
  {
   "property": "C143",
   "status": "partial",
   "theorems": [
    "C143_written",
    "C143_padded",
    "C143_sequence_partial",
    "C143_empty_refuted",
    "C143_width_refuted"
   ],
   "note": "Proved: the exact text written for every stream state; sequences of bitsets that are not empty read back as they were when no width is set; padding on the left with 0 adds zero bits at the top. Refuted: an empty bitset is lost, padding on the right with 0 moves the bits up, padding with other visible characters fails the assertion of the constructor. Extraction is that of std::string; the library has none."
  },
  {
   "property": "C144",
   "status": "proved",
   "theorems": [
    "C144_history",
    "C144_reserve",
    "C144_call",
    "C144_stays",
    "C144_nothing_allocated",
    "C144_text_refuted"
   ],
   "note": "C144_text_refuted: assigning a text replaces the storage, so memory reserved before is lost. Copy assignment of std::vector is taken to reuse storage that is large enough, which the standard leaves open."
  },
  {
   "property": "C145",
   "status": "proved",
   "theorems": [
    "C145_untouched",
    "C145_pointers",
    "C145_leaves",
    "C145_moved_out",
    "C145_returns_refuted",
    "C145_never_leaves",
    "C145_stack"
   ],
   "note": "C145_returns_refuted: a HybridVector never returns to its inline storage, not even after clear(). Arguments that refer to an element of the vector itself are the subject of C33."
  },
  {
   "property": "C146",
   "status": "partial",
   "theorems": [
    "C146_history",
    "C146_moves",
    "C146_nothing_lost",
    "C146_assign_refuted"
   ],
   "note": "Proved for all programs that allow it, ends of pools with blocks of one entry excepted (C46). Refuted for move assignment: exactly the objects the target held are never destroyed (C146_assign_refuted), so nothing is lost exactly if every assignment is to a pool without objects (C146_nothing_lost); a pool assigned to itself loses everything (libstdc++)."
  },
  {
   "property": "C147",
   "status": "partial",
   "theorems": [
    "C147_separate",
    "C147_guarded",
    "C147_ends",
    "C147_race_exactly",
    "C147_atomic_refuted"
   ],
   "note": "Proved if no two threads emit a common signal (C147_separate), and in general if the program holds a mutex of the signal around each emission, with emissions of one signal following one another, without deadlock and in a number of steps known in advance (C147_guarded, C147_ends). Refuted otherwise although operator() is const: a data race is reachable exactly if two threads emit a common signal (C147_race_exactly), and even with an atomic m_slotIterator there are schedules that subscript m_slots out of range, that call no slot and that call a slot twice, for every number of slots (C147_atomic_refuted). Slots that connect or disconnect are not part of this model (C47, C51)."
  },
  {
   "property": "C148",
   "status": "partial",
   "theorems": [
    "C148_history",
    "C148_conservative",
    "C148_refused_exactly",
    "C148_counters",
    "C148_never_shared",
    "C148_stops_refuted",
    "C148_lost_refuted"
   ],
   "note": "Refuted: the assertion notices the return exactly if the block is believed empty (C148_refused_exactly). Otherwise the counter of the block is too low by the number of such returns (C148_counters); the pool then hands out at most the entries that are free, adds no block, and asserts at the next allocation (C148_stops_refuted); Clear and the destructor leave out a block believed empty, so live objects in it are never destroyed (C148_lost_refuted). What holds: every history goes exactly as a specification that counts the returns too many says (C148_history), that agrees with C40's on histories within the contract (C148_conservative), and an entry in use is never handed out again (C148_never_shared). Assertions enabled; no Clear with block size 1."
  },
  {
   "property": "C149",
   "status": "partial",
   "theorems": [
    "C149_history",
    "C149_conservative",
    "C149_unnoticed_refuted",
    "C149_counters",
    "C149_undefined_exactly",
    "C149_never_shared",
    "C149_stops_refuted",
    "C149_lost_refuted",
    "C149_begin_exactly"
   ],
   "note": "Refuted: no such return is noticed (C149_unnoticed_refuted). An allocation is undefined exactly when it comes to a full block with a return too many (C149_undefined_exactly), which happens after at most as many allocations as entries are free (C149_stops_refuted); begin() is undefined exactly when the first block not believed empty holds nothing (C149_begin_exactly); Clear and the destructor leave out a block with as many returns too many as entries (C149_lost_refuted). What holds: histories go as specified with counters modulo 2^64 (C149_history, C149_counters), as with assertions where those hold (C149_conservative), and an entry in use is never handed out again (C149_never_shared). The bounds on returns too many (less than 2^64) are hypotheses of the exact statements."
  },
  {
   "property": "C150",
   "status": "partial",
   "theorems": [
    "C150_one_order",
    "C150_connect",
    "C150_disconnect",
    "C150_order",
    "C150_in_order",
    "C150_disconnect_exactly",
    "C150_order_refuted"
   ],
   "note": "Refuted: with three slots or more, disconnecting the oldest makes the youngest the first to be called (C150_order_refuted). What holds: the order is the one of the specification, where a slot that leaves is replaced by the last one (C150_order); it is the order of connection if only the two youngest slots of a signal are ever disconnected (C150_in_order), and any other disconnection changes it (C150_disconnect_exactly). For any program: there is one order, kept by emissions without changes (C150_one_order), a new slot is called last (C150_connect), and a disconnection has one of two forms (C150_disconnect)."
  },
  {
   "property": "C151",
   "status": "partial",
   "theorems": [
    "C151_defined",
    "C151_bits",
    "C151_laws",
    "C151_only_laws",
    "C151_laws_without_not",
    "C151_congruence_without_not",
    "C151_de_morgan_and",
    "C151_de_morgan_or",
    "C151_not_congruence",
    "C151_laws_refuted",
    "C151_shifts_add",
    "C151_shift_back",
    "C151_shift_left_distributes",
    "C151_shift_right_distributes"
   ],
   "note": "Refuted for operands of different sizes as soon as ~ occurs (C151_laws_refuted): both laws of De Morgan hold exactly under the conditions of C151_de_morgan_and and C151_de_morgan_or, and bitsets that compare equal have equal complements exactly when their sizes agree (C151_not_congruence). What holds: every expression has a value (C151_defined); with operands of one size all laws hold, and nothing but the laws (C151_bits, C151_laws, C151_only_laws); without ~ they hold for all sizes (C151_laws_without_not, C151_congruence_without_not). Shifts add up (C151_shifts_add), lose exactly what is shifted out (C151_shift_back) and distribute over expressions without ~ (C151_shift_left_distributes for one size, C151_shift_right_distributes)."
  },
  {
   "property": "C152",
   "status": "partial",
   "theorems": [
    "C152_stored",
    "C152_back",
    "C152_set_exactly",
    "C152_full_fields",
    "C152_iteration",
    "C152_iteration_refuted",
    "C152_cleaned",
    "C152_involution_exactly",
    "C152_same_enumerators",
    "C152_equality_refuted"
   ],
   "note": "Refuted where the field has bits to spare: such a bit is iterated and counted as an enumerator that does not exist (C152_iteration_refuted), and flags with the same enumerators compare different (C152_equality_refuted). What holds: the stored number is the value modulo the width (C152_stored) and comes back (C152_back); it is a set of enumerators exactly when no bit above the greatest enumerator is set (C152_set_exactly), always with 8, 16, 32 or 64 enumerators (C152_full_fields); iteration and Count see exactly the stored bits (C152_iteration); ~~f, f ^ 0 and f & ~0 drop the other bits, and give f back exactly for sets of enumerators (C152_cleaned, C152_involution_exactly); Test agrees on all enumerators exactly when the numbers agree modulo 2^(max + 1) (C152_same_enumerators)."
  },
  {
   "property": "C153",
   "status": "partial",
   "theorems": [
    "C153_movable",
    "C153_movable_left",
    "C153_result",
    "C153_result_void",
    "C153_result_throw_refuted",
    "C153_result_first_throw",
    "C153_stack_vector_partial",
    "C153_stack_array_partial",
    "C153_vector_partial",
    "C153_vector_inside_first_refuted",
    "C153_vector_inside_second_refuted",
    "C153_self_movable",
    "C153_self_stack_partial",
    "C153_self_vector",
    "C153_guard",
    "C153_signal_partial",
    "C153_signal_refuted"
   ],
   "note": "Proved for the Movable classes, Result (without throwing moves), ConnectionGuard, vectors of which both or none use the std::vector, signals with several slots or none each. StackVector and StackArray: exchanged exactly when the first argument has at most one element, undefined otherwise (the temporary ends with a size and no memory). HybridVector, one inline and one not: the values are exchanged, the inline elements are never destroyed (C153_vector_inside_first_refuted, C153_vector_inside_second_refuted). Signals: with several slots in the first and one in the second, the slot of the second can not be disconnected any more (C153_signal_refuted). A second move of a Result that throws loses the first value (C153_result_throw_refuted). An object swapped with itself is unchanged: Movable classes, all vectors (C153_self_vector), StackVector and StackArray with at most one element."
  },
  {
   "property": "C154",
   "status": "partial",
   "theorems": [
    "C154_connect",
    "C154_destroyed",
    "C154_function_copied",
    "C154_function_lost_refuted",
    "C154_guard_refuted",
    "C154_others"
   ],
   "note": "Proved for the signal (C154_connect, C154_destroyed), for functions given by const reference (C154_function_copied) and for plain connections (C154_others). Refuted for guards, which disconnect first (C154_guard_refuted), and for functions given by rvalue unless the memory for the slot itself was missing (C154_function_lost_refuted)."
  },
  {
   "property": "C155",
   "status": "partial",
   "theorems": [
    "C155_nonnegative",
    "C155_negative_partial",
    "C155_appended_partial",
    "C155_stray_refuted",
    "C155_open_block_refuted",
    "C155_longer_refuted"
   ],
   "note": "A value that is not negative is appended as the unsigned one (C155_nonnegative), so C11 applies. A negative one is appended as its representation when the open block has no more room than the type has bits, or, all blocks being full, when the type is at least as wide as a block or not all of its bits are appended (C155_negative_partial, C155_appended_partial). Otherwise bits past the size are set (C155_stray_refuted, C155_open_block_refuted). With more bits than the type has, the sign fills a block and the next one is 0 (C155_longer_refuted)."
  },
  {
   "property": "C156",
   "status": "proved",
   "theorems": [
    "C156_shifts_add",
    "C156_there_and_back",
    "C156_reverse_shift",
    "C156_shift_right_distributes",
    "C156_shift_left_distributes_equal_sizes",
    "C156_shift_left_distributes_refuted",
    "C156_count",
    "C156_count_complement",
    "C156_count_reverse",
    "C156_count_shift"
   ],
   "note": "Equalities are of the stored blocks and sizes, not only of the tested bits. The law of left shifts is stated for equal sizes; for different sizes it is refuted (C156_shift_left_distributes_refuted): a bit of the shorter operand falls off when it is shifted before the operation."
  },
  {
   "property": "C157",
   "status": "partial",
   "theorems": [
    "C157_bit_zero_partial",
    "C157_bit_one_refuted",
    "C157_toggle_twice_refuted",
    "C157_numbers",
    "C157_reverse",
    "C157_bitset_of_bool",
    "C157_to_bool",
    "C157_to_value_refuted",
    "C157_append",
    "C157_append_bits"
   ],
   "note": "True of bit 0 (C157_bit_zero_partial), of the other functions on numbers (C157_numbers, C157_reverse; MultiplyAdd of 1, 1, 1 gives true), of bitsets made from a bool and of AppendBits (C157_append, C157_append_bits under the conditions of C11). False of bit 1, which passes the assertion: setting it sets bit 0, toggling it twice is not the identity (C157_bit_one_refuted, C157_toggle_twice_refuted). To<bool> tells whether any bit is set (C157_to_bool), which is not the number (C157_to_value_refuted). FindFirstBit, FindLastBit, RoundToPow2 and Approach do not compile for bool."
  },
  {
   "property": "C158",
   "status": "partial",
   "theorems": [
    "C158_count",
    "C158_reversals",
    "C158_first_and_last",
    "C158_power_of_two",
    "C158_log2_partial",
    "C158_log2_refuted",
    "C158_log2_pot",
    "C158_rounding",
    "C158_count_single"
   ],
   "note": "Everything but the logarithm holds. IntegralLog2 is the index of the last bit except for 64-bit values from 2^32 up to 2^33, for all of which it is not (C158_log2_partial, C158_log2_refuted). Signed types are the subject of C19-C27."
  },
  {
   "property": "C159",
   "status": "partial",
   "theorems": [
    "C159_concepts",
    "C159_floating_refuted",
    "C159_enumerations_refuted",
    "C159_bool",
    "C159_align_value",
    "C159_align_refuted",
    "C159_align_float_refuted",
    "C159_align_assertion",
    "C159_log2_float",
    "C159_log2_float_refuted",
    "C159_log2_float_fraction",
    "C159_log2_pot_float_refuted",
    "C159_log2_pot_float_zero",
    "C159_log2_pot_float_not_finite",
    "C159_log2_pot_float_negative",
    "C159_to_uint32"
   ],
   "note": "True with concepts (C159_concepts). Without, exactly Align, and IntegralLog2 and IntegralLog2Pot of float, take floating point arguments (C159_floating_refuted), and TestBit, IsPow2 and the logarithms take enumerations. Align of floating point numbers adds alignment - 1, in exact arithmetic, and in floating point arithmetic for powers of two, which is right only when the offset is one more than a multiple (C159_align_value, C159_align_float_refuted, C159_align_refuted); IntegralLog2 of a float is right from 1 to below 2^32 and undefined for negative and larger integers (C159_log2_float, C159_log2_float_refuted); IntegralLog2Pot of a float power of two is right from 1 to 32, zero below 1 and undefined from 64 on, for infinities and for negative powers from 2^-26 on (C159_log2_pot_float_refuted, C159_log2_pot_float_not_finite, C159_log2_pot_float_negative). bool is refused by three functions (C159_bool). The bodies are modelled by the kinds of operations they apply."
  }
 ]
}
