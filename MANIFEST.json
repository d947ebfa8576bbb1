{
 "claims": [
  {
   "property": "C01",
   "status": "proved",
   "theorems": [
    "C01_sort_3",
    "C01_sort_4",
    "C01_sort_5",
    "C01_sort_6",
    "C01_sort_7",
    "C01_sort_8",
    "C01_sort_16",
    "C01_sort_32"
   ],
   "note": "Full property: every network sorts every window under every strict weak ordering; proved through the 0-1 principle."
  },
  {
   "property": "C02",
   "status": "proved",
   "theorems": [
    "C02_sort"
   ],
   "note": "Full property, for both size limits and all array contents."
  },
  {
   "property": "C03",
   "status": "partial",
   "theorems": [
    "C03_sort_to_copy",
    "C03_sort_to_integral_partial",
    "C03_sort_to_negative_refuted",
    "C03_sort_to_descending_refuted"
   ],
   "note": "Full for non-integral elements. Integral path: proved for elements with non-negative remainder mod 10 and comparators with comp(0,1). The code violates the property otherwise: negative elements index outside the counter array (C03_sort_to_negative_refuted), a descending comparator loses elements (C03_sort_to_descending_refuted)."
  },
  {
   "property": "C04",
   "status": "proved",
   "theorems": [
    "C04_lower_bound",
    "C04_lower_bound_sorted",
    "C04_lower_bound_in_range"
   ],
   "note": "Full property, for any comparator partitioning the range; also in-range for arbitrary contents."
  },
  {
   "property": "C05",
   "status": "proved",
   "theorems": [
    "C05_upper_bound",
    "C05_binary_search"
   ],
   "note": "Full property for strict weak orderings; binary_search on an empty range throws (model outcome Throw)."
  },
  {
   "property": "C06",
   "status": "partial",
   "theorems": [
    "C06_safe_advance_partial",
    "C06_safe_next_partial",
    "C06_safe_prev_partial",
    "C06_begin_at_partial",
    "C06_begin_at_huge_refuted",
    "C06_begin_at_half_refuted"
   ],
   "note": "Proved for every container and every distance representable in ptrdiff_t except -2^63, both implementations. Missing: unsigned requests >= 2^63, which the code gets wrong (C06_begin_at_huge_refuted, C06_begin_at_half_refuted)."
  },
  {
   "property": "C07",
   "status": "proved",
   "theorems": [
    "C07_find_if",
    "C07_find",
    "C07_find_if_not",
    "C07_find_first_of",
    "C07_find_index_if",
    "C07_find_index_of",
    "C07_find_index_of_if",
    "C07_contains",
    "C07_contains_if",
    "C07_adjacent_find",
    "C07_find_first_range_of",
    "C07_find_one_of"
   ],
   "note": "Full property, plus find_first_of, contains_if, adjacent_find, find_first_range_of and find_one_of."
  },
  {
   "property": "C08",
   "status": "proved",
   "theorems": [
    "C08_all_of",
    "C08_any_of",
    "C08_none_of",
    "C08_satisfies_one",
    "C08_satisfies_all",
    "C08_all_equal",
    "C08_all_equal_head",
    "C08_count_if"
   ],
   "note": "Full property."
  },
  {
   "property": "C09",
   "status": "proved",
   "theorems": [
    "C09_search"
   ],
   "note": "Full property."
  },
  {
   "property": "C10",
   "status": "proved",
   "theorems": [
    "C10_equal",
    "C10_equal3"
   ],
   "note": "Full property, including the three-iterator form (which requires a second range at least as long)."
  },
  {
   "property": "C11",
   "status": "partial",
   "theorems": [
    "C11_not_equal_partial",
    "C11_not_equal3_partial",
    "C11_not_equal_refuted",
    "C11_not_equal_length_refuted",
    "C11_not_equal_empty_refuted"
   ],
   "note": "The code violates the property: C11_not_equal_refuted, C11_not_equal_length_refuted, C11_not_equal_empty_refuted. The partial theorems say exactly what the function decides."
  },
  {
   "property": "C12",
   "status": "proved",
   "theorems": [
    "C12_lexicographical_compare",
    "C12_lexicographical_order",
    "C12_compare_range"
   ],
   "note": "Full property; additionally the induced order is itself a strict weak ordering."
  },
  {
   "property": "C13",
   "status": "proved",
   "theorems": [
    "C13_max_element",
    "C13_minmax_element",
    "C13_empty",
    "C13_minmax_item"
   ],
   "note": "Full property."
  },
  {
   "property": "C14",
   "status": "proved",
   "theorems": [
    "C14_remove_if",
    "C14_remove"
   ],
   "note": "Full property."
  },
  {
   "property": "C15",
   "status": "proved",
   "theorems": [
    "C15_set_intersection"
   ],
   "note": "Full property; the output is moreover a subsequence of the first input."
  },
  {
   "property": "C16",
   "status": "proved",
   "theorems": [
    "C16_reverse",
    "C16_reverse_twice"
   ],
   "note": "Full property."
  },
  {
   "property": "C17",
   "status": "partial",
   "theorems": [
    "C17_split_partial",
    "C17_split_refuted"
   ],
   "note": "The code drops the last piece (C17_split_refuted); the partial theorem proves the rest of the property and identifies the dropped piece."
  },
  {
   "property": "C18",
   "status": "partial",
   "theorems": [
    "C18_are_equal_partial",
    "C18_are_equal_complete_partial",
    "C18_are_equal_refuted"
   ],
   "note": "The code compares only disjoint pairs (C18_are_equal_refuted); the partial theorems give its exact meaning and the direction that holds."
  },
  {
   "property": "C19",
   "status": "proved",
   "theorems": [
    "C19_is_sorted",
    "C19_is_sorted_adjacent",
    "C19_is_sorted_until",
    "C19_find_unsorted"
   ],
   "note": "Full property for strict weak orderings, and the adjacent-pair form for arbitrary comparators."
  },
  {
   "property": "C20",
   "status": "proved",
   "theorems": [
    "C20_partition_range"
   ],
   "note": "Full property; a part count of zero divides by zero (shown as UB in an example)."
  },
  {
   "property": "C21",
   "status": "proved",
   "theorems": [
    "C21_transform",
    "C21_transform_if",
    "C21_transform_n",
    "C21_copy",
    "C21_copy_if",
    "C21_copy_n",
    "C21_map2"
   ],
   "note": "Full property.  Moved-from elements are modelled as unchanged and nothing is claimed about them."
  },
  {
   "property": "C22",
   "status": "proved",
   "theorems": [
    "C22_clamp_hi",
    "C22_clamp3"
   ],
   "note": "Full property over unbounded integers."
  },
  {
   "property": "C23",
   "status": "proved",
   "theorems": [
    "C23_find"
   ],
   "note": "Full property."
  },
  {
   "property": "C24",
   "status": "partial",
   "theorems": [
    "C24_find_char_partial",
    "C24_find_char_relative_refuted",
    "C24_find_char_constexpr_refuted"
   ],
   "note": "Proved for pos = 0 (C24_find_char_partial). For pos > 0 the run-time path returns the distance from pos instead of the index, and the constant evaluated path skips pos twice (refuted, with the exact behaviour)."
  },
  {
   "property": "C25",
   "status": "proved",
   "theorems": [
    "C25_rfind"
   ],
   "note": "Full property."
  },
  {
   "property": "C26",
   "status": "partial",
   "theorems": [
    "C26_search_partial",
    "C26_search_whole_refuted",
    "C26_search_last_refuted"
   ],
   "note": "search is proved for needles that end before the end of the view. A match ending at the end of the view is never found and search_last returns the first occurrence, or pos when there is none (refuted)."
  },
  {
   "property": "C27",
   "status": "partial",
   "theorems": [
    "C27_find_first_of_partial",
    "C27_find_first_not_of_partial",
    "C27_find_last_of_partial",
    "C27_find_last_not_of_partial",
    "C27_find_last_of_byte_refuted",
    "C27_find_last_of_wide_refuted",
    "C27_find_last_not_of_end_refuted",
    "C27_find_first_if_partial",
    "C27_find_last_of_if_partial",
    "C27_find_last_not_of_if_partial",
    "C27_find_last_not_of_if_end_refuted"
   ],
   "note": "find_first_of, find_first_not_of and the predicate forms are proved for every position. find_last_of ignores pos for one-byte characters and returns an index for an absent set with wide ones; find_last_not_of at pos == size() reads past the view; find_last_of(pred,pos) excludes pos (refuted / stated exactly)."
  },
  {
   "property": "C28",
   "status": "proved",
   "theorems": [
    "C28_remove"
   ],
   "note": "Full property."
  },
  {
   "property": "C29",
   "status": "partial",
   "theorems": [
    "C29_string_partial",
    "C29_char_partial",
    "C29_predicate_partial",
    "C29_pop_back_keep_refuted",
    "C29_pop_back_if_keep_partial"
   ],
   "note": "Proved for pop_front_until (all overloads) and pop_back_until (delimiter discarded). pop_back_until(where, nodiscard) drops the delimiter (refuted)."
  },
  {
   "property": "C30",
   "status": "partial",
   "theorems": [
    "C30_front_partial",
    "C30_front_char_partial",
    "C30_front_predicate_keep_partial",
    "C30_front_predicate_partial",
    "C30_back_partial",
    "C30_front_predicate_refuted",
    "C30_back_char_refuted",
    "C30_back_predicate_refuted",
    "C30_back_char_keep_refuted",
    "C30_back_predicate_keep_refuted",
    "C30_back_keep_refuted"
   ],
   "note": "Proved for all string and character overloads of try_pop_front_until and try_pop_back_until(where). try_pop_front_until(pred) removes a character when there is no match; the character and predicate forms of try_pop_back_until keep the delimiter in the piece and the nodiscard forms duplicate or drop it (refuted)."
  },
  {
   "property": "C31",
   "status": "partial",
   "theorems": [
    "C31_substr_partial",
    "C31_substr_throws_partial",
    "C31_substr_release_refuted"
   ],
   "note": "The slice is proved for every build, the exception for builds with range checks. Release builds return characters outside the view for pos > size() (refuted)."
  },
  {
   "property": "C32",
   "status": "partial",
   "theorems": [
    "C32_safe_histories_partial",
    "C32_checked_histories_partial",
    "C32_substr_marks_refuted",
    "C32_substr_checked_refuted"
   ],
   "note": "Proved for every history of operations without substr(), the _unsafe members and the explicit mark, and for every history in checked builds. In release builds substr() marks any view (refuted)."
  },
  {
   "property": "C33",
   "status": "proved",
   "theorems": [
    "C33_compare",
    "C33_order",
    "C33_operators",
    "C33_compare_slices",
    "C33_compare_slice"
   ],
   "note": "Full property, also for the slice overloads."
  },
  {
   "property": "C34",
   "status": "proved",
   "theorems": [
    "C34_starts_with",
    "C34_ends_with",
    "C34_starts_with_char",
    "C34_ends_with_char"
   ],
   "note": "Full property."
  },
  {
   "property": "C35",
   "status": "proved",
   "theorems": [
    "C35_trim",
    "C35_trim_prefix",
    "C35_trim_suffix"
   ],
   "note": "Full property."
  },
  {
   "property": "C36",
   "status": "proved",
   "theorems": [
    "C36_comparisons",
    "C36_in_range"
   ],
   "note": "Full property for every pair of standard integer types and every value."
  },
  {
   "property": "C37",
   "status": "proved",
   "theorems": [
    "C37_reverse_bits8",
    "C37_reverse_bits16",
    "C37_reverse_bits32",
    "C37_reverse_bits64"
   ],
   "note": "Full property for all four widths."
  },
  {
   "property": "C38",
   "status": "proved",
   "theorems": [
    "C38_swap_bytes"
   ],
   "note": "Full property for all four widths and both signednesses modelled as the same bit pattern."
  },
  {
   "property": "C39",
   "status": "partial",
   "theorems": [
    "C39_network_to_host_refuted",
    "C39_to_native_refuted",
    "C39_to_conversions_partial",
    "C39_round_trip_partial"
   ],
   "note": "network_to_host_endian and to_native_endian never swap on the platform where they should (C39_network_to_host_refuted, C39_to_native_refuted). The to_little/to_big conversions and their round trips are proved."
  },
  {
   "property": "C40",
   "status": "proved",
   "theorems": [
    "C40_masks",
    "C40_unchecked_masks",
    "C40_bit_operations",
    "C40_are_set"
   ],
   "note": "Full property for every width and every list of in-range bit indices."
  },
  {
   "property": "C41",
   "status": "partial",
   "theorems": [
    "C41_bit_stream_partial",
    "C41_bit_stream_wide_refuted"
   ],
   "note": "Proved for 8 and 16 bit elements, any source and any split of reads. For 32 and 64 bit elements the first read is undefined behaviour (C41_bit_stream_wide_refuted)."
  },
  {
   "property": "C42",
   "status": "partial",
   "theorems": [
    "C42_history_partial",
    "C42_history_narrow_partial",
    "C42_pop_back_partial",
    "C42_bounds",
    "C42_pop_back_refuted",
    "C42_wide_refuted"
   ],
   "note": "Proved for every in-bounds history when queue and value types are the same 8 or 16 bit type, and for histories without pop_back when values are narrower. pop_back of daw::bit_queue is wrong (C42_pop_back_refuted) and 32/64 bit queues have undefined behaviour (C42_wide_refuted)."
  },
  {
   "property": "C43",
   "status": "partial",
   "theorems": [
    "C43_empty",
    "C43_assign",
    "C43_set",
    "C43_set_many",
    "C43_unset_refuted",
    "C43_unset_partial"
   ],
   "note": "unset also clears bit i mod 4 of the same limb (C43_unset_refuted); set, test and the exact effect of unset are proved."
  },
  {
   "property": "C44",
   "status": "partial",
   "theorems": [
    "C44_set_bit_refuted",
    "C44_clear_bit_refuted",
    "C44_get_bit_refuted",
    "C44_set_bit_partial",
    "C44_clear_bit_partial",
    "C44_get_bit_partial",
    "C44_right_indices_partial"
   ],
   "note": "The code uses the number 2*(i mod 64) as mask instead of the bit i: three counterexamples, the exact effect of the calls, and the indices (i mod 64 = 1 or 2) where the property holds."
  },
  {
   "property": "C45",
   "status": "partial",
   "theorems": [
    "C45_shift_left_partial",
    "C45_shift_right_partial",
    "C45_shift_left_refuted",
    "C45_shift_right_refuted",
    "C45_shift_left_zero_refuted",
    "C45_shift_64_refuted"
   ],
   "note": "Proved for shifts by 1..32 bits, by at least the width, and any shift of single-word bitsets. 33..63 bits lose carries, left shift by 0 and shifts by 64..width-1 are undefined behaviour (refuted)."
  },
  {
   "property": "C46",
   "status": "partial",
   "theorems": [
    "C46_fifo_partial",
    "C46_debug_reports",
    "C46_emplace_back_refuted",
    "C46_counter_wrap_refuted"
   ],
   "note": "Histories of push_back/pop_front/clear refine a bounded FIFO in both build modes (all capacities dividing 2^64, otherwise up to 2^64 operations); debug builds report misuse. Refuted: emplace_back advances the head instead of the tail; the size_t counters wrap, so a capacity that does not divide 2^64 loses the FIFO order after 2^64-1 insertions. Underlying container modelled as a fixed array; front/back members do not exist in the code."
  },
  {
   "property": "C47",
   "status": "partial",
   "theorems": [
    "C47_histories_partial",
    "C47_constructors",
    "C47_push_new",
    "C47_resize_reports",
    "C47_capacity_unchecked_refuted",
    "C47_pop_front_refuted",
    "C47_pop_front_count_refuted",
    "C47_has_room_refuted",
    "C47_erase_iterator_refuted",
    "C47_erase_range_refuted"
   ],
   "note": "Histories of push_back, emplace_back, push_back(ptr,n), assign, pop_back, resize, erase, clear, zero refine lists of at most N elements (N>0). Refuted: pop_front throws on every non-empty vector, pop_front(count), has_room is inverted, the iterators returned by both erase overloads, erase(first,last) up to the capacity is undefined and erasing everything aborts in debug builds, push_back on a full vector is unchecked. insert does not exist in the code. The N=0 specialisation is not modelled."
  },
  {
   "property": "C48",
   "status": "partial",
   "theorems": [
    "C48_swap_partial",
    "C48_swap_refuted"
   ],
   "note": "swap is right when the left vector is not longer than the right one; otherwise the surplus elements are lost (refuted for every such pair)."
  },
  {
   "property": "C49",
   "status": "proved",
   "theorems": [
    "C49_histories",
    "C49_empty",
    "C49_symmetric",
    "C49_ids_fresh",
    "C49_debug_reports"
   ],
   "note": "Proved for every history of the six mutating calls, both build modes, any iteration order; with checks on a call on a missing node is reported. Value constructors are assumed not to throw."
  },
  {
   "property": "C50",
   "status": "partial",
   "theorems": [
    "C50_not_equal_partial",
    "C50_equal_refuted",
    "C50_empty_partial",
    "C50_less_partial"
   ],
   "note": "operator!= is right; operator== uses `or` where it needs `and`, so any two nodes of one graph compare equal (and unequal). Refuted for all handles."
  },
  {
   "property": "C51",
   "status": "proved",
   "theorems": [
    "C51_acyclic",
    "C51_any_graph",
    "C51_reverse"
   ],
   "note": "Proved for every graph: ends within one step per node; visits each node at most once and after its predecessors; visits exactly the nodes no cycle leads to, hence all nodes of an acyclic graph. Also the reverse walk. The visitor must not change the graph."
  },
  {
   "property": "C52",
   "status": "proved",
   "theorems": [
    "C52_bfs",
    "C52_dfs"
   ],
   "note": "Proved for every graph, start and order of children (hash order or sorted); the bound on the number of steps is existential."
  },
  {
   "property": "C53",
   "status": "partial",
   "theorems": [
    "C53_bfs_partial",
    "C53_dfs_partial",
    "C53_refuted"
   ],
   "note": "Holds when no node but the start has two reachable predecessors; refuted otherwise: a three-node graph makes both walks visit a node twice for every iteration order."
  },
  {
   "property": "C54",
   "status": "partial",
   "theorems": [
    "C54_refuted",
    "C54_witness_refuted",
    "C54_partial"
   ],
   "note": "pow squares the base once per unit of exponent: proved for every base and exponent of uint32/uint64 that it computes b^(2^e) (refuted; pow(0,0) is 0 too). Right only for e = 0 with b != 0, for b = 1, and for b = 0 with e > 0."
  },
  {
   "property": "C55",
   "status": "partial",
   "theorems": [
    "C55_partial",
    "C55_refuted"
   ],
   "note": "Right for every value except the least one of the 8-, 16- and 32-bit types; there it is undefined (int32) or a huge value (refuted). Promotion with 32-bit int."
  },
  {
   "property": "C56",
   "status": "proved",
   "theorems": [
    "C56_unsigned",
    "C56_cstring",
    "C56_view",
    "C56_int",
    "C56_negative_int",
    "C56_unsigned_minus",
    "C56_no_wrap",
    "C56_view_int"
   ],
   "note": "Full property, for iterator ranges, C strings and string views, signed and unsigned; an empty range is treated under C99."
  },
  {
   "property": "C57",
   "status": "partial",
   "theorems": [
    "C57_representable_partial",
    "C57_wraps_refuted",
    "C57_overflow_refuted",
    "C57_long_refuted"
   ],
   "note": "Right for representable numbers of at most numeric_limits::digits digits other than the lowest int/long. Numbers out of range are not rejected: they wrap, or overflow with undefined behaviour; texts with more digits are rejected even if representable (refuted)."
  },
  {
   "property": "C58",
   "status": "partial",
   "theorems": [
    "C58_first_occurrences",
    "C58_fields_partial",
    "C58_single_character",
    "C58_overlap_refuted",
    "C58_values_partial"
   ],
   "note": "The fields are those cut at the first occurrences, for all texts and delimiters; full for one-character delimiters; for longer ones a field must not begin an overlapping delimiter (witness: refuted). The values of parse_to need plain numbers (C57)."
  },
  {
   "property": "C59",
   "status": "partial",
   "theorems": [
    "C59_integer",
    "C59_range",
    "C59_pointer_length",
    "C59_cstr",
    "C59_object",
    "C59_functor_partial",
    "C59_functor_refuted"
   ],
   "note": "All free functions and the integer, range, pointer and object overloads: full. The function object's zero-terminated overload mixes in sign-extended chars: right for bytes below 128 or unsigned char, wrong otherwise (refuted). Little-endian machine."
  },
  {
   "property": "C60",
   "status": "partial",
   "theorems": [
    "C60_unsigned_char",
    "C60_partial",
    "C60_refuted",
    "C60_collision_refuted"
   ],
   "note": "Full where char is unsigned. Where char is signed: right if the first seven bytes of every whole word are below 128; otherwise wrong, and colliding messages exist for every key (refuted)."
  },
  {
   "property": "C61",
   "status": "proved",
   "theorems": [
    "C61_accumulate",
    "C61_find_some_none",
    "C61_map_reduce",
    "C61_partial_sum",
    "C61_partial_sum_empty",
    "C61_find_transform",
    "C61_find_some",
    "C61_for_each_if"
   ],
   "note": "Full property."
  },
  {
   "property": "C62",
   "status": "proved",
   "theorems": [
    "C62_fill_n",
    "C62_fill",
    "C62_iota"
   ],
   "note": "Full property."
  },
  {
   "property": "C63",
   "status": "partial",
   "theorems": [
    "C63_cartesian_product_partial",
    "C63_cartesian_product_refuted"
   ],
   "note": "The code pairs elements position by position instead (C63_cartesian_product_refuted, C63_cartesian_product_partial)."
  },
  {
   "property": "C64",
   "status": "partial",
   "theorems": [
    "C64_skip_bits_refuted",
    "C64_skip_bits_partial"
   ],
   "note": "skip_bits skips only whole elements (C64_skip_bits_refuted); the partial theorem states exactly how much is skipped (8 and 16 bit elements)."
  },
  {
   "property": "C65",
   "status": "partial",
   "theorems": [
    "C65_bitwise",
    "C65_equality",
    "C65_complement_partial",
    "C65_complement_refuted"
   ],
   "note": "|, &, ^, ==, != proved in full for equal widths. ~ flips every bit of the width but also sets the unused bits of the last word, which == compares (C65_complement_refuted)."
  },
  {
   "property": "C66",
   "status": "partial",
   "theorems": [
    "C66_construct_partial",
    "C66_construct_64_refuted",
    "C66_construct_refuted"
   ],
   "note": "Proved for widths below 64 and multiples of 64 above 64. static_bitset<64>(x) is always zero and other widths lose bits (refuted)."
  },
  {
   "property": "C67",
   "status": "proved",
   "theorems": [
    "C67_from_string",
    "C67_from_bad_string"
   ],
   "note": "Full property."
  },
  {
   "property": "C68",
   "status": "proved",
   "theorems": [
    "C68_to_hex"
   ],
   "note": "Full property (widths below 2^60, so that positions fit size_t)."
  },
  {
   "property": "C69",
   "status": "partial",
   "theorems": [
    "C69_pop_count_partial",
    "C69_pop_front_char_partial",
    "C69_pop_back_char_partial",
    "C69_pop_back_unsafe_partial",
    "C69_pop_front_unsafe_refuted",
    "C69_pop_char_unsafe_partial",
    "C69_pop_char_checked",
    "C69_checks_pass"
   ],
   "note": "pop_front/pop_back by count and by character are proved, pop_back_unsafe too. pop_front_unsafe(count) returns the whole view (refuted)."
  },
  {
   "property": "C70",
   "status": "partial",
   "theorems": [
    "C70_contains_partial",
    "C70_contains_char_partial",
    "C70_contains_count_refuted"
   ],
   "note": "contains(s), contains(s,pos) and contains(c) are proved. contains(s,pos,count) returns the index as a bool (refuted)."
  },
  {
   "property": "C71",
   "status": "partial",
   "theorems": [
    "C71_find_any_partial",
    "C71_find_any_refuted"
   ],
   "note": "Proved for a single needle. With several needles wrong positions and missed occurrences (refuted by witnesses)."
  },
  {
   "property": "C72",
   "status": "proved",
   "theorems": [
    "C72_at",
    "C72_index",
    "C72_front",
    "C72_back",
    "C72_copy"
   ],
   "note": "Full property (copy for pos <= size())."
  },
  {
   "property": "C73",
   "status": "proved",
   "theorems": [
    "C73_stream"
   ],
   "note": "Full property."
  },
  {
   "property": "C74",
   "status": "proved",
   "theorems": [
    "C74_c_string",
    "C74_literal",
    "C74_array",
    "C74_null"
   ],
   "note": "Full property."
  },
  {
   "property": "C75",
   "status": "proved",
   "theorems": [
    "C75_expand_prefix",
    "C75_expand_suffix"
   ],
   "note": "Full property."
  },
  {
   "property": "C76",
   "status": "proved",
   "theorems": [
    "C76_remove_prefix_until",
    "C76_remove_prefix_until_char",
    "C76_remove_prefix_until_char_keep",
    "C76_remove_prefix_until_predicate",
    "C76_pop_front_while",
    "C76_pop_front_while_char",
    "C76_pop_front_while_predicate",
    "C76_remove_prefix_while",
    "C76_remove_suffix_while",
    "C76_remove_prefix_while_char",
    "C76_remove_suffix_while_char"
   ],
   "note": "Full property."
  },
  {
   "property": "C77",
   "status": "proved",
   "theorems": [
    "C77_find",
    "C77_find_by_value",
    "C77_find_roots",
    "C77_find_leaves"
   ],
   "note": "Proved."
  },
  {
   "property": "C78",
   "status": "partial",
   "theorems": [
    "C78_single_root_partial",
    "C78_any_graph_partial",
    "C78_two_roots_refuted"
   ],
   "note": "With one root the reachable part becomes a tree; on every graph reachability from the set of roots is kept; with two roots sharing a child both edges stay (refuted)."
  },
  {
   "property": "C79",
   "status": "proved",
   "theorems": [
    "C79_bfs_by_distance"
   ],
   "note": "Proved: first visits are in order of distance (number of edges)."
  },
  {
   "property": "C80",
   "status": "proved",
   "theorems": [
    "C80_pow2",
    "C80_pow2_exact",
    "C80_factorial"
   ],
   "note": "Full property (factorial of an unsigned argument does not compile)."
  },
  {
   "property": "C81",
   "status": "partial",
   "theorems": [
    "C81_max_one_type",
    "C81_min_one_type",
    "C81_max_mixed_partial",
    "C81_min_mixed_partial",
    "C81_mixed_refuted",
    "C81_comp",
    "C81_value_or_min"
   ],
   "note": "Full for one type, and for mixed types when all are signed or no value is negative; a negative int beside an unsigned is refuted."
  },
  {
   "property": "C82",
   "status": "partial",
   "theorems": [
    "C82_history_partial",
    "C82_subtract_refuted",
    "C82_divide_refuted",
    "C82_construct_refuted"
   ],
   "note": "Histories proved for signed types, and for unsigned types without -=. Refuted: -= on unsigned wraps, / and % can leave 0, construction from a wider type can leave 0. Overflow is documented as undefined and excluded."
  },
  {
   "property": "C83",
   "status": "partial",
   "theorems": [
    "C83_leading",
    "C83_leading_zero",
    "C83_trailing32_partial",
    "C83_trailing64_partial",
    "C83_trailing_zero",
    "C83_trailing32_refuted",
    "C83_trailing64_refuted"
   ],
   "note": "The portable implementations; the compiler builtins are not modelled. Trailing zeroes: undefined when the examined half is 2^31 (refuted)."
  },
  {
   "property": "C84",
   "status": "proved",
   "theorems": [
    "C84_round_up",
    "C84_not_representable",
    "C84_always_exists"
   ],
   "note": "Full property; count_leading_zeroes through the compiler builtin, modelled by its documented meaning."
  },
  {
   "property": "C85",
   "status": "partial",
   "theorems": [
    "C85_popcount_partial",
    "C85_refuted"
   ],
   "note": "Right for unsigned, non-negative, and 32/64-bit arguments. A negative 8/16-bit argument counts the bits of its 32-bit sign extension (refuted)."
  },
  {
   "property": "C86",
   "status": "proved",
   "theorems": [
    "C86_portable",
    "C86_builtin"
   ],
   "note": "Full property, for the portable and the builtin count_leading_zeroes."
  },
  {
   "property": "C87",
   "status": "proved",
   "theorems": [
    "C87_compare"
   ],
   "note": "Full property."
  },
  {
   "property": "C88",
   "status": "partial",
   "theorems": [
    "C88_pow_n",
    "C88_pow_n_wraps",
    "C88_pow",
    "C88_pow_negative_partial",
    "C88_pow_negative_refuted"
   ],
   "note": "pow_n full (exact when representable, modular for unsigned). pow: non-negative exponents full, negative ones for signed and narrow types; undefined for uint32/uint64 (refuted)."
  },
  {
   "property": "C89",
   "status": "partial",
   "theorems": [
    "C89_is_odd",
    "C89_is_even_refuted"
   ],
   "note": "is_odd is right; is_even has the body of is_odd and answers wrongly for every value (refuted)."
  },
  {
   "property": "C90",
   "status": "proved",
   "theorems": [
    "C90_float",
    "C90_double"
   ],
   "note": "Full property on bit patterns; bit_cast itself is assumed."
  },
  {
   "property": "C91",
   "status": "partial",
   "theorems": [
    "C91_get",
    "C91_set_partial",
    "C91_set_refuted",
    "C91_pow2_partial",
    "C91_pow2_large",
    "C91_pow2_refuted"
   ],
   "note": "get_exponent full; set_exponent right except for exponent 0, which returns 1.0 for every argument (refuted); pow2 right except for the two smallest normal powers and the subnormal ones, which become 0 (refuted). The bit_cast implementations."
  },
  {
   "property": "C92",
   "status": "partial",
   "theorems": [
    "C92_pow10_partial",
    "C92_refuted"
   ],
   "note": "Right up to 10^18; 10^19 fits uintmax_t but is read outside the table (refuted)."
  },
  {
   "property": "C93",
   "status": "partial",
   "theorems": [
    "C93_integer",
    "C93_range",
    "C93_agree_partial",
    "C93_object_refuted",
    "C93_two_bytes_refuted"
   ],
   "note": "Integers and ranges with 4- and 8-byte hashes: full. The pointer-to-object overload and the 2-byte hash ignore the data (refuted)."
  },
  {
   "property": "C94",
   "status": "proved",
   "theorems": [
    "C94_one_byte",
    "C94_cstr",
    "C94_small_integer"
   ],
   "note": "Full property, for the 32- and 64-bit hash."
  },
  {
   "property": "C95",
   "status": "partial",
   "theorems": [
    "C95_unsigned_char",
    "C95_partial",
    "C95_refuted"
   ],
   "note": "Full where char is unsigned. Where char is signed: right unless the length is odd and the last byte is 128 or more; there it is wrong (refuted)."
  },
  {
   "property": "C96",
   "status": "proved",
   "theorems": [
    "C96_permutation",
    "C96_every_arrangement",
    "C96_uniform",
    "C96_all_choices"
   ],
   "note": "Full property; the draws of std::uniform_int_distribution are arbitrary in-range values, their uniformity and independence is the standard library's."
  },
  {
   "property": "C97",
   "status": "proved",
   "theorems": [
    "C97_full_period",
    "C97_output",
    "C97_seeds"
   ],
   "note": "Full property."
  },
  {
   "property": "C98",
   "status": "partial",
   "theorems": [
    "C98_make_random_data",
    "C98_reports",
    "C98_random_integer_partial",
    "C98_random_integer_refuted"
   ],
   "note": "randint, random_fill and make_random_data full; RandomInteger throws for equal bounds (refuted)."
  },
  {
   "property": "C99",
   "status": "partial",
   "theorems": [
    "C99_accepts_partial",
    "C99_empty",
    "C99_unsigned_minus",
    "C99_minus_refuted",
    "C99_helper_refuted",
    "C99_helper_empty_refuted"
   ],
   "note": "parse_to_value accepts only digits and a sign, but '-' alone is 0 (refuted); parse_unsigned_int of daw_parser_addons.h accepts any characters and reads an empty range (refuted)."
  },
  {
   "property": "C100",
   "status": "partial",
   "theorems": [
    "C100_whitespace_refuted",
    "C100_single_whitespace_refuted",
    "C100_characters"
   ],
   "note": "Both splitters split as described and by the right characters, but the two alias names are swapped (refuted)."
  },
  {
   "property": "C101",
   "status": "proved",
   "theorems": [
    "C101_until",
    "C101_until_or_throw",
    "C101_until_false",
    "C101_until_value",
    "C101_skip_ws",
    "C101_find_first_of_when",
    "C101_unique",
    "C101_find_first_of_value",
    "C101_classes"
   ],
   "note": "Full property."
  },
  {
   "property": "C102",
   "status": "partial",
   "theorems": [
    "C102_value_in_refuted",
    "C102_predicates_refuted",
    "C102_until_values_refuted",
    "C102_expect"
   ],
   "note": "value_in, in, one_of and until_values answer the opposite (refuted for all arguments); expect is right."
  },
  {
   "property": "C103",
   "status": "partial",
   "theorems": [
    "C103_split_refuted",
    "C103_split_partial",
    "C103_split_on_refuted"
   ],
   "note": "Never ends if there is a divider (refuted); right without one."
  },
  {
   "property": "C104",
   "status": "partial",
   "theorems": [
    "C104_view_left",
    "C104_view_right",
    "C104_view_trim",
    "C104_left_partial",
    "C104_blank_refuted",
    "C104_right_refuted"
   ],
   "note": "Full on string views. On iterator ranges trim_left is right unless all is blank; trim_right and trim keep only the first word, and blank ranges are kept whole (refuted)."
  },
  {
   "property": "C105",
   "status": "partial",
   "theorems": [
    "C105_equal_refuted",
    "C105_not_equal_refuted",
    "C105_empty_refuted",
    "C105_not_empty"
   ],
   "note": "All three are the wrong way round (refuted for all arguments)."
  },
  {
   "property": "C106",
   "status": "proved",
   "theorems": [
    "C106_starts_with",
    "C106_until_last_of_absent",
    "C106_until_last_of",
    "C106_matcher"
   ],
   "note": "Full property; std::search inside matcher is modelled by its specification."
  },
  {
   "property": "C107",
   "status": "partial",
   "theorems": [
    "C107_quoted_partial",
    "C107_rejects",
    "C107_unterminated_refuted",
    "C107_empty_refuted",
    "C107_character",
    "C107_unquoted"
   ],
   "note": "Right for nonempty bodies whose first character is any; the empty string is rejected, a quote as first character is taken into the body, and without a closing quote the release build reads past the view (refuted)."
  },
  {
   "property": "C108",
   "status": "partial",
   "theorems": [
    "C108_literal_partial",
    "C108_unterminated_refuted",
    "C108_whitespace_refuted"
   ],
   "note": "Right for texts that start with the quote; leading white space makes it throw, and a text that ends in an escaped quote is accepted without closing quote (refuted)."
  },
  {
   "property": "C109",
   "status": "partial",
   "theorems": [
    "C109_from_to",
    "C109_number_refuted",
    "C109_negative_number_refuted",
    "C109_no_number",
    "C109_from_to_values"
   ],
   "note": "from_to is full; find_number returns one digit only (refuted)."
  },
  {
   "property": "C110",
   "status": "partial",
   "theorems": [
    "C110_two_partial",
    "C110_one_refuted",
    "C110_more_refuted"
   ],
   "note": "Right for n = 2; n = 1 only matches the very first two characters, n >= 3 never matches (refuted)."
  },
  {
   "property": "C111",
   "status": "partial",
   "theorems": [
    "C111_refuted"
   ],
   "note": "Never ends for two or more values unless the second equals the second element (refuted)."
  },
  {
   "property": "C112",
   "status": "partial",
   "theorems": [
    "C112_found_partial",
    "C112_changed_partial",
    "C112_equal_partial",
    "C112_timeout_partial",
    "C112_ends_partial",
    "C112_not_missed_partial",
    "C112_lost_refuted",
    "C112_overflow_refuted"
   ],
   "note": "found, timeout, termination and a lasting condition are proved; a condition seen by the first loads that does not last is reported as a timeout, and now() + rel_time overflows for long times (refuted). Atomic operations are single steps (sequential consistency)."
  },
  {
   "property": "C113",
   "status": "proved",
   "theorems": [
    "C113_holds",
    "C113_equal",
    "C113_ends"
   ],
   "note": "Full property under sequential consistency; std::atomic_wait is modelled as returning once a load differs."
  },
  {
   "property": "C114",
   "status": "proved",
   "theorems": [
    "C114_first",
    "C114_one_winner",
    "C114_per_reset"
   ],
   "note": "Full property; each call is one atomic exchange."
  },
  {
   "property": "C115",
   "status": "partial",
   "theorems": [
    "C115_live_partial",
    "C115_exact_partial",
    "C115_assign_refuted"
   ],
   "note": "Right for constructions, copies and destructions; operator= has no return statement (refuted)."
  },
  {
   "property": "C116",
   "status": "proved",
   "theorems": [
    "C116_no_lost_update",
    "C116_tickets",
    "C116_one_winner",
    "C116_constexpr",
    "C116_plain",
    "C116_bits",
    "C116_old_or_new"
   ],
   "note": "Full property under sequential consistency, integral T."
  },
  {
   "property": "C117",
   "status": "partial",
   "theorems": [
    "C117_ownership_partial",
    "C117_reset_refuted",
    "C117_use_after_delete_refuted",
    "C117_assign_null_refuted"
   ],
   "note": "Full ownership theorem for programs without reset() of a shared pointer and, for single objects, without assigning null to one; those leave a dangling owner (refuted). Pointers stored inside the managed objects are not modelled."
  },
  {
   "property": "C118",
   "status": "partial",
   "theorems": [
    "C118_filter",
    "C118_take_until",
    "C118_every",
    "C118_take_while_refuted"
   ],
   "note": "TakeWhile is refuted: it drops the leading elements that satisfy the predicate and keeps the rest (DropWhile). Filter, TakeUntil and Every are proved for every range; the meaning of TakeWhile is proved as what it does instead."
  },
  {
   "property": "C119",
   "status": "partial",
   "theorems": [
    "C119_map_partial",
    "C119_map_visits_partial",
    "C119_map_value",
    "C119_projection_refuted"
   ],
   "note": "Refuted for projections over ranges: dereferencing ignores the projection. Proved for the identity projection (any projection has no effect)."
  },
  {
   "property": "C120",
   "status": "partial",
   "theorems": [
    "C120_take_partial",
    "C120_skip_partial",
    "C120_drop_while",
    "C120_drop_until",
    "C120_take_huge_refuted",
    "C120_skip_huge_refuted"
   ],
   "note": "Proved for counts below 2^63. For larger counts (npos) refuted: the conversion to ptrdiff_t is negative, Skip moves backwards and Take never reaches its end. The branches for input-only iterators are not modelled."
  },
  {
   "property": "C121",
   "status": "partial",
   "theorems": [
    "C121_chunk_partial",
    "C121_count",
    "C121_last_refuted",
    "C121_zero_refuted"
   ],
   "note": "Proved when the chunk size divides the length. Otherwise refuted: the last, shorter chunk is dereferenced past the end; chunk size 0 never ends. The number of chunks is proved in all cases."
  },
  {
   "property": "C122",
   "status": "partial",
   "theorems": [
    "C122_slide_partial",
    "C122_empty",
    "C122_short_refuted"
   ],
   "note": "Proved when the range has at least w elements or none. Refuted for non-empty shorter ranges: undefined behaviour."
  },
  {
   "property": "C123",
   "status": "partial",
   "theorems": [
    "C123_zip",
    "C123_distance_partial",
    "C123_enumerate_partial",
    "C123_truncated_refuted",
    "C123_count_refuted",
    "C123_enumerate_count_refuted"
   ],
   "note": "Elements of Zip are proved. Counts are proved if the first range is not longer; refuted otherwise: the distance is that of the first range only. Enumerate is proved up to max_value<T> elements, truncated after that; its distance with size_t is -1. Two ranges; more are not modelled. EnumerateApply is not modelled."
  },
  {
   "property": "C124",
   "status": "partial",
   "theorems": [
    "C124_flatten_partial",
    "C124_concat_partial",
    "C124_flatten_empty_refuted",
    "C124_concat_empty_refuted"
   ],
   "note": "Flatten is proved if no inner range is empty, Concat if no empty range precedes a non-empty one; otherwise both are undefined behaviour (refuted). Inner ranges are arrays."
  },
  {
   "property": "C125",
   "status": "proved",
   "theorems": [
    "C125_unique"
   ],
   "note": ""
  },
  {
   "property": "C126",
   "status": "partial",
   "theorems": [
    "C126_split",
    "C126_split_range_partial",
    "C126_long_delimiter_refuted",
    "C126_count_refuted"
   ],
   "note": "Proved for values, predicates and one-element ranges. Refuted for longer delimiter ranges (only one element is skipped) and for counting (std::distance increments without dereferencing, which uses an empty optional). Over arrays."
  },
  {
   "property": "C127",
   "status": "proved",
   "theorems": [
    "C127_find",
    "C127_find_if",
    "C127_contains",
    "C127_first",
    "C127_count",
    "C127_count_if",
    "C127_sum",
    "C127_sum_unsigned",
    "C127_to_array"
   ],
   "note": "Sum for integral types; To for arrays."
  },
  {
   "property": "C128",
   "status": "partial",
   "theorems": [
    "C128_iota",
    "C128_distance_partial",
    "C128_distance_overflow_refuted",
    "C128_count_unsigned"
   ],
   "note": "The elements are proved for all bounds first <= last; the distance if last - first does not overflow the promoted type and ptrdiff_t (C128_distance_partial); for unsigned types the count is always right (C128_count_unsigned), for signed types it is undefined otherwise (C128_distance_overflow_refuted)."
  },
  {
   "property": "C129",
   "status": "proved",
   "theorems": [
    "C129_reverse",
    "C129_twice"
   ],
   "note": ""
  },
  {
   "property": "C130",
   "status": "proved",
   "theorems": [
    "C130_loop",
    "C130_array",
    "C130_pipeline"
   ],
   "note": ""
  },
  {
   "property": "C131",
   "status": "partial",
   "theorems": [
    "C131_step_partial",
    "C131_history_partial",
    "C131_new"
   ],
   "note": "Counts n < 2^63 (larger ones: C133), assign(n,u) of a value outside of the vector (C142). Allocators are equal, constructors and the allocator do not throw; positions must be inside the vector. emplace names a class temp_value that no header defines; the model takes it to hold the value."
  },
  {
   "property": "C132",
   "status": "partial",
   "theorems": [
    "C132_throws_partial",
    "C132_never_too_long"
   ],
   "note": "Both directions for counts below 2^63; refuted above in C133."
  },
  {
   "property": "C133",
   "status": "partial",
   "theorems": [
    "C133_append_refuted",
    "C133_insert_refuted"
   ],
   "note": "Refuted: if size() + n wraps around 2^64, append and insert write outside of the new buffer."
  },
  {
   "property": "C134",
   "status": "proved",
   "theorems": [
    "C134_stable",
    "C134_reserve",
    "C134_shrink",
    "C134_push",
    "C134_amortised"
   ],
   "note": ""
  },
  {
   "property": "C135",
   "status": "proved",
   "theorems": [
    "C135_insert",
    "C135_insert_n",
    "C135_insert_range",
    "C135_erase",
    "C135_erase_range"
   ],
   "note": "emplace names a class temp_value that no header defines, so it does not compile when used; the model takes it to hold the value."
  },
  {
   "property": "C136",
   "status": "proved",
   "theorems": [
    "C136_count",
    "C136_range",
    "C136_input",
    "C136_copy",
    "C136_copy_assign",
    "C136_move_assign",
    "C136_move_swap",
    "C136_destroy"
   ],
   "note": ""
  },
  {
   "property": "C137",
   "status": "proved",
   "theorems": [
    "C137_at",
    "C137_index",
    "C137_front",
    "C137_back",
    "C137_size",
    "C137_pop_back_value"
   ],
   "note": ""
  },
  {
   "property": "C138",
   "status": "proved",
   "theorems": [
    "C138_equal",
    "C138_less"
   ],
   "note": ""
  },
  {
   "property": "C139",
   "status": "proved",
   "theorems": [
    "C139_erase_if"
   ],
   "note": ""
  },
  {
   "property": "C140",
   "status": "partial",
   "theorems": [
    "C140_resize_partial",
    "C140_resize_refuted",
    "C140_leak_refuted",
    "C140_append_partial",
    "C140_append_throws",
    "C140_append_storage",
    "C140_append_refuted"
   ],
   "note": "Proved if the result is n or not above the old size (trivial types), and for append_and_overwrite without overflow. Refuted: a result between the old size and n destroys in the wrong direction (undefined behaviour), a result n below the old size of a non-trivial type leaks, and append_and_overwrite gives too little storage when size() + n wraps around."
  },
  {
   "property": "C141",
   "status": "partial",
   "theorems": [
    "C141_block_refuted",
    "C141_nothing"
   ],
   "note": "Refuted: for a non-empty range block_append_from never returns normally, since cur_size is advanced before the copying loop compares it; nothing is ever copied."
  },
  {
   "property": "C142",
   "status": "partial",
   "theorems": [
    "C142_assign_partial",
    "C142_assign_refuted"
   ],
   "note": "Proved when n <= capacity(); refuted when the vector reallocates: u is destroyed before it is copied."
  },
  {
   "property": "C143",
   "status": "partial",
   "theorems": [
    "C143_deque_partial",
    "C143_objects_partial",
    "C143_shift_refuted",
    "C143_reserve_refuted",
    "C143_input"
   ],
   "note": "Proved for trivially movable types over any history below 2^63 elements, and for other types when no push has to shift elements. Refuted: such a push assigns to raw storage, and reserve has its condition the wrong way around. std::max is read where the header has an unqualified max."
  },
  {
   "property": "C144",
   "status": "partial",
   "theorems": [
    "C144_iota_partial",
    "C144_down_refuted"
   ],
   "note": "Proved for positive steps if all values and n fit T. Refuted for steps <= 0 with the default comparison: nothing is written but n is reported (with the default Comp); an n that does not fit T is converted first (see the example with unsigned char and 300)."
  },
  {
   "property": "C145",
   "status": "partial",
   "theorems": [
    "C145_add_partial",
    "C145_sub_partial",
    "C145_get",
    "C145_steps_partial",
    "C145_increments",
    "C145_refuted",
    "C145_empty_refuted"
   ],
   "note": "Proved whenever position + offset is not a negative multiple of the size, and for all histories of ++ and -- on at least two elements. Refuted: a negative multiple lands on the end position, which cannot be dereferenced (with one element already --); on an empty container ++ and -- divide by zero."
  },
  {
   "property": "C146",
   "status": "partial",
   "theorems": [
    "C146_refuted"
   ],
   "note": "Refuted: ++ never reaches the end position, so the loop over a non-empty container does not terminate."
  },
  {
   "property": "C147",
   "status": "partial",
   "theorems": [
    "C147_increments",
    "C147_add",
    "C147_back",
    "C147_loop_partial",
    "C147_sub_refuted",
    "C147_difference_refuted",
    "C147_order"
   ],
   "note": "Proved for ++, --, += and +, and for loops when the chunk size divides the length (otherwise the loop leaves the range). Refuted: -= and - move forward, and the difference counts elements, not chunks."
  },
  {
   "property": "C148",
   "status": "partial",
   "theorems": [
    "C148_add_partial",
    "C148_sub_partial",
    "C148_add_assign",
    "C148_sub_assign",
    "C148_get",
    "C148_order",
    "C148_loop",
    "C148_difference_partial",
    "C148_to_end_refuted",
    "C148_difference_refuted",
    "C148_unchecked_refuted",
    "C148_back"
   ],
   "note": "Proved for positions inside the range. Refuted with debug checks: begin + size aborts, a negative difference aborts, and *end and ++end pass the checks."
  },
  {
   "property": "C149",
   "status": "proved",
   "theorems": [
    "C149_loop"
   ],
   "note": ""
  },
  {
   "property": "C150",
   "status": "partial",
   "theorems": [
    "C150_loop_partial",
    "C150_refuted"
   ],
   "note": "Proved for all elements but the first. Refuted: the constructor ignores the search result, so the first element is always visited, with index -1."
  },
  {
   "property": "C151",
   "status": "proved",
   "theorems": [
    "C151_distance",
    "C151_defined"
   ],
   "note": ""
  },
  {
   "property": "C152",
   "status": "partial",
   "theorems": [
    "C152_increments",
    "C152_back",
    "C152_add",
    "C152_sub",
    "C152_difference_partial",
    "C152_range_partial",
    "C152_range_refuted",
    "C152_order_refuted",
    "C152_unsigned_order_refuted",
    "C152_add_assign_refuted",
    "C152_sub_assign_refuted"
   ],
   "note": "Proved: ++, --, +, - for every type, differences and ranges for signed types. Refuted: += ignores the step, unsigned values always compare equal (their ranges are empty), > is always false, <= is false on equal values and == holds for greater values."
  },
  {
   "property": "C153",
   "status": "proved",
   "theorems": [
    "C153_loop",
    "C153_wraps"
   ],
   "note": ""
  },
  {
   "property": "C154",
   "status": "partial",
   "theorems": [
    "C154_loop",
    "C154_distance",
    "C154_add_refuted",
    "C154_sub_refuted",
    "C154_huge_refuted"
   ],
   "note": "The number of copies and ++/-- are proved. Refuted: it + n moves away from the end, as n decrements do."
  },
  {
   "property": "C155",
   "status": "proved",
   "theorems": [
    "C155_loop",
    "C155_uneven",
    "C155_advance",
    "C155_get",
    "C155_step"
   ],
   "note": ""
  },
  {
   "property": "C156",
   "status": "proved",
   "theorems": [
    "C156_append",
    "C156_function",
    "C156_sorted"
   ],
   "note": ""
  },
  {
   "property": "C157",
   "status": "partial",
   "theorems": [
    "C157_get_partial",
    "C157_unchecked",
    "C157_moves_refuted",
    "C157_past_end_refuted",
    "C157_postfix_refuted"
   ],
   "note": "Proved for dereferencing (any enabled check enables it). Refuted: the increment and decrement checks are never active and the postfix operators return the moved copy and leave the iterator in place."
  },
  {
   "property": "C158",
   "status": "partial",
   "theorems": [
    "C158_loop",
    "C158_equality",
    "C158_at_partial",
    "C158_at_refuted",
    "C158_order_refuted",
    "C158_add",
    "C158_add_refuted"
   ],
   "note": "Loops and equality are proved. Refuted: at never returns the first argument and <, >, <=, >= compare the argument counts."
  },
  {
   "property": "C159",
   "status": "partial",
   "theorems": [
    "C159_history_partial",
    "C159_assign_refuted",
    "C159_leak_refuted"
   ],
   "note": "Proved for all histories in which copy assignment replaces a value of the same type (or an emptied one) and move assignment targets are empty. Refuted otherwise: copy assignment deletes the old value as the wrong type (UB) and move assignment leaks it."
  },
  {
   "property": "C160",
   "status": "partial",
   "theorems": [
    "C160_inserts_partial",
    "C160_full",
    "C160_slots",
    "C160_no_slots_refuted"
   ],
   "note": "Proved for tables with slots, including what a full table does and that slots are stable. Refuted: with no slots insert and exists divide by zero. remove, erase, size and iteration do not compile when used or are not offered, so they are not modelled."
  },
  {
   "property": "C161",
   "status": "proved",
   "theorems": [
    "C161_inserts",
    "C161_find_empty"
   ],
   "note": ""
  },
  {
   "property": "C162",
   "status": "partial",
   "theorems": [
    "C162_set_partial",
    "C162_map_partial",
    "C162_set_loses_refuted",
    "C162_set_returns_refuted",
    "C162_map_loses_refuted"
   ],
   "note": "Proved (for sets and maps) if no two keys of the history start at the same slot. Refuted otherwise, for any two such keys: erasing one makes the other unreachable (for the map it is still counted), and an erased key can be found again."
  },
  {
   "property": "C163",
   "status": "partial",
   "theorems": [
    "C163_absent_refuted",
    "C163_absent_full",
    "C163_loop_refuted"
   ],
   "note": "Refuted, in full generality: find and erase of an absent key give an iterator to an empty slot while there is room; a loop over a set with any key in it never finishes properly (the iterator reads past the array)."
  },
  {
   "property": "C164",
   "status": "partial",
   "theorems": [
    "C164_map_partial",
    "C164_items",
    "C164_full_refuted",
    "C164_no_slots_refuted"
   ],
   "note": "The map properties are proved for all histories without erase (C162 covers erase). Refuted: an insertion into a full map, and any operation on a map without slots, is undefined behaviour instead of an error."
  },
  {
   "property": "C165",
   "status": "partial",
   "theorems": [
    "C165_absent_refuted"
   ],
   "note": "Refuted for every history without erase, every absent key and every map with room: find gives an iterator to an empty slot. (find of a present key: C164.)"
  },
  {
   "property": "C166",
   "status": "partial",
   "theorems": [
    "C166_map_partial",
    "C166_same_hash",
    "C166_index",
    "C166_hash",
    "C166_same_hash_refuted"
   ],
   "note": "Proved if the stored hashes of the keys in question differ. Refuted otherwise: keys are not compared, so another key with the same stored hash is found. Adding a key to a full table and reading an absent key of a full table are undefined (part of the theorem)."
  },
  {
   "property": "C167",
   "status": "partial",
   "theorems": [
    "C167_map_partial",
    "C167_same_hash",
    "C167_positions",
    "C167_index",
    "C167_same_hash_refuted"
   ],
   "note": "Proved for the 64-bit hash size, if the stored hashes of the keys in question differ. Refuted otherwise: keys are not compared."
  },
  {
   "property": "C168",
   "status": "partial",
   "theorems": [
    "C168_finds_partial",
    "C168_ends_partial",
    "C168_never_ends_refuted",
    "C168_default_key_refuted"
   ],
   "note": "Proved: what a constructed table finds; the construction ends if the hashes differ modulo the number of slots, with a bound on the number of salts tried. Refuted: it never ends if two hashes agree modulo the number of slots (e.g. keys 1 and 5 hashed to themselves), and Key{ } can be found without having been inserted."
  },
  {
   "property": "C169",
   "status": "partial",
   "theorems": [
    "C169_constructed",
    "C169_loops",
    "C169_elements",
    "C169_ends",
    "C169_crend_refuted"
   ],
   "note": "Proved for both span specialisations, but refuted for one loop: crend of span<T const> is built from cend, so a loop from crbegin to crend visits nothing."
  },
  {
   "property": "C170",
   "status": "partial",
   "theorems": [
    "C170_history_partial",
    "C170_subspan_past",
    "C170_too_many_refuted"
   ],
   "note": "Proved for all histories whose counts do not exceed the size. Refuted beyond: remove_prefix, remove_suffix and pop_front( n ) do not check, so the size wraps around (or the pointer leaves the array), and pop_back( n ) throws instead."
  },
  {
   "property": "C171",
   "status": "partial",
   "theorems": [
    "C171_constructed",
    "C171_loops",
    "C171_elements",
    "C171_ends",
    "C171_history",
    "C171_find",
    "C171_add_back",
    "C171_end_refuted"
   ],
   "note": "Proved except for the assertion of operator[] of the non-const contiguous_view, which lets the index size( ) through (C171_end_refuted)."
  },
  {
   "property": "C172",
   "status": "partial",
   "theorems": [
    "C172_contiguous_partial",
    "C172_iter_partial",
    "C172_contiguous_refuted",
    "C172_iter_refuted"
   ],
   "note": "Proved for offset 0. Refuted for every other offset: the end is computed from the first element instead of from the offset, so the result is too short by offset elements, or its size wraps around."
  },
  {
   "property": "C173",
   "status": "partial",
   "theorems": [
    "C173_constructed",
    "C173_reads",
    "C173_history_partial",
    "C173_find",
    "C173_add_back"
   ],
   "note": "Proved for all histories, except calls that wrongly fail an assertion (C174)."
  },
  {
   "property": "C174",
   "status": "partial",
   "theorems": [
    "C174_refuted"
   ],
   "note": "Refuted: the assertion of remove_prefix( n, dont_clip_to_bounds ) uses < instead of <=; pop_front_until and pop_front_while with discard call remove_prefix( ), which asserts that the view is not empty, when nothing is left."
  },
  {
   "property": "C175",
   "status": "partial",
   "theorems": [
    "C175_constructed",
    "C175_reads",
    "C175_history_partial",
    "C175_too_many_refuted"
   ],
   "note": "Proved for all histories whose remove_prefix and remove_suffix counts do not exceed the size. Refuted beyond: the iterators cross, and a loop from begin to end leaves the view."
  },
  {
   "property": "C176",
   "status": "proved",
   "theorems": [
    "C176_contiguous_equal",
    "C176_iter_equal",
    "C176_less"
   ],
   "note": ""
  },
  {
   "property": "C177",
   "status": "proved",
   "theorems": [
    "C177_write_to_span",
    "C177_span_writer",
    "C177_too_long",
    "C177_ntz",
    "C177_rest",
    "C177_construct"
   ],
   "note": ""
  },
  {
   "property": "C178",
   "status": "proved",
   "theorems": [
    "C178_keeps"
   ],
   "note": ""
  },
  {
   "property": "C179",
   "status": "partial",
   "theorems": [
    "C179_history",
    "C179_no_leak",
    "C179_order",
    "C179_le_refuted",
    "C179_deleter",
    "C179_deleter_moved_refuted",
    "C179_deleter_swapped_refuted"
   ],
   "note": "Proved for all histories, with the deleter left as constructed. Refuted: operator<= is operator>= (C179_le_refuted); a move or swap does not take the deleter along."
  },
  {
   "property": "C180",
   "status": "partial",
   "theorems": [
    "C180_history",
    "C180_borrowed",
    "C180_borrowed_moved_refuted",
    "C180_reset_to_refuted"
   ],
   "note": "Proved for all histories of owning pointers without reset( p ). Refuted: moving a pointer that does not own makes the new one own, because release( ) sets the flag before it is read; reset( p ) of an owning pointer stores p, then deletes it and keeps it."
  },
  {
   "property": "C181",
   "status": "proved",
   "theorems": [
    "C181_history"
   ],
   "note": "Proved for all histories."
  },
  {
   "property": "C182",
   "status": "partial",
   "theorems": [
    "C182_value_ptr",
    "C182_heap_value",
    "C182_copy_null_refuted",
    "C182_assign_rvalue",
    "C182_compare",
    "C182_heap_value_moved_refuted"
   ],
   "note": "Proved for all histories that copy only full ones. Refuted: copying an empty value_ptr, assigning an rvalue to one, and copying from or assigning to a moved-from heap_value dereference null. Copy assignment and release of value_ptr do not compile."
  },
  {
   "property": "C183",
   "status": "partial",
   "theorems": [
    "C183_history_partial",
    "C183_reset_refuted",
    "C183_empty_refuted"
   ],
   "note": "Partial: proved for histories in which reset( ) is applied only to empty resources and move assignment and release only to full ones. Refuted otherwise: reset( ) keeps the handle, so it is released again; release( ) and move assignment of an empty one read an absent value."
  },
  {
   "property": "C184",
   "status": "partial",
   "theorems": [
    "C184_history",
    "C184_at_refuted",
    "C184_empty_refuted"
   ],
   "note": "Proved for all histories. Refuted: at throws for every valid position and reads for invalid ones; an array without elements is not empty( ). The constructor from a size and a value does not compile."
  },
  {
   "property": "C185",
   "status": "partial",
   "theorems": [
    "C185_history",
    "C185_move_refuted",
    "C185_assign_refuted",
    "C185_run_cancelled",
    "C185_success",
    "C185_success_nested_refuted"
   ],
   "note": "Proved for all histories without moves. Refuted: a moved-from guard still runs the handler; assignment drops the handler of the target; on_exit_success never runs while another exception is in flight, even when its own scope is left normally."
  },
  {
   "property": "C186",
   "status": "partial",
   "theorems": [
    "C186_start",
    "C186_store_first",
    "C186_store_second",
    "C186_store_refuted",
    "C186_assign",
    "C186_copy",
    "C186_clear",
    "C186_destroys",
    "C186_visit",
    "C186_which"
   ],
   "note": "Proved where the types are trivially assignable or the type does not change. Refuted otherwise: the store assigns to an object that does not exist."
  },
  {
   "property": "C187",
   "status": "partial",
   "theorems": [
    "C187_sbo",
    "C187_twice",
    "C187_const_refuted"
   ],
   "note": "Proved, except that get of a const storage fails its assertion for every small object in a debug build (C187_const_refuted)."
  },
  {
   "property": "C188",
   "status": "partial",
   "theorems": [
    "C188_make",
    "C188_assign",
    "C188_history",
    "C188_default_refuted"
   ],
   "note": "Proved from any valid state; a default constructed one is not validated (C188_default_refuted)."
  },
  {
   "property": "C189",
   "status": "proved",
   "theorems": [
    "C189_move",
    "C189_move_assign",
    "C189_reset"
   ],
   "note": "Proved."
  },
  {
   "property": "C190",
   "status": "partial",
   "theorems": [
    "C190_optional",
    "C190_nullopt",
    "C190_value",
    "C190_value_left",
    "C190_nullopt_ge_refuted",
    "C190_value_ge_refuted",
    "C190_access"
   ],
   "note": "Proved for 34 of the 36 operators. Refuted for nullopt >= optional and value >= optional, which compute <."
  },
  {
   "property": "C191",
   "status": "partial",
   "theorems": [
    "C191_compare",
    "C191_empty_refuted",
    "C191_copy",
    "C191_slice_refuted"
   ],
   "note": "Proved, except: two empty ones compare as less and not >= (C191_empty_refuted), and a copy of an object of a derived class is sliced (C191_slice_refuted)."
  },
  {
   "property": "C192",
   "status": "partial",
   "theorems": [
    "C192_history",
    "C192_states",
    "C192_get",
    "C192_from_code",
    "C192_equal",
    "C192_from_code_as_refuted",
    "C192_throwing_copy_refuted",
    "C192_made",
    "C192_bool",
    "C192_exception_ptr"
   ],
   "note": "Proved. Refuted: expected_from_code< Result > discards the result; a copy that throws while the value is set can leave the expected valueless, where get is undefined."
  },
  {
   "property": "C193",
   "status": "partial",
   "theorems": [
    "C193_from_code",
    "C193_set",
    "C193_empty",
    "C193_void_assign_partial",
    "C193_void_assign_refuted",
    "C193_void"
   ],
   "note": "Proved. Refuted: copy assignment of checked_expected_t< void > keeps the old exception when the source has none; C193_void_assign_partial states the remaining cases."
  },
  {
   "property": "C194",
   "status": "partial",
   "theorems": [
    "C194_moves",
    "C194_arrow",
    "C194_destroyed",
    "C194_distance",
    "C194_deref_refuted",
    "C194_index_refuted",
    "C194_destroyed_add_refuted",
    "C194_from_start",
    "C194_destroy"
   ],
   "note": "Moves, ->, destroyed pointers and differences proved. Refuted: operator* and operator[] always read the first element; += of a destroyed pointer is accepted; the difference to the end pointer is refused."
  },
  {
   "property": "C195",
   "status": "partial",
   "theorems": [
    "C195_never_refuted"
   ],
   "note": "Refuted: it never returns on a range that is not empty."
  },
  {
   "property": "C196",
   "status": "partial",
   "theorems": [
    "C196_values",
    "C196_div_zero",
    "C196_far_shift",
    "C196_uint8_div_refuted",
    "C196_types",
    "C196_provided",
    "C196_not",
    "C196_inc_dec",
    "C196_complement",
    "C196_negate_refuted",
    "C196_ranges"
   ],
   "note": "Every overload is a row of UintTypes.overloads, transcribed by script from the header and modelled by one evaluator. C196_uint8_div_refuted: uint8_t / UInt64 reduces the divisor to 32 bits. C196_negate_refuted: unary - of UInt64 2^63 and UInt32 2^31 overflows a signed integer. Four overloads (lines 2559, 2564, 2592, 2597) return UInt8 although the other operand has 64 bits."
  },
  {
   "property": "C197",
   "status": "partial",
   "theorems": [
    "C197_rotate_left",
    "C197_rotate_right",
    "C197_rotate_refuted"
   ],
   "note": "C197_rotate_refuted: rotating a UInt64 or UInt32 by 0 or by its width shifts by the width, which is undefined (the static_assert allows both); more than the width is undefined for all."
  },
  {
   "property": "C198",
   "status": "partial",
   "theorems": [
    "C198_set_bit",
    "C198_set_bit_high_refuted",
    "C198_get_bit",
    "C198_mask"
   ],
   "note": "The statement of C198_set_bit shows that for UInt64 the bits 32 to 63 are cleared too (C198_set_bit_refuted is an instance), and C198_set_bit_high_refuted that N >= 32 is undefined. get_bit<N> with N = width passes the static_assert and is undefined for UInt64 and UInt32."
  },
  {
   "property": "C199",
   "status": "partial",
   "theorems": [
    "C199_buffer",
    "C199_buffer_short",
    "C199_literals_refuted",
    "C199_limits",
    "C199_to_uint"
   ],
   "note": "C199_literals_refuted: with assert active, 65535_u16 and 255_u8 are rejected."
  },
  {
   "property": "C200",
   "status": "partial",
   "theorems": [
    "C200_history",
    "C200_reserve",
    "C200_range_partial",
    "C200_range_refuted",
    "C200_resize_refuted",
    "C200_push_self_partial",
    "C200_push_self_refuted",
    "C200_back"
   ],
   "note": "Proved for all histories of the listed operations (C200_history). Refuted parts: push_back of an own element when the Vector is full reads a freed block; resize to a larger size and construction from a range assign to memory without objects when the type is not trivial."
  },
  {
   "property": "C201",
   "status": "partial",
   "theorems": [
    "C201_copy_partial",
    "C201_copy_use_partial",
    "C201_copy_use_refuted",
    "C201_move",
    "C201_copy_assign_refuted",
    "C201_move_assign_refuted"
   ],
   "note": "Copy construction and moves are proved; refuted: a copy claims the capacity of the original although its block is sized for size(), so pushing onto it writes outside; copy and move assignment never free the old block of the target."
  },
  {
   "property": "C202",
   "status": "partial",
   "theorems": [
    "C202_insert_partial",
    "C202_insert_refuted",
    "C202_insert_raw_refuted"
   ],
   "note": "Proved at the end and for length <= position <= 2*length; refuted for every other position whenever the elements are distinct, and for types that are not trivial (assignment to raw memory)."
  },
  {
   "property": "C203",
   "status": "partial",
   "theorems": [
    "C203_equal",
    "C203_unequal_refuted",
    "C203_unequal_sizes_refuted"
   ],
   "note": "operator== proved; operator!= refuted: false for all Vectors of equal size, and it reads past the end of a shorter right operand."
  },
  {
   "property": "C204",
   "status": "partial",
   "theorems": [
    "C204_heap_array_history",
    "C204_heap_array_access",
    "C204_heap_array_ends_partial",
    "C204_heap_array_find_partial",
    "C204_heap_array_new_has_spare",
    "C204_heap_array_assign_has_spare",
    "C204_heap_array_find_in_copy_refuted",
    "C204_heap_array_move_construct_refuted",
    "C204_heap_array_move_assign_leak_refuted",
    "C204_heap_array_bool_refuted"
   ],
   "note": "Contents, at, [] and absence of double deletion are proved for all histories; no leak without move assignment; end( ), back, empty, find_first_of without the move constructor and with the spare element. Refuted: the move constructor loses end( ) of both objects; move assignment leaks the target's array; find_first_of in a copy writes behind the array; operator bool is inverted."
  },
  {
   "property": "C205",
   "status": "partial",
   "theorems": [
    "C205_fixed_array_history",
    "C205_fixed_array_access",
    "C205_fixed_array_release",
    "C205_fixed_array_clear_refuted"
   ],
   "note": "Proved for all histories without clear( ). Refuted: after clear( ) the object still points to the deleted array, so destroying, clearing or assigning to it deletes it again."
  },
  {
   "property": "C206",
   "status": "partial",
   "theorems": [
    "C206_carray_make",
    "C206_carray_make_too_many_refuted",
    "C206_carray_at",
    "C206_carray_front_back",
    "C206_carray_reverse_refuted",
    "C206_carray_rbegin_refuted",
    "C206_carray_get"
   ],
   "note": "Construction from at most N values, at, front and back are proved. Refuted: more than N values are written behind the object; rbegin( ) refers to the last but one element and reverse iteration leaves the array."
  },
  {
   "property": "C207",
   "status": "proved",
   "theorems": [
    "C207_ordered_map_history",
    "C207_ordered_map_insert",
    "C207_ordered_map_order"
   ],
   "note": "The constructors from ranges and initializer lists pass a pair to find( ) and are outside the model; std::vector is a list."
  },
  {
   "property": "C208",
   "status": "partial",
   "theorems": [
    "C208_quick_sort_partial",
    "C208_quick_sort_three_partial",
    "C208_quick_sort_refuted",
    "C208_quick_sort_stack_refuted"
   ],
   "note": "Proved: below 512 elements the result is a permutation with a smallest element first; up to three elements are sorted. Refuted: the loop returns at the first segment of at most one element, so for every std::partition some five numbers stay unsorted; the stack of 256 segments overflows for suitable ranges of 512 or more elements."
  },
  {
   "property": "C209",
   "status": "partial",
   "theorems": [
    "C209_classes",
    "C209_upper",
    "C209_lower",
    "C209_char_versions",
    "C209_strings",
    "C209_wide_strings_partial",
    "C209_wide_strings_refuted"
   ],
   "note": "_refuted: AsciiUpper / AsciiLower on a wide string pass every character through char, so each character from 256 to 2^15-1 is changed; _partial: wide strings of ASCII characters only. Everything else in full."
  },
  {
   "property": "C210",
   "status": "partial",
   "theorems": [
    "C210_hex_integer",
    "C210_hex_char",
    "C210_hex_lc",
    "C210_hex_range",
    "C210_hex_str",
    "C210_hex_literal",
    "C210_hex_injective",
    "C210_hex_object_partial",
    "C210_hex_object_refuted",
    "C210_hex_objects_refuted"
   ],
   "note": "_refuted: hex of an object that is not an integer leaves a gap after every byte when writing through a position (a buffer of exactly the right size is overrun); hex of a range of such objects encodes the output buffer instead of the input. _partial: such an object through a back_inserter."
  },
  {
   "property": "C211",
   "status": "partial",
   "theorems": [
    "C211_bitcount_value",
    "C211_bitcount_refuted",
    "C211_bitcount_negative_refuted",
    "C211_bitcount_all"
   ],
   "note": "_refuted: the mask is inverted; the result is 2*(v - popcount v) modulo 2^64, right for 0 and 3 only; negative values never terminate."
  },
  {
   "property": "C212",
   "status": "proved",
   "theorems": [
    "C212_can_fit",
    "C212_narrow_cast"
   ],
   "note": "Every pair of standard integer types; conversion rank is identified with width."
  },
  {
   "property": "C213",
   "status": "partial",
   "theorems": [
    "C213_in_range_partial",
    "C213_in_range_refuted"
   ],
   "note": "_partial: the three operands have the same signedness; _refuted: wrong in both directions for mixed operands."
  },
  {
   "property": "C214",
   "status": "proved",
   "theorems": [
    "C214_value_from_chars",
    "C214_or_all"
   ],
   "note": "to_array_of, the only caller of value_from_chars, does not compile (its static_assert is always false)."
  },
  {
   "property": "C215",
   "status": "proved",
   "theorems": [
    "C215_pack_index_of",
    "C215_pack_index_unique",
    "C215_pack_get",
    "C215_pack_apply",
    "C215_value_is",
    "C215_copy_vector",
    "C215_contains",
    "C215_index_of",
    "C215_pack_index_repeated"
   ],
   "note": "With a repeated type pack_index_of is the last position (C215_pack_index_repeated)."
  },
  {
   "property": "C216",
   "status": "partial",
   "theorems": [
    "C216_equal_to_last_partial",
    "C216_changed_refuted",
    "C216_temporary_refuted"
   ],
   "note": "_partial: the object passed last stays alive and unchanged until the next call; _refuted: a reassigned variable always compares equal, a temporary is read after its destruction."
  },
  {
   "property": "C217",
   "status": "partial",
   "theorems": [
    "C217_concat_any_order",
    "C217_concat_in_order_partial",
    "C217_concat_refuted"
   ],
   "note": "_refuted: the appends are operands of a fold over +, whose evaluation order is unspecified; _partial: evaluation from left to right."
  },
  {
   "property": "C218",
   "status": "partial",
   "theorems": [
    "C218_join_partial",
    "C218_join_empty_refuted",
    "C218_distance_from_begin_partial",
    "C218_distance_refuted",
    "C218_equality",
    "C218_equality_end"
   ],
   "note": "_partial: no string is empty, distance from the beginning only; _refuted: an empty string leads to undefined behaviour, last - first ignores the position of first."
  },
  {
   "property": "C219",
   "status": "partial",
   "theorems": [
    "C219_construction",
    "C219_access",
    "C219_sub_views",
    "C219_copy",
    "C219_resize_partial",
    "C219_resize_refuted"
   ],
   "note": "_partial/_refuted: resize( size( ) ) throws although it would change nothing; everything else is exact. Pointer bounds (the default) only."
  },
  {
   "property": "C220",
   "status": "proved",
   "theorems": [
    "C220_pop_characters",
    "C220_pop_counts",
    "C220_pop_until",
    "C220_try_pop",
    "C220_consume_front"
   ],
   "note": "Exact for every view and needle, the empty needle included."
  },
  {
   "property": "C221",
   "status": "proved",
   "theorems": [
    "C221_compare",
    "C221_operators",
    "C221_compare_substrings"
   ],
   "note": "Exact; characters compare by value."
  },
  {
   "property": "C222",
   "status": "partial",
   "theorems": [
    "C222_find_partial",
    "C222_find_refuted",
    "C222_rfind",
    "C222_find_sets",
    "C222_find_predicates"
   ],
   "note": "_partial: find needs pos <= size( ); _refuted: beyond, find of an empty needle returns pos and find of another one leaves the array. The other functions are exact for every pos."
  },
  {
   "property": "C223",
   "status": "partial",
   "theorems": [
    "C223_search_partial",
    "C223_search_refuted",
    "C223_search_last_refuted",
    "C223_find_last_char_refuted",
    "C223_find_last_not_of_partial",
    "C223_find_last_not_of_refuted"
   ],
   "note": "_refuted: search misses an occurrence at the very end, search_last returns the first occurrence (or pos), find_last_of( c, pos ) looks above pos only, find_last_not_of finds a character equal to the first of the set; _partial: search away from the end, find_last_not_of an empty set."
  },
  {
   "property": "C224",
   "status": "proved",
   "theorems": [
    "C224_starts_ends",
    "C224_to_string"
   ],
   "note": "Exact."
  },
  {
   "property": "C225",
   "status": "partial",
   "theorems": [
    "C225_split",
    "C225_pieces_unique",
    "C225_literal_refuted"
   ],
   "note": "split is exact (the pieces are unique); _refuted: make_string_view( literal ) and split( literal, d ) include the terminating zero."
  },
  {
   "property": "C226",
   "status": "partial",
   "theorems": [
    "C226_start",
    "C226_observations",
    "C226_history",
    "C226_remove_suffix_refuted",
    "C226_pop_back_refuted"
   ],
   "note": "The history theorem covers all calls with existing positions (in debug builds a range erase must not remove everything); _refuted: remove_suffix( n ) with n close to 2^64 appends NULs or, on a full string, writes outside the array; pop_back of an empty string reads outside."
  },
  {
   "property": "C227",
   "status": "partial",
   "theorems": [
    "C227_terminated",
    "C227_restored",
    "C227_erase_refuted"
   ],
   "note": "Holds for every history without erase and is restored by any other successful call; _refuted: erase leaves the erased character behind the end."
  },
  {
   "property": "C228",
   "status": "partial",
   "theorems": [
    "C228_construction",
    "C228_conversion",
    "C228_overlong_refuted",
    "C228_overlong_conversion_refuted",
    "C228_count_refuted",
    "C228_literal_refuted"
   ],
   "note": "Exact up to Capacity characters; _refuted: a longer source gives Capacity + 1 characters without NUL, after which push_back and remove_suffix( 0 ) write outside the array; ( other string, count ) with count > size( ) copies stale characters; make_bounded_string( literal ) includes the NUL."
  },
  {
   "property": "C229",
   "status": "partial",
   "theorems": [
    "C229_substr",
    "C229_copy",
    "C229_beyond",
    "C229_end_refuted"
   ],
   "note": "Exact for pos < size( ); _refuted: pos == size( ) throws, so substr( ) of an empty string throws."
  },
  {
   "property": "C230",
   "status": "partial",
   "theorems": [
    "C230_compare",
    "C230_compare_others",
    "C230_compare_substrings",
    "C230_operators",
    "C230_view_operators",
    "C230_c_strings",
    "C230_array_refuted"
   ],
   "note": "Exact; _refuted: for an array with a NUL inside, array == string and array != string can both be true."
  },
  {
   "property": "C231",
   "status": "partial",
   "theorems": [
    "C231_find_partial",
    "C231_rfind",
    "C231_sets",
    "C231_predicates",
    "C231_pointers",
    "C231_long_set_refuted"
   ],
   "note": "_partial: find needs pos <= size( ); the other functions are exact; _refuted: needle sets of more than Capacity + 1 characters given by pointer are cut."
  },
  {
   "property": "C232",
   "status": "partial",
   "theorems": [
    "C232_full",
    "C232_has_room_refuted",
    "C232_erase_iterator_refuted",
    "C232_erase_all_refuted"
   ],
   "note": "full( ) is exact; _refuted: has_room( count ) is true exactly when there is no room for more than count characters, erase returns a later position, erase( ) throws in debug builds."
  },
  {
   "property": "C233",
   "status": "proved",
   "theorems": [
    "C233_starts_ends",
    "C233_starts_ends_c_strings",
    "C233_concatenation",
    "C233_std_string",
    "C233_split"
   ],
   "note": "Exact."
  },
  {
   "property": "C234",
   "status": "partial",
   "theorems": [
    "C234_split",
    "C234_pieces_unique",
    "C234_combine",
    "C234_inverse",
    "C234_space_partial",
    "C234_space_refuted"
   ],
   "note": "_partial: split without delimiters for characters in -1..255; _refuted: negative characters (plain char) make std::isspace undefined."
  },
  {
   "property": "C235",
   "status": "partial",
   "theorems": [
    "C235_trim_right",
    "C235_trim",
    "C235_trim_left_partial",
    "C235_trim_left_refuted",
    "C235_unique"
   ],
   "note": "trim and trim_right exact; trim_left _partial: empty or with a non-delimiter; _refuted: throws on text of delimiters only."
  },
  {
   "property": "C236",
   "status": "partial",
   "theorems": [
    "C236_char",
    "C236_string_partial",
    "C236_string_refuted"
   ],
   "note": "character version exact; _partial: string of one character; _refuted: exact behaviour for strings (last character is one of the ending)."
  },
  {
   "property": "C237",
   "status": "partial",
   "theorems": [
    "C237_replace",
    "C237_unique",
    "C237_empty_refuted",
    "C237_contains"
   ],
   "note": "_refuted: an empty search text never terminates."
  },
  {
   "property": "C238",
   "status": "partial",
   "theorems": [
    "C238_format",
    "C238_items",
    "C238_kept",
    "C238_colons",
    "C238_index_refuted"
   ],
   "note": "Exact characterisation of all successful results; _refuted: an index without argument is undefined behaviour."
  },
  {
   "property": "C239",
   "status": "partial",
   "theorems": [
    "C239_pieces",
    "C239_unique",
    "C239_joined",
    "C239_equal",
    "C239_empty_delimiter_refuted",
    "C239_postfix_refuted"
   ],
   "note": "_refuted: an empty delimiter never ends the loop; postfix ++ returns the advanced iterator and does not move."
  },
  {
   "property": "C240",
   "status": "partial",
   "theorems": [
    "C240_value",
    "C240_bad_index",
    "C240_safe",
    "C240_no_index_refuted"
   ],
   "note": "As written v1 calls a to_string member the view lacks; modelled with the evident meaning. At most 255 arguments (uint8_t counter). _refuted: {} is argument 0."
  },
  {
   "property": "C241",
   "status": "partial",
   "theorems": [
    "C241_value",
    "C241_pointer_partial",
    "C241_pointer_refuted",
    "C241_escape_refuted",
    "C241_backslashes_refuted"
   ],
   "note": "_partial: pointer formats whose pieces are at most half their length; _refuted: one character by pointer and two or more backslashes overflow the vector, a backslash does not escape."
  },
  {
   "property": "C242",
   "status": "proved",
   "theorems": [
    "C242_safe",
    "C242_inside",
    "C242_finishes",
    "C242_alone"
   ],
   "note": "Sequentially consistent accesses to the counters; memory orders are not modelled. Throw stands for mistakes of the using program (one variable used by two threads)."
  },
  {
   "property": "C243",
   "status": "proved",
   "theorems": [
    "C243_owner",
    "C243_call",
    "C243_memory",
    "C243_once",
    "C243_no_leak"
   ],
   "note": "As C242. Functions that destroy handles while they are called are not modelled."
  },
  {
   "property": "C244",
   "status": "proved",
   "theorems": [
    "C244_empty",
    "C244_gone",
    "C244_lock"
   ],
   "note": "As C242."
  },
  {
   "property": "C245",
   "status": "partial",
   "theorems": [
    "C245_value_partial",
    "C245_object_refuted"
   ],
   "note": "_partial: callables passed as temporaries (rvalues); _refuted: a named callable is held by reference (function_child<F &>). Callables without resources; with resources see C246."
  },
  {
   "property": "C246",
   "status": "partial",
   "theorems": [
    "C246_careful_partial",
    "C246_copy_refuted",
    "C246_assign_refuted"
   ],
   "note": "_partial: histories that never copy or assign a callable with a resource; _refuted: copies and moves copy the bytes (double release), assignment of a callable destroys the stored one."
  },
  {
   "property": "C247",
   "status": "proved",
   "theorems": [
    "C247_values"
   ],
   "note": "Full. The converting constructors from poly_value<Child> do not compile and are not modelled."
  },
  {
   "property": "C248",
   "status": "partial",
   "theorems": [
    "C248_history_partial",
    "C248_new_id_partial",
    "C248_ids_spread",
    "C248_full_refuted",
    "C248_lost_edge_refuted",
    "C248_valid_ids"
   ],
   "note": "_partial: as long as the ids added so far start at different slots (C248_ids_spread: always for the first n ids with an identity hash, unless 59 divides n) and removed nodes have no edges; _refuted: another node for a full graph is undefined, a removed edge can lose another one when ids share slots."
  },
  {
   "property": "C249",
   "status": "partial",
   "theorems": [
    "C249_bare_partial",
    "C249_edges_refuted",
    "C249_lost_node_refuted"
   ],
   "note": "_partial: nodes without edges; _refuted: remove_node of a node with any edge reads past its edge set (C163); with more additions than slots a removal can lose another node."
  },
  {
   "property": "C250",
   "status": "partial",
   "theorems": [
    "C250_ne",
    "C250_lt",
    "C250_eq_partial",
    "C250_eq_refuted",
    "C250_eq_graphs_refuted"
   ],
   "note": "_refuted: operator== uses or instead of and, so all nodes of one graph are equal, and so are nodes of different graphs with the same id; != and < are right."
  },
  {
   "property": "C251",
   "status": "partial",
   "theorems": [
    "C251_meaning_partial",
    "C251_quote_refuted",
    "C251_unique",
    "C251_argc"
   ],
   "note": "_partial: unless a value is a single quotation mark; _refuted: that value is lost (the mark counts as both the opening and the closing one)."
  },
  {
   "property": "C252",
   "status": "proved",
   "theorems": [
    "C252_by_name",
    "C252_first_named",
    "C252_command_line",
    "C252_by_position"
   ],
   "note": ""
  },
  {
   "property": "C253",
   "status": "partial",
   "theorems": [
    "C253_call",
    "C253_other",
    "C253_set",
    "C253_set_abort",
    "C253_same_type_refuted",
    "C253_allow_empty_refuted"
   ],
   "note": "_refuted: in a table whose functions all have one type the index is not checked (undefined behaviour), and operator( ) ignores its template parameter allow_empty."
  },
  {
   "property": "C254",
   "status": "proved",
   "theorems": [
    "C254_first_difference",
    "C254_equal"
   ],
   "note": ""
  },
  {
   "property": "C255",
   "status": "proved",
   "theorems": [
    "C255_positions",
    "C255_out_of_range"
   ],
   "note": ""
  },
  {
   "property": "C256",
   "status": "partial",
   "theorems": [
    "C256_values",
    "C256_write_refuted"
   ],
   "note": "C256_values covers the reads; _refuted: an assignment through the iterator changes the cached copy only."
  },
  {
   "property": "C257",
   "status": "partial",
   "theorems": [
    "C257_units_refuted",
    "C257_modulo"
   ],
   "note": "_refuted: the two families are exchanged, for every unit and every value above 0; C257_modulo gives the exact result, modulo 2^64."
  },
  {
   "property": "C258",
   "status": "partial",
   "theorems": [
    "C258_do_n",
    "C258_static",
    "C258_static_arg_partial",
    "C258_remainder_refuted",
    "C258_order_refuted"
   ],
   "note": "_partial: for the template form if the step divides the count and the calls commute; _refuted: otherwise the last multiple is left out, and the calls are operands of +, so their order is unspecified."
  },
  {
   "property": "C259",
   "status": "partial",
   "theorems": [
    "C259_held",
    "C259_empty_detected",
    "C259_valueless_refuted"
   ],
   "note": "_refuted: std::variant has no member variant_npos, so visit never finds it empty, and visit<Result> tests an unsigned index for being negative; both are undefined behaviour then. A class with that member gives the exception."
  },
  {
   "property": "C260",
   "status": "proved",
   "theorems": [
    "C260_cast",
    "C260_can_extract"
   ],
   "note": ""
  },
  {
   "property": "C261",
   "status": "proved",
   "theorems": [
    "C261_get",
    "C261_in_order",
    "C261_stops",
    "C261_apply_at"
   ],
   "note": ""
  },
  {
   "property": "C262",
   "status": "proved",
   "theorems": [
    "C262_tuples",
    "C262_tuples_undefined",
    "C262_value_right",
    "C262_value_left"
   ],
   "note": "Where the operator is undefined for an element (division by 0, signed overflow after promotion) so is the result, C262_tuples_undefined."
  },
  {
   "property": "C263",
   "status": "proved",
   "theorems": [
    "C263_min_max"
   ],
   "note": ""
  },
  {
   "property": "C264",
   "status": "proved",
   "theorems": [
    "C264_print"
   ],
   "note": ""
  },
  {
   "property": "C265",
   "status": "partial",
   "theorems": [
    "C265_range",
    "C265_number_refuted",
    "C265_quote_refuted"
   ],
   "note": "_refuted: a field with an argument number and a specification, and a specification with a single quotation mark, are errors for ranges although the element type accepts them."
  },
  {
   "property": "C266",
   "status": "proved",
   "theorems": [
    "C266_nested"
   ],
   "note": ""
  },
  {
   "property": "C267",
   "status": "partial",
   "theorems": [
    "C267_tuple",
    "C267_number_refuted"
   ],
   "note": "_refuted: a field with an argument number and a specification is an error."
  },
  {
   "property": "C268",
   "status": "partial",
   "theorems": [
    "C268_rotate_partial",
    "C268_rotate_refuted"
   ],
   "note": "_partial: the position must be before the end of the range unless the range is empty.  _refuted: with the position at the end of a range that is not empty, which std::rotate allows, the loop runs out of every array."
  },
  {
   "property": "C269",
   "status": "partial",
   "theorems": [
    "C269_nth_element_partial",
    "C269_nth_first_refuted",
    "C269_nth_second_refuted"
   ],
   "note": "_partial: only that the call ends and rearranges the range.  _refuted: nothing is done for the first position; for the second position of any three elements whose first is the greatest, the greatest is put there."
  },
  {
   "property": "C270",
   "status": "proved",
   "theorems": [
    "C270_partition"
   ],
   "note": ""
  },
  {
   "property": "C271",
   "status": "proved",
   "theorems": [
    "C271_contract",
    "C271_returning_handler"
   ],
   "note": ""
  },
  {
   "property": "C272",
   "status": "partial",
   "theorems": [
    "C272_whole_file",
    "C272_terminate",
    "C272_never_wrong",
    "C272_leak_refuted",
    "C272_wide_refuted"
   ],
   "note": "_refuted: every file that is opened stays open, and a file of wide characters gives a string with one character per byte whose rest is zeros."
  },
  {
   "property": "C273",
   "status": "proved",
   "theorems": [
    "C273_bound_calls"
   ],
   "note": ""
  },
  {
   "property": "C274",
   "status": "partial",
   "theorems": [
    "C274_named_option",
    "C274_any_order",
    "C274_repeated_refuted"
   ],
   "note": "_refuted: an option given twice in different value categories compiles, and the first one is used."
  },
  {
   "property": "C275",
   "status": "partial",
   "theorems": [
    "C275_factory",
    "C275_index",
    "C275_unset_refuted"
   ],
   "note": "_refuted: constructing with an argument that was not set is undefined."
  },
  {
   "property": "C276",
   "status": "proved",
   "theorems": [
    "C276_tuple2_cat"
   ],
   "note": ""
  },
  {
   "property": "C277",
   "status": "partial",
   "theorems": [
    "C277_ownership",
    "C277_no_ub",
    "C277_empty_refuted"
   ],
   "note": "_refuted: asking a default constructed or moved-from object whether it is open or for its size, or assigning from it, is undefined (an empty optional is dereferenced)."
  },
  {
   "property": "C278",
   "status": "partial",
   "theorems": [
    "C278_open",
    "C278_keeps",
    "C278_wide_refuted"
   ],
   "note": "_refuted: with elements wider than a byte size( ) and end( ) count bytes, so the last elements lie outside the mapping."
  },
  {
   "property": "C279",
   "status": "partial",
   "theorems": [
    "C279_handles_refuted",
    "C279_is_open_refuted",
    "C279_wide_path_refuted"
   ],
   "note": "Only refutations: every successful open leaks its handle and an open that fails after the file was opened leaks the handle of the file; the conversion to bool is inverted; opening a new object with a wide path is undefined."
  },
  {
   "property": "C280",
   "status": "partial",
   "theorems": [
    "C280_operations",
    "C280_compensation",
    "C280_accuracy",
    "C280_overflow_refuted",
    "C280_special_values"
   ],
   "note": "_refuted: if the plain sum is infinite, also because an element is, the result is not a number."
  },
  {
   "property": "C281",
   "status": "partial",
   "theorems": [
    "C281_floor",
    "C281_floor_refuted",
    "C281_round",
    "C281_round_float",
    "C281_round_refuted",
    "C281_ceil",
    "C281_ceil_refuted",
    "C281_multiples",
    "C281_ceil_by_refuted",
    "C281_ceil_float_refuted"
   ],
   "note": "_refuted: floor is one too large for negative numbers that are no integers, ceil is one too large for every integer and for numbers below -1, ceil_by moves multiples to the next one, round takes negative integers to the next greater integer and 0.5 - 2^-54 to 1."
  },
  {
   "property": "C282",
   "status": "partial",
   "theorems": [
    "C282_laws",
    "C282_sound",
    "C282_complete",
    "C282_zero_refuted"
   ],
   "note": "_refuted: no number other than zero is nearly equal to zero, whatever the tolerance."
  },
  {
   "property": "C283",
   "status": "partial",
   "theorems": [
    "C283_ends",
    "C283_special_refuted"
   ],
   "note": "_refuted: it does not end for infinities and not a number. The accuracy of the results is not treated."
  },
  {
   "property": "C284",
   "status": "partial",
   "theorems": [
    "C284_scale",
    "C284_exact",
    "C284_limits_refuted"
   ],
   "note": "_refuted: with the exponent 1024 all positive numbers become infinite, with -1023 all become zero."
  },
  {
   "property": "C285",
   "status": "partial",
   "theorems": [
    "C285_pow2",
    "C285_pow10",
    "C285_pow10_error",
    "C285_outside_refuted",
    "C285_nearest_refuted"
   ],
   "note": "_refuted: other exponents are undefined although larger powers are doubles; the powers of ten are not always the nearest doubles."
  },
  {
   "property": "C286",
   "status": "partial",
   "theorems": [
    "C286_bits",
    "C286_fields",
    "C286_significand",
    "C286_copy_sign",
    "C286_next",
    "C286_signbit",
    "C286_parts_refuted",
    "C286_signs_refuted",
    "C286_parts_inf"
   ],
   "note": "_refuted: the significand of numbers from two on is wrong, sign_bit is inverted, most patterns that are not a number are not recognised, one unit up moves negative numbers down, the sign of negative zero is not seen."
  },
  {
   "property": "C287",
   "status": "partial",
   "theorems": [
    "C287_accuracy",
    "C287_special",
    "C287_negative_refuted",
    "C287_subnormal_refuted"
   ],
   "note": "_refuted: negative numbers have negative finite square roots and negative infinity an infinite one, instead of not a number; square roots of subnormal numbers are far off."
  },
  {
   "property": "C288",
   "status": "proved",
   "theorems": [
    "C288_bench_n_test",
    "C288_bench_n_test_mbs",
    "C288_bench_test"
   ],
   "note": ""
  },
  {
   "property": "C289",
   "status": "partial",
   "theorems": [
    "C289_average_partial",
    "C289_average_refuted"
   ],
   "note": "_partial: only if the overhead is 0, for 2 to 9 runs; _refuted: the overhead is taken off twice, from 10 runs on the slowest run is left out, and for a single run the average is minus the overhead whatever the run took."
  },
  {
   "property": "C290",
   "status": "partial",
   "theorems": [
    "C290_times",
    "C290_invalid",
    "C290_json",
    "C290_negative_refuted"
   ],
   "note": "_refuted: times of the json forms can be negative, as the overhead is subtracted."
  },
  {
   "property": "C291",
   "status": "partial",
   "theorems": [
    "C291_compare",
    "C291_expecting",
    "C291_expecting_exception",
    "C291_nan_refuted",
    "C291_numbers"
   ],
   "note": "_refuted: on floating point numbers cmp_less_equal and cmp_greater_equal are true when an operand is NaN."
  },
  {
   "property": "C292",
   "status": "partial",
   "theorems": [
    "C292_format_seconds",
    "C292_bytes",
    "C292_shown_refuted"
   ],
   "note": "_refuted: the unit is chosen before rounding (1000.00ms), and negative times are shown in femtoseconds whatever their size. Doubles are exact rationals here."
  },
  {
   "property": "C293",
   "status": "proved",
   "theorems": [
    "C293_copy",
    "C293_copy_n",
    "C293_copy_if",
    "C293_with_pos",
    "C293_with_pos_outside",
    "C293_subset"
   ],
   "note": ""
  },
  {
   "property": "C294",
   "status": "partial",
   "theorems": [
    "C294_sorted",
    "C294_position",
    "C294_stable_refuted"
   ],
   "note": "_refuted: not stable, equivalent values end up in the reverse order of writing."
  },
  {
   "property": "C295",
   "status": "partial",
   "theorems": [
    "C295_sample",
    "C295_extremes",
    "C295_independent_refuted"
   ],
   "note": "_refuted: one Sample object keeps the same positions of every range, since each call copies the engine."
  },
  {
   "property": "C296",
   "status": "proved",
   "theorems": [
    "C296_for_each",
    "C296_elements",
    "C296_element",
    "C296_maybe"
   ],
   "note": ""
  },
  {
   "property": "C297",
   "status": "partial",
   "theorems": [
    "C297_swap",
    "C297_ranges_refuted",
    "C297_ranges_short"
   ],
   "note": "_refuted: swap_ranges and cswap of std::array dereference the elements: arrays of pointers stay as they are and what they point to is swapped; for other elements they do not compile."
  },
  {
   "property": "C298",
   "status": "proved",
   "theorems": [
    "C298_calls",
    "C298_pointer",
    "C298_copy",
    "C298_null_pointer"
   ],
   "note": ""
  },
  {
   "property": "C299",
   "status": "partial",
   "theorems": [
    "C299_calls",
    "C299_pointer",
    "C299_copy",
    "C299_copy_refuted"
   ],
   "note": "_refuted: a copy of a function_view that is not const refers to the original view instead (its forwarding constructor is preferred to the copy constructor): it follows later changes of the original, dangles when the original is destroyed, and calls do not end once the original is assigned the copy. Holds for const sources, rvalues and assignments."
  },
  {
   "property": "C300",
   "status": "partial",
   "theorems": [
    "C300_never_null",
    "C300_refuses",
    "C300_pointer_operations",
    "C300_moved_from_refuted"
   ],
   "note": "_refuted: for pointer classes (shared_ptr) a moved-from not_null is null and using it is undefined behaviour. Holds for raw pointers."
  },
  {
   "property": "C301",
   "status": "partial",
   "theorems": [
    "C301_forward",
    "C301_backward_random",
    "C301_backward_bidirectional_refuted",
    "C301_backward_input",
    "C301_distance",
    "C301_advance_distance",
    "C301_zip_backward_refuted"
   ],
   "note": "Moving forwards, random access iterators and distance are exact. For bidirectional iterators a move backwards goes one element too few, so prev(it) of a list returns it unchanged and a zip of a vector and a list gets out of step (C301_backward_bidirectional_refuted, C301_zip_backward_refuted)."
  },
  {
   "property": "C302",
   "status": "partial",
   "theorems": [
    "C302_slice",
    "C302_slice_outside",
    "C302_shrink_refuted",
    "C302_access",
    "C302_back_of_empty_refuted",
    "C302_safe_advance",
    "C302_move",
    "C302_contents"
   ],
   "note": "shrink(n) leaves n + 1 elements and is undefined for the full size (C302_shrink_refuted); back() of an empty range gives the element before it (C302_back_of_empty_refuted); slice does not check the end of the range (C302_slice_outside)."
  },
  {
   "property": "C303",
   "status": "partial",
   "theorems": [
    "C303_endless_refuted",
    "C303_empty",
    "C303_compare",
    "C303_where"
   ],
   "note": "to_reference_vector never moves its iterator: for every range that is not empty it runs (and allocates) forever, and so does everything built on it (C303_endless_refuted)."
  },
  {
   "property": "C304",
   "status": "partial",
   "theorems": [
    "C304_erase_where",
    "C304_equal",
    "C304_where_equal_element",
    "C304_erase_equal_element_refuted",
    "C304_unique"
   ],
   "note": "erase_where_equal_to of an element of the range (e.g. front()) can leave equal elements in and drop others, since the value is overwritten during the removal (C304_erase_equal_element_refuted). The std algorithms are modelled as the common implementations."
  },
  {
   "property": "C305",
   "status": "partial",
   "theorems": [
    "C305_values",
    "C305_no_leak",
    "C305_move_assign_leak_refuted",
    "C305_copy_assign_type_refuted"
   ],
   "note": "Values are right for every history (C305_values). Move assignment onto an iterator in use leaks its object (C305_move_assign_leak_refuted) and copy assignment between iterators of different types deletes the old object as the new type (C305_copy_assign_type_refuted)."
  },
  {
   "property": "C306",
   "status": "partial",
   "theorems": [
    "C306_and_then",
    "C306_or_else",
    "C306_transform_partial",
    "C306_transform_null_refuted",
    "C306_observer",
    "C306_order"
   ],
   "note": "transform calls its function with a null pointer as well (C306_transform_null_refuted)."
  },
  {
   "property": "C307",
   "status": "partial",
   "theorems": [
    "C307_rw_ref",
    "C307_prop_const_ptr",
    "C307_postfix_refuted",
    "C307_poly_var_refuted"
   ],
   "note": "The postfix operators of prop_const_ptr and the constant operator* of poly_var return references to objects that are gone (C307_postfix_refuted, C307_poly_var_refuted)."
  },
  {
   "property": "C308",
   "status": "partial",
   "theorems": [
    "C308_all",
    "C308_first_other",
    "C308_any_refuted"
   ],
   "note": "The name is not what the function does: it is true exactly when all arguments hold (C308_any_refuted). The test file of the repository asserts this behaviour too (not any_if( true, false )), so it may be the name that is wrong."
  },
  {
   "property": "C309",
   "status": "partial",
   "theorems": [
    "C309_value",
    "C309_whole",
    "C309_no_number",
    "C309_trailing_refuted",
    "C309_text"
   ],
   "note": "Refuted for strings that only start with a number: the rest is ignored, because only the error code of std::from_chars is looked at (C309_trailing_refuted). Proved: the value is that of the longest number at the start."
  },
  {
   "property": "C310",
   "status": "partial",
   "theorems": [
    "C310_stack",
    "C310_limits",
    "C310_fifo_refuted",
    "C310_pop_all",
    "C310_of_value"
   ],
   "note": "The order is refuted: pop_front returns the nibbles pushed last, and no member removes the oldest (C310_fifo_refuted). Proved: it is a stack of nibbles within its capacity."
  },
  {
   "property": "C311",
   "status": "proved",
   "theorems": [
    "C311_found",
    "C311_not_found"
   ],
   "note": ""
  },
  {
   "property": "C312",
   "status": "proved",
   "theorems": [
    "C312_elements",
    "C312_write",
    "C312_outcome",
    "C312_const"
   ],
   "note": ""
  },
  {
   "property": "C313",
   "status": "partial",
   "theorems": [
    "C313_num_digits",
    "C313_whole_log10",
    "C313_pow10",
    "C313_pow10_refuted"
   ],
   "note": "Powers that the result type cannot hold are cut silently, and pow10( -1 ) is 10 (C313_pow10_refuted). to_os_string itself does not compile for any type: it requires a type that is not integral, and calls pow10, which requires an integral one."
  },
  {
   "property": "C314",
   "status": "partial",
   "theorems": [
    "C314_safe",
    "C314_one_owner",
    "C314_closed_exactly",
    "C314_kept",
    "C314_after",
    "C314_move_assign_refuted"
   ],
   "note": "Move assignment is refuted: it calls reset( release( ) ) on the target itself, so neither object changes (C314_move_assign_refuted)."
  },
  {
   "property": "C315",
   "status": "partial",
   "theorems": [
    "C315_random",
    "C315_wrap",
    "C315_chain",
    "C315_pointer_partial",
    "C315_pointer_refuted"
   ],
   "note": "Refuted for pointer_iterator: it++ returns a reference to a local object, --( --it ) moves only once, it - n does not exist, and it -= n on a const iterator compiles and changes nothing (C315_pointer_refuted). C315_pointer_partial covers the other operations. it++ of pointer_iterator does not compile from C++23 on."
  },
  {
   "property": "C316",
   "status": "partial",
   "theorems": [
    "C316_checks",
    "C316_values",
    "C316_preconditions",
    "C316_dbg_precondition_refuted",
    "C316_dbg_precondition",
    "C316_all",
    "C316_no_exception"
   ],
   "note": "dbg_precondition_check and dbg_postcondition_check are refuted: with an exception type given and exceptions enabled they end the program instead of throwing it (C316_dbg_precondition_refuted)."
  },
  {
   "property": "C317",
   "status": "partial",
   "theorems": [
    "C317_rows",
    "C317_unequal_refuted",
    "C317_temporary_refuted"
   ],
   "note": "Refuted for containers of different lengths (the loop runs past the end of the shortest, C317_unequal_refuted) and for temporaries (only iterators are kept, C317_temporary_refuted). Proved for variables of equal length."
  },
  {
   "property": "C318",
   "status": "proved",
   "theorems": [
    "C318_get"
   ],
   "note": ""
  },
  {
   "property": "C319",
   "status": "proved",
   "theorems": [
    "C319_ordering",
    "C319_logic"
   ],
   "note": ""
  },
  {
   "property": "C320",
   "status": "partial",
   "theorems": [
    "C320_group_refuted",
    "C320_escape_refuted",
    "C320_group_partial",
    "C320_misplaced"
   ],
   "note": "Refuted: for any character other than braces and backslashes the function ends without a return statement (C320_group_refuted), and escapes never start, as switch_state sets only what is set already (C320_escape_refuted). C320_group_partial: the groups that are left. C320_misplaced: refused braces."
  },
  {
   "property": "C321",
   "status": "partial",
   "theorems": [
    "C321_after_deallocation",
    "C321_no_copies",
    "C321_operations",
    "C321_allocate",
    "C321_undetected_refuted"
   ],
   "note": "Refuted for copies of a deallocated pointer, construction at the end of a block and a wrong size in deallocate (C321_undetected_refuted). Proved: the pointer given to deallocate itself cannot be used again, and clients that copy no pointer have only valid ones. Assertions are enabled."
  },
  {
   "property": "C322",
   "status": "partial",
   "theorems": [
    "C322_objects",
    "C322_frame",
    "C322_balance",
    "C322_copy",
    "C322_copy_refuted"
   ],
   "note": "Copies are refuted for types that are not trivially copyable: the storage copies bytes, so that the copy holds no object (C322_copy_refuted). C322_balance: nothing is destroyed but by destruct."
  },
  {
   "property": "C323",
   "status": "proved",
   "theorems": [
    "C323_int128",
    "C323_uint128"
   ],
   "note": ""
  },
  {
   "property": "C324",
   "status": "partial",
   "theorems": [
    "C324_extract",
    "C324_history_partial",
    "C324_all_freed_partial",
    "C324_spare_capacity_refuted",
    "C324_insert_refuted",
    "C324_shared_refuted"
   ],
   "note": "Refuted: the deleter destroys capacity objects, not size (C324_spare_capacity_refuted, C324_insert_refuted), and container_data cannot release its buffer, so that inserting what was extracted frees it twice (C324_shared_refuted). C324_history_partial and C324_all_freed_partial: all histories without these cases. The access to the members of std::vector is taken to work as meant (as written it names members that std::vector does not have itself)."
  },
  {
   "property": "C325",
   "status": "proved",
   "theorems": [
    "C325_insert",
    "C325_copy",
    "C325_set"
   ],
   "note": ""
  },
  {
   "property": "C326",
   "status": "proved",
   "theorems": [
    "C326_values",
    "C326_swap_twice"
   ],
   "note": "The layout (empty bases) is not modelled: an empty type has one value."
  },
  {
   "property": "C327",
   "status": "proved",
   "theorems": [
    "C327_get",
    "C327_history",
    "C327_equal",
    "C327_not_equal",
    "C327_apply"
   ],
   "note": "The conversions between tuples of different element types and the layout (empty bases) are not modelled; all elements have values of one type."
  },
  {
   "property": "C328",
   "status": "partial",
   "theorems": [
    "C328_index_partial",
    "C328_distinct_partial",
    "C328_wraps_refuted",
    "C328_negative_refuted"
   ],
   "note": "C328_index_partial and C328_distinct_partial: while the index fits into the type chosen. Refuted otherwise: the index is cast, so that elements share an index (C328_wraps_refuted) or have a negative one (C328_negative_refuted)."
  },
  {
   "property": "C329",
   "status": "proved",
   "theorems": [
    "C329_history",
    "C329_size",
    "C329_ends",
    "C329_equal"
   ],
   "note": ""
  },
  {
   "property": "C330",
   "status": "partial",
   "theorems": [
    "C330_for_each",
    "C330_transform",
    "C330_copy_partial",
    "C330_overlap_refuted"
   ],
   "note": "C330_copy_partial: the destination does not begin inside of the source. Otherwise the elements are repeated (C330_overlap_refuted). Integers only; floating point types are bit patterns of the same width and are not modelled separately."
  },
  {
   "property": "C331",
   "status": "proved",
   "theorems": [
    "C331_fields",
    "C331_too_few",
    "C331_dump"
   ],
   "note": "std::format is modelled for fields without index and options. vprintln does not compile when it is used (a std::string is not a format_string) and is not modelled. The output device is not modelled."
  },
  {
   "property": "C332",
   "status": "partial",
   "theorems": [
    "C332_references",
    "C332_get",
    "C332_value_refuted"
   ],
   "note": "Refuted for element types that are not references (C332_value_refuted): the pack stores the address of a parameter of its constructor. The deduction guide only makes packs of references."
  },
  {
   "property": "C333",
   "status": "proved",
   "theorems": [
    "C333_values",
    "C333_seen",
    "C333_references"
   ],
   "note": "The assignments of a function to its parameters happen after it has read them."
  },
  {
   "property": "C334",
   "status": "proved",
   "theorems": [
    "C334_history",
    "C334_observers",
    "C334_index",
    "C334_no_nul"
   ],
   "note": "Copying and move( ) do not compile when used and are not modelled. Pointers into the middle of an array are not modelled."
  },
  {
   "property": "C335",
   "status": "partial",
   "theorems": [
    "C335_exclusive_partial",
    "C335_scope_end_partial",
    "C335_double_delete_refuted",
    "C335_leak_refuted",
    "C335_literal"
   ],
   "note": "C335_exclusive_partial and C335_scope_end_partial: histories without moves. Refuted with moves: the defaulted move constructor leaves two owners (C335_double_delete_refuted), the defaulted move assignment forgets the buffer (C335_leak_refuted)."
  },
  {
   "property": "C336",
   "status": "partial",
   "theorems": [
    "C336_operators",
    "C336_order",
    "C336_null_refuted"
   ],
   "note": "Refuted for null strings (C336_null_refuted): strcmp of a null pointer."
  },
  {
   "property": "C337",
   "status": "partial",
   "theorems": [
    "C337_values",
    "C337_history",
    "C337_calls",
    "C337_twice_refuted",
    "C337_post_increment_refuted"
   ],
   "note": "Proved for loops that dereference each position once. Refuted for others: reading a position twice gives different elements (C337_twice_refuted) and a loop with *it++ repeats the first element (C337_post_increment_refuted), since each iterator has its own copy of the function."
  },
  {
   "property": "C338",
   "status": "partial",
   "theorems": [
    "C338_greatest_first_partial",
    "C338_ties_refuted"
   ],
   "note": "C338_greatest_first_partial: graphs in which no node has two children that compare equivalent. Refuted otherwise (C338_ties_refuted): the children are sorted with the negated comparison, which is no strict weak order then. That the negated comparison also calls a node less than itself, formally undefined for every call, is not counted."
  },
  {
   "property": "C339",
   "status": "partial",
   "theorems": [
    "C339_preorder_partial",
    "C339_ties_refuted"
   ],
   "note": "C339_preorder_partial: no two children of a reachable node have equivalent values. Refuted otherwise (C339_ties_refuted), as C338."
  },
  {
   "property": "C340",
   "status": "proved",
   "theorems": [
    "C340_by_levels"
   ],
   "note": ""
  },
  {
   "property": "C341",
   "status": "partial",
   "theorems": [
    "C341_moved_partial",
    "C341_all_partial",
    "C341_lost_refuted",
    "C341_all_lost_refuted"
   ],
   "note": "C341_moved_partial and C341_all_partial: destinations that can take the nodes. Refuted otherwise (C341_lost_refuted, C341_all_lost_refuted): a node whose key a destination with unique keys has is destroyed."
  },
  {
   "property": "C342",
   "status": "partial",
   "theorems": [
    "C342_none_partial",
    "C342_refuted"
   ],
   "note": "C342_none_partial: no node matches. Refuted otherwise (C342_refuted): the iterator of the extracted node is used again."
  },
  {
   "property": "C343",
   "status": "partial",
   "theorems": [
    "C343_removes_partial",
    "C343_called_refuted"
   ],
   "note": "C343_removes_partial: the removal. Refuted (C343_called_refuted): func is never called with a removed element, but with the kept elements behind the first removed one."
  },
  {
   "property": "C344",
   "status": "partial",
   "theorems": [
    "C344_temporaries_partial",
    "C344_variables_refuted",
    "C344_moved_from_refuted"
   ],
   "note": "C344_temporaries_partial: made from temporaries of types whose moves copy. Refuted for variables, which are referred to (C344_variables_refuted), and for the check of in_range on types with moves that leave another value (C344_moved_from_refuted)."
  },
  {
   "property": "C345",
   "status": "proved",
   "theorems": [
    "C345_loop",
    "C345_moves",
    "C345_read"
   ],
   "note": ""
  },
  {
   "property": "C346",
   "status": "partial",
   "theorems": [
    "C346_rbegin_partial",
    "C346_reverse_refuted"
   ],
   "note": "C346_rbegin_partial: rbegin and rend of the reverse range, and walks without nodes. Refuted otherwise (C346_reverse_refuted): the ends of the reversed range are exchanged, and the first read is before the first element."
  },
  {
   "property": "C347",
   "status": "proved",
   "theorems": [
    "C347_push_back",
    "C347_reserve",
    "C347_shrink_to_fit"
   ],
   "note": ""
  },
  {
   "property": "C348",
   "status": "partial",
   "theorems": [
    "C348_grow_partial",
    "C348_room_refuted"
   ],
   "note": "C348_grow_partial: the case that needs a new buffer. Refuted otherwise (C348_room_refuted): with enough capacity the copies made before the one that throws stay in the vector, although append is documented as strongly exception safe."
  },
  {
   "property": "C349",
   "status": "partial",
   "theorems": [
    "C349_made_partial",
    "C349_leak_refuted"
   ],
   "note": "C349_made_partial: constructors in which nothing or the allocation throws. Refuted otherwise (C349_leak_refuted): when a copy throws, the buffer and the objects made so far are lost."
  },
  {
   "property": "C350",
   "status": "proved",
   "theorems": [
    "C350_step",
    "C350_history"
   ],
   "note": ""
  },
  {
   "property": "C351",
   "status": "proved",
   "theorems": [
    "C351_grow",
    "C351_end",
    "C351_move",
    "C351_copy",
    "C351_destructor"
   ],
   "note": ""
  },
  {
   "property": "C352",
   "status": "proved",
   "theorems": [
    "C352_erase",
    "C352_pop_back_value"
   ],
   "note": ""
  },
  {
   "property": "C353",
   "status": "proved",
   "theorems": [
    "C353_history"
   ],
   "note": ""
  },
  {
   "property": "C354",
   "status": "proved",
   "theorems": [
    "C354_insert_move",
    "C354_push_back_move",
    "C354_insert_copy",
    "C354_push_back_copy",
    "C354_history"
   ],
   "note": ""
  },
  {
   "property": "C355",
   "status": "proved",
   "theorems": [
    "C355_no_room",
    "C355_room",
    "C355_nothing"
   ],
   "note": ""
  }
 ]
}