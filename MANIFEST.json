{
 "claims": [
  {
   "property": "C01",
   "status": "proved",
   "theorems": [
    "C01_window_maximum"
   ],
   "note": "Any strict weak order; C01_order_needed shows why NaN is excluded."
  },
  {
   "property": "C02",
   "status": "partial",
   "theorems": [
    "C02_adding_to_a_copy",
    "C02_independent_if_copies_not_added_to_partial",
    "C02_assigned_object_refuted",
    "C02_copy_independence_refuted"
   ],
   "note": "REFUTED: the implicit copy copies the iterator into the source's vector, so adding to a copy overwrites the original (finding F1). The _partial theorem proves independence for every history in which nothing is added to a copy; missing: adding to a copy. C02_adding_to_a_copy says exactly what adding to a copy does: undefined once more values are added than were left before the end of the source's vector, and otherwise the values land in the source's vector and the copy's stays as it was."
  },
  {
   "property": "C03",
   "status": "proved",
   "theorems": [
    "C03_forward_iteration",
    "C03_no_index_twice"
   ],
   "note": ""
  },
  {
   "property": "C04",
   "status": "proved",
   "theorems": [
    "C04_reverse_iteration",
    "C04_reverse_of_reverse_range",
    "C04_inc_then_dec",
    "C04_dec_then_inc"
   ],
   "note": ""
  },
  {
   "property": "C05",
   "status": "proved",
   "theorems": [
    "C05_any_input",
    "C05_set_intersection"
   ],
   "note": "C05_any_input: termination and memory safety for unsorted ranges and for any comparison whatsoever."
  },
  {
   "property": "C06",
   "status": "proved",
   "theorems": [
    "C06_enumerate"
   ],
   "note": ""
  },
  {
   "property": "C07",
   "status": "proved",
   "theorems": [
    "C07_adapter_visits_all",
    "C07_adapter_prefix"
   ],
   "note": ""
  },
  {
   "property": "C08",
   "status": "proved",
   "theorems": [
    "C08_split",
    "C08_split_second"
   ],
   "note": ""
  },
  {
   "property": "C09",
   "status": "proved",
   "theorems": [
    "C09_join",
    "C09_split_join"
   ],
   "note": ""
  },
  {
   "property": "C10",
   "status": "proved",
   "theorems": [
    "C10_join_quote"
   ],
   "note": ""
  },
  {
   "property": "C11",
   "status": "proved",
   "theorems": [
    "C11_sort_case_insensitive",
    "C11_comparator_is_strict_weak_order",
    "C11_equivalence_is_equal_upper_case"
   ],
   "note": "std::ranges::sort is trusted to return a sorted permutation when the comparator is a strict weak order; that precondition is what is proved."
  },
  {
   "property": "C12",
   "status": "proved",
   "theorems": [
    "C12_small_buffers",
    "C12_nothing_lost",
    "C12_defined",
    "C12_flush",
    "C12_destroy"
   ],
   "note": "Holds in every execution that stays within accessible memory; C12_defined: one accessible byte behind the buffer is enough (the overrun itself is C14)."
  },
  {
   "property": "C13",
   "status": "proved",
   "theorems": [
    "C13_spans_are_whole_code_points"
   ],
   "note": "As C12."
  },
  {
   "property": "C14",
   "status": "partial",
   "theorems": [
    "C14_exact_partial",
    "C14_small_buffers_refuted",
    "C14_out_of_bounds_refuted",
    "C14_flushed_in_time_partial"
   ],
   "note": "REFUTED for every buffer size: overflow() stores at epptr(), one past the vector (finding F6). C14_exact_partial characterises exactly the histories of valid text that stay inside (iff); C14_flushed_in_time_partial is a sufficient discipline for arbitrary bytes."
  },
  {
   "property": "C15",
   "status": "proved",
   "theorems": [
    "C15_scoped_redirect"
   ],
   "note": ""
  },
  {
   "property": "C16",
   "status": "proved",
   "theorems": [
    "C16_terminates",
    "C16_sum",
    "C16_every_sequence"
   ],
   "note": "Strings of bytes; doubles are Flocq binary64 (standard library Reals axioms). inf/nan and sums outside the representation are UB. The nan(...) form of from_chars is part of the grammar."
  },
  {
   "property": "C17",
   "status": "partial",
   "theorems": [
    "C17_every_decimal_partial",
    "C17_every_term_partial",
    "C17_term_partial",
    "C17_every_value_partial",
    "C17_round_half_even_partial",
    "C17_any_decimal_partial",
    "C17_integers_partial",
    "C17_decimal_refuted"
   ],
   "note": "REFUTED for decimals that are not doubles (C17_decimal_refuted). The _partial theorems prove: half-to-even rounding whenever the decimal and its product with the unit ratio are doubles below 2^53; exactness for integers; for every decimal up to 2^52 common ticks that the ticks added are within 1/2 + 2^-51*|exact| + 2^-1000 of the exact number, and for every decimal in the range of the duration within 1/2 + 2^-48*(|exact|+1), and are the correctly rounded ones unless the exact number is that close to a tie."
  },
  {
   "property": "C18",
   "status": "partial",
   "theorems": [
    "C18_exact",
    "C18_nonfinite_refuted",
    "C18_rejected",
    "C18_rejects_all_bad",
    "C18_zero_refuted",
    "C18_well_formed_partial"
   ],
   "note": "REFUTED: '0s' and other zero terms with units are rejected (C18_zero_refuted); inf and nan with units are undefined behaviour for every duration type (C18_nonfinite_refuted). Proved: C18_exact, an iff description of success, each exception and undefined behaviour for every string; acceptance of every well-formed sum without such terms; missing: zero terms with units, for which it is false."
  },
  {
   "property": "C19",
   "status": "proved",
   "theorems": [
    "C19_any_ptr_cast",
    "C19_any_ptr_empty",
    "C19_any_ptr_observers",
    "C19_shared_any_ptr_cast"
   ],
   "note": ""
  },
  {
   "property": "C20",
   "status": "proved",
   "theorems": [
    "C20_shared_lifetime",
    "C20_cast_never_dangles"
   ],
   "note": ""
  },
  {
   "property": "C21",
   "status": "proved",
   "theorems": [
    "C21_resource_safety",
    "C21_all_released",
    "C21_never_stuck"
   ],
   "note": "Histories over any number of wrappers, value/in-place/make/pointer constructions, copies, moves, assignments, throwing allocators/constructors/VTable constructors, all propagation settings. Assumes sizeof>0 and that noexcept moves get memory (otherwise std::terminate, C21_never_stuck)."
  },
  {
   "property": "C22",
   "status": "proved",
   "theorems": [
    "C22_value_semantics"
   ],
   "note": ""
  },
  {
   "property": "C23",
   "status": "proved",
   "theorems": [
    "C23_references_never_own"
   ],
   "note": ""
  },
  {
   "property": "C24",
   "status": "proved",
   "theorems": [
    "C24_const_access",
    "C24_const_never_modified"
   ],
   "note": ""
  },
  {
   "property": "C25",
   "status": "partial",
   "theorems": [
    "C25_exact",
    "C25_moved_from_refuted",
    "C25_as_type_safe_partial",
    "C25_as_sound_partial",
    "C25_default_constructed_partial",
    "C25_empty_refuted"
   ],
   "note": "REFUTED for empty wrappers: moved-from, failed-copy-assigned and move-assigned-from-empty wrappers keep a stale vtable so as<T>() yields a null reference (C25_empty_refuted). The _partial theorems prove the property for every non-empty wrapper, for default-constructed ones, and that a non-null result is always a living T; missing: other empty wrappers, for which it is false. C25_exact characterises all wrappers: every one remembers a type (tracked by a separate small semantics), as<T> throws exactly when T is not that type, and an empty wrapper whose remembered type is T yields a null reference. C25_moved_from_refuted: every moved-from wrapper fails."
  },
  {
   "property": "C26",
   "status": "proved",
   "theorems": [
    "C26_copy_assignment_throws",
    "C26_copy_construction_throws"
   ],
   "note": ""
  },
  {
   "property": "C27",
   "status": "proved",
   "theorems": [
    "C27_subviews",
    "C27_element_access",
    "C27_as_column"
   ],
   "note": ""
  },
  {
   "property": "C28",
   "status": "proved",
   "theorems": [
    "C28_set_constant",
    "C28_add_scalar",
    "C28_generate"
   ],
   "note": ""
  },
  {
   "property": "C29",
   "status": "partial",
   "theorems": [
    "C29_exact",
    "C29_triangular_partial",
    "C29_triangular_refuted"
   ],
   "note": "REFUTED: the triangular loops run to n=max(rows,cols)/the wrong bound, so rectangular views are written outside their elements (C29_triangular_refuted). The _partial theorem gives the exact result for the shapes that work; missing: the remaining rectangular shapes, for which the property is false. C29_exact: for tight arrays the call is defined and right if and only if the shape condition holds."
  },
  {
   "property": "C30",
   "status": "partial",
   "theorems": [
    "C30_exact",
    "C30_set_diagonal_partial",
    "C30_add_to_diagonal_partial",
    "C30_diagonal_view_partial",
    "C30_diagonal_refuted"
   ],
   "note": "REFUTED: the diagonal loops run to max(rows,cols) instead of min (C30_diagonal_refuted). The _partial theorems prove the property for square views; missing: rectangular views, for which it is false. C30_exact: for tight arrays each of the three operations is defined if and only if the view is square."
  },
  {
   "property": "C31",
   "status": "proved",
   "theorems": [
    "C31_assign",
    "C31_add_assign",
    "C31_other_cases"
   ],
   "note": ""
  },
  {
   "property": "C32",
   "status": "proved",
   "theorems": [
    "C32_coo_to_csc"
   ],
   "note": "std::sort is any sorter that returns a sorted permutation, possibly different ones per call; index types can represent the indices (narrowing is C43)."
  },
  {
   "property": "C33",
   "status": "proved",
   "theorems": [
    "C33_csc_to_coo"
   ],
   "note": "std::sort is any sorter that returns a sorted permutation, possibly different ones per call; index types can represent the indices (narrowing is C43)."
  },
  {
   "property": "C34",
   "status": "proved",
   "theorems": [
    "C34_dense_entries",
    "C34_dense_to_csc",
    "C34_dense_to_coo"
   ],
   "note": "std::sort is any sorter that returns a sorted permutation, possibly different ones per call; index types can represent the indices (narrowing is C43)."
  },
  {
   "property": "C35",
   "status": "proved",
   "theorems": [
    "C35_sparse_to_dense",
    "C35_dense_to_dense"
   ],
   "note": "std::sort is any sorter that returns a sorted permutation, possibly different ones per call; index types can represent the indices (narrowing is C43)."
  },
  {
   "property": "C36",
   "status": "proved",
   "theorems": [
    "C36_csc_to_csc"
   ],
   "note": "std::sort is any sorter that returns a sorted permutation, possibly different ones per call; index types can represent the indices (narrowing is C43)."
  },
  {
   "property": "C37",
   "status": "proved",
   "theorems": [
    "C37_coo_to_coo"
   ],
   "note": "std::sort is any sorter that returns a sorted permutation, possibly different ones per call; index types can represent the indices (narrowing is C43)."
  },
  {
   "property": "C38",
   "status": "proved",
   "theorems": [
    "C38_truthful_order"
   ],
   "note": "std::sort is any sorter that returns a sorted permutation, possibly different ones per call; index types can represent the indices (narrowing is C43)."
  },
  {
   "property": "C39",
   "status": "proved",
   "theorems": [
    "C39_csc_well_formed"
   ],
   "note": "std::sort is any sorter that returns a sorted permutation, possibly different ones per call; index types can represent the indices (narrowing is C43)."
  },
  {
   "property": "C40",
   "status": "proved",
   "theorems": [
    "C40_nonsquare_rejected",
    "C40_dense_unsupported_rejected",
    "C40_wrong_side_rejected"
   ],
   "note": "std::sort is any sorter that returns a sorted permutation, possibly different ones per call; index types can represent the indices (narrowing is C43)."
  },
  {
   "property": "C41",
   "status": "partial",
   "theorems": [
    "C41_exact",
    "C41_release_wrong_size_refuted",
    "C41_empty_result_refuted",
    "C41_larger_result_refuted",
    "C41_convert_values_into_partial"
   ],
   "note": "REFUTED for empty results with a non-null span and for results larger than needed: the final assertion / the size assertion fails (C41_empty_result_refuted, C41_larger_result_refuted). The _partial theorem proves any series of calls with results of the exact size, reusing the returned workspace; missing: the refuted cases. C41_exact gives the whole behaviour of debug builds: right if and only if the result has exactly the size of the values, otherwise Abort. C41_release_wrong_size_refuted: without assertions a result that is too small is silently left unchanged."
  },
  {
   "property": "C42",
   "status": "proved",
   "theorems": [
    "C42_triplets",
    "C42_csc"
   ],
   "note": "std::sort is any sorter that returns a sorted permutation, possibly different ones per call; index types can represent the indices (narrowing is C43)."
  },
  {
   "property": "C43",
   "status": "partial",
   "theorems": [
    "C43_exact_coo",
    "C43_exact_csc",
    "C43_silent_wrap_refuted",
    "C43_indices_unchanged_partial"
   ],
   "note": "REFUTED: indices are narrowed with static_cast without a check (C43_silent_wrap_refuted). The _partial theorem proves the indices unchanged whenever the index types can represent them; missing: other cases, for which it is false. C43_exact_coo / C43_exact_csc: every index is stored modulo 2^bits, and unchanged if and only if it is representable."
  },
  {
   "property": "C44",
   "status": "proved",
   "theorems": [
    "C44_integer_separator",
    "C44_floating_separator",
    "C44_row_of_fields",
    "C44_vector_of_fields",
    "C44_matrix_of_fields"
   ],
   "note": "Generic in the number parser and separator (shown for decimal integers of any range and for floating point) and in the standard library's eofbit behaviour; fields shorter than 64 characters as the property says."
  },
  {
   "property": "C45",
   "status": "partial",
   "theorems": [
    "C45_long_field_split_refuted",
    "C45_row_no_split_partial",
    "C45_matrix_no_split_partial",
    "C45_integers_readable_partial",
    "C45_vector_partial"
   ],
   "note": "Refuted: a field of 65 characters whose first 64 are a number is read as two numbers by csv_read_row_std_vector, and by csv_read_row when more numbers are requested than the line has fields. Proved: csv_read_row/csv_read with as many numbers as fields never split, for all lengths; std_vector for fields under 64 characters or longer ones of which neither the whole nor the first 64 characters are a number (all integers without leading zeros)."
  },
  {
   "property": "C46",
   "status": "partial",
   "theorems": [
    "C46_row_after_comments_partial",
    "C46_vector_after_comments_partial",
    "C46_matrix_after_comments_partial",
    "C46_comment_before_empty_refuted"
   ],
   "note": "Refuted when an empty line or the end of the text follows a comment (csv_read_error instead of an empty row); proved as an equality of outcomes for every other continuation."
  },
  {
   "property": "C47",
   "status": "partial",
   "theorems": [
    "C47_exact",
    "C47_long_field_refuted",
    "C47_exact_count_partial",
    "C47_matrix_partial",
    "C47_only_csv_read_error"
   ],
   "note": "C47_exact: for every text, csv_read_row gives n numbers exactly if the line has n groups of at most 64 characters, all numbers; so exact for fields under 64 characters, and REFUTED for longer fields (C47_long_field_refuted, the field of C45). Nothing but csv_read_error is ever thrown and no assertion fails."
  },
  {
   "property": "C48",
   "status": "proved",
   "theorems": [
    "C48_print_csv_read_identity"
   ],
   "note": "All integer types other than the character types (which operator<< prints as characters: example C48_char_types), any separator-free shape with at least one row; default options for shapes that are not column vectors, or the 1d options switched off."
  },
  {
   "property": "C49",
   "status": "partial",
   "theorems": [
    "C49_span_csv",
    "C49_span_matlab",
    "C49_span_python",
    "C49_default_indentation",
    "C49_csv_layout",
    "C49_python_vector",
    "C49_python_matrix_partial",
    "C49_python_no_rows_refuted",
    "C49_matlab_column",
    "C49_matlab_matrix_partial",
    "C49_matlab_no_rows_refuted",
    "C49_python_recoverable",
    "C49_matlab_recoverable",
    "C49_vector_recoverable",
    "C49_integer_tokens"
   ],
   "note": "Refuted for matrices without rows (0 x n, n != 1): print_python prints ']]' and print_matlab '];' without opening brackets. Everything else proved, including recoverability of the tokens."
  },
  {
   "property": "C50",
   "status": "proved",
   "theorems": [
    "C50_slots_distinct_any_reset",
    "C50_slots_used_any_reset",
    "C50_no_write_outside_any_reset",
    "C50_records_the_call",
    "C50_slots_distinct",
    "C50_slots_used",
    "C50_no_write_outside",
    "C50_entries_intact"
   ],
   "note": "C50_*_any_reset: also for resets at any moment (slots clear at the reset)."
  },
  {
   "property": "C51",
   "status": "partial",
   "theorems": [
    "C51_exact",
    "C51_entries_record_calls_partial",
    "C51_get_logs_refuted",
    "C51_get_logs_partial"
   ],
   "note": "REFUTED: get_logs() copies min(count, capacity) entries while a trace() call that has taken its index has not yet written them (C51_get_logs_refuted). The _partial theorem proves every returned entry complete when no trace() call is in progress; missing: concurrent get_logs, for which the property is false. C51_exact: without resets, at every moment, each field of each returned entry holds the value of one call if that call has executed the write, its initial value otherwise."
  },
  {
   "property": "C52",
   "status": "partial",
   "theorems": [
    "C52_slot_partial",
    "C52_scope_across_reset_refuted",
    "C52_reset_refuted",
    "C52_reset_partial"
   ],
   "note": "REFUTED: a ScopedLog alive across reset() writes its duration into the slot of a later call (C52_reset_refuted). The _partial theorem proves entries intact when every reset happens with no scope alive; missing: other resets, for which it is false. C52_slot_partial needs only that the slot in question is clear at the reset; C52_scope_across_reset_refuted: universally, every call holding a slot at a reset can ruin a later entry."
  },
  {
   "property": "C53",
   "status": "proved",
   "theorems": [
    "C53_stop_never_lost",
    "C53_query_always_possible"
   ],
   "note": ""
  },
  {
   "property": "C54",
   "status": "partial",
   "theorems": [
    "C54_terminates",
    "C54_exact",
    "C54_parallel_refuted",
    "C54_sequential_partial"
   ],
   "note": "REFUTED: with OpenMP the operand pointers are shared and incremented inside the parallel loop (C54_parallel_refuted). The _partial theorem proves the property for sequential execution, any batch size and number of operands; missing: parallel execution, for which it is false. C54_exact: all schedules give the right calls if and only if at most one thread has iterations to run; C54_terminates: every schedule can be completed."
  },
  {
   "property": "C55",
   "status": "proved",
   "theorems": [
    "C55_sequential_order",
    "C55_gemv_calls",
    "C55_gemv_schedule_independent"
   ],
   "note": ""
  },
  {
   "property": "C56",
   "status": "proved",
   "theorems": [
    "C56_potrf_errors",
    "C56_no_overflow"
   ],
   "note": ""
  },
  {
   "property": "C57",
   "status": "partial",
   "theorems": [
    "C57_gemm_strides_exact",
    "C57_triangular_strides_exact",
    "C57_default_stride",
    "C57_xgemm_NN",
    "C57_xgemmt_LNN",
    "C57_xgemm_TN",
    "C57_xgemmt_LTN",
    "C57_xgemm_TT",
    "C57_xgemmt_LTT",
    "C57_xgemm_NT",
    "C57_xgemmt_LNT",
    "C57_xsyrk_LN",
    "C57_xsyrk_LT",
    "C57_xgemv_N",
    "C57_xgemv_T",
    "C57_xtrmv_LNN",
    "C57_xtrmv_LTN",
    "C57_xtrmm_LLNN",
    "C57_xtrmm_LLTN",
    "C57_xtrmm_RLNN",
    "C57_xtrmm_RLTN",
    "C57_xtrsv_LNN",
    "C57_xtrsv_LTN",
    "C57_xtrsm_LLNN",
    "C57_xtrsm_LLTN",
    "C57_xtrsm_RLNN",
    "C57_xtrsm_RLTN",
    "C57_mismatched_dimensions_rejected",
    "C57_empty_operand_refuted"
   ],
   "note": "All 24 gemv/gemm/gemmt/syrk/trmv/trsv/trmm/trsm wrappers against an executable reference BLAS (exact arithmetic; trsv/trsm over any field with non-zero diagonal), mismatches rejected. Partial because empty views with the default outer stride 0 are rejected by BLAS as illegal leading dimension (C57_empty_operand_refuted); C57_gemm_strides_exact and C57_triangular_strides_exact give the exact condition (outer stride at least 1 and the number of rows) for every wrapper."
  },
  {
   "property": "C58",
   "status": "proved",
   "theorems": [
    "C58_deep_copy"
   ],
   "note": ""
  },
  {
   "property": "C59",
   "status": "partial",
   "theorems": [
    "C59_agrees_partial",
    "C59_out_of_range_partial",
    "C59_narrow_types_refuted",
    "C59_extras_refuted"
   ],
   "note": "Integer fallback: agrees with std::from_chars for every type and base on texts without leading white space, '+', '-' for unsigned, 0x, when the number is representable. Refuted otherwise: narrow types wrap silently, extras are accepted, out-of-range leaves ptr at first. The floating-point fallback (stod) is C76. (see C76)"
  },
  {
   "property": "C60",
   "status": "proved",
   "theorems": [
    "C60_lut_1d",
    "C60_lut_2d",
    "C60_lut_common_type"
   ],
   "note": ""
  },
  {
   "property": "C61",
   "status": "partial",
   "theorems": [
    "C61_index_type_exact",
    "C61_index_type_round_trip",
    "C61_as_view_refuted",
    "C61_as_view_partial",
    "C61_as_eigen",
    "C61_round_trip",
    "C61_span",
    "C61_span_view",
    "C61_exact"
   ],
   "note": "REFUTED for row-major Eigen objects (C61_as_view_refuted); proved for column-major objects, for as_eigen, the round trip and spans; missing: row-major as_view, for which it is false. C61_exact gives the condition as an equivalence. C61_index_type_exact: with another index type the view is right exactly if sizes and strides are representable (otherwise silently reduced modulo 2^N); C61_index_type_round_trip: views with index types no wider than Eigen's survive the round trip."
  },
  {
   "property": "C62",
   "status": "proved",
   "theorems": [
    "C62_durations",
    "C62_timings_cpu",
    "C62_timed"
   ],
   "note": ""
  },
  {
   "property": "C63",
   "status": "proved",
   "theorems": [
    "C63_flags_recoverable",
    "C63_flags_injective",
    "C63_load_lib",
    "C63_load_func"
   ],
   "note": ""
  },
  {
   "property": "C64",
   "status": "partial",
   "theorems": [
    "C64_move_refuted",
    "C64_move_same_scope_partial",
    "C64_source_destroyed_first"
   ],
   "note": "REFUTED: the defaulted move constructor leaves the source active (finding). The _partial theorem covers source and target destroyed together; missing: other orders, for which it is false. C64_source_destroyed_first says what happens in the remaining order."
  },
  {
   "property": "C65",
   "status": "partial",
   "theorems": [
    "C65_requests_accepted_partial",
    "C65_unsorted_request_refuted"
   ],
   "note": "REFUTED in debug builds: an Unsorted request for a SortedByColsAndRows COO source fails the assertion on line 483. The _partial theorem covers all other requests and builds."
  },
  {
   "property": "C66",
   "status": "proved",
   "theorems": [
    "C66_via_csc",
    "C66_via_coo",
    "C66_dense_round_trip"
   ],
   "note": "std::sort is any sorter that returns a sorted permutation, possibly different ones per call; index types can represent the indices (narrowing is C43)."
  },
  {
   "property": "C67",
   "status": "partial",
   "theorems": [
    "C67_assignment_partial",
    "C67_assignment_mixes_refuted",
    "C67_assignment_changes_copies_refuted",
    "C67_moving_partial",
    "C67_copies_while_sources_live_partial",
    "C67_copy_outlives_source_refuted",
    "C67_exact",
    "C67_never_wrong_values"
   ],
   "note": "REFUTED for copies that outlive their source: the copied spans point into the source's vectors (C67_copy_outlives_source_refuted). C67_exact: for every history of making, copying, moving, move-assigning and destroying, a read gives the right arrays if the store the converter reads still exists and is undefined otherwise; C67_never_wrong_values: never a wrong value. Copy assignment not modelled."
  },
  {
   "property": "C68",
   "status": "partial",
   "theorems": [
    "C68_stride_rejected",
    "C68_xpotrf_L",
    "C68_xpotrf_L_factor",
    "C68_xtrtri_LN",
    "C68_xlauum_L",
    "C68_inverse_in_place",
    "C68_not_square_rejected",
    "C68_empty_refuted"
   ],
   "note": "potrf over the reals succeeds iff positive definite (both directions), factor/inverse theorems over any field, in-place inverse by potrf;trtri;lauum. Partial because views with outer stride 0 or less than rows (the empty default view) are rejected by LAPACK and the wrappers throw (C68_empty_refuted, C68_stride_rejected for all such views)."
  },
  {
   "property": "C69",
   "status": "proved",
   "theorems": [
    "C69_formats",
    "C69_number",
    "C69_buffer",
    "C69_complex",
    "C69_print_csv_read_identity",
    "C69_ieee_formats"
   ],
   "note": "Formats not larger than double (float, double, float16, bfloat16); std::to_chars / std::from_chars are modelled by their contracts (correct rounding, ties to even). long double and __float128 are not covered."
  },
  {
   "property": "C70",
   "status": "partial",
   "theorems": [
    "C70_float_to_str_partial",
    "C70_large_precision_refuted",
    "C70_exact",
    "C70_special"
   ],
   "note": "C70_exact gives the exact limit for every precision and every format up to quadruple precision (57, 56 or 55 digits for exponents of 2, 3 or 4 digits); REFUTED beyond it: the 64-character buffer is too small and the error is ignored (C70_large_precision_refuted)."
  },
  {
   "property": "C71",
   "status": "proved",
   "theorems": [
    "C71_convert_triplets",
    "C71_sort_triplets",
    "C71_sort_triplets_col",
    "C71_sort_rows",
    "C71_columns_found"
   ],
   "note": "all helpers of sparse-ops.hpp on arbitrary arrays, any (unstable) sort; uniqueness checks are C42"
  },
  {
   "property": "C72",
   "status": "partial",
   "theorems": [
    "C72_as_sparsity_partial",
    "C72_uncompressed_refuted",
    "C72_column_block_refuted",
    "C72_as_eigen",
    "C72_round_trip",
    "C72_round_trip_order_refuted"
   ],
   "note": "compressed matrices proved; refuted for uncompressed matrices, column blocks, and the order flag of a round trip of unsorted patterns"
  },
  {
   "property": "C73",
   "status": "partial",
   "theorems": [
    "C73_xgemm_batch_strided",
    "C73_xsyrk_batch_strided",
    "C73_xgemv_batch_strided",
    "C73_xtrsm_batch_strided",
    "C73_xpotrf_batch_strided",
    "C73_mkl_xgemm_partial",
    "C73_mkl_xgemv_partial",
    "C73_mkl_empty_inner_dimension_refuted"
   ],
   "note": "gemm, syrk, trsm, gemv and potrf of builds without MKL proved for every layout, stride and order; refuted for MKL when the inner dimension is 0 (C or y is not scaled by beta), proved for MKL otherwise. xgemm/xsyrk/xtrsm here run sequentially: see C54 for OpenMP."
  },
  {
   "property": "C74",
   "status": "partial",
   "theorems": [
    "C74_nothing_lost_or_repeated",
    "C74_failed_spans_are_passed_again",
    "C74_ostream",
    "C74_destroy",
    "C74_careful_histories_partial",
    "C74_failing_puts_refuted",
    "C74_write_after_failed_put_refuted"
   ],
   "note": "Redelivery and no loss for every history that stays in accessible memory; defined with one byte of slack through an ostream or with careful flushing (partial). REFUTED without: failing puts run ever further behind the buffer, a write after a failed put is UB."
  },
  {
   "property": "C75",
   "status": "partial",
   "theorems": [
    "C75_logs_recoverable",
    "C75_headings",
    "C75_csv_record_partial",
    "C75_decimal",
    "C75_csv_record_refuted"
   ],
   "note": "Unique readability proved for all names; the CSV (RFC 4180) reading holds exactly for names without quotes and backslashes (iff) and is refuted otherwise."
  },
  {
   "property": "C76",
   "status": "partial",
   "theorems": [
    "C76_hexadecimal_value",
    "C76_same_partial",
    "C76_subnormal_refuted",
    "C76_invalid",
    "C76_blanks_refuted",
    "C76_plus_refuted",
    "C76_hexadecimal_refuted"
   ],
   "note": "REFUTED: the fallback reports every subnormal number as out of range, skips white space and a plus sign, and reads hexadecimal numbers (three _refuted theorems, each for all such texts). C76_same_partial proves agreement of value and end in both directions for every other text and every value that is zero, not finite or above the smallest normal number; C76_invalid agreement on invalid_argument. Model: glibc's ERANGE rule, C locale; long double missing."
  },
  {
   "property": "C77",
   "status": "partial",
   "theorems": [
    "C77_printed_number_partial",
    "C77_subnormal_refuted",
    "C77_integers",
    "C77_printed_integer",
    "C77_wrap_refuted",
    "C77_beyond_64_bits"
   ],
   "note": "REFUTED for subnormal numbers and for integers that do not fit int or short (both for all such values). Proved for all other values of float and double, and for all integers of the type, whatever follows the field."
  },
  {
   "property": "C78",
   "status": "proved",
   "theorems": [
    "C78_last_owner",
    "C78_nothing_else",
    "C78_one_region"
   ],
   "note": "Proved for all programs. Concurrency between the destructor and get_logs is C51/C52."
  },
  {
   "property": "C79",
   "status": "proved",
   "theorems": [
    "C79_begin",
    "C79_only_begin",
    "C79_last_owner",
    "C79_nothing_else",
    "C79_one_region",
    "C79_nesting",
    "C79_scopes",
    "C79_ids",
    "C79_ids_only"
   ],
   "note": "Proved for all programs on one thread; the condition for ending the own task is exact (iff). The ITT library is specified by the stack discipline of __itt_task_end."
  },
  {
   "property": "C80",
   "status": "proved",
   "theorems": [
    "C80_shape",
    "C80_members",
    "C80_nnz",
    "C80_symmetric_dense",
    "C80_result_nnz",
    "C80_wanted",
    "C80_checked"
   ],
   "note": ""
  },
  {
   "property": "C81",
   "status": "proved",
   "theorems": [
    "C81_formats",
    "C81_snprintf",
    "C81_same_text",
    "C81_special",
    "C81_determines",
    "C81_fallback_round_trip"
   ],
   "note": "Exact for all precisions, formats up to quadruple precision and both build types. printf is modelled by its description (nearest decimal)."
  },
  {
   "property": "C82",
   "status": "partial",
   "theorems": [
    "C82_absolute_error_partial",
    "C82_elapsed_time_lost_refuted",
    "C82_accumulated_time_erased_refuted"
   ],
   "note": "REFUTED: the error is relative to the uptime, not to the elapsed time: C82_elapsed_time_lost_refuted, C82_accumulated_time_erased_refuted (universal). Proved: absolute error bound of 5 roundings of the clock readings (C82_absolute_error_partial)."
  },
  {
   "property": "C83",
   "status": "partial",
   "theorems": [
    "C83_int64_exact",
    "C83_nanoseconds_always",
    "C83_finer_units_refuted",
    "C83_small_types",
    "C83_int32_exact",
    "C83_int32_refuted",
    "C83_cpu_posix",
    "C83_cpu_windows_refuted",
    "C83_cpu_exact"
   ],
   "note": "REFUTED for units finer than nanoseconds (long uptime), for 32-bit representations (intermediate overflow) and on Windows (100 ns counted as 1 ns, kernel time left out). Proved: exact iff conditions, always exact for nanoseconds in 64 bits and for types below 32 bits; POSIX CPU time."
  },
  {
   "property": "C84",
   "status": "partial",
   "theorems": [
    "C84_timings_text",
    "C84_exception_refuted"
   ],
   "note": "REFUTED only for streams that throw (precision not restored). Proved: text, columns, accuracy and stream state for all times."
  },
  {
   "property": "C85",
   "status": "partial",
   "theorems": [
    "C85_nearest_decimal",
    "C85_special",
    "C85_exponent_lost_refuted"
   ],
   "note": "REFUTED from precision 126 on (exponent cut off). Proved: nearest decimal up to 119 digits, specials."
  },
  {
   "property": "C86",
   "status": "partial",
   "theorems": [
    "C86_set_with_own_element",
    "C86_add_other_scalar_partial",
    "C86_add_own_element",
    "C86_add_exact",
    "C86_add_to_diagonal",
    "C86_add_own_element_refuted"
   ],
   "note": "Proved for everything that sets elements, for any scalar. For += and add_to_diagonal exact: elements after the scalar's own position get twice its value; += is right iff the scalar is zero or the last element (C86_add_exact). As stated refuted by v += v(0,0)."
  },
  {
   "property": "C87",
   "status": "partial",
   "theorems": [
    "C87_safe_overlap_partial",
    "C87_towards_the_start_partial",
    "C87_shift_right",
    "C87_overlap_refuted",
    "C87_down_depends_on_copy_n"
   ],
   "note": "Right whenever every source element is read before it is overwritten (in particular shifting left or up, and v += v); shifting right replicates the first column for every matrix (C87_shift_right)."
  },
  {
   "property": "C88",
   "status": "partial",
   "theorems": [
    "C88_element_access_exact",
    "C88_fits_partial",
    "C88_ptrdiff",
    "C88_as_column_exact",
    "C88_diagonal_exact",
    "C88_index_arithmetic_refuted"
   ],
   "note": "Exact: no element access overflows iff the offset of the last element is representable, always so for ptrdiff_t; refuted for int. diagonal() and empty parts at the far end overflow earlier."
  },
  {
   "property": "C89",
   "status": "partial",
   "theorems": [
    "C89_text_partial",
    "C89_message_refuted",
    "C89_pointer_refuted",
    "C89_demangler_fails_refuted"
   ],
   "note": "C89_text_partial: the text names both types and is the same at every call. REFUTED: the message given to the constructor never appears (C89_message_refuted), earlier pointers dangle after another what() (C89_pointer_refuted), and a name the demangler rejects is undefined (C89_demangler_fails_refuted)."
  },
  {
   "property": "C90",
   "status": "partial",
   "theorems": [
    "C90_place",
    "C90_aligned_partial",
    "C90_exact",
    "C90_refuted"
   ],
   "note": "C90_exact: aligned in all histories and at all addresses if and only if the alignment divides alignof(max_align_t) (small objects) or the allocator's guarantee for std::byte (large ones). REFUTED in general (C90_refuted): over-aligned types, and any alignment above 1 with polymorphic_allocator<std::byte>; missing: those cases."
  },
  {
   "property": "C91",
   "status": "proved",
   "theorems": [
    "C91_dispatch",
    "C91_empty",
    "C91_decided_when_wrapped",
    "C91_const_unchanged"
   ],
   "note": "Simulation of the vtable machine by a semantics without pointers; also: empty wrappers fail an assertion, optional methods are decided when the object is wrapped, const objects never change."
  },
  {
   "property": "C92",
   "status": "partial",
   "theorems": [
    "C92_sorting_throws",
    "C92_otherwise_the_same",
    "C92_accepted_iff",
    "C92_duplicates_unnoticed_refuted"
   ],
   "note": "Throws exactly when sorting is needed, otherwise same converter as the C++23 model. Refuted part: without zip the uniqueness assertions are compiled out, so duplicate COO entries are silently accepted in debug builds too."
  },
  {
   "property": "C93",
   "status": "proved",
   "theorems": [
    "C93_unbroken",
    "C93_row_reported",
    "C93_matrix_reported",
    "C93_vector_reported",
    "C93_row_not_affected",
    "C93_matrix_not_affected",
    "C93_vector_not_affected"
   ],
   "note": "Errors reported or result independent of the continuation; errors reported only if needed. Streams without exception mask; the buffer's exception is swallowed by the istream (badbit)."
  },
  {
   "property": "C94",
   "status": "partial",
   "theorems": [
    "C94_decimal_text",
    "C94_hexadecimal_text",
    "C94_octal_text",
    "C94_padding",
    "C94_default_text",
    "C94_default_text_matlab",
    "C94_default_text_python",
    "C94_any_flags",
    "C94_state_afterwards",
    "C94_width_pads_first_indent",
    "C94_width_pads_end",
    "C94_cut_off",
    "C94_bad_stream",
    "C94_logs_default",
    "C94_logs_cut_off",
    "C94_grouping_refuted",
    "C94_hexadecimal_refuted",
    "C94_log_grouping_refuted"
   ],
   "note": "Layout, flags, width, failing sinks: all proved; refuted (with positive conditional versions) that integers and logs are written the same way on every stream: digit grouping and std::hex change them."
  },
  {
   "property": "C95",
   "status": "partial",
   "theorems": [
    "C95_no_misuse",
    "C95_loaded_exactly",
    "C95_balanced",
    "C95_functions_while_loaded",
    "C95_functions_dangle",
    "C95_default_flags_partial",
    "C95_default_flags_windows_refuted"
   ],
   "note": "Proved for all histories on both platforms; the promise of the default nodelete flag is proved on POSIX and refuted on Windows (flags ignored)."
  },
  {
   "property": "C96",
   "status": "partial",
   "theorems": [
    "C96_grammar",
    "C96_same_as_double",
    "C96_quad_fits",
    "C96_number",
    "C96_print_csv_read_identity",
    "C96_complex",
    "C96_strtold_partial",
    "C96_float128_by_long_double",
    "C96_float128_refuted",
    "C96_ieee_formats"
   ],
   "note": "std::from_chars for all formats up to binary128; strtold agrees except for subnormal numbers (C76/C77 for the smaller formats)"
  },
  {
   "property": "C97",
   "status": "proved",
   "theorems": [
    "C97_every_text",
    "C97_tokens_of_a_field",
    "C97_short_fields",
    "C97_row",
    "C97_vector",
    "C97_every_matrix",
    "C97_matrix",
    "C97_library_independent"
   ],
   "note": "Exact result for every text; replaces the side conditions (readable, line not empty after comments) of the partial theorems of C45-C47."
  },
  {
   "property": "C98",
   "status": "proved",
   "theorems": [
    "C98_no_race",
    "C98_tracing_never_races",
    "C98_get_logs",
    "C98_unordered_get_logs_races",
    "C98_unordered_reset_races",
    "C98_too_many_calls_race"
   ],
   "note": "Positive theorems for every execution; the three *_race(s) theorems show that each condition is needed."
  },
  {
   "property": "C99",
   "status": "partial",
   "theorems": [
    "C99_signals_do_not_synchronize",
    "C99_publication_refuted",
    "C99_with_other_synchronization_partial"
   ],
   "note": "REFUTED: stop_requested() loads with memory_order_relaxed, so stop signals never contribute to happens-before (C99_signals_do_not_synchronize, for every execution) and a hand-over of results races (C99_publication_refuted). Proved when the threads synchronise otherwise; missing: the rest, for which it is false."
  },
  {
   "property": "C100",
   "status": "partial",
   "theorems": [
    "C100_gemv",
    "C100_gemm",
    "C100_gemmt",
    "C100_syrk",
    "C100_trmv",
    "C100_trmm",
    "C100_trsv",
    "C100_trsm",
    "C100_potrf",
    "C100_trtri_partial",
    "C100_trtri_count_refuted",
    "C100_lauum_partial",
    "C100_lauum_refuted",
    "C100_overflow_refuted",
    "C100_no_overflow_partial"
   ],
   "note": "All 27 wrappers: name and count are right (counted as index triples) unless an intermediate product overflows the index type, with the exact condition. Refuted: xlauum_L's name and count, xtrtri_LN's count, overflow with int from size 1291."
  },
  {
   "property": "C101",
   "status": "proved",
   "theorems": [
    "C101_release_agrees",
    "C101_assertions_exact",
    "C101_abort_exact",
    "C101_mismatched_assignment",
    "C101_index_out_of_range"
   ],
   "note": "mat-view.hpp with and without assertions; index arithmetic unbounded (C86-C88 treat index overflow)"
  },
  {
   "property": "C102",
   "status": "proved",
   "theorems": [
    "C102_forward",
    "C102_backward",
    "C102_bad_size_debug",
    "C102_large_size_release",
    "C102_moves_debug",
    "C102_moves_release",
    "C102_moves_overflow",
    "C102_circular_index_valid",
    "C102_comparison"
   ],
   "note": "lifts C03/C04 to fixed-width index types and NDEBUG builds"
  },
  {
   "property": "C103",
   "status": "partial",
   "theorems": [
    "C103_reading",
    "C103_writing",
    "C103_round_trip",
    "C103_other_locale_rejected_partial",
    "C103_decimal_comma_refuted",
    "C103_two_fields_refuted"
   ],
   "note": "exchange theorems and same-locale round trip for every value; mismatched readers reject (conditional on the separator); the silent misreadings with a decimal comma are proved as _refuted theorems for every row"
  },
  {
   "property": "C104",
   "status": "partial",
   "theorems": [
    "C104_quiet_callback",
    "C104_nested_output",
    "C104_nested_output_lost_refuted",
    "C104_nested_flush_refuted",
    "C104_nested_endl_refuted"
   ],
   "note": "the full claim is false: the exact effect of nested output is proved, and that it is lost, that flushes recurse for ever and that std::endl runs over the buffer are _refuted theorems; quiet callbacks agree with C12-C14"
  },
  {
   "property": "C105",
   "status": "partial",
   "theorems": [
    "C105_exact",
    "C105_ieee_formats",
    "C105_numbers_in_front_partial",
    "C105_nan_for_ever",
    "C105_window_maximum_refuted"
   ],
   "note": "The full statement is false: if the first value is a NaN, or the maximum is searched again while the front slot of the buffer holds a NaN, max() is NaN and stays NaN whatever is added (C105_nan_for_ever, C105_window_maximum_refuted). C105_exact says for every history when that happens; otherwise, and in particular if the values number 0, n, 2n, ... are numbers, the statement holds."
  },
  {
   "property": "C106",
   "status": "proved",
   "theorems": [
    "C106_xpotrf_L",
    "C106_xtrtri_LN",
    "C106_arguments",
    "C106_same_functions"
   ],
   "note": "Over the reference LAPACK (netlib's contract) in exact arithmetic; the contents of the matrix after an exception are LAPACK's and not modelled."
  },
  {
   "property": "C107",
   "status": "partial",
   "theorems": [
    "C107_buffers_restored",
    "C107_state_afterwards",
    "C107_other_streams",
    "C107_error_state_refuted",
    "C107_no_errors_partial"
   ],
   "note": "False in general: os.rdbuf(...) clears the error bits, so constructing a redirect hides an earlier error and destroying it hides an error of the scope, whose last characters are then not flushed (C107_error_state_refuted). Proved for all programs and states: the buffers are restored (C107_buffers_restored), the state afterwards is good unless the stream has no buffer (C107_state_afterwards), other streams are not affected; without errors everything holds (C107_no_errors_partial). Exception masks are not modelled."
  },
  {
   "property": "C108",
   "status": "partial",
   "theorems": [
    "C108_windows_load_lib",
    "C108_windows_load_func",
    "C108_windows_function_message",
    "C108_windows_library_message_partial",
    "C108_windows_library_message_refuted",
    "C108_posix_load_func",
    "C108_posix_load_lib_partial",
    "C108_posix_leak_refuted",
    "C108_null_in_name"
   ],
   "note": "Proved for both branches: results, reference counts, message buffers, texts. Refuted parts: on Windows the reason may be that of another error if path::string() changes the last error and is evaluated first (operands of + are unsequenced); on POSIX a library whose initializer leaves a dlerror is loaded, the call throws, and the reference is never given back. Names with an embedded null are looked up up to the null."
  },
  {
   "property": "C109",
   "status": "proved",
   "theorems": [
    "C109_count",
    "C109_join_tokens",
    "C109_join_strings",
    "C109_too_many"
   ],
   "note": ""
  },
  {
   "property": "C110",
   "status": "proved",
   "theorems": [
    "C110_exceptions_describe_the_failure",
    "C110_same_calls_fail",
    "C110_out_of_range_text_refuted"
   ],
   "note": "Exact contents of both exceptions for every string. C110_out_of_range_text_refuted is a consequence: the text about a number out of range quotes what follows the number, not the number (1e999s gives Invalid value 's')."
  },
  {
   "property": "C111",
   "status": "proved",
   "theorems": [
    "C111_same_row",
    "C111_same_matrix",
    "C111_row",
    "C111_matrix",
    "C111_shape",
    "C111_destination_unchanged_refuted",
    "C111_unchanged_before_first_number"
   ],
   "note": "What is left in the destination is characterised exactly (C111_row, C111_matrix); that there is no strong guarantee, as the statement says, is C111_destination_unchanged_refuted (after 1,2,x the first two elements are overwritten)."
  },
  {
   "property": "C112",
   "status": "proved",
   "theorems": [
    "C112_same_calls",
    "C112_tokens",
    "C112_row",
    "C112_every_matrix",
    "C112_matrix",
    "C112_vector",
    "C112_failed_stream",
    "C112_quotes_from_field",
    "C112_quotes_only_the_field_refuted"
   ],
   "note": "The texts are characterised exactly (C112_row, C112_matrix, C112_vector); that more than the offending field is quoted, as the statement says, is C112_quotes_only_the_field_refuted."
  }
 ]
}