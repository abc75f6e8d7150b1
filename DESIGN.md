# Formal model of tttapa/guanaqo in Rocq (Coq 8.16.1)

## 1. What is here

* `properties.jsonl`: the properties (generated by `tools/gen_properties.py`).
* `rocq/theories/<Component>_Model.v`: executable Gallina model; each definition cites file and lines in /repo.
* `rocq/theories/<Component>_Spec.v` (where the notion is not already a library notion): a small specification
  that does not use the model's helpers.
* `rocq/theories/<Component>_Proofs.v`: lemmas.
* `rocq/theories/<Component>_Props.v`: only the property theorems (`exact lemma`), `Print Assumptions`, and `Example`s
  that show concrete non-trivial cases meeting the hypotheses. Files named `<Component>Exact_Props.v`,
  `<Component>More_Props.v` hold later, stronger theorems (mostly equivalences) about the same model.
* `MANIFEST.json`: property -> theorem names and status. `seeded/LOG.jsonl`: wrong programs tried.

Naming: `Cnn_...` is a theorem of property `Cnn`. `..._refuted` proves that the full statement is false of the faithful
model, with a concrete witness (a finding about the code). `..._partial` proves only a part, and the missing part is
stated next to it. A property with a `_refuted` theorem has status "partial" in the manifest; the strongest true
version is proved beside it under a hypothesis which is exactly the guard the code would need.

## 2. Conventions of the model

* Outcomes: `Ok a`, `Throw e` (a C++ exception), `Abort` (a failed `assert`/`GUANAQO_ASSERT`, which is undefined
  behaviour in release builds), `UB` (undefined behaviour, for instance a read outside an array).
* `nat` for sizes and positions, `Z` for signed quantities. Machine words are mathematical integers, except where the
  property is about wrap-around or narrowing (C43, C50, C59), where `mod 2^k` is written out.
* Loops become structural recursion, folds, or fuelled recursion whose out-of-fuel result is a distinct value excluded
  by the theorem.
* Unspecified library behaviour (the result order of an unstable sort, scheduling, heap addresses, allocator
  failures, user copy constructors that throw) is quantified over, never fixed.

## 3. Plan per property

| id | modelled | proof method |
|----|----------|--------------|
| C01 | `MaxHistory::add/max` over any strict weak order, buffer as list + position + full flag | invariant relating buffer to the last n values, induction over adds |
| C02 | default copy, with the iterator copied into the source's buffer | refuted by witness; proved for histories that never use a copy's cursor (fresh buffers) |
| C03, C04 | `CircularIndexIterator` ++/--/==/reverse and loops | induction on the number of steps |
| C05 | `set_intersection_iterator::advance`/`++` over two lists with cursor pair | induction on remaining lengths; spec by occurrence rank |
| C06, C07 | `enumerate`, `iter_range_adapter` range-for loops | induction |
| C08-C11 | `split*`, `join*`, `sort_case_insensitive` over byte lists | induction on strings; sort = any permutation sorted w.r.t. the comparator |
| C12-C14 | `callback_streambuf`: buffer memory with put pointer, std `sputc`/`xsputn`/`sync`; UTF-8 per RFC 3629 as spec | invariant over op histories; C14 refuted |
| C15 | stream with rdbuf slot and stack of redirects | induction over nesting |
| C16-C18 | `parse_duration`: decimal parser as `from_chars`, exact rationals, half-even rounding | induction on string length; C18 refuted by "0s" |
| C19, C20 | `any_ptr`, `shared_any_ptr` with a control block heap | case analysis; invariant over handle histories |
| C21-C26 | `TypeErased`: heap, blocks, objects, wrappers, allocators, throwing copies | world invariant over op histories, refinement to a map of optional values; C25 refuted |
| C27-C31 | `MatrixView` over flat memory | arithmetic, footprint lemmas; C29/C30 refuted for non-square |
| C32-C43 | sparsity conversions, for any permutation chosen by the sort | permutation/sortedness lemmas |
| C44-C48 | `CSVReader` over an istream model, 64-byte buffer | refinement of the buffered reader to a line parser; C45 refuted |
| C49 | print layouts | induction, decoder as spec |
| C50-C52 | `TraceLogger` small-step concurrent semantics | invariant over all interleavings; C51, C52 refuted |
| C53 | `AtomicStopSignal` histories | invariant over op histories |
| C54-C56 | OpenMP batch loops as any interleaving of iteration steps | permutation invariance; C54 refuted in parallel |
| C57 | BLAS wrappers: argument mapping to reference BLAS semantics | matrix algebra over a ring |
| C58 | `copyable_unique_ptr` heap histories | invariant |
| C59 | from_chars fallback vs. standard grammar | refuted + conditional agreement |
| C60 | `make_*_lut` | list lemmas |
| C61 | `as_view`/`as_eigen` index maps | arithmetic; refuted for row-major |
| C62 | timers | induction over event sequences |
| C63 | dl flags, error protocol | finite case analysis / state machine |
| C64 | move constructor and destructor of the scoped redirect | refuted by witness; proved for programs that do not move |
| C65 | the check of the requested order in the CSC conversions | refuted by witness; proved for the accepted orders |
| C66 | two-step conversions | composition of C32-C36, matrices as sums of entries |
| C67 | copies of converters share the spans of the source | refuted by witness; proved while the source lives unchanged |
| C68 | HL LAPACK wrappers over a reference potrf/trtri/lauum | matrix algebra over a field; potrf and the inverse over the real numbers |
| C69, C70 | to_chars/from_chars by their contract over Flocq formats; 64-character buffer | rounding-error analysis with Flocq; C70 refuted for large precisions |
| C71 | sparse-ops.hpp helpers on arbitrary arrays | loop invariants over positions, for any sorter |
| C72 | Eigen's compressed/uncompressed storage, as_sparsity/as_eigen | list lemmas; refuted for uncompressed matrices and column blocks |
| C73 | the batch loops on top of the reference BLAS/LAPACK of C57/C68 | induction over any order of iterations with disjoint outputs; refuted for MKL with an empty inner dimension |
| C74 | the stream buffer of C12 with an arbitrary set of failing callback calls; an ostream with badbit | invariant over histories; refuted for writing on after a failed put |
| C75 | operator<< of trace logs, std::quoted | prefix-free codes; an RFC 4180 reader as specification; refuted for names with quotes or backslashes |
| C76 | std::stof/stod fallback: strtod grammar (white space, signs, hexadecimal), ERANGE as glibc sets it | grammar of C16-C18 reused, Flocq rounding; refuted for subnormals, blanks, plus, hexadecimal |
| C77 | CSVReader::read_single without to_chars: strtod, strtol and casts | composition with C69/C76; refuted for subnormals and integers that do not fit |
| C78 | ScopedLog objects in variables: construct, move, destroy | each region followed to its last owner; three theorems: written there, nothing else written, once per region |
| C79 | the ITT branch: ScopedLogs, loggers and the task stack of the library | simulation by C78; invariant relating open regions to the task stack (iff); counting argument for ids |
| C80 | visitors of the variant on the patterns of the conversion model | case analysis over all converters; counting lemmas of C32-C40 |
| C81 | printf's %e as sign, digits, point, exponent over the decimal rounding of C70; buffer of 64 | length of the text as a function of precision and exponent; half-unit error against the gaps of the format; composition with C77 |
| C82 | timed.hpp:11-23 over Flocq formats | error bound by relative errors; universal refutations: times below uptime/2^prec are measured as 0 and erased |
| C83 | timed.hpp:11-23 with machine integers, timed-cpu.cpp:11-27, 44-55 | exact iff conditions by modular arithmetic; refuted for finer units, 32-bit types and on Windows (100 ns ticks counted as nanoseconds) |
| C84 | timed-cpu.cpp:31-42 and %g | the text denotes the nearest decimal (unsigned_at grammar), error analysis of both divisions; refuted: precision not restored if the stream throws |
| C85 | quadmath-print.cpp:10-17 and %#Qg | up to 119 digits the text denotes the nearest decimal; refuted beyond: the exponent is cut off (universal) |
| C86 | the scalar as an address that is read at every element (MatViewAlias) | loops agree while the scalar keeps its value; for += the exact result when it does not |
| C87 | copy_values with copy_n element by element or as memmove (MatViewAlias) | invariant of the sweep for arbitrary new values; right if every source element is read before it is overwritten, exact result of shifting right |
| C88 | index operations with a range, UB outside (MatViewIndex) | exact condition: the offset of the last element is representable |
| C89 | the string building and the buffers what() returns, the demangler as a parameter | induction on the number of calls; refuted: the message is overwritten, earlier pointers dangle, a null result of the demangler is dereferenced |
| C90 | the TypeErased machine of C21 with an arbitrary assignment of addresses to places | from the invariant of C21; exact condition; refuted for over-aligned types and for polymorphic allocators |
| C91 | function pointers, VTables built by the macros, call, and the movement of VTables and objects between wrappers | simulation with a semantics without pointers |
| C92 | the #else branches of sparsity-conversions.hpp (Sparsity20_Model) | case analysis and comparison with the C++23 model of C32-C43 (Sparsity20_Props); refuted in part: duplicates are not detected |
| C93 | csv.tpp on a stream with badbit whose buffer throws (CsvFault_Model) | simulation with the reader on a working stream, both directions (CsvFault_Proofs, CsvFault_Exact) |
| C94 | streams with flags, width, locale, a limited sink and the bad bit; all printing functions in state-passing style | simulation with the printing functions of C49 and C75; refuted for integers in locales with digit grouping and for hexadecimal streams |
| C95 | the loader as reference counts with unmapping, shared_ptr control blocks, variables and function pointers of a program | invariant (use counts = variables, loader counts = control blocks) over all histories; refuted on Windows with the default flags |
| C96 | std::from_chars for every format; the detour of std::float128_t by long double; quadmath_snprintf | grammar as an equivalence; round trip by the decimal error bound (Flocq) for numbers and matrices; refuted for the detour with the exact result |
| C97 | `CsvAny_Spec`: tokens of a line, parts of a text, rows | one read = one token; induction on the line; every text has parts |
| C98 | accesses of each operation in an axiomatic execution (happens-before, modification order, coherence) | two calls with the same index have a reset between them in the modification order; coherence turns it into happens-before; witnesses by executions with program order only |
| C99 | executions with memory orders, synchronizes-with and happens-before (StopSync) | refuted for every execution: the relaxed load never synchronises (equivalence); proved when the threads are ordered otherwise |
| C100 | trace arguments of all 27 wrappers in checked index arithmetic; operations counted position by position as cardinalities of sets of index triples | closed forms of the counts by induction; exact overflow condition; trtri and lauum counts, the lauum label and int overflow refuted |
| C101 | MatViewRelease_Model: the member functions without their assertions, programs over view variables | induction over programs; legality spec independent of the assertions |
| C102 | RingIndex_Model: iterators over an arbitrary index type with wrap-around, undefined overflow or promotion, with and without assertions | induction over moves and over the range |
| C103 | `Locale_Model`: the printf/strtod fallbacks parametrised by the decimal point | simulation with the C-locale model through the exchange of two characters; the misread rows by the field theorem of C44 |
| C104 | `StreambufNest_Model`: _sync with a callback that runs operations on the same buffer, fuel for the nesting depth | agreement with Streambuf_Model for quiet callbacks; exact effect of output that fits; non-termination for every fuel; overflow by induction on the free space |
| C105 | The model of C01 with comparisons that are false for NaN (every Flocq binary format is an instance) | invariant relating buffer slots to the last n values; exact criterion for a NaN maximum; false in general (the NaN stays for ever), proved when the values number 0, n, 2n, ... are numbers |
| C106 | The wrappers of C68 with the contents of the exception, over the reference LAPACK | induction on the factorization: success on k rows iff the leading minor is positive definite; C106_same_functions relates them to C68 |
| C107 | Streams with an optional buffer and an error flag, rdbuf() clears it; programs with Fail/Clear/Raise/Scope | induction on programs: buffers always restored, state afterwards exact; the full statement is false (errors are forgotten), proved without errors |
| C108 | both branches of dl.cpp over a machine with last error, pending dlerror text, message buffers and reference counts; allocations may fail anywhere | case analysis over a state-and-exception monad; message texts by equations; two refutations (Windows: the name is converted before the error is read; POSIX: an error left by an initializer) |
| C109 | the macros as functions on lists of token spellings, all twenty hand-written variants | case analysis on the number of arguments, equations for arbitrary tokens; a general argument for more than ten |
| C110 | duration-parse.hpp with exception objects (text, pointer, error code, view) over the from_chars of C16-C18 | induction over the rounds of the loop; grammar of numbers (C16) for the place of the failure; agreement with C18 by its exact description |
| C111 | the loops of csv_read_row/csv_read with the destination (CsvPartial_Model) | induction over the elements and rows with the token lemmas of C97; agreement with Csv_Model proved; refutation of the strong guarantee by a run |
| C112 | csv.tpp with the texts of its exceptions (CsvText_Model) | erasing the texts gives Csv_Model; at every read the buffer is the first 64 characters of what is left of the line; induction over fields, comment lines and rows |

Not expressible: performance, ABI/linking, template-instantiation failures at compile time, real hardware memory-model
effects beyond sequentially consistent interleavings of the atomic operations (noted where relevant).

## 4. Trusted base

* Coq 8.16.1's kernel (and `coqc`'s parser/elaborator for what the statements mean), the VM for `vm_compute`.
* The axioms listed in section 6: only standard-library axioms (the classical real numbers, functional extensionality and
  excluded middle, which come in through `Reals` and Flocq's proofs). No axiom, parameter, functor, module type or
  plugin of our own.
* The correspondence between the Gallina models and the C++ text, which is by reading; every definition cites its lines.
* The behaviour of the C++ standard library and of BLAS/LAPACK as written in the models: `std::sort` returns some sorted
  permutation, `std::shared_ptr` counts references, `std::to_chars`/`std::from_chars` round correctly, `istream`/`streambuf`
  follow the standard's description, BLAS/LAPACK follow the reference description.

## 5. What is modelled, file by file

Paths relative to /repo/src/include/guanaqo unless noted.

| file | modelled | not modelled |
|------|----------|--------------|
| max-history.hpp | all; NaN entries (C105) | |
| ringbuffer.hpp | CircularIndexIterator, ranges, reverse iteration; every integer index type, builds with and without assertions (RingIndex) | the C++20 concept boilerplate |
| set-intersection.hpp, enumerate.hpp, iter-adapter.hpp | all | const/sentinel overload selection |
| string-util.hpp | split, split_second, join, join_opt, join_quote, sort_case_insensitive | locale-dependent toupper (a parameter) |
| callback-streambuf.hpp | all, buffers of any size (StreambufSmall), throwing callbacks (C74), callbacks that write to the same stream (C104), redirects and the error state of the stream (C107) included | |
| duration-parse.hpp | all, contents of the exceptions included (C110), for integral representations | (floating-point representations do not compile: std::chrono::round rejects them) |
| from_chars-wrapper.hpp | the integer and floating-point fallbacks; the std path by contract (all formats: C96) | |
| any-ptr.hpp, copyable-unique_ptr.hpp, type-erasure.hpp, required-method.hpp, demangled-typename.cpp | all operations on objects, heap and references; alignment (C90), dispatch (C91), exception texts (C89) | allocator propagation traits other than POCMA/POCCA as parameters; overloaded member functions, defaults that call optional methods (C91) |
| mat-view.hpp, eigen/view.hpp, eigen/span.hpp | all address computations and loops; scalar arguments by reference and overlapping copies (MatViewAlias); the range of the index type (MatViewIndex, EigenViewIndex); builds with NDEBUG (MatViewRelease) | Eigen's own expression templates |
| linalg/sparsity.hpp, sparse-ops.hpp, sparsity-conversions.hpp, eigen/sparse.hpp | all conversions, copies and copy assignments of converters (C67), the visitors (C80) | linalg/matrix-view.hpp (a plain struct) |
| io/csv.hpp, implementation/io/csv.tpp | all, the strtod/strtol field reader included (C77), all floating-point types (C96), the destination when a call throws (C111), the texts of the exceptions (C112; not those of the strtod reader) | |
| print.hpp, implementation/print.tpp, /repo/src/src/print.cpp | all layouts, integers, float_to_str with to_chars and with snprintf/quadmath_snprintf (C81), in any locale (C103); spans (C49) | multi-byte decimal points |
| trace.hpp | TraceLogger, ScopedLog (interleavings and, in C98, the C++ memory model), the ITT branch (its calls of the library) | the macros; the ITT library beyond its task stack; a null domain |
| atomic-stop-signal.hpp, timed.hpp, timed-cpu.{hpp,cpp}, lut.hpp, dl.hpp, dl-flags.hpp | all; lifetimes of libraries (C95, both branches), errors of the loader with get_last_error_msg (C108) | |
| /repo/src/blas | batch loops, HL BLAS and LAPACK wrappers over reference semantics; the contents of LAPACK exceptions (C106) | MKL's own batch routines (their early return is in C54 and C73) |
| preprocessor.h | the counting and joining macros (C109) | GUANAQO_NOOP |
| tag-invoke.hpp, type-traits.hpp, possible-alias.hpp, stringify.h, quadmath/quadmath.hpp, lifetime.hpp, noop-delete.hpp, assume.hpp, not-implemented.hpp, float.hpp, openmp.h | | compile-time plumbing without run-time behaviour of its own, or one-line wrappers of the implementation |

## 6. Print Assumptions

<!-- assumptions -->
528 theorems (generated by `tools/assumptions.py`).

**Closed under the global context** (no axioms):
`C01_window_maximum`, `C02_adding_to_a_copy`, `C02_assigned_object_refuted`, `C02_copy_independence_refuted`, `C02_independent_if_copies_not_added_to_partial`, `C03_forward_iteration`, `C03_no_index_twice`, `C04_dec_then_inc`, `C04_inc_then_dec`, `C04_reverse_iteration`, `C04_reverse_of_reverse_range`, `C05_any_input`, `C05_set_intersection`, `C06_enumerate`, `C07_adapter_prefix`, `C07_adapter_visits_all`, `C08_split`, `C08_split_second`, `C09_join`, `C09_split_join`, `C10_join_quote`, `C11_comparator_is_strict_weak_order`, `C11_equivalence_is_equal_upper_case`, `C11_sort_case_insensitive`, `C12_defined`, `C12_destroy`, `C12_flush`, `C12_nothing_lost`, `C12_small_buffers`, `C13_spans_are_whole_code_points`, `C14_exact_partial`, `C14_flushed_in_time_partial`, `C14_out_of_bounds_refuted`, `C14_small_buffers_refuted`, `C15_scoped_redirect`, `C19_any_ptr_cast`, `C19_any_ptr_empty`, `C19_any_ptr_observers`, `C19_shared_any_ptr_cast`, `C20_cast_never_dangles`, `C20_shared_lifetime`, `C21_all_released`, `C21_never_stuck`, `C21_resource_safety`, `C22_value_semantics`, `C23_references_never_own`, `C24_const_access`, `C24_const_never_modified`, `C25_as_sound_partial`, `C25_as_type_safe_partial`, `C25_default_constructed_partial`, `C25_empty_refuted`, `C25_exact`, `C25_moved_from_refuted`, `C26_copy_assignment_throws`, `C26_copy_construction_throws`, `C27_as_column`, `C27_element_access`, `C27_subviews`, `C28_add_scalar`, `C28_generate`, `C28_set_constant`, `C29_exact`, `C29_triangular_partial`, `C29_triangular_refuted`, `C30_add_to_diagonal_partial`, `C30_diagonal_refuted`, `C30_diagonal_view_partial`, `C30_exact`, `C30_set_diagonal_partial`, `C31_add_assign`, `C31_assign`, `C31_other_cases`, `C32_coo_to_csc`, `C33_csc_to_coo`, `C34_dense_entries`, `C34_dense_to_coo`, `C34_dense_to_csc`, `C35_dense_to_dense`, `C35_sparse_to_dense`, `C36_csc_to_csc`, `C37_coo_to_coo`, `C38_truthful_order`, `C39_csc_well_formed`, `C40_dense_unsupported_rejected`, `C40_nonsquare_rejected`, `C40_wrong_side_rejected`, `C41_convert_values_into_partial`, `C41_empty_result_refuted`, `C41_exact`, `C41_larger_result_refuted`, `C41_release_wrong_size_refuted`, `C42_csc`, `C42_triplets`, `C43_exact_coo`, `C43_exact_csc`, `C43_indices_unchanged_partial`, `C43_silent_wrap_refuted`, `C44_floating_separator`, `C44_integer_separator`, `C44_matrix_of_fields`, `C44_row_of_fields`, `C44_vector_of_fields`, `C45_integers_readable_partial`, `C45_long_field_split_refuted`, `C45_matrix_no_split_partial`, `C45_row_no_split_partial`, `C45_vector_partial`, `C46_comment_before_empty_refuted`, `C46_matrix_after_comments_partial`, `C46_row_after_comments_partial`, `C46_vector_after_comments_partial`, `C47_exact`, `C47_exact_count_partial`, `C47_long_field_refuted`, `C47_matrix_partial`, `C47_only_csv_read_error`, `C48_print_csv_read_identity`, `C49_csv_layout`, `C49_default_indentation`, `C49_integer_tokens`, `C49_matlab_column`, `C49_matlab_matrix_partial`, `C49_matlab_no_rows_refuted`, `C49_matlab_recoverable`, `C49_python_matrix_partial`, `C49_python_no_rows_refuted`, `C49_python_recoverable`, `C49_python_vector`, `C49_span_csv`, `C49_span_matlab`, `C49_span_python`, `C49_vector_recoverable`, `C50_entries_intact`, `C50_no_write_outside`, `C50_no_write_outside_any_reset`, `C50_records_the_call`, `C50_slots_distinct`, `C50_slots_distinct_any_reset`, `C50_slots_used`, `C50_slots_used_any_reset`, `C51_entries_record_calls_partial`, `C51_exact`, `C51_get_logs_partial`, `C51_get_logs_refuted`, `C52_reset_partial`, `C52_reset_refuted`, `C52_scope_across_reset_refuted`, `C52_slot_partial`, `C53_query_always_possible`, `C53_stop_never_lost`, `C54_exact`, `C54_parallel_refuted`, `C54_sequential_partial`, `C54_terminates`, `C55_gemv_calls`, `C55_gemv_schedule_independent`, `C55_sequential_order`, `C56_no_overflow`, `C56_potrf_errors`, `C57_default_stride`, `C57_empty_operand_refuted`, `C57_gemm_strides_exact`, `C57_mismatched_dimensions_rejected`, `C57_triangular_strides_exact`, `C57_xgemm_NN`, `C57_xgemm_NT`, `C57_xgemm_TN`, `C57_xgemm_TT`, `C57_xgemmt_LNN`, `C57_xgemmt_LNT`, `C57_xgemmt_LTN`, `C57_xgemmt_LTT`, `C57_xgemv_N`, `C57_xgemv_T`, `C57_xsyrk_LN`, `C57_xsyrk_LT`, `C57_xtrmm_LLNN`, `C57_xtrmm_LLTN`, `C57_xtrmm_RLNN`, `C57_xtrmm_RLTN`, `C57_xtrmv_LNN`, `C57_xtrmv_LTN`, `C57_xtrsm_LLNN`, `C57_xtrsm_LLTN`, `C57_xtrsm_RLNN`, `C57_xtrsm_RLTN`, `C57_xtrsv_LNN`, `C57_xtrsv_LTN`, `C58_deep_copy`, `C59_agrees_partial`, `C59_extras_refuted`, `C59_narrow_types_refuted`, `C59_out_of_range_partial`, `C60_lut_1d`, `C60_lut_2d`, `C60_lut_common_type`, `C61_as_eigen`, `C61_as_view_partial`, `C61_as_view_refuted`, `C61_exact`, `C61_index_type_exact`, `C61_index_type_round_trip`, `C61_round_trip`, `C61_span`, `C61_span_view`, `C62_durations`, `C62_timed`, `C62_timings_cpu`, `C63_flags_injective`, `C63_flags_recoverable`, `C63_load_func`, `C63_load_lib`, `C64_move_refuted`, `C64_move_same_scope_partial`, `C64_source_destroyed_first`, `C65_requests_accepted_partial`, `C65_unsorted_request_refuted`, `C66_dense_round_trip`, `C66_via_coo`, `C66_via_csc`, `C67_assignment_changes_copies_refuted`, `C67_assignment_mixes_refuted`, `C67_assignment_partial`, `C67_copies_while_sources_live_partial`, `C67_copy_outlives_source_refuted`, `C67_exact`, `C67_moving_partial`, `C67_never_wrong_values`, `C68_empty_refuted`, `C68_not_square_rejected`, `C68_stride_rejected`, `C68_xlauum_L`, `C68_xpotrf_L_factor`, `C68_xtrtri_LN`, `C69_formats`, `C69_ieee_formats`, `C71_columns_found`, `C71_convert_triplets`, `C71_sort_rows`, `C71_sort_triplets`, `C71_sort_triplets_col`, `C72_as_eigen`, `C72_as_sparsity_partial`, `C72_column_block_refuted`, `C72_round_trip`, `C72_round_trip_order_refuted`, `C72_uncompressed_refuted`, `C73_mkl_empty_inner_dimension_refuted`, `C73_mkl_xgemm_partial`, `C73_mkl_xgemv_partial`, `C73_xgemm_batch_strided`, `C73_xgemv_batch_strided`, `C73_xsyrk_batch_strided`, `C73_xtrsm_batch_strided`, `C74_careful_histories_partial`, `C74_destroy`, `C74_failed_spans_are_passed_again`, `C74_failing_puts_refuted`, `C74_nothing_lost_or_repeated`, `C74_ostream`, `C74_write_after_failed_put_refuted`, `C75_csv_record_partial`, `C75_csv_record_refuted`, `C75_decimal`, `C75_headings`, `C75_logs_recoverable`, `C77_beyond_64_bits`, `C77_integers`, `C77_printed_integer`, `C77_wrap_refuted`, `C78_last_owner`, `C78_nothing_else`, `C78_one_region`, `C79_begin`, `C79_ids`, `C79_ids_only`, `C79_last_owner`, `C79_nesting`, `C79_nothing_else`, `C79_one_region`, `C79_only_begin`, `C79_scopes`, `C80_checked`, `C80_members`, `C80_nnz`, `C80_result_nnz`, `C80_shape`, `C80_symmetric_dense`, `C80_wanted`, `C81_formats`, `C83_cpu_exact`, `C83_cpu_posix`, `C83_cpu_windows_refuted`, `C83_finer_units_refuted`, `C83_int32_exact`, `C83_int32_refuted`, `C83_int64_exact`, `C83_nanoseconds_always`, `C83_small_types`, `C86_add_exact`, `C86_add_other_scalar_partial`, `C86_add_own_element`, `C86_add_own_element_refuted`, `C86_add_to_diagonal`, `C86_set_with_own_element`, `C87_down_depends_on_copy_n`, `C87_overlap_refuted`, `C87_safe_overlap_partial`, `C87_shift_right`, `C87_towards_the_start_partial`, `C88_as_column_exact`, `C88_diagonal_exact`, `C88_element_access_exact`, `C88_fits_partial`, `C88_index_arithmetic_refuted`, `C88_ptrdiff`, `C89_demangler_fails_refuted`, `C89_message_refuted`, `C89_pointer_refuted`, `C89_text_partial`, `C90_aligned_partial`, `C90_exact`, `C90_place`, `C90_refuted`, `C91_const_unchanged`, `C91_decided_when_wrapped`, `C91_dispatch`, `C91_empty`, `C92_accepted_iff`, `C92_duplicates_unnoticed_refuted`, `C92_otherwise_the_same`, `C92_sorting_throws`, `C93_matrix_not_affected`, `C93_matrix_reported`, `C93_row_not_affected`, `C93_row_reported`, `C93_unbroken`, `C93_vector_not_affected`, `C93_vector_reported`, `C94_any_flags`, `C94_bad_stream`, `C94_cut_off`, `C94_decimal_text`, `C94_default_text`, `C94_default_text_matlab`, `C94_default_text_python`, `C94_grouping_refuted`, `C94_hexadecimal_refuted`, `C94_hexadecimal_text`, `C94_log_grouping_refuted`, `C94_logs_cut_off`, `C94_logs_default`, `C94_octal_text`, `C94_padding`, `C94_state_afterwards`, `C94_width_pads_end`, `C94_width_pads_first_indent`, `C95_balanced`, `C95_default_flags_partial`, `C95_default_flags_windows_refuted`, `C95_functions_dangle`, `C95_functions_while_loaded`, `C95_loaded_exactly`, `C95_no_misuse`, `C96_ieee_formats`, `C97_every_matrix`, `C97_every_text`, `C97_library_independent`, `C97_matrix`, `C97_row`, `C97_short_fields`, `C97_tokens_of_a_field`, `C97_vector`, `C98_get_logs`, `C98_no_race`, `C98_too_many_calls_race`, `C98_tracing_never_races`, `C98_unordered_get_logs_races`, `C98_unordered_reset_races`, `C99_publication_refuted`, `C99_signals_do_not_synchronize`, `C99_with_other_synchronization_partial`, `C100_gemm`, `C100_gemmt`, `C100_gemv`, `C100_lauum_partial`, `C100_lauum_refuted`, `C100_no_overflow_partial`, `C100_overflow_refuted`, `C100_potrf`, `C100_syrk`, `C100_trmm`, `C100_trmv`, `C100_trsm`, `C100_trsv`, `C100_trtri_count_refuted`, `C100_trtri_partial`, `C101_abort_exact`, `C101_assertions_exact`, `C101_index_out_of_range`, `C101_mismatched_assignment`, `C101_release_agrees`, `C102_backward`, `C102_bad_size_debug`, `C102_circular_index_valid`, `C102_comparison`, `C102_forward`, `C102_large_size_release`, `C102_moves_debug`, `C102_moves_overflow`, `C102_moves_release`, `C104_nested_endl_refuted`, `C104_nested_flush_refuted`, `C104_nested_output`, `C104_nested_output_lost_refuted`, `C104_quiet_callback`, `C105_exact`, `C105_nan_for_ever`, `C105_numbers_in_front_partial`, `C105_window_maximum_refuted`, `C106_arguments`, `C106_same_functions`, `C106_xtrtri_LN`, `C107_buffers_restored`, `C107_error_state_refuted`, `C107_no_errors_partial`, `C107_other_streams`, `C107_state_afterwards`, `C108_null_in_name`, `C108_posix_leak_refuted`, `C108_posix_load_func`, `C108_posix_load_lib_partial`, `C108_windows_function_message`, `C108_windows_library_message_partial`, `C108_windows_library_message_refuted`, `C108_windows_load_func`, `C108_windows_load_lib`, `C109_count`, `C109_join_strings`, `C109_join_tokens`, `C109_too_many`, `C111_destination_unchanged_refuted`, `C111_matrix`, `C111_row`, `C111_same_matrix`, `C111_same_row`, `C111_shape`, `C111_unchanged_before_first_number`, `C112_every_matrix`, `C112_failed_stream`, `C112_matrix`, `C112_quotes_from_field`, `C112_quotes_only_the_field_refuted`, `C112_row`, `C112_same_calls`, `C112_tokens`, `C112_vector`.

Axioms of the standard library: `ClassicalDedekindReals.sig_not_dec`, `ClassicalDedekindReals.sig_forall_dec`, `FunctionalExtensionality.functional_extensionality_dep`:
`C68_inverse_in_place`, `C68_xpotrf_L`, `C73_xpotrf_batch_strided`, `C106_xpotrf_L`.

Axioms of the standard library: `ClassicalDedekindReals.sig_not_dec`, `ClassicalDedekindReals.sig_forall_dec`, `FunctionalExtensionality.functional_extensionality_dep`, `Classical_Prop.classic`:
`C16_every_sequence`, `C16_sum`, `C16_terminates`, `C17_any_decimal_partial`, `C17_decimal_refuted`, `C17_every_decimal_partial`, `C17_every_term_partial`, `C17_every_value_partial`, `C17_integers_partial`, `C17_round_half_even_partial`, `C17_term_partial`, `C18_exact`, `C18_nonfinite_refuted`, `C18_rejected`, `C18_rejects_all_bad`, `C18_well_formed_partial`, `C18_zero_refuted`, `C69_buffer`, `C69_complex`, `C69_number`, `C69_print_csv_read_identity`, `C70_exact`, `C70_float_to_str_partial`, `C70_large_precision_refuted`, `C70_special`, `C76_blanks_refuted`, `C76_hexadecimal_refuted`, `C76_hexadecimal_value`, `C76_invalid`, `C76_plus_refuted`, `C76_same_partial`, `C76_subnormal_refuted`, `C77_printed_number_partial`, `C77_subnormal_refuted`, `C81_determines`, `C81_fallback_round_trip`, `C81_same_text`, `C81_snprintf`, `C81_special`, `C82_absolute_error_partial`, `C82_accumulated_time_erased_refuted`, `C82_elapsed_time_lost_refuted`, `C84_exception_refuted`, `C84_timings_text`, `C85_exponent_lost_refuted`, `C85_nearest_decimal`, `C85_special`, `C96_complex`, `C96_float128_by_long_double`, `C96_float128_refuted`, `C96_grammar`, `C96_number`, `C96_print_csv_read_identity`, `C96_quad_fits`, `C96_same_as_double`, `C96_strtold_partial`, `C103_decimal_comma_refuted`, `C103_other_locale_rejected_partial`, `C103_reading`, `C103_round_trip`, `C103_two_fields_refuted`, `C103_writing`, `C105_ieee_formats`, `C110_exceptions_describe_the_failure`, `C110_out_of_range_text_refuted`, `C110_same_calls_fail`.

<!-- /assumptions -->

## 7. Findings

Statements that are false of the code as it is (each is a `_refuted` theorem or an example beside the property):

* MaxHistory: a copied object's cursor points into the source's buffer (C02).
* callback_streambuf: overflow writes one character past its buffer (C14).
* scoped_ostream_redirect: after a move the source still restores the stream (C64).
* duration parser: "0s" is rejected (C18); non-finite values reach an integer cast (UB); double precision loses ticks (C17).
* TypeErased: empty wrappers keep a stale type (C25); an emptied const reference stays const.
* MatrixView: triangular and diagonal operations use max(rows, cols) (C29, C30).
* sparsity conversions: an order check that rejects a valid request (C65), assertion failures of convert_values_into
  (C41), silent narrowing of indices (C43), copied converters refer to the source's vectors (C67), uniqueness is only
  checked between neighbours (C42).
* CSV: fields of 64 or more characters are split silently (C45); a comment followed by an empty line or the end of the file is an
  error (C46).
* print: matrices without rows print only closing brackets (C49); float_to_str ignores to_chars errors (C70).
* TraceLogger: get_logs and reset race with trace() (C51, C52).
* batch BLAS: shared pointers in parallel loops (C54); the MKL branches return before scaling by beta.
* Eigen views: as_view of a row-major matrix is transposed (C61).
* HL BLAS/LAPACK: empty views are rejected as an illegal leading dimension (C57, C68).
* from_chars fallback: narrow types wrap, blanks, plus signs and 0x prefixes are accepted (C59).
* Eigen sparse matrices: as_sparsity of an uncompressed matrix or of a block of columns gives an invalid pattern; the order
  flag is always SortedRows (C72).
- With MKL, xgemm_batch_strided with K = 0 (xgemv_batch_strided with an empty x) returns
  without scaling C (y) by beta, unlike the plain operations and the non-MKL build (C73).
* callback_streambuf: after a put whose callback threw, pptr() is behind epptr(): the next failing put stores further out
  of bounds and a write copies a negative number of bytes; a callback that throws in the destructor terminates (C74).
* TraceLogger: names with quotes or backslashes are escaped with backslashes, which CSV readers do not undo (C75).
* from_chars fallback (all Clang builds): subnormal numbers are out of range; white space, a plus sign and hexadecimal
  numbers are accepted, so that parse_duration("-0x10s") is -16 s instead of an error (C76).
* csv_read without std::from_chars: throws on every subnormal number that print_csv writes; int and short fields that do
  not fit wrap around silently (C77).
* ScopedLog with ITT: regions that are moved out of their scope and outlive later regions end the wrong tasks
  (__itt_task_end takes no id); exact condition in C79.
* print.cpp:16-22 (C81): the snprintf version of float_to_str asserts n < 64; without assertions a precision of exactly
  57 (56, 55 for 3, 4 exponent digits) puts a null character into the text, larger ones give a string_view that reaches
  behind the buffer. A nan is "+nan" there but "nan" with std::to_chars; precision 0 leaves a point ("+1.e+00").
* SparsityConverter::convert_values_into (C41): in builds without assertions a result that is too small is silently left
  unchanged by the converters that work in place (the values end up in the workspace), a larger one gets a prefix.
* trace.cpp (C52): not only ScopedLogs alive across a reset() — every trace() call that holds a slot at the moment of a
  reset() can ruin a later entry, whatever the state (C52_scope_across_reset_refuted is universal).
* duration-parse.hpp (C18): "inf", "nan" and "nan(abc)" with valid units reach an out-of-range conversion to the
  integral representation: undefined behaviour for every duration type (C18_nonfinite_refuted).
* enumerate.hpp / iter-adapter.hpp: the iterator's postfix operator++(int) is declared const but increments a member; it
  cannot be instantiated (not modelled).
* timed.hpp (C82): `time -= now; ... time += now` rounds the uptime, not the elapsed time. With duration<float> in seconds,
  39 hours after boot 8 ms are measured as 0, and starting and stopping a timer erases up to 1/32 s of earlier
  measurements 12 days after boot. double is fine.
* timed.hpp (C83): units finer than nanoseconds overflow (UB) once uptime * k reaches 2^63 (picoseconds: 107 days); with a
  32-bit representation the intermediate value overflows depending on the uptime although the result would fit.
* timed-cpu.cpp:15-20 (C83): on Windows FILETIME counts 100 ns, but the difference is added as nanoseconds, and kernel time
  is left out: cpu_time is at least 100 times too small.
* timed-cpu.cpp:36-40 (C84): an exception from the stream leaves its precision at 6 or 5. A zero wall time prints nan or inf.
* quadmath-print.cpp (C85): with a precision of 126 or more the buffer cuts off the exponent (assertion in debug builds).
* MaxHistory (C02): copy assignment has the same defect as copying.
* mat-view.hpp:208-215, 276-287 (C86): v += v(r, c) and add_to_diagonal(v(i, i)) read the scalar again after they have
  changed it: every later element gets twice the value.
* mat-view.hpp:216-236, 256-273 (C87): v.right_cols(n) = v.left_cols(n) copies the first column everywhere, += gives
  running sums; shifting down depends on whether copy_n is memmove.
* mat-view.hpp (C88): with int indices a matrix of more than 2^31 elements can be constructed and assigned, but set_constant
  and operator() overflow; diagonal() overflows earlier than needed; as_column truncates the size.
- C61: `as_view(M, with_index_type<I>)` silently reduces sizes and strides modulo 2^N when I is
  too narrow (eigen/view.hpp:22-29): a column of 2^32 + 3 numbers becomes a view with 3 rows.
* type-erasure.hpp:31-40 (C89): what() overwrites the prefix it has just built from the user's message (= instead of +=),
  so the message never appears; it rewrites a mutable string, so the pointer of an earlier what() dangles (and concurrent
  calls race) although what() is const; demangled-typename.cpp:13-15 makes a std::string of a null pointer if the
  demangler fails.
* type-erasure.hpp:229, 564 (C90): storage is aligned for max_align_t (buffer) or as the byte allocator likes (heap), and
  alignof(T) is never looked at: over-aligned types are misaligned, and with std::pmr::polymorphic_allocator<std::byte>,
  which asks for alignment 1, any large type may be.
* type-erasure.hpp:166-175 (C91, compile time only): for a const class the throwing lambda of a non-const method returns
  void, so a VTable with a required non-const method that returns a value cannot be built for a pointer to const.
* linalg/sparsity-conversions.hpp (C92): without std::views::zip the uniqueness assertions are compiled out, so duplicates
  pass unnoticed in debug builds too, and inputs that need sorting throw logic_error.
* io/csv.hpp (C93): no defect found: after an I/O error the readers throw or deliver what every continuation would give.
* implementation/print.tpp:26, trace.hpp:108-112 (C94): integers are inserted with the stream's flags and locale: with
  digit grouping (`std::locale::global(std::locale(""))`, en_US) 1234 becomes two CSV fields and logs get more columns; on
  a stream left in std::hex other numbers are written. Floating-point numbers are not affected. A width pads only the
  first indentation.
* /repo/src/src/dl.cpp:28-37 (C95): on Windows the flags are ignored, so with the default `nodelete` function pointers
  dangle once the last handle is gone; on POSIX they never do.
* print.cpp:41-45 (C96): where the standard library has no std::to_chars for std::float128_t, numbers are rounded to long double before they are printed: different numbers are printed alike, and what is read back is the rounded number (numbers above the largest long double become infinite).
* trace.hpp:149-168 (C98): relaxed atomics are enough for trace() and ScopedLog; get_logs() and reset() race with a concurrent trace() unless the threads are synchronised otherwise; on 32-bit platforms the counter wraps after 2^32 calls, and entries are then overwritten (and can race) although the log is full.
* atomic-stop-signal.hpp:18 (C99): the relaxed load gives no ordering: data written before stop() must not be read after stop_requested() without other synchronisation.
* hl-blas-interface.hpp:340-342 (C100): xlauum_L is traced as "trtri" (copy and paste of xtrtri_LN), with (n-1)(n-2)/2 too few operations and -1 for an empty matrix; xtrtri_LN (352-354) leaves out n(n-1)/2 multiplications.
* hl-blas-interface.hpp:31-354 (C100): the flop_count is computed in the index type before it is converted to int64_t, so with int indices and tracing a 1291 x 1291 product or factorization is signed overflow. Widening an operand to int64_t first would avoid it.
* trace.hpp:94 with hl-blas-interface.hpp:31 (C100, not modelled): with GUANAQO_WITH_ITT the macro GUANAQO_TRACE takes two arguments and the wrappers pass three: BLAS tracing with ITT does not compile.
* C101: in release builds `v = w` between views of different shapes copies `v.rows * v.cols` elements
  from the strides of `w`, i.e. also elements that are not in `w` (out of bounds if the array ends there).
* C102: `ringbuffer.hpp` uses `assert` without including `<cassert>`; a release build iterates a range with
  size > max by visiting buffer entries more than once.
* C103: where std::to_chars/std::from_chars for floating point are missing, print_* and csv_read use the decimal point of
  the process locale. With a decimal comma and the default separator ',' a row of n numbers is silently read as 2n
  numbers by a reader in the C locale (or with std::from_chars), and in a decimal-comma process "12,5" is one number.
* C104: callback-streambuf.hpp:58-74 is not reentrant: what a callback writes to the same stream is dropped when the
  callback returns (or replaces the pending bytes of an incomplete code point); a flush in the callback recurses for ever;
  with std::endl the nested calls fill the buffer and write behind it.
* C67: the implicit copy assignment of the converters copies spans into the vectors of the right-hand side, and overwrites
  the vectors that earlier copies of the left-hand side read: those copies then silently give wrong indices (a mixture of
  old and new ones), or undefined behaviour if the vectors are reallocated.
* C14: with a buffer_size below 3, one write of a four-byte code point leaves pptr() behind epptr(); the next xsputn
  copies a negative number of bytes (undefined, whatever memory follows the buffer).
* C105: MaxHistory never recovers from a NaN that became the maximum: no value is greater than it and no evicted value is equal to it,
  so max() is NaN for ever, long after the NaN left the window. It becomes the maximum if it is the first value, or if it is
  in the front slot of the buffer when the class calls std::max_element; anywhere else a NaN is ignored.
* C107: scoped_ostream_redirect clears the error bits of the stream when it is constructed and again when it is destroyed, because
  std::ios::rdbuf(sb) does: an error from before the scope disappears, and so does an error in the scope, together with the characters that were
  still in the buffer (flush() does nothing on a failed stream). The buffers are restored in every case.
* C108 (dl.cpp): (a) Windows: `"Unable to load \"" + so_filename.string() + "\": " + get_last_error_msg().get()` converts the path (a system call that may set the last error) and reads the last error in an order the language does not fix: the text can describe another error. (b) POSIX: load_lib takes any pending dlerror after dlopen for a failure of dlopen; if an initializer of the library leaves one (a failed dlsym in a constructor), load_lib throws although the library was loaded and never closes it. (c) A function name with an embedded null byte is looked up only up to it, and what() of the exception loses the reason.
* C110 (duration-parse.hpp:37-42): for a number outside the range of double, std::from_chars leaves ptr after the number, and the text of invalid_duration_value quotes from there: "1e999s" is reported as `Invalid value 's'`, and "1e999" as `Invalid value ''`. After an exception the duration holds the terms before the failure.
* C111 (csv.tpp:155-176): csv_read_row and csv_read have only the basic exception guarantee: after an exception the numbers in front of the error have been assigned (`1,2,x` into {7,8,9} leaves {1,2,9}), also when the only error is one field too many.
* C112 (csv.tpp:26-65, 85-97): the exception about a field that is not a number quotes up to 64 characters of the line, other fields included (`1,x,3`: `conversion failed 'x,3'`); a missing row is reported as `extraction failed: fail eof` if it is the first of the call or follows a comment, and as `conversion failed ''` otherwise.
