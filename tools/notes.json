{
 "C01": {
  "note": "Any strict weak order; C01_order_needed shows why NaN is excluded."
 },
 "C02": {
  "note": "REFUTED: the implicit copy copies the iterator into the source's vector, so adding to a copy overwrites the original (finding F1). The _partial theorem proves independence for every history in which nothing is added to a copy; missing: adding to a copy. C02_adding_to_a_copy says exactly what adding to a copy does: undefined once more values are added than were left before the end of the source's vector, and otherwise the values land in the source's vector and the copy's stays as it was."
 },
 "C11": {
  "note": "std::ranges::sort is trusted to return a sorted permutation when the comparator is a strict weak order; that precondition is what is proved."
 },
 "C29": {
  "note": "REFUTED: the triangular loops run to n=max(rows,cols)/the wrong bound, so rectangular views are written outside their elements (C29_triangular_refuted). The _partial theorem gives the exact result for the shapes that work; missing: the remaining rectangular shapes, for which the property is false. C29_exact: for tight arrays the call is defined and right if and only if the shape condition holds."
 },
 "C30": {
  "note": "REFUTED: the diagonal loops run to max(rows,cols) instead of min (C30_diagonal_refuted). The _partial theorems prove the property for square views; missing: rectangular views, for which it is false. C30_exact: for tight arrays each of the three operations is defined if and only if the view is square."
 },
 "C51": {
  "note": "REFUTED: get_logs() copies min(count, capacity) entries while a trace() call that has taken its index has not yet written them (C51_get_logs_refuted). The _partial theorem proves every returned entry complete when no trace() call is in progress; missing: concurrent get_logs, for which the property is false. C51_exact: without resets, at every moment, each field of each returned entry holds the value of one call if that call has executed the write, its initial value otherwise."
 },
 "C52": {
  "note": "REFUTED: a ScopedLog alive across reset() writes its duration into the slot of a later call (C52_reset_refuted). The _partial theorem proves entries intact when every reset happens with no scope alive; missing: other resets, for which it is false. C52_slot_partial needs only that the slot in question is clear at the reset; C52_scope_across_reset_refuted: universally, every call holding a slot at a reset can ruin a later entry."
 },
 "C54": {
  "note": "REFUTED: with OpenMP the operand pointers are shared and incremented inside the parallel loop (C54_parallel_refuted). The _partial theorem proves the property for sequential execution, any batch size and number of operands; missing: parallel execution, for which it is false. C54_exact: all schedules give the right calls if and only if at most one thread has iterations to run; C54_terminates: every schedule can be completed."
 },
 "C61": {
  "note": "REFUTED for row-major Eigen objects (C61_as_view_refuted); proved for column-major objects, for as_eigen, the round trip and spans; missing: row-major as_view, for which it is false. C61_exact gives the condition as an equivalence. C61_index_type_exact: with another index type the view is right exactly if sizes and strides are representable (otherwise silently reduced modulo 2^N); C61_index_type_round_trip: views with index types no wider than Eigen's survive the round trip."
 },
 "C12": {
  "note": "Holds in every execution that stays within accessible memory; C12_defined: one accessible byte behind the buffer is enough (the overrun itself is C14)."
 },
 "C13": {
  "note": "As C12."
 },
 "C14": {
  "note": "REFUTED for every buffer size: overflow() stores at epptr(), one past the vector (finding F6). C14_exact_partial characterises exactly the histories of valid text that stay inside (iff); C14_flushed_in_time_partial is a sufficient discipline for arbitrary bytes."
 },
 "C64": {
  "note": "REFUTED: the defaulted move constructor leaves the source active (finding). The _partial theorem covers source and target destroyed together; missing: other orders, for which it is false. C64_source_destroyed_first says what happens in the remaining order."
 },
 "C16": {
  "note": "Strings of bytes; doubles are Flocq binary64 (standard library Reals axioms). inf/nan and sums outside the representation are UB. The nan(...) form of from_chars is part of the grammar."
 },
 "C17": {
  "note": "REFUTED for decimals that are not doubles (C17_decimal_refuted). The _partial theorems prove: half-to-even rounding whenever the decimal and its product with the unit ratio are doubles below 2^53; exactness for integers; for every decimal up to 2^52 common ticks that the ticks added are within 1/2 + 2^-51*|exact| + 2^-1000 of the exact number, and for every decimal in the range of the duration within 1/2 + 2^-48*(|exact|+1), and are the correctly rounded ones unless the exact number is that close to a tie."
 },
 "C18": {
  "note": "REFUTED: '0s' and other zero terms with units are rejected (C18_zero_refuted); inf and nan with units are undefined behaviour for every duration type (C18_nonfinite_refuted). Proved: C18_exact, an iff description of success, each exception and undefined behaviour for every string; acceptance of every well-formed sum without such terms; missing: zero terms with units, for which it is false."
 },
 "C21": {
  "note": "Histories over any number of wrappers, value/in-place/make/pointer constructions, copies, moves, assignments, throwing allocators/constructors/VTable constructors, all propagation settings. Assumes sizeof>0 and that noexcept moves get memory (otherwise std::terminate, C21_never_stuck)."
 },
 "C25": {
  "note": "REFUTED for empty wrappers: moved-from, failed-copy-assigned and move-assigned-from-empty wrappers keep a stale vtable so as<T>() yields a null reference (C25_empty_refuted). The _partial theorems prove the property for every non-empty wrapper, for default-constructed ones, and that a non-null result is always a living T; missing: other empty wrappers, for which it is false. C25_exact characterises all wrappers: every one remembers a type (tracked by a separate small semantics), as<T> throws exactly when T is not that type, and an empty wrapper whose remembered type is T yields a null reference. C25_moved_from_refuted: every moved-from wrapper fails."
 },
 "C41": {
  "note": "REFUTED for empty results with a non-null span and for results larger than needed: the final assertion / the size assertion fails (C41_empty_result_refuted, C41_larger_result_refuted). The _partial theorem proves any series of calls with results of the exact size, reusing the returned workspace; missing: the refuted cases. C41_exact gives the whole behaviour of debug builds: right if and only if the result has exactly the size of the values, otherwise Abort. C41_release_wrong_size_refuted: without assertions a result that is too small is silently left unchanged."
 },
 "C43": {
  "note": "REFUTED: indices are narrowed with static_cast without a check (C43_silent_wrap_refuted). The _partial theorem proves the indices unchanged whenever the index types can represent them; missing: other cases, for which it is false. C43_exact_coo / C43_exact_csc: every index is stored modulo 2^bits, and unchanged if and only if it is representable."
 },
 "C65": {
  "note": "REFUTED in debug builds: an Unsorted request for a SortedByColsAndRows COO source fails the assertion on line 483. The _partial theorem covers all other requests and builds."
 },
 "C67": {
  "note": "REFUTED for copies that outlive their source: the copied spans point into the source's vectors (C67_copy_outlives_source_refuted). C67_exact: for every history of making, copying, moving, move-assigning and destroying, a read gives the right arrays if the store the converter reads still exists and is undefined otherwise; C67_never_wrong_values: never a wrong value. Copy assignment not modelled."
 },
 "C32": {
  "note": "std::sort is any sorter that returns a sorted permutation, possibly different ones per call; index types can represent the indices (narrowing is C43)."
 },
 "C33": {
  "note": "std::sort is any sorter that returns a sorted permutation, possibly different ones per call; index types can represent the indices (narrowing is C43)."
 },
 "C34": {
  "note": "std::sort is any sorter that returns a sorted permutation, possibly different ones per call; index types can represent the indices (narrowing is C43)."
 },
 "C35": {
  "note": "std::sort is any sorter that returns a sorted permutation, possibly different ones per call; index types can represent the indices (narrowing is C43)."
 },
 "C36": {
  "note": "std::sort is any sorter that returns a sorted permutation, possibly different ones per call; index types can represent the indices (narrowing is C43)."
 },
 "C37": {
  "note": "std::sort is any sorter that returns a sorted permutation, possibly different ones per call; index types can represent the indices (narrowing is C43)."
 },
 "C38": {
  "note": "std::sort is any sorter that returns a sorted permutation, possibly different ones per call; index types can represent the indices (narrowing is C43)."
 },
 "C39": {
  "note": "std::sort is any sorter that returns a sorted permutation, possibly different ones per call; index types can represent the indices (narrowing is C43)."
 },
 "C40": {
  "note": "std::sort is any sorter that returns a sorted permutation, possibly different ones per call; index types can represent the indices (narrowing is C43)."
 },
 "C42": {
  "note": "std::sort is any sorter that returns a sorted permutation, possibly different ones per call; index types can represent the indices (narrowing is C43)."
 },
 "C66": {
  "note": "std::sort is any sorter that returns a sorted permutation, possibly different ones per call; index types can represent the indices (narrowing is C43)."
 },
 "C44": {
  "note": "Generic in the number parser and separator (shown for decimal integers of any range and for floating point) and in the standard library's eofbit behaviour; fields shorter than 64 characters as the property says."
 },
 "C45": {
  "note": "Refuted: a field of 65 characters whose first 64 are a number is read as two numbers by csv_read_row_std_vector, and by csv_read_row when more numbers are requested than the line has fields. Proved: csv_read_row/csv_read with as many numbers as fields never split, for all lengths; std_vector for fields under 64 characters or longer ones of which neither the whole nor the first 64 characters are a number (all integers without leading zeros)."
 },
 "C46": {
  "note": "Refuted when an empty line or the end of the text follows a comment (csv_read_error instead of an empty row); proved as an equality of outcomes for every other continuation."
 },
 "C47": {
  "note": "C47_exact: for every text, csv_read_row gives n numbers exactly if the line has n groups of at most 64 characters, all numbers; so exact for fields under 64 characters, and REFUTED for longer fields (C47_long_field_refuted, the field of C45). Nothing but csv_read_error is ever thrown and no assertion fails."
 },
 "C48": {
  "note": "All integer types other than the character types (which operator<< prints as characters: example C48_char_types), any separator-free shape with at least one row; default options for shapes that are not column vectors, or the 1d options switched off."
 },
 "C49": {
  "note": "Refuted for matrices without rows (0 x n, n != 1): print_python prints ']]' and print_matlab '];' without opening brackets. Everything else proved, including recoverability of the tokens."
 },
 "C57": {
  "note": "All 24 gemv/gemm/gemmt/syrk/trmv/trsv/trmm/trsm wrappers against an executable reference BLAS (exact arithmetic; trsv/trsm over any field with non-zero diagonal), mismatches rejected. Partial because empty views with the default outer stride 0 are rejected by BLAS as illegal leading dimension (C57_empty_operand_refuted); C57_gemm_strides_exact and C57_triangular_strides_exact give the exact condition (outer stride at least 1 and the number of rows) for every wrapper."
 },
 "C68": {
  "note": "potrf over the reals succeeds iff positive definite (both directions), factor/inverse theorems over any field, in-place inverse by potrf;trtri;lauum. Partial because views with outer stride 0 or less than rows (the empty default view) are rejected by LAPACK and the wrappers throw (C68_empty_refuted, C68_stride_rejected for all such views)."
 },
 "C59": {
  "note": "Integer fallback: agrees with std::from_chars for every type and base on texts without leading white space, '+', '-' for unsigned, 0x, when the number is representable. Refuted otherwise: narrow types wrap silently, extras are accepted, out-of-range leaves ptr at first. The floating-point fallback (stod) is C76. (see C76)"
 },
 "C69": {
  "note": "Formats not larger than double (float, double, float16, bfloat16); std::to_chars / std::from_chars are modelled by their contracts (correct rounding, ties to even). long double and __float128 are not covered."
 },
 "C70": {
  "note": "C70_exact gives the exact limit for every precision and every format up to quadruple precision (57, 56 or 55 digits for exponents of 2, 3 or 4 digits); REFUTED beyond it: the 64-character buffer is too small and the error is ignored (C70_large_precision_refuted)."
 },
 "C71": {
  "note": "all helpers of sparse-ops.hpp on arbitrary arrays, any (unstable) sort; uniqueness checks are C42"
 },
 "C72": {
  "note": "compressed matrices proved; refuted for uncompressed matrices, column blocks, and the order flag of a round trip of unsorted patterns"
 },
 "C73": {
  "note": "gemm, syrk, trsm, gemv and potrf of builds without MKL proved for every layout, stride and order; refuted for MKL when the inner dimension is 0 (C or y is not scaled by beta), proved for MKL otherwise. xgemm/xsyrk/xtrsm here run sequentially: see C54 for OpenMP."
 },
 "C74": {
  "note": "Redelivery and no loss for every history that stays in accessible memory; defined with one byte of slack through an ostream or with careful flushing (partial). REFUTED without: failing puts run ever further behind the buffer, a write after a failed put is UB."
 },
 "C75": {
  "note": "Unique readability proved for all names; the CSV (RFC 4180) reading holds exactly for names without quotes and backslashes (iff) and is refuted otherwise."
 },
 "C76": {
  "note": "REFUTED: the fallback reports every subnormal number as out of range, skips white space and a plus sign, and reads hexadecimal numbers (three _refuted theorems, each for all such texts). C76_same_partial proves agreement of value and end in both directions for every other text and every value that is zero, not finite or above the smallest normal number; C76_invalid agreement on invalid_argument. Model: glibc's ERANGE rule, C locale; long double missing."
 },
 "C77": {
  "note": "REFUTED for subnormal numbers and for integers that do not fit int or short (both for all such values). Proved for all other values of float and double, and for all integers of the type, whatever follows the field."
 },
 "C78": {
  "note": "Proved for all programs. Concurrency between the destructor and get_logs is C51/C52."
 },
 "C79": {
  "note": "Proved for all programs on one thread; the condition for ending the own task is exact (iff). The ITT library is specified by the stack discipline of __itt_task_end."
 },
 "C81": {
  "note": "Exact for all precisions, formats up to quadruple precision and both build types. printf is modelled by its description (nearest decimal)."
 },
 "C50": {
  "note": "C50_*_any_reset: also for resets at any moment (slots clear at the reset)."
 },
 "C05": {
  "note": "C05_any_input: termination and memory safety for unsorted ranges and for any comparison whatsoever."
 },
 "C82": {
  "note": "REFUTED: the error is relative to the uptime, not to the elapsed time: C82_elapsed_time_lost_refuted, C82_accumulated_time_erased_refuted (universal). Proved: absolute error bound of 5 roundings of the clock readings (C82_absolute_error_partial)."
 },
 "C83": {
  "note": "REFUTED for units finer than nanoseconds (long uptime), for 32-bit representations (intermediate overflow) and on Windows (100 ns counted as 1 ns, kernel time left out). Proved: exact iff conditions, always exact for nanoseconds in 64 bits and for types below 32 bits; POSIX CPU time."
 },
 "C84": {
  "note": "REFUTED only for streams that throw (precision not restored). Proved: text, columns, accuracy and stream state for all times."
 },
 "C85": {
  "note": "REFUTED from precision 126 on (exponent cut off). Proved: nearest decimal up to 119 digits, specials."
 },
 "C86": {
  "note": "Proved for everything that sets elements, for any scalar. For += and add_to_diagonal exact: elements after the scalar's own position get twice its value; += is right iff the scalar is zero or the last element (C86_add_exact). As stated refuted by v += v(0,0)."
 },
 "C87": {
  "note": "Right whenever every source element is read before it is overwritten (in particular shifting left or up, and v += v); shifting right replicates the first column for every matrix (C87_shift_right)."
 },
 "C88": {
  "note": "Exact: no element access overflows iff the offset of the last element is representable, always so for ptrdiff_t; refuted for int. diagonal() and empty parts at the far end overflow earlier."
 },
 "C89": {
  "note": "C89_text_partial: the text names both types and is the same at every call. REFUTED: the message given to the constructor never appears (C89_message_refuted), earlier pointers dangle after another what() (C89_pointer_refuted), and a name the demangler rejects is undefined (C89_demangler_fails_refuted)."
 },
 "C90": {
  "note": "C90_exact: aligned in all histories and at all addresses if and only if the alignment divides alignof(max_align_t) (small objects) or the allocator's guarantee for std::byte (large ones). REFUTED in general (C90_refuted): over-aligned types, and any alignment above 1 with polymorphic_allocator<std::byte>; missing: those cases."
 },
 "C91": {
  "note": "Simulation of the vtable machine by a semantics without pointers; also: empty wrappers fail an assertion, optional methods are decided when the object is wrapped, const objects never change."
 },
 "C92": {
  "note": "Throws exactly when sorting is needed, otherwise same converter as the C++23 model. Refuted part: without zip the uniqueness assertions are compiled out, so duplicate COO entries are silently accepted in debug builds too."
 },
 "C93": {
  "note": "Errors reported or result independent of the continuation; errors reported only if needed. Streams without exception mask; the buffer's exception is swallowed by the istream (badbit)."
 },
 "C94": {
  "note": "Layout, flags, width, failing sinks: all proved; refuted (with positive conditional versions) that integers and logs are written the same way on every stream: digit grouping and std::hex change them."
 },
 "C95": {
  "note": "Proved for all histories on both platforms; the promise of the default nodelete flag is proved on POSIX and refuted on Windows (flags ignored)."
 },
 "C96": {
  "note": "std::from_chars for all formats up to binary128; strtold agrees except for subnormal numbers (C76/C77 for the smaller formats)"
 },
 "C97": {
  "note": "Exact result for every text; replaces the side conditions (readable, line not empty after comments) of the partial theorems of C45-C47."
 },
 "C98": {
  "note": "Positive theorems for every execution; the three *_race(s) theorems show that each condition is needed."
 },
 "C99": {
  "note": "REFUTED: stop_requested() loads with memory_order_relaxed, so stop signals never contribute to happens-before (C99_signals_do_not_synchronize, for every execution) and a hand-over of results races (C99_publication_refuted). Proved when the threads synchronise otherwise; missing: the rest, for which it is false."
 },
 "C100": {
  "note": "All 27 wrappers: name and count are right (counted as index triples) unless an intermediate product overflows the index type, with the exact condition. Refuted: xlauum_L's name and count, xtrtri_LN's count, overflow with int from size 1291."
 },
 "C101": {
  "note": "mat-view.hpp with and without assertions; index arithmetic unbounded (C86-C88 treat index overflow)"
 },
 "C102": {
  "note": "lifts C03/C04 to fixed-width index types and NDEBUG builds"
 },
 "C103": {
  "note": "exchange theorems and same-locale round trip for every value; mismatched readers reject (conditional on the separator); the silent misreadings with a decimal comma are proved as _refuted theorems for every row"
 },
 "C104": {
  "note": "the full claim is false: the exact effect of nested output is proved, and that it is lost, that flushes recurse for ever and that std::endl runs over the buffer are _refuted theorems; quiet callbacks agree with C12-C14"
 },
 "C105": {
  "note": "The full statement is false: if the first value is a NaN, or the maximum is searched again while the front slot of the buffer holds a NaN, max() is NaN and stays NaN whatever is added (C105_nan_for_ever, C105_window_maximum_refuted). C105_exact says for every history when that happens; otherwise, and in particular if the values number 0, n, 2n, ... are numbers, the statement holds."
 },
 "C106": {
  "note": "Over the reference LAPACK (netlib's contract) in exact arithmetic; the contents of the matrix after an exception are LAPACK's and not modelled."
 },
 "C107": {
  "note": "False in general: os.rdbuf(...) clears the error bits, so constructing a redirect hides an earlier error and destroying it hides an error of the scope, whose last characters are then not flushed (C107_error_state_refuted). Proved for all programs and states: the buffers are restored (C107_buffers_restored), the state afterwards is good unless the stream has no buffer (C107_state_afterwards), other streams are not affected; without errors everything holds (C107_no_errors_partial). Exception masks are not modelled."
 },
 "C108": {
  "note": "Proved for both branches: results, reference counts, message buffers, texts. Refuted parts: on Windows the reason may be that of another error if path::string() changes the last error and is evaluated first (operands of + are unsequenced); on POSIX a library whose initializer leaves a dlerror is loaded, the call throws, and the reference is never given back. Names with an embedded null are looked up up to the null.",
  "status": "partial"
 },
 "C110": {
  "note": "Exact contents of both exceptions for every string. C110_out_of_range_text_refuted is a consequence: the text about a number out of range quotes what follows the number, not the number (1e999s gives Invalid value 's').",
  "status": "proved"
 },
 "C111": {
  "note": "What is left in the destination is characterised exactly (C111_row, C111_matrix); that there is no strong guarantee, as the statement says, is C111_destination_unchanged_refuted (after 1,2,x the first two elements are overwritten).",
  "status": "proved"
 },
 "C112": {
  "note": "The texts are characterised exactly (C112_row, C112_matrix, C112_vector); that more than the offending field is quoted, as the statement says, is C112_quotes_only_the_field_refuted.",
  "status": "proved"
 }
}