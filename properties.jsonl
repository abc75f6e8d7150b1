{"id": "C01", "title": "Sliding-window maximum", "statement": "After any sequence of one or more add() calls on a MaxHistory constructed with memory n>0, max() equals the maximum of the last min(n, number of adds) values added (an element of that window that no window element exceeds).", "quantifier": "every memory n>0, every non-empty sequence of added values, every strict weak order whose == is its equivalence", "why_tests_cant": "the eviction/recompute branches depend on unbounded histories (how often the maximum leaves the window, ties, wrap-around)", "anchors": ["src/include/guanaqo/max-history.hpp:MaxHistory::add", "src/include/guanaqo/max-history.hpp:MaxHistory::max"]}
{"id": "C02", "title": "Copies of a MaxHistory are independent", "statement": "Copying a MaxHistory gives an object that behaves as its own history: adding to the copy does not change the original, and vice versa.", "quantifier": "every history before the copy and every interleaving of adds to the two objects after it", "why_tests_cant": "aliasing through the copied iterator only shows up for particular interleavings and histories", "anchors": ["src/include/guanaqo/max-history.hpp:MaxHistory::it", "src/include/guanaqo/max-history.hpp:MaxHistory::buffer"]}
{"id": "C03", "title": "Forward circular iteration", "statement": "Iterating a CircularRange(size, idx1, idx2, max) from begin() to end() with 0<=idx1<max and size<=max visits exactly the pairs (k, (idx1+k) mod max) for k=0..size-1, in order, never trips an assertion, and visits no circular index twice.", "quantifier": "every size, start index and capacity", "why_tests_cant": "wrap-around position relative to size/capacity is unbounded", "anchors": ["src/include/guanaqo/ringbuffer.hpp:CircularRange", "src/include/guanaqo/ringbuffer.hpp:CircularIndexIterator"]}
{"id": "C04", "title": "Reverse circular iteration mirrors forward iteration", "statement": "When idx2=(idx1+size) mod max (and size<=max), iterating rbegin()..rend(), or a ReverseCircularRange, visits exactly the forward sequence reversed; and ++ followed by -- (or -- then ++) restores an iterator.", "quantifier": "every range and every iterator position", "why_tests_cant": "needs all combinations of wrap-around of both ends", "anchors": ["src/include/guanaqo/ringbuffer.hpp:ReverseCircularIndexIterator", "src/include/guanaqo/ringbuffer.hpp:ReverseCircularRange"]}
{"id": "C05", "title": "Set intersection of sorted ranges", "statement": "Iterating iter_set_intersection(r1,r2,comp,proj1,proj2) over ranges sorted by their projections terminates, dereferences only valid positions, and yields in order exactly the pairs that pair up the i-th occurrence of each key in r1 with the i-th occurrence of that key in r2 (so each common key appears min(count1,count2) times).", "quantifier": "all pairs of sorted ranges of any length, any strict weak order and projections, duplicates allowed", "why_tests_cant": "merge interleavings and duplicate runs are unbounded; tests compare a handful of arrays", "anchors": ["src/include/guanaqo/set-intersection.hpp:set_intersection_iterable", "src/include/guanaqo/set-intersection.hpp:iter_set_intersection"]}
{"id": "C06", "title": "enumerate pairs every element with its index", "statement": "Iterating enumerate(r) yields exactly (0,r[0]),(1,r[1]),... in order, one pair per element of r, and nothing for an empty range.", "quantifier": "every range of every length", "why_tests_cant": "unbounded length", "anchors": ["src/include/guanaqo/enumerate.hpp:enumerate_t"]}
{"id": "C07", "title": "iter_range_adapter drives an iterator to exhaustion", "statement": "Iterating iter_range_adapter{it} visits exactly the successive states it, ++it, ++++it, ... up to but excluding the first state that converts to false, provided such a state is reached; an initially false iterator gives an empty range.", "quantifier": "every iterator type (state machine), every initial state, every number of steps", "why_tests_cant": "iterator behaviour is arbitrary user code", "anchors": ["src/include/guanaqo/iter-adapter.hpp:iter_range_adapter"]}
{"id": "C08", "title": "split and split_second cut at the first occurrence", "statement": "split(full,tok): if tok occurs in full then key+tok+rem == full and no occurrence of tok in full starts before |key|; otherwise it returns (full,\"\"). split_second is the same except that it returns (\"\",full) when tok does not occur.", "quantifier": "all strings and all tokens (including the empty token)", "why_tests_cant": "all strings; overlapping partial matches", "anchors": ["src/include/guanaqo/string-util.hpp:split", "src/include/guanaqo/string-util.hpp:split_second"]}
{"id": "C09", "title": "join is the separator-interspersed concatenation and is undone by split", "statement": "join(ss,{sep,empty}) is `empty` for no strings and otherwise s0+sep+s1+...; if sep is nonempty, has no proper border and occurs in no element, repeatedly calling split on the result recovers exactly the list.", "quantifier": "all lists of strings, all separators", "why_tests_cant": "unbounded lists; overlap between element suffixes and the separator", "anchors": ["src/include/guanaqo/string-util.hpp:join", "src/include/guanaqo/string-util.hpp:split"]}
{"id": "C10", "title": "join_quote quotes every element", "statement": "join_quote(ss,opt) is opt.empty for no strings and otherwise equals join applied to the list with every element wrapped in quote_left/quote_right (same separator).", "quantifier": "all lists, separators and quote strings", "why_tests_cant": "unbounded lists", "anchors": ["src/include/guanaqo/string-util.hpp:join_quote"]}
{"id": "C11", "title": "sort_case_insensitive sorts by upper-cased bytes", "statement": "After sort_case_insensitive the range is a permutation of the input in which no later element compares (by upper-cased unsigned bytes, lexicographically) less than an earlier one; the comparison it uses is a strict weak order (so std::ranges::sort's precondition holds) and treats two strings as equivalent exactly when they upper-case to the same bytes.", "quantifier": "all lists of byte strings, and every result a conforming sort may produce", "why_tests_cant": "unbounded inputs; sort is unspecified on equivalent elements", "anchors": ["src/include/guanaqo/string-util.hpp:sort_case_insensitive"]}
{"id": "C12", "title": "callback_streambuf delivers every byte once, in order", "statement": "For any sequence of character writes, block writes and flushes, the concatenation of the spans passed to the callback followed by the bytes still buffered equals the bytes written; after a flush at most 3 bytes remain buffered and none remain if the last byte written is ASCII; destroying the buffer delivers everything that is not part of a trailing incomplete UTF-8 sequence.", "quantifier": "all byte sequences, all interleavings of put/write/flush, all buffer sizes >= 3, in every execution whose stores stay within accessible memory (C14)", "why_tests_cant": "depends on where buffer boundaries fall inside the byte stream", "anchors": ["src/include/guanaqo/callback-streambuf.hpp:callback_streambuf"]}
{"id": "C13", "title": "callback spans end on UTF-8 code point boundaries", "statement": "If the bytes written form (a prefix of) valid UTF-8, every span passed to the callback consists of whole code points (is itself valid UTF-8) and is non-empty.", "quantifier": "all valid UTF-8 texts, all flush points, all buffer sizes >= 3, in every execution whose stores stay within accessible memory (C14)", "why_tests_cant": "multi-byte sequences can straddle any buffer boundary", "anchors": ["src/include/guanaqo/callback-streambuf.hpp:callback_streambuf::utf8_remainder", "src/include/guanaqo/callback-streambuf.hpp:callback_streambuf::_sync"]}
{"id": "C14", "title": "callback_streambuf never writes outside its buffer", "statement": "No sequence of writes makes callback_streambuf store a byte outside the buffer_size bytes it allocated.", "quantifier": "all byte sequences and all buffer sizes", "why_tests_cant": "an off-by-one heap write is usually silent", "anchors": ["src/include/guanaqo/callback-streambuf.hpp:callback_streambuf::overflow", "src/include/guanaqo/callback-streambuf.hpp:callback_streambuf::callback_streambuf"]}
{"id": "C15", "title": "scoped_ostream_redirect restores the stream", "statement": "While a scoped_ostream_redirect is alive output goes to the new buffer; when it is destroyed the stream is flushed into the new buffer and the previous buffer is restored, for any properly nested set of redirects.", "quantifier": "all nestings of redirects and all interleaved output", "why_tests_cant": "unbounded nesting/histories", "anchors": ["src/include/guanaqo/callback-streambuf.hpp:scoped_ostream_redirect"]}
{"id": "C16", "title": "parse_duration terminates and sums its terms", "statement": "parse_duration(t,s) terminates on every string; if it succeeds, t increases by the sum of the values of the terms of s in order, each converted with its own unit (none or s, ms, us/µs, ns, min, h).", "quantifier": "all strings and all initial durations", "why_tests_cant": "termination and additivity over arbitrarily many terms", "anchors": ["src/include/guanaqo/duration-parse.hpp:parse_duration", "src/include/guanaqo/duration-parse.hpp:parse_single_duration"]}
{"id": "C17", "title": "Duration terms are converted exactly with round-half-even", "statement": "A term with decimal value v and unit u adds v*u expressed in ticks of the target duration rounded to the nearest integer, ties to even; an integer number of ticks is added exactly.", "quantifier": "all decimal values, all units, all target periods", "why_tests_cant": "rounding boundaries over all decimals", "anchors": ["src/include/guanaqo/duration-parse.hpp:parse_single_duration"]}
{"id": "C18", "title": "parse_duration rejects exactly the malformed strings", "statement": "A string is rejected with invalid_duration_value or invalid_duration_units exactly when some term has no numeric value or an unknown unit; in particular every well-formed sum of terms, including terms with value zero such as \"0s\" or \"1min 0s\", is accepted.", "quantifier": "all strings", "why_tests_cant": "grammar acceptance over all strings", "anchors": ["src/include/guanaqo/duration-parse.hpp:parse_single_duration"]}
{"id": "C19", "title": "any_ptr casts are type- and const-exact", "statement": "any_ptr(T*).cast<U>() returns the original pointer when U is T with the same constness, returns nullptr when the stored pointer is null (or the any_ptr is empty), and throws bad_any_cast in every other case; it never returns a non-null pointer of a different type or constness. The same holds for shared_any_ptr.", "quantifier": "all pointers, all stored and requested types, both constnesses", "why_tests_cant": "all type pairs", "anchors": ["src/include/guanaqo/any-ptr.hpp:any_ptr", "src/include/guanaqo/any-ptr.hpp:shared_any_ptr"]}
{"id": "C20", "title": "shared_any_ptr keeps the object alive exactly as long as needed", "statement": "Through any history of constructing, copying, moving, assigning and destroying shared_any_ptr/shared_ptr handles, the object is destroyed exactly once, when and only when the last handle that refers to it goes away; cast() never returns a pointer to a destroyed object.", "quantifier": "all histories of handle operations", "why_tests_cant": "unbounded histories of ownership operations", "anchors": ["src/include/guanaqo/any-ptr.hpp:shared_any_ptr"]}
{"id": "C21", "title": "TypeErased resource safety", "statement": "In every history of TypeErased constructions (by value, in place, by pointer), copies, moves, assignments (with or without propagating allocators, equal or unequal allocators, throwing copy constructors) and destructions: every owned object is destroyed exactly once, every allocated block is deallocated exactly once with its own size by an allocator equal to the one that allocated it, nothing is used after destruction, and once all wrappers are destroyed no owned object or block remains.", "quantifier": "all operation histories, all object sizes relative to the small buffer, all allocator propagation settings, every throwing point of a copy", "why_tests_cant": "leaks/double frees depend on long histories and exception points", "anchors": ["src/include/guanaqo/type-erasure.hpp:TypeErased"]}
{"id": "C22", "title": "TypeErased has value semantics", "statement": "A TypeErased behaves like an optional value: copying gives an independent equal object, moving transfers the value and leaves the source empty, assignment replaces the target's value and leaves unrelated wrappers unchanged, for any history.", "quantifier": "all operation histories over any number of wrappers", "why_tests_cant": "unbounded histories", "anchors": ["src/include/guanaqo/type-erasure.hpp:TypeErased"]}
{"id": "C23", "title": "TypeErased references never own", "statement": "A TypeErased constructed from a pointer, and all its copies and moves, always refer to that same object; no operation on wrappers ever copies, moves, destroys or deallocates the referenced object.", "quantifier": "all operation histories", "why_tests_cant": "unbounded histories", "anchors": ["src/include/guanaqo/type-erasure.hpp:TypeErased::construct_inplace", "src/include/guanaqo/type-erasure.hpp:TypeErased::cleanup"]}
{"id": "C24", "title": "Const references stay const", "statement": "If a TypeErased refers to a const object, every non-const access (as<T>() non-const, get_pointer(), calling a non-const method) throws bad_type_erased_constness (or bad_type_erased_type) and the object is never modified, through any history of copies/moves/assignments; a const access succeeds.", "quantifier": "all histories and all accesses", "why_tests_cant": "all ways of obtaining the wrapper", "anchors": ["src/include/guanaqo/type-erasure.hpp:TypeErased::as", "src/include/guanaqo/type-erasure.hpp:TypeErased::call", "src/include/guanaqo/type-erasure.hpp:TypeErased::get_pointer"]}
{"id": "C25", "title": "as<T>() is type-safe", "statement": "as<T>() returns a reference to the wrapped object when the wrapper holds a T, and throws bad_type_erased_type otherwise (including for empty, moved-from and failed-assignment wrappers).", "quantifier": "all histories, all T", "why_tests_cant": "needs every way of reaching an empty state", "anchors": ["src/include/guanaqo/type-erasure.hpp:TypeErased::as", "src/include/guanaqo/type-erasure.hpp:TypeErased::operator="]}
{"id": "C26", "title": "Copy assignment is safe when a copy constructor throws", "statement": "If the wrapped object's copy constructor throws during TypeErased copy construction or copy assignment, no block or object is leaked, the source is unchanged, and the target is left empty (its old value was destroyed exactly once) and can be reused or destroyed.", "quantifier": "all states of source and target", "why_tests_cant": "every throwing point in every state", "anchors": ["src/include/guanaqo/type-erasure.hpp:TypeErased::do_copy_assign", "src/include/guanaqo/type-erasure.hpp:TypeErased::Deallocator"]}
{"id": "C27", "title": "Matrix sub-views address the right elements", "statement": "For every view and every in-range request, top_rows/bottom_rows/left_cols/right_cols/middle_rows/middle_cols/top_left/top_right/bottom_left/bottom_right/block return a view whose element (i,j) is the element of the original at the shifted position, of the requested shape, and in-range accesses stay inside the original's elements; out-of-range requests trip an assertion.", "quantifier": "all shapes, strides (inner and outer), offsets and sizes", "why_tests_cant": "arithmetic over all shapes and strides, nested views", "anchors": ["src/include/guanaqo/mat-view.hpp:MatrixView::block", "src/include/guanaqo/mat-view.hpp:MatrixView::operator()"]}
{"id": "C28", "title": "set_constant writes exactly the view", "statement": "set_constant(t), operator+=(scalar) and generate write every element of the view exactly once (generate in column-major order) and nothing else in memory.", "quantifier": "all shapes, all strides with non-overlapping elements, all memory contents", "why_tests_cant": "frame condition over all memory", "anchors": ["src/include/guanaqo/mat-view.hpp:MatrixView::set_constant", "src/include/guanaqo/mat-view.hpp:MatrixView::generate"]}
{"id": "C29", "title": "Triangular set_constant writes exactly the triangle", "statement": "set_constant(t, Lower/StrictlyLower/Upper/StrictlyUpper) sets exactly the elements of the view in the given triangle and touches nothing else.", "quantifier": "all shapes (square and rectangular) and outer strides", "why_tests_cant": "frame condition over all shapes", "anchors": ["src/include/guanaqo/mat-view.hpp:MatrixView::set_constant(Triangular)"]}
{"id": "C30", "title": "Diagonal operations touch exactly the diagonal", "statement": "set_diagonal, add_to_diagonal and diagonal() access exactly the elements (i,i) with i<min(rows,cols) of the view.", "quantifier": "all shapes and strides", "why_tests_cant": "frame condition over all shapes", "anchors": ["src/include/guanaqo/mat-view.hpp:MatrixView::set_diagonal", "src/include/guanaqo/mat-view.hpp:MatrixView::diagonal", "src/include/guanaqo/mat-view.hpp:MatrixView::add_to_diagonal"]}
{"id": "C31", "title": "View assignment copies values", "statement": "Assigning a view to another of the same shape (any strides) makes every element equal to the source's, += adds element-wise, and nothing outside the destination elements changes (non-overlapping source/destination); self-assignment changes nothing; reassign only rebinds the view.", "quantifier": "all shapes, strides and memory contents", "why_tests_cant": "frame conditions over all memory", "anchors": ["src/include/guanaqo/mat-view.hpp:MatrixView::copy_values", "src/include/guanaqo/mat-view.hpp:MatrixView::operator=", "src/include/guanaqo/mat-view.hpp:MatrixView::operator+="]}
{"id": "C32", "title": "COO to CSC preserves the matrix", "statement": "Converting any valid COO pattern (any declared order that is truthful, any index base) to CSC yields a pattern whose entries, zipped with convert_values of the values, are exactly the source entries with their values (as a multiset of (row,col,value)), whatever permutation the unstable sort chooses.", "quantifier": "all COO patterns of any size, all value arrays, all sort outcomes", "why_tests_cant": "unspecified sort results and unbounded patterns", "anchors": ["src/include/guanaqo/linalg/sparsity-conversions.hpp:SparsityConverter<SparseCOO,SparseCSC>", "src/include/guanaqo/linalg/sparse-ops.hpp:convert_triplets_to_ccs", "src/include/guanaqo/linalg/sparse-ops.hpp:sort_triplets"]}
{"id": "C33", "title": "CSC to COO preserves the matrix", "statement": "Converting a valid CSC pattern to COO with any requested index base yields the same (row+base, col+base) entries in the same order as the stored values; convert_values returns the values unchanged.", "quantifier": "all CSC patterns, all bases", "why_tests_cant": "unbounded patterns", "anchors": ["src/include/guanaqo/linalg/sparsity-conversions.hpp:SparsityConverter<SparseCSC,SparseCOO>"]}
{"id": "C34", "title": "Dense to CSC/COO preserves the matrix", "statement": "Converting a Dense pattern to CSC or COO yields every (r,c) entry (or, for Upper symmetry, every entry with r<=c) once in column-major order and convert_values returns for each entry the value of that dense element; Lower symmetry and non-square symmetric inputs are rejected.", "quantifier": "all shapes, all values", "why_tests_cant": "unbounded shapes", "anchors": ["src/include/guanaqo/linalg/sparsity-conversions.hpp:SparsityConverter<Dense,SparseCSC>", "src/include/guanaqo/linalg/sparsity-conversions.hpp:SparsityConverter<Dense,SparseCOO>"]}
{"id": "C35", "title": "CSC/COO to Dense places every value", "statement": "Converting a valid sparse pattern without duplicates to Dense gives the column-major matrix whose (r,c) element is the stored value if (r,c) (or its mirror for symmetric storage) is stored, and zero otherwise.", "quantifier": "all sparse patterns, all values, all symmetries", "why_tests_cant": "unbounded patterns", "anchors": ["src/include/guanaqo/linalg/sparsity-conversions.hpp:SparsityConverter<SparseCSC,Dense>", "src/include/guanaqo/linalg/sparsity-conversions.hpp:SparsityConverter<SparseCOO,Dense>"]}
{"id": "C36", "title": "CSC to CSC preserves the matrix and sorts on request", "statement": "Converting CSC to CSC preserves the multiset of (row,col,value) entries for any sort outcome; if sorted rows are requested, each column's row indices are non-decreasing in the result; if no sorting is needed values are returned untouched.", "quantifier": "all CSC patterns and values, all sort outcomes", "why_tests_cant": "unspecified sort results", "anchors": ["src/include/guanaqo/linalg/sparsity-conversions.hpp:SparsityConverter<SparseCSC,SparseCSC>", "src/include/guanaqo/linalg/sparse-ops.hpp:sort_rows_csc"]}
{"id": "C37", "title": "COO to COO only changes the index base", "statement": "Converting COO to COO shifts all indices by (requested base - original base) and changes nothing else; with no request the indices and base are unchanged.", "quantifier": "all COO patterns and bases", "why_tests_cant": "unbounded patterns", "anchors": ["src/include/guanaqo/linalg/sparsity-conversions.hpp:SparsityConverter<SparseCOO,SparseCOO>"]}
{"id": "C38", "title": "Conversion results declare a truthful order", "statement": "The order flag of every conversion result is truthful: SortedRows only if every column's rows are non-decreasing, SortedByColsAndRows/SortedByColsOnly only if the entries are so sorted, provided the source's flag was truthful.", "quantifier": "all patterns, requests and sort outcomes", "why_tests_cant": "flag logic over all combinations and unbounded data", "anchors": ["src/include/guanaqo/linalg/sparsity-conversions.hpp:SparsityConverter"]}
{"id": "C39", "title": "Conversion results are well-formed CSC", "statement": "Every CSC result has cols+1 outer pointers starting at 0, non-decreasing, ending at nnz, and row indices within [0,rows), with nnz equal to the number of source entries.", "quantifier": "all valid sources", "why_tests_cant": "unbounded patterns", "anchors": ["src/include/guanaqo/linalg/sparsity-conversions.hpp:SparsityConverter", "src/include/guanaqo/linalg/sparsity.hpp:SparseCSC::nnz"]}
{"id": "C40", "title": "Invalid symmetric matrices are rejected", "statement": "A non-square symmetric pattern converted to Dense (or from a symmetric Dense to sparse), and a symmetric sparse pattern with an entry on the wrong side of the diagonal converted to Dense, are rejected with an exception; valid ones never are.", "quantifier": "all patterns", "why_tests_cant": "any position of the offending entry", "anchors": ["src/include/guanaqo/linalg/sparsity-conversions.hpp:SparsityConverter<SparseCSC,Dense>", "src/include/guanaqo/linalg/sparsity-conversions.hpp:SparsityConverter<SparseCOO,Dense>"]}
{"id": "C41", "title": "convert_values_into writes the converted values", "statement": "convert_values_into(result, evaluator, work) leaves in result exactly the converted values of what the evaluator produced, calls the evaluator once with a span of nnz_from() elements, and may be given the returned workspace again.", "quantifier": "all conversions, result spans, evaluators and workspaces", "why_tests_cant": "combinations of sizes and reuse", "anchors": ["src/include/guanaqo/linalg/sparsity-conversions.hpp:SparsityConverter<Sparsity,To>::convert_values_into"]}
{"id": "C42", "title": "Uniqueness checks decide uniqueness on sorted patterns", "statement": "check_uniqueness_triplets (on lexicographically sorted entries) and check_uniqueness_csc (on column-sorted rows) return true exactly when no two entries have the same row and column.", "quantifier": "all sorted patterns", "why_tests_cant": "unbounded patterns", "anchors": ["src/include/guanaqo/linalg/sparse-ops.hpp:check_uniqueness_triplets", "src/include/guanaqo/linalg/sparse-ops.hpp:check_uniqueness_csc"]}
{"id": "C43", "title": "Index type conversions do not lose information", "statement": "When rows, cols, nnz and index bases fit in the target index type no index is altered by conversion to that type (and otherwise the caller is told).", "quantifier": "all index types and sizes", "why_tests_cant": "boundaries of 32/64-bit types", "anchors": ["src/include/guanaqo/linalg/sparsity-conversions.hpp:cast_sz", "src/include/guanaqo/linalg/sparsity-conversions.hpp:SparsityConverter"]}
{"id": "C44", "title": "CSV rows are read field by field", "statement": "For a line whose fields are numbers shorter than 64 characters separated by sep (optionally ending with sep), csv_read_row / csv_read_row_std_vector return exactly the parsed fields in order, consume exactly that line, and are unaffected by how the text falls into the 64-byte buffer.", "quantifier": "all lines of any number of fields, any field lengths < 64, any following text", "why_tests_cant": "chunk boundaries fall anywhere", "anchors": ["src/include/guanaqo/implementation/io/csv.tpp:csv_read_row", "src/include/guanaqo/implementation/io/csv.tpp:csv_read_row_std_vector", "src/include/guanaqo/implementation/io/csv.tpp:CSVReader::read"]}
{"id": "C45", "title": "Long CSV fields are not silently split", "statement": "A field of any length is either read as one value or rejected with csv_read_error; it is never silently read as several values.", "quantifier": "all field lengths", "why_tests_cant": "length boundaries of the internal buffer", "anchors": ["src/include/guanaqo/implementation/io/csv.tpp:CSVReader::read", "src/include/guanaqo/implementation/io/csv.tpp:CSVReader::read_chunk"]}
{"id": "C46", "title": "CSV comments are skipped", "statement": "Any number of leading comment lines (starting with '#', any length) is skipped and has no influence on the values read.", "quantifier": "all comment texts and counts", "why_tests_cant": "comment lengths relative to the buffer", "anchors": ["src/include/guanaqo/implementation/io/csv.tpp:CSVReader::skip_comments"]}
{"id": "C47", "title": "CSV reading is strict about the number of fields", "statement": "csv_read_row succeeds only if the line has exactly the requested number of fields: too few, too many, or a malformed field raises csv_read_error.", "quantifier": "all lines and requested counts", "why_tests_cant": "all lines", "anchors": ["src/include/guanaqo/implementation/io/csv.tpp:csv_read_row", "src/include/guanaqo/implementation/io/csv.tpp:CSVReader::next_line"]}
{"id": "C48", "title": "print_csv then csv_read is the identity on integer matrices", "statement": "Printing an integer matrix with print_csv and default options (one line per row) and reading it back with csv_read yields the same matrix.", "quantifier": "all shapes with at least one row and two columns (or vectors printed as matrices), all 64-bit values", "why_tests_cant": "all matrices", "anchors": ["src/include/guanaqo/implementation/print.tpp:print_csv_impl", "src/include/guanaqo/implementation/io/csv.tpp:csv_read"]}
{"id": "C49", "title": "Printed matrices have the documented layout", "statement": "print_csv/print_python/print_matlab output exactly one token per element, in row order, with delimiters only between elements of a row, line ends only between rows, and balanced brackets; a parser that knows the layout recovers the matrix of tokens.", "quantifier": "all shapes, all element texts, all options", "why_tests_cant": "all shapes including 0/1 rows or columns", "anchors": ["src/include/guanaqo/implementation/print.tpp:print_csv_impl", "src/include/guanaqo/implementation/print.tpp:print_python_impl", "src/include/guanaqo/implementation/print.tpp:print_matlab_impl"]}
{"id": "C50", "title": "Concurrent tracing gives every trace its own slot", "statement": "For any number of threads calling trace() concurrently under any interleaving, no two calls (between resets, fewer than 2^64 calls) write the same log slot, no call writes outside the log array, exactly min(capacity, calls) slots are used, and calls beyond capacity record nothing.", "quantifier": "all interleavings, thread counts and capacities", "why_tests_cant": "schedules cannot be enumerated", "anchors": ["src/include/guanaqo/trace.hpp:TraceLogger::trace"]}
{"id": "C51", "title": "get_logs returns only completed log entries", "statement": "Every entry in the span returned by get_logs() has been completely filled in by its trace() call.", "quantifier": "all interleavings of trace() and get_logs()", "why_tests_cant": "schedules", "anchors": ["src/include/guanaqo/trace.hpp:TraceLogger::get_logs"]}
{"id": "C52", "title": "reset does not mix log entries", "statement": "After reset(), entries recorded afterwards are not modified by traces started before the reset.", "quantifier": "all interleavings of trace scopes and reset", "why_tests_cant": "schedules", "anchors": ["src/include/guanaqo/trace.hpp:TraceLogger::reset", "src/include/guanaqo/trace.hpp:TraceLogger::ScopedLog"]}
{"id": "C53", "title": "A stop request is never lost or unset", "statement": "Once stop() has taken effect on an AtomicStopSignal, every later stop_requested() on that object returns true, whatever else is done concurrently (including copying, moving from it and move-assigning to it); stop_requested() returns true only if stop() was called on that object; copies and moved-to objects start not stopped.", "quantifier": "all interleavings of all threads", "why_tests_cant": "schedules", "anchors": ["src/include/guanaqo/atomic-stop-signal.hpp:AtomicStopSignal"]}
{"id": "C54", "title": "Strided batch operations process every matrix of the batch", "statement": "xgemm/xsyrk/xtrsm_batch_strided perform exactly one operation per batch index i on the operands at offsets i*stride, also when OpenMP runs iterations in parallel.", "quantifier": "all batch sizes, strides and schedules", "why_tests_cant": "thread schedules", "anchors": ["src/blas/src/blas-interface.cpp:xgemm_batch_strided", "src/blas/src/blas-interface.cpp:xsyrk_batch_strided", "src/blas/src/blas-interface.cpp:xtrsm_batch_strided"]}
{"id": "C55", "title": "xgemv_batch_strided is schedule independent", "statement": "xgemv_batch_strided performs exactly one gemv per batch index i on operands at offsets i*stride for every order/partition of iterations.", "quantifier": "all batch sizes, strides and iteration orders", "why_tests_cant": "thread schedules", "anchors": ["src/blas/src/blas-interface.cpp:xgemv_batch_strided"]}
{"id": "C56", "title": "xpotrf_batch_strided reports argument errors and ignores factorization failures", "statement": "xpotrf_batch_strided factorizes every matrix of the batch and throws exactly when some factorization reports a negative info, regardless of positive infos of others and of the reduction order.", "quantifier": "all batch sizes, all info outcomes, all reduction orders", "why_tests_cant": "all info vectors and schedules", "anchors": ["src/blas/src/blas-interface.cpp:xpotrf_batch_strided"]}
{"id": "C57", "title": "High-level BLAS wrappers compute what their names say", "statement": "For operands of matching dimensions xgemm_NN/TN/NT/TT compute C <- alpha op(A) op(B) + beta C, xgemmt_L** update only the lower triangle, xgemv_N/T, xtrmv_L*, xtrsv_L*, xtrmm_*, xtrsm_*, xsyrk_* compute the documented update on the viewed elements, and mismatched dimensions are rejected when assumptions are verified.", "quantifier": "all dimensions, outer strides and element values, given a reference BLAS", "why_tests_cant": "all shapes/strides and argument mix-ups", "anchors": ["src/blas/include/guanaqo/blas/hl-blas-interface.hpp:xgemm_NN", "src/blas/include/guanaqo/blas/hl-blas-interface.hpp:xgemmt_LNN", "src/blas/include/guanaqo/blas/hl-blas-interface.hpp:xtrmm_LLNN", "src/blas/include/guanaqo/blas/hl-blas-interface.hpp:xtrsm_LLNN", "src/blas/include/guanaqo/blas/hl-blas-interface.hpp:xsyrk_LN", "src/blas/include/guanaqo/blas/hl-blas-interface.hpp:xgemv_N"]}
{"id": "C58", "title": "copyable_unique_ptr copies deeply", "statement": "Copy construction and copy assignment of copyable_unique_ptr give an independent copy of the pointee (or null), never share or leak a pointee, and self-assignment preserves the value, for any history.", "quantifier": "all histories of handle operations", "why_tests_cant": "unbounded histories", "anchors": ["src/include/guanaqo/copyable-unique_ptr.hpp:copyable_unique_ptr"]}
{"id": "C59", "title": "from_chars fallback agrees with std::from_chars", "statement": "guanaqo::from_chars without native support gives the same value, end pointer and error as std::from_chars on every text, for every integer type.", "quantifier": "all texts and integer types", "why_tests_cant": "all texts, range boundaries", "anchors": ["src/include/guanaqo/from_chars-wrapper.hpp:from_chars"]}
{"id": "C60", "title": "Lookup tables contain the function's values", "statement": "make_1d_lut<I,N>(f)[i]==f(i) and make_2d_lut<I,R,C>(f)[r][c]==f(r,c) for all indices, and the tables have exactly N, R and C entries.", "quantifier": "all functions and sizes", "why_tests_cant": "all sizes", "anchors": ["src/include/guanaqo/lut.hpp:make_1d_lut", "src/include/guanaqo/lut.hpp:make_2d_lut"]}
{"id": "C61", "title": "Eigen and guanaqo views of a matrix agree", "statement": "as_view(M)(r,c) refers to the same element as M(r,c) for every Eigen matrix, map or vector (column- and row-major), and as_eigen(V)(r,c) refers to the same element as V(r,c); converting back and forth is the identity on elements.", "quantifier": "all shapes, strides and storage orders", "why_tests_cant": "all shapes/strides", "anchors": ["src/include/guanaqo/eigen/view.hpp:as_view", "src/include/guanaqo/eigen/view.hpp:as_eigen"]}
{"id": "C62", "title": "Timers accumulate elapsed time", "statement": "After all Timed scopes on a duration have ended (any nesting or interleaving, normal or exceptional exit) the duration equals its initial value plus the sum of end-start over all scopes; TimingsCPU additionally counts the scopes; timed() returns the function's result.", "quantifier": "all histories of timer scopes", "why_tests_cant": "all interleavings of scopes", "anchors": ["src/include/guanaqo/timed.hpp:Timed", "src/src/timed-cpu.cpp:Timed<TimingsCPU>"]}
{"id": "C63", "title": "Dynamic loading flags and errors", "statement": "DynamicLoadFlags converts to an int from which every flag can be recovered, and load_lib/load_func return a handle exactly when the loader reported no error, throwing dynamic_load_error otherwise, unaffected by stale earlier errors.", "quantifier": "all flag combinations, all loader behaviours and error histories", "why_tests_cant": "stale dlerror state", "anchors": ["src/src/dl-flags.cpp:DynamicLoadFlags::operator int", "src/src/dl.cpp:load_lib", "src/src/dl.cpp:load_func"]}
{"id": "C64", "title": "Moving a scoped_ostream_redirect transfers the redirect", "statement": "After a scoped_ostream_redirect has been moved, output keeps going to the new buffer until the object moved to is destroyed; destroying the moved-from object has no effect on the stream.", "quantifier": "all streams, buffers and orders of destruction", "why_tests_cant": "the moved-from object usually dies in the same scope", "anchors": ["src/include/guanaqo/callback-streambuf.hpp:scoped_ostream_redirect"]}
{"id": "C65", "title": "Every CSC order request is accepted", "statement": "Asking a converter for a CSC result with order Unsorted or SortedRows, or without preference, succeeds for every valid source with truthful flags, and a SortedRows request gives a result flagged SortedRows.", "quantifier": "all sources, index types, order requests, debug and release builds", "why_tests_cant": "all combinations of source order and request", "anchors": ["src/include/guanaqo/linalg/sparsity-conversions.hpp:SparsityConverter<SparseCOO,SparseCSC>::convert_sparsity"]}
{"id": "C66", "title": "The conversion path does not matter", "statement": "Converting a sparse matrix to dense directly, or first to CSC or COO (any index type, base or order) and then to dense, gives the same dense values; Dense to CSC to Dense gives back the original values.", "quantifier": "all sparse patterns without duplicates, all values, all index types and requests", "why_tests_cant": "all patterns and values", "anchors": ["src/include/guanaqo/linalg/sparsity-conversions.hpp:SparsityConverter"]}
{"id": "C67", "title": "Converters are values", "statement": "Copying, moving, assigning and destroying sparsity converters never changes the pattern that another converter reports: each converter that was not moved from keeps reporting the pattern it was constructed with.", "quantifier": "all histories of construct, copy, move, assign, destroy and read", "why_tests_cant": "lifetime bugs do not show in the output of small tests", "anchors": ["src/include/guanaqo/linalg/sparsity-conversions.hpp:SparsityConverter::sparsity", "src/include/guanaqo/linalg/sparsity-conversions.hpp:SparsityConverter::row_indices", "src/include/guanaqo/linalg/sparsity-conversions.hpp:SparsityConverter::inner_idx"]}
{"id": "C68", "title": "xpotrf_L, xtrtri_LN and xlauum_L factorize and invert", "statement": "xpotrf_L succeeds exactly on positive definite matrices and leaves the factor L with L L^T = A in the lower triangle, throwing lapack_error otherwise; xtrtri_LN inverts a lower triangular matrix in place or reports a zero diagonal; xlauum_L forms L^T L; the three in a row invert a positive definite matrix. Only the lower triangle is read and written.", "quantifier": "all dimensions, outer strides and element values, given a reference LAPACK in exact arithmetic", "why_tests_cant": "all matrices, definiteness boundaries", "anchors": ["src/blas/include/guanaqo/blas/hl-blas-interface.hpp:xpotrf_L", "src/blas/include/guanaqo/blas/hl-blas-interface.hpp:xtrtri_LN", "src/blas/include/guanaqo/blas/hl-blas-interface.hpp:xlauum_L", "src/blas/include/guanaqo/blas/lapack.hpp:lapack_throw_on_err"]}
{"id": "C69", "title": "Floating-point numbers survive print_csv and csv_read", "statement": "Every float, double, float16_t or bfloat16_t (zeros of both signs, subnormals, infinities and nans included) that print_csv writes is read back by csv_read as the same number, for whole matrices of any size, and does not depend on what is in the print buffer; complex numbers that differ are printed differently.", "quantifier": "all values of the format, all matrix sizes, all view strides, all following text", "why_tests_cant": "there are 2^64 doubles, and the digits needed depend on the decimal and the binary exponent together; only a proof covers all of them", "anchors": ["src/src/print.cpp: float_to_str_vw_impl, float_to_str_vw", "src/include/guanaqo/implementation/print.tpp: print_elem, print_csv_impl", "src/include/guanaqo/implementation/io/csv.tpp: CSVReader", "src/include/guanaqo/from_chars-wrapper.hpp"]}
{"id": "C70", "title": "float_to_str gives the nearest decimal of the requested precision", "statement": "float_to_str(x, p) returns a sign and the decimal with p digits behind the point that is nearest to x, in scientific notation. (It does not for p >= 58: the error of to_chars is ignored and uninitialised characters are returned.)", "quantifier": "all floating-point values and all precisions", "why_tests_cant": "rounding of a decimal depends on all the digits of the exact value; the buffer length matters only for large precisions", "anchors": ["src/src/print.cpp: float_to_str_vw_impl", "src/include/guanaqo/implementation/print.tpp: float_to_str"]}
{"id": "C71", "title": "The sparse helper functions work on any arrays", "statement": "convert_triplets_to_ccs stores the rebased row indices and, in each column pointer, the number of entries of earlier columns, whatever the output arrays held; sort_triplets and sort_triplets_col permute the arrays jointly and order them by (column, row) or column; sort_rows_csc sorts each column range by row, moves the companion array along and touches nothing outside the ranges.", "quantifier": "all arrays, index types and bases, all outcomes of an unstable sort", "why_tests_cant": "unbounded arrays, unspecified sort results", "anchors": ["src/include/guanaqo/linalg/sparse-ops.hpp:convert_triplets_to_ccs", "src/include/guanaqo/linalg/sparse-ops.hpp:sort_triplets", "src/include/guanaqo/linalg/sparse-ops.hpp:sort_triplets_col", "src/include/guanaqo/linalg/sparse-ops.hpp:sort_rows_csc"]}
{"id": "C72", "title": "Eigen sparse matrices and CSC patterns stand for the same entries", "statement": "as_sparsity(M) is a valid CSC pattern with exactly the stored entries of M, in storage order, with a truthful order flag; as_eigen(p, values) has exactly the entries of p; converting back and forth gives the same pattern.", "quantifier": "all column-major Eigen sparse matrices (compressed or not, blocks of columns included), all CSC patterns", "why_tests_cant": "unbounded matrices; uncompressed matrices usually do not occur in tests", "anchors": ["src/include/guanaqo/linalg/eigen/sparse.hpp:as_sparsity", "src/include/guanaqo/linalg/eigen/sparse.hpp:as_eigen"]}
{"id": "C73", "title": "Strided batch operations compute every matrix of the batch", "statement": "xgemm/xsyrk/xtrsm/xgemv/xpotrf_batch_strided give, for every batch index i, the operands at offsets i*stride the result of the plain operation on the original memory (op(A_i) op(B_i), the solution of the triangular system, the Cholesky factor if A_i is positive definite), independently of the other indices, and change nothing else; matrices of the batch may share inputs (stride 0) or be interleaved.", "quantifier": "all layouts, transpositions, triangles, sizes, leading dimensions, strides, batch sizes and contents with non-overlapping outputs; all orders of iterations for xgemv and xpotrf", "why_tests_cant": "unbounded sizes and memory layouts", "anchors": ["src/blas/src/blas-interface.cpp:xgemm_batch_strided", "src/blas/src/blas-interface.cpp:xsyrk_batch_strided", "src/blas/src/blas-interface.cpp:xtrsm_batch_strided", "src/blas/src/blas-interface.cpp:xgemv_batch_strided", "src/blas/src/blas-interface.cpp:xpotrf_batch_strided"]}
{"id": "C74", "title": "A callback that throws loses nothing", "statement": "If the callback of a callback_streambuf throws, the exception reaches the caller, the bytes stay buffered and the same span is passed again (extended) with the next attempt; the calls that returned have received every accepted byte exactly once and in order. Through an ostream the buffer stays usable for destruction; the destructor terminates the program if the callback throws then. (Writing on after a put that threw, without a successful flush, writes further and further behind the buffer.)", "quantifier": "all histories of puts, writes, flushes and destruction, all buffer sizes of at least 3, every subset of failing calls", "why_tests_cant": "which calls fail is arbitrary and interacts with the buffer boundaries", "anchors": ["src/include/guanaqo/callback-streambuf.hpp:_sync", "src/include/guanaqo/callback-streambuf.hpp:overflow", "src/include/guanaqo/callback-streambuf.hpp:~callback_streambuf"]}
{"id": "C75", "title": "Trace logs written to a stream can be read back", "statement": "The lines that operator<< writes for TraceLogger logs determine the logs uniquely, whatever characters the names contain; the headings name the fields in order; a line is a CSV record (RFC 4180) with the name and the five decimal numbers as its fields exactly if the name has no quote and no backslash.", "quantifier": "all logs: names of any length and content, all field values, any number of lines", "why_tests_cant": "unbounded names with any characters", "anchors": ["src/include/guanaqo/trace.hpp:operator<<", "src/include/guanaqo/trace.hpp:write_column_headings"]}
{"id": "C76", "title": "Floating-point fallback of from_chars agrees with std::from_chars", "statement": "guanaqo::from_chars for float and double in builds that use std::stof/std::stod gives the same value, end pointer and error as std::from_chars on every text.", "quantifier": "all texts, all values of float and double", "why_tests_cant": "all texts; subnormal values, white space, signs, hexadecimal notation", "anchors": ["src/include/guanaqo/from_chars-wrapper.hpp:from_chars"]}
{"id": "C77", "title": "csv_read without std::from_chars reads back what print_csv writes", "statement": "In builds without std::to_chars, the field reader of csv_read (strtod, strtol) gives back every number that print_csv writes, for float, double and the signed integer types, whatever follows the field; a number that does not fit the type is an error.", "quantifier": "all values of float, double, short, int, long; all texts behind the field", "why_tests_cant": "all values including subnormals and range boundaries", "anchors": ["src/include/guanaqo/implementation/io/csv.tpp:CSVReader::read_single", "src/include/guanaqo/implementation/io/csv.tpp:CSVReader::strtod_ovl"]}
{"id": "C78", "title": "Moving a scoped log moves the measured region", "statement": "If the object returned by TraceLogger::trace() is moved (any number of times), the duration of its log entry is set exactly once: by the destructor of the last object it was moved to, to the time from the call of trace() until then. Destroying moved-from, default-constructed or slotless objects changes no entry.", "quantifier": "all programs of constructions, moves and destructions of scoped logs in any order, with storage reuse", "why_tests_cant": "unbounded sequences of moves and lifetimes", "anchors": ["src/include/guanaqo/trace.hpp:ScopedLog", "src/include/guanaqo/trace.hpp:TraceLogger::trace"]}
{"id": "C79", "title": "Tracing with ITT begins and ends every task once", "statement": "With the ITT tracer every trace() on a logger with a domain begins one task whose id is the instance number limited to 0..255, and the destructor of the last owner (and nothing else) ends one; every region ends its own task exactly if regions are closed innermost first, as variables in scopes are. The ids 0..255 exist once for every logger whose last owner is alive.", "quantifier": "all programs of constructions, moves and destructions of scoped logs on a thread, all instance numbers; all histories of loggers", "why_tests_cant": "unbounded nestings and moves; task ends are matched by the library, not by name", "anchors": ["src/include/guanaqo/trace.hpp:ScopedLog", "src/include/guanaqo/trace.hpp:TraceLogger"]}
{"id": "C80", "title": "Shape, symmetry and number of values survive conversions", "statement": "For every converter that can be built, from any source pattern, num_rows, num_cols and get_symmetry of its result equal those of the source, is_dense says whether a dense result was requested and the index types are the requested ones. get_nnz of a valid pattern is the number of values that a converter from it wants and, for a result, the number of values that convert_values delivers: one per entry of the source for sparse results, all elements for dense ones (also symmetric ones). With assertions get_nnz only answers for patterns whose arrays agree in size.", "quantifier": "all patterns (valid or not for the shape), all requests, all values and workspaces", "why_tests_cant": "all patterns and all pairs of formats", "anchors": ["src/include/guanaqo/linalg/sparsity.hpp:get_nnz", "src/include/guanaqo/linalg/sparsity.hpp:num_rows", "src/include/guanaqo/linalg/sparsity.hpp:get_symmetry", "src/include/guanaqo/linalg/sparsity.hpp:is_dense"]}
{"id": "C81", "title": "The snprintf and quadruple-precision versions of float_to_str", "statement": "float_to_str by snprintf (builds without std::to_chars, and __float128 always) returns a sign and a nearest decimal with the requested number of digits behind the point for every number of every format up to quadruple precision, as long as it fits into 63 characters (54 digits at least; beyond, an assertion fails, or without assertions a null character replaces the last digit, or the view reaches behind the buffer). It is the text of the std::to_chars version, with a point also for precision 0. With max_digits10 digits any nearest decimal determines the number. What print_csv writes with the fallback for zeros, infinities, nans and normal numbers is read back by the fallback of csv_read.", "quantifier": "all finite and special values of float, double, long double, __float128 and smaller formats, all precisions, debug and release builds", "why_tests_cant": "all numbers and all precisions up to the exact limit of the buffer", "anchors": ["src/src/print.cpp:float_to_str_vw_snprintf", "src/src/print.cpp:float_to_str_vw_impl", "src/include/guanaqo/implementation/print.tpp:float_to_str"]}
{"id": "C82", "title": "Timed with floating-point durations", "statement": "A Timed scope on a duration<float> or duration<double> adds the elapsed time up to rounding; what had been accumulated before is kept.", "quantifier": "all binary formats, all periods, all clock readings, all earlier values of the duration", "why_tests_cant": "the error depends on the uptime of the machine", "anchors": ["src/include/guanaqo/timed.hpp:Timed"]}
{"id": "C83", "title": "Timed with integral durations: overflow; CPU time on both platforms", "statement": "A Timed scope on an integral duration adds exactly the elapsed time, and is defined, whenever the result fits; TimingsCPU.cpu_time grows by the nanoseconds of CPU time the process has used.", "quantifier": "all integral types and finer periods, all clock readings, all process times, POSIX and Windows", "why_tests_cant": "depends on uptime; other platform", "anchors": ["src/include/guanaqo/timed.hpp:Timed", "src/src/timed-cpu.cpp:getProcessCpuTime"]}
{"id": "C84", "title": "operator<< for TimingsCPU", "statement": "The text is wall and CPU time in milliseconds with six significant digits and the quotient in percent with five, in columns of at least 8, 8 and 7 characters; the stream's precision is restored and its width reset.", "quantifier": "all nonnegative times, all stream states, all insertions that may throw", "why_tests_cant": "all values; exceptions from the stream at any point", "anchors": ["src/src/timed-cpu.cpp:operator<<"]}
{"id": "C85", "title": "operator<< for __float128", "statement": "The text is a nearest decimal with as many significant digits as the stream's precision (6 if negative, at least 1), padded to the width; infinities and nans are spelled out.", "quantifier": "all quadruple-precision values, all precisions, widths, fills, debug and release builds", "why_tests_cant": "all values and precisions", "anchors": ["src/src/quadmath/quadmath-print.cpp:operator<<"]}
{"id": "C86", "title": "Scalar arguments of view operations may refer to elements of the view", "statement": "v.set_constant(x), v.set_constant(x, triangle), v.set_diagonal(x), v.add_to_diagonal(x) and v += x take the scalar by const reference. Their effect is determined by the value x has at the time of the call, also if x is itself an element of v (v += v(0, 0)).", "quantifier": "all views, memories, element types with an addition, and all addresses of the scalar (inside or outside the view)", "why_tests_cant": "whether the reference aliases an element, and which, is a property of every call site; tests use literals", "anchors": ["src/include/guanaqo/mat-view.hpp: MatrixView::set_constant", "src/include/guanaqo/mat-view.hpp: MatrixView::add_to_diagonal", "src/include/guanaqo/mat-view.hpp: MatrixView::operator+="]}
{"id": "C87", "title": "Assignment between overlapping views", "statement": "After v = w (or v += w) for views of the same shape, v(r, c) is what w(r, c) was before (or the sum with it), also if v and w overlap.", "quantifier": "all pairs of views of one memory, whatever their strides and overlap, and both library versions of copy_n", "why_tests_cant": "overlap patterns are unbounded; a test sees only the ones it constructs", "anchors": ["src/include/guanaqo/mat-view.hpp: MatrixView::copy_values", "src/include/guanaqo/mat-view.hpp: MatrixView::operator=", "src/include/guanaqo/mat-view.hpp: MatrixView::operator+="]}
{"id": "C88", "title": "Index arithmetic of views does not overflow", "statement": "For a view whose members are representable in its index type, element access, sub-views, set_constant, generate and the diagonal work without overflow: all elements can be used.", "quantifier": "all signed index types, all views with nonnegative strides, all positions", "why_tests_cant": "overflow needs matrices with more than 2^31 elements", "anchors": ["src/include/guanaqo/mat-view.hpp: MatrixView::operator()", "src/include/guanaqo/mat-view.hpp: MatrixView::diagonal", "src/include/guanaqo/mat-view.hpp: MatrixView::as_column"]}
{"id": "C89", "title": "bad_type_erased_type explains itself", "statement": "what() of the exception thrown by as<T>() gives the message passed to its constructor followed by the requested and the contained type; calling it again gives the same text and does not invalidate the pointers it returned before.", "quantifier": "all pairs of types, all messages, any number of calls", "why_tests_cant": "Tests only check that the exception is thrown, with types whose names the demangler knows.", "anchors": ["src/include/guanaqo/type-erasure.hpp: bad_type_erased_type::what", "src/src/demangled-typename.cpp: demangled_typename"]}
{"id": "C90", "title": "Objects in TypeErased wrappers are aligned", "statement": "An object owned by a TypeErased wrapper lies at an address that is a multiple of its type's alignment, wherever the wrapper and the memory of its allocator are.", "quantifier": "all histories of operations, all types (size and alignment), all allocators and all addresses they may return", "why_tests_cant": "Misalignment depends on the addresses an allocator happens to return; tests run with one allocator whose blocks are usually aligned better than promised.", "anchors": ["src/include/guanaqo/type-erasure.hpp: TypeErased::small_buffer, allocate, construct_inplace"]}
{"id": "C91", "title": "Calls through a wrapper reach the contained object", "statement": "A method called through a TypeErased wrapper runs the contained object's member function on the object's current state, with any history of copies, moves and assignments before; non-const methods of const objects throw and leave the object alone; an optional method runs the object's own function if the object offered it when it was wrapped, and the VTable's default otherwise.", "quantifier": "all classes, interfaces (required and optional methods with defaults), object states and histories of operations", "why_tests_cant": "Tests call a few methods of a few classes; the claim is about function pointers copied through every history of wrappers.", "anchors": ["src/include/guanaqo/required-method.hpp: GUANAQO_TE_REQUIRED_METHOD, GUANAQO_TE_OPTIONAL_METHOD", "src/include/guanaqo/type-erasure.hpp: Launderer, TypeErased::call, CopyMoveDestroyVTable"]}
{"id": "C92", "title": "Sparsity conversions without std::views::zip (C++20 builds)", "statement": "In a build whose standard library lacks std::views::zip, constructing a SparsityConverter throws unsupported_conversion (a std::logic_error) exactly when the requested result needs the entries reordered (COO not sorted by columns to CSC; anything not sorted by rows to CSC with SortedRows requested); for every other request it gives the same converter, hence the same pattern and values, as a C++23 build. Debug builds additionally detect duplicate entries as the C++23 build does.", "quantifier": "all source patterns and requests, debug and release builds", "why_tests_cant": "the refusal and the agreement have to hold for every pattern, order flag, index type and request; the test-suite is compiled for one language standard only", "anchors": ["src/include/guanaqo/linalg/sparsity-conversions.hpp:SparsityConverter", "src/include/guanaqo/linalg/sparsity-conversions.hpp:unsupported_conversion"]}
{"id": "C93", "title": "CSV readers report I/O errors", "statement": "If the stream breaks while csv_read, csv_read_row or csv_read_row_std_vector reads (its buffer throws after delivering some characters), the call throws csv_read_error, or it returns the values that any continuation of the delivered text would have given, positioned after them; it throws only if it had to look behind the delivered characters. Values are never truncated or made up because of the error.", "quantifier": "all texts, all positions of the error, all sizes, separators and number parsers, both ways std::istream::get may treat the end", "why_tests_cant": "the error can come between any two characters of any text; a test can break a stream at a few places only", "anchors": ["src/include/guanaqo/implementation/io/csv.tpp:CSVReader", "src/include/guanaqo/io/csv.hpp:csv_read"]}
{"id": "C94", "title": "Printing to a stream in any state", "statement": "With width 0, print_csv/print_matlab/print_python write floating-point and complex matrices independently of the stream's flags and locale, and integer matrices as in C49 with the integers in the stream's format; a width pads only the first indentation (or the end, without rows) and is reset, nothing else in the stream's state changes; if the sink takes only r characters it gets exactly the first r characters of the text and the stream is bad exactly if that is not all; a bad stream gets nothing. The same holds for the insertion of trace logs.", "quantifier": "every matrix, layout options, formatting state (width, fill, adjustment, base, sign, prefix, digit grouping), number of characters the sink takes", "why_tests_cant": "Tests print to fresh string streams in the C locale.", "anchors": ["src/include/guanaqo/implementation/print.tpp:print_elem,print_csv_impl,print_matlab_impl,print_python_impl", "src/include/guanaqo/trace.hpp:TraceLogger::Log operator<<"]}
{"id": "C95", "title": "Lifetime of dynamically loaded libraries", "statement": "In every program that calls load_lib and load_func and copies, overwrites and drops the shared handles: no handle is closed twice and no closed handle is used; a library is in memory exactly as long as a copy of one of its handles exists (or others use it, or it was loaded with nodelete, the default); a function pointer from load_func can be called as long as the library stays loaded and never again after it was unloaded.", "quantifier": "every history of loads (successful or not), copies, resets and lookups, any number of handles per library, both platforms", "why_tests_cant": "Whether a function pointer dangles depends on the whole history of handle copies; a test sees a few histories and unmapped code often still seems to work.", "anchors": ["src/src/dl.cpp:load_lib,load_func", "src/src/dl-flags.cpp:DynamicLoadFlags::operator int"]}
{"id": "C96", "title": "Long double and quadruple-precision numbers survive print_csv and csv_read", "statement": "For every binary format up to quadruple precision (long double with 64 bits, std::float128_t, __float128 as well as the smaller ones), csv_read reads exactly the decimal numbers, infinities and nans that are in the range of the format, rounded to nearest; and every number, signed zero, infinity and nan written by print_csv (by std::to_chars or by quadmath_snprintf) is read back as itself, one by one and as a matrix; different complex numbers are written differently. With strtold instead of std::from_chars the same numbers are read, except for subnormal ones. This fails for std::float128_t where the standard library cannot print it: the number is rounded to long double first, and that is what is read back.", "quantifier": "all formats up to 113 bits, all numbers, all texts, matrices of every size and all texts behind them, all contents of the uninitialised buffer", "why_tests_cant": "there are 2^128 numbers and unboundedly many texts; the result depends on correct rounding in both directions", "anchors": ["src/src/print.cpp: float_to_str_vw_impl", "src/include/guanaqo/implementation/print.tpp: print_elem", "src/include/guanaqo/implementation/io/csv.tpp: CSVReader::read_single", "src/src/io/csv.cpp: csv_read<long double>, csv_read<__float128>"]}
{"id": "C97", "title": "Exact effect of the CSV functions on any text", "statement": "For every text (any field lengths, comments anywhere, with or without final newline), csv_read_row, csv_read and csv_read_row_std_vector do exactly the following. Comment lines at the start of a row are skipped; if an empty line or the end of the text follows them, csv_read_error is thrown; an unfinished comment at the end of the text is a row without fields. Otherwise the fields of the next line are cut into groups of 64 characters (a field in front of a separator whose length is a multiple of 64 has an additional empty group); if every group is a number, these are the numbers of the row and the text behind the line is left; if one is not, or csv_read_row/csv_read request another count, csv_read_error is thrown. libstdc++ and libc++ give the same numbers and the same remaining text.", "quantifier": "all texts, separators that cannot be part of a number, number parsers, row and column counts, both standard libraries' behaviour of istream::get at the end of the input", "why_tests_cant": "the result depends on how the text falls into a 64-byte buffer and on stream state flags; tests can only sample texts and lengths", "anchors": ["src/include/guanaqo/implementation/io/csv.tpp: CSVReader::read, read_chunk, skip_comments, next_line, done", "csv_read_row", "csv_read", "csv_read_row_std_vector"]}
{"id": "C98", "title": "Concurrent tracing is free of data races in the C++ memory model", "statement": "In every execution allowed by the C++ memory model (all accesses to the counter are relaxed), trace() calls and destructions of ScopedLog objects by any number of threads never cause a data race, and neither do get_logs() (with reading the entries) and reset() if they are ordered by happens-before with the trace() calls and scopes, as long as at most 2^w calls are made (w: bits of size_t). A get_logs() that is ordered in this way returns exactly the calls that happened before it since the last reset (up to the capacity), and every member read from entry i is the value written by the call with index i. The conditions are necessary: get_logs() or reset() concurrent with trace(), or more than 2^w calls, can race.", "quantifier": "all executions (happens-before relations, modification orders, values seen by loads), all numbers of threads and operations, capacities and counter widths", "why_tests_cant": "weak-memory executions cannot be enumerated by running tests; a race may never show up on the hardware at hand", "anchors": ["src/include/guanaqo/trace.hpp: TraceLogger::trace, ~ScopedLog, get_logs, reset, count"]}
{"id": "C99", "title": "A stop request publishes what was written before it", "statement": "A thread for which stop_requested() has returned true may read, without a data race, everything the stopping thread wrote before calling stop().", "quantifier": "all executions of the C++ memory model with any threads, variables, stop signals and other synchronisation", "why_tests_cant": "the absence of a happens-before edge is not observable on strongly ordered hardware; tests pass although the program has undefined behaviour", "anchors": ["src/include/guanaqo/atomic-stop-signal.hpp: AtomicStopSignal::stop, stop_requested"]}
{"id": "C100", "title": "BLAS tracing reports the right name and number of operations", "statement": "With BLAS tracing enabled, every call of a high-level wrapper (xgemv, xgemm, xgemmt, xsyrk, xtrmv, xtrmm, xtrsv, xtrsm, xpotrf_L, xtrtri_LN, xlauum_L) on matching operands of any size is logged under the name of its routine with a flop_count equal to the number of multiplications (divisions, square roots) of the operation, and computing that count is well defined.", "quantifier": "all operand sizes, all 27 wrappers, index types int and wider", "why_tests_cant": "The counts are polynomials of the sizes; equality with the number of operations for all sizes, and the exact sizes for which the polynomial overflows, cannot be tested exhaustively.", "anchors": ["src/blas/include/guanaqo/blas/hl-blas-interface.hpp: GUANAQO_TRACE_HL_BLAS", "src/include/guanaqo/trace.hpp: TraceLogger::trace"]}
{"id": "C101", "title": "Matrix views in release builds do what they do in debug builds", "statement": "A sequence of matrix-view operations (sub-views, element access, fills, assignments, diagonals) that trips no assertion in a build with assertions produces, in a build with NDEBUG, the same views, the same array contents, the same values read and the same undefined behaviour. The assertions trip exactly for calls whose indices or sizes are out of range or whose operands differ in shape; up to such a call both builds are in the same state. In a release build an assignment between different shapes acts as if the source had the destination's shape, and an out-of-range index into a contiguous matrix accesses the element with the same linear index.", "quantifier": "all sequences of operations on any number of views, all views (any sizes and strides), all array contents, all element types", "why_tests_cant": "there are unboundedly many programs; tests are run in one build configuration, usually with assertions, and never compare the two", "anchors": ["src/include/guanaqo/mat-view.hpp: MatrixView::operator(), top_rows, left_cols, bottom_rows, right_cols, block, copy_values, operator=, operator+=, generate"]}
{"id": "C102", "title": "Circular ranges work for every index type and in release builds", "statement": "A circular range with size at most max visits (k, (idx1+k) mod max) for k below size, forwards and backwards, whatever the integer index type (max may be its largest value), with and without assertions. Any sequence of ++ and -- stops at an assertion in a debug build exactly when it leaves positions 0 to max; otherwise both builds end at the same iterator. In release builds the circular index stays below max whatever is done, and the zero-based index counts on modulo the size of the type. A range whose size is larger than max trips an assertion in debug builds and goes round the buffer again in release builds.", "quantifier": "all integer index types (unsigned, signed, narrower than int), all sizes, start indices and maxima, all sequences of increments and decrements, both build modes", "why_tests_cant": "index types, ranges and sequences of moves are unbounded; tests use size_t or int with small buffers and assertions enabled", "anchors": ["src/include/guanaqo/ringbuffer.hpp: CircularIndexIterator, ReverseCircularIndexIterator, CircularRange, ReverseCircularRange"]}
{"id": "C103", "title": "Numbers in text and the decimal point of the process locale", "statement": "In builds without std::to_chars/std::from_chars for floating point, print_* / float_to_str and the CSV reader use the C library's locale-dependent printf and strtod. In any locale the output is the C-locale output with the decimal points exchanged, and a text is read as the C-locale reader reads the text with the decimal points exchanged; so what a process writes it reads back to the same values (also when the separator is the decimal point). A text written in one locale is either rejected with an error by a reader of another decimal point, or read as the same numbers. The last sentence is false when the separator equals the decimal point: a row of n numbers written with a decimal comma and the default separator ',' is silently read as 2n numbers by a decimal-point reader, and in a decimal-comma process the row '12,5' is read as the one number 12.5.", "quantifier": "every decimal point character, every value of the format, every row, every text", "why_tests_cant": "tests run in the C locale; the claim ranges over all locales, all values and all rows", "anchors": ["src/src/print.cpp:16-22,48-72 float_to_str_vw_snprintf", "src/include/guanaqo/implementation/io/csv.tpp:98-129 read_single", "src/include/guanaqo/from_chars-wrapper.hpp:63-96 from_chars"]}
{"id": "C104", "title": "Callbacks that write to the stream they serve", "statement": "If the callback of a callback_streambuf itself writes to a stream using the same buffer, what it writes is delivered later, like other output, nothing that was buffered is lost or changed, and calls do not nest without end. This is false: what the callback writes is dropped when the callback returns (all of it if the buffered text ended at a code point boundary; otherwise the pending bytes of the incomplete code point are replaced by the last bytes written by the callback); a callback that flushes the stream is called again endlessly; a callback that writes a line with std::endl makes the spans grow until a byte is stored behind the buffer. Callbacks that leave the stream alone behave as C12-C14 say.", "quantifier": "every state of the buffer, every callback (number of the call, span to operations), every nesting depth", "why_tests_cant": "the effect depends on the buffer content and on the nested operations; the non-termination cannot be tested", "anchors": ["src/include/guanaqo/callback-streambuf.hpp:58-85 callback_streambuf::_sync, sync, overflow"]}
{"id": "C105", "title": "MaxHistory with NaN", "statement": "A MaxHistory of floating-point numbers to which NaNs may be added reports, after every add, the maximum of the numbers among the last n values: a NaN does not hide larger numbers and has no effect once it has left the window.", "quantifier": "every capacity n > 0, every sequence of added values with NaNs anywhere, every IEEE format", "why_tests_cant": "Whether max() becomes NaN depends on the position of the NaN modulo n and on which additions make the class search for the maximum again; once it is NaN it stays NaN for every continuation. Tests see single sequences.", "anchors": ["src/include/guanaqo/max-history.hpp: MaxHistory::add", "src/include/guanaqo/max-history.hpp: MaxHistory::max"]}
{"id": "C106", "title": "LAPACK exceptions say what failed", "statement": "A lapack_error thrown by xpotrf_L, xtrtri_LN or xlauum_L has in its member info, and as a decimal number behind the name of the function in its text, the order of the smallest leading minor that is not positive definite (xpotrf_L), the number, from 1, of the first zero on the diagonal (xtrtri_LN), or minus the number of the argument LAPACK rejects; and they throw exactly if there is such a minor, zero or argument.", "quantifier": "every square matrix view and its contents (real numbers for xpotrf_L, any field for the others), with and without verified assumptions", "why_tests_cant": "The index must be right for every matrix that fails and the first failure must be reported however many there are.", "anchors": ["src/blas/include/guanaqo/blas/lapack.hpp: lapack_error, lapack_throw_on_err", "src/blas/include/guanaqo/blas/hl-blas-interface.hpp: xpotrf_L, xtrtri_LN, xlauum_L"]}
{"id": "C107", "title": "Scoped redirects and the error state of a stream", "statement": "A scoped_ostream_redirect is invisible once it is gone, also for streams in an error state or without a buffer: afterwards every stream has the buffer and the error state it would have without the redirect, errors raised in the scope stay visible, and the buffer of the redirect has been flushed.", "quantifier": "every program of output, flushes, errors, exceptions and nested redirects on any number of streams, from any state of the streams", "why_tests_cant": "The error state depends on the order of all operations on the streams and on nested scopes left by exceptions.", "anchors": ["src/include/guanaqo/callback-streambuf.hpp: scoped_ostream_redirect"]}
{"id": "C108", "title": "Errors of the dynamic loader", "statement": "load_lib and load_func either return the handle or address the system gave (load_lib with exactly one more reference to the library) or throw and leave no library reference and no message buffer of the system behind, also when any allocation on the way fails. The exception names the library or function and carries the system's text for this very failure, not for an earlier or later one.", "quantifier": "every reply of the system loader (handles, error codes, texts, a missing text), every pending error, every order of evaluation the language allows, every failing allocation, every name (embedded null bytes included), POSIX and Windows", "why_tests_cant": "Needs failures of the operating system and of allocations at each point, and an order of evaluation that one compiler does not show", "anchors": ["src/src/dl.cpp: load_lib, load_func, get_last_error_msg", "src/include/guanaqo/dl.hpp: dynamic_load_error"]}
{"id": "C109", "title": "Macros that count and join their arguments", "statement": "GUANAQO_NUM_ARGS gives the number of its arguments, GUANAQO_JOIN_TOKENS joins them with underscores and GUANAQO_JOIN_STRINGS(sep, ...) makes one string of them with the separator between each two, in order, for one to ten arguments; with more arguments the joining macros never give a result.", "quantifier": "all argument lists (any tokens, any number of arguments), all separators", "why_tests_cant": "Each number of arguments has its own hand-written macro; tests use one or two of them", "anchors": ["src/include/guanaqo/preprocessor.h: GUANAQO_NUM_ARGS, GUANAQO_JOIN_TOKENS, GUANAQO_JOIN_STRINGS"]}
{"id": "C110", "title": "Exceptions of parse_duration say what could not be read, and where", "statement": "If parse_duration throws, the terms before the failure have been added to the duration; invalid_duration_value quotes the argument from the first character that is not a number and its result points there with errc invalid_argument, or, for a number outside the range of double, errc result_out_of_range and a pointer past the number; invalid_duration_units quotes exactly the unknown units and its view is their place in the argument.", "quantifier": "all argument strings, durations types, initial values, names of types and messages of the standard library", "why_tests_cant": "The place of the failure depends on the whole string; tests check the type of the exception on a few strings", "anchors": ["src/include/guanaqo/duration-parse.hpp: invalid_duration_value, invalid_duration_units, parse_single_duration, parse_duration"]}
{"id": "C111", "title": "A failing CSV read changes only what stands in front of the error", "statement": "csv_read_row and csv_read assign the elements of the destination in order. When a call throws, exactly the rows that were read completely and, in the row with the error, exactly the numbers in front of the first field that is not a number (at most as many as the row has elements) have been assigned; every other element of the destination has the value it had. The shape of the destination never changes. The strong guarantee (a throwing call leaves the destination unchanged) does not hold.", "quantifier": "every text, number format, separator, previous contents of the destination, number of rows and columns, and both standard libraries", "why_tests_cant": "tests look at the destination after success, or only at the exception; which elements were overwritten depends on where in any text the first error is, including errors in comments, over-long fields and rows of the wrong length", "anchors": ["src/include/guanaqo/implementation/io/csv.tpp: csv_read_row", "src/include/guanaqo/implementation/io/csv.tpp: csv_read", "src/include/guanaqo/implementation/io/csv.tpp: CSVReader::read"]}
{"id": "C112", "title": "CSV exceptions say what is wrong with the text", "statement": "The text of the csv_read_error that csv_read_row, csv_read and csv_read_row_std_vector throw is determined by the input alone: for the first field that is not a number it quotes the line from that field on (up to 64 characters, without a leading plus) with the reason, or names the character behind the number; too many fields give 'line not fully consumed'; a missing field quotes nothing; a missing first row or a row missing behind comments gives 'extraction failed' with the stream flags; a failed stream is named as such. It does not depend on how the reader cuts the text into chunks, nor on the standard library's eagerness to set eofbit. (It does not quote only the offending field.)", "quantifier": "every text, number format, separator, number of rows and columns, reason texts, and both standard libraries", "why_tests_cant": "the texts depend on what is in the 64-character buffer when the error is noticed, which depends on all the text read before; tests cover one text per message", "anchors": ["src/include/guanaqo/implementation/io/csv.tpp: CSVReader::read", "src/include/guanaqo/implementation/io/csv.tpp: CSVReader::read_chunk", "src/include/guanaqo/implementation/io/csv.tpp: CSVReader::read_single", "src/include/guanaqo/implementation/io/csv.tpp: CSVReader::next_line", "src/include/guanaqo/io/csv.hpp: csv_read_error"]}
