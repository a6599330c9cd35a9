{
 "claims": [
  {
   "property": "C01",
   "status": "proved",
   "theorems": [
    "C01_csr_behaves_as_map",
    "C01_reachable_csr_behaves_as_map"
   ],
   "note": "New and every reachable CSR matrix, any history of Set/Update/At/Element/Clear; writes of a value equal to zero store zero."
  },
  {
   "property": "C02",
   "status": "proved",
   "theorems": [
    "C02_csc_behaves_as_map",
    "C02_reachable_csc_behaves_as_map"
   ],
   "note": "As C01, for CSC."
  },
  {
   "property": "C03",
   "status": "proved",
   "theorems": [
    "C03_sparse_keeps_exactly_nonzeros"
   ],
   "note": "Every reachable CSR/CSC matrix. Histories exclude mapping a sparse object in place to zero; see C16 and C55."
  },
  {
   "property": "C04",
   "status": "partial",
   "theorems": [
    "C04_in_range_succeeds",
    "C04_out_of_range_panics_partial",
    "C04_dense_vector_At_refuted"
   ],
   "note": "False of DenseVector.At with a non-zero column (refuted); every other accessor proved. Element of the two vector types ignores the column."
  },
  {
   "property": "C05",
   "status": "proved",
   "theorems": [
    "C05_dense_behaves_as_map",
    "C05_dense_from_array_behaves_as_map",
    "C05_reachable_dense_behaves_as_map"
   ],
   "note": "New, array-built and every reachable dense matrix."
  },
  {
   "property": "C06",
   "status": "proved",
   "theorems": [
    "C06_dense_vector_behaves_as_map",
    "C06_dense_vector_from_array_behaves_as_map",
    "C06_reachable_dense_vector_behaves_as_map"
   ],
   "note": "New, array-built and every reachable dense vector."
  },
  {
   "property": "C07",
   "status": "partial",
   "theorems": [
    "C07_orderly_exact_partial",
    "C07_values_stay_at_their_position",
    "C07_zero_written_is_read_refuted",
    "C07_enumerated_once_refuted",
    "C07_window_refuted",
    "C07_sparse_vector_is_map_refuted",
    "C07_sparse_vector_is_map_partial"
   ],
   "note": "False: an entry at position >= 2 of an empty sparse vector is unreadable; a zero written there is lost, so that an old value can come back; a position can be stored twice. Proved: exactly what is shown by every history that writes beyond the number of entries only behind all non-zero entries (C07_orderly_exact_partial), the map itself while accesses stay within the number of entries, and, for any history, that a position shows only values made at that position."
  },
  {
   "property": "C08",
   "status": "proved",
   "theorems": [
    "C08_sparse_vector_from_array",
    "C08_sparse_rows_and_columns"
   ],
   "note": "Array-built sparse vectors and sparse RowsAt/ColumnsAt results."
  },
  {
   "property": "C09",
   "status": "proved",
   "theorems": [
    "C09_csr_enumeration"
   ],
   "note": "Every reachable CSR matrix: exactly the non-zero cells, row-major, each once."
  },
  {
   "property": "C10",
   "status": "proved",
   "theorems": [
    "C10_csc_enumeration"
   ],
   "note": "Every reachable CSC matrix: exactly the non-zero cells, column-major, each once."
  },
  {
   "property": "C11",
   "status": "proved",
   "theorems": [
    "C11_dense_enumeration"
   ],
   "note": "Dense matrices and dense vectors."
  },
  {
   "property": "C12",
   "status": "proved",
   "theorems": [
    "C12_csr_from_array",
    "C12_csc_from_array",
    "C12_dense_from_array",
    "C12_empty_array_panics"
   ],
   "note": "Rectangular arrays; an empty array panics."
  },
  {
   "property": "C13",
   "status": "proved",
   "theorems": [
    "C13_rows_to_array",
    "C13_dense_rows_and_columns",
    "C08_sparse_rows_and_columns"
   ],
   "note": "Sparse matrices: rows as arrays exactly; RowsAt/ColumnsAt as characterised by C08."
  },
  {
   "property": "C14",
   "status": "proved",
   "theorems": [
    "C14_copies_are_faithful_and_independent"
   ],
   "note": "All five storage types; independence under every later history."
  },
  {
   "property": "C15",
   "status": "proved",
   "theorems": [
    "C15_reads_are_pure",
    "C15_reading_calls_change_no_object",
    "C15_calls_write_only_their_target"
   ],
   "note": "Reads and every other call: only the documented target changes."
  },
  {
   "property": "C16",
   "status": "partial",
   "theorems": [
    "C16_map_zeros_at_line_ends_partial",
    "C16_map_zero_inside_last_line_panics_refuted",
    "C16_map_zero_inside_vector_panics_refuted",
    "C16_map_that_returns_may_be_wrong_refuted",
    "C16_map_rewrites_every_element_partial",
    "C16_map_to_zero_refuted",
    "C16_map_to_zero_hangs_refuted"
   ],
   "note": "Proved for all storage types when the function makes zeros only of the last stored elements of lines (rows of CSR, columns of CSC, the vector), in particular when it makes none. False otherwise: a zero with other elements after it in the last line always panics; one in an earlier line can panic, hang or return with one element passed over and another mapped twice."
  },
  {
   "property": "C17",
   "status": "proved",
   "theorems": [
    "C17_dense_product",
    "C17_dense_method",
    "C17_inner_dimensions"
   ],
   "note": "All shapes, contents, masks and element types (floats in evaluation order, no fused multiply-add). The output must not be one of the operands; the output must not be a sparse vector; the method theorem needs rows*columns < 2^63 (the size of the slice Go can allocate)."
  },
  {
   "property": "C18",
   "status": "partial",
   "theorems": [
    "C18_sparse_product_exact_partial",
    "C18_sparse_method_exact_partial",
    "C18_packed_product_partial",
    "C18_sparse_product_refuted"
   ],
   "note": "False of the code: rows and columns of sparse operands are copied into SparseVectors whose AtVec misses entries at positions beyond the number of stored entries. Proved: what is computed exactly (shown), correctness when no row/column has such entries (packed); refuted on a 1x3 by 3x1 product."
  },
  {
   "property": "C19",
   "status": "proved",
   "theorems": [
    "C19_dense_addition",
    "C19_dense_subtraction",
    "C19_shape_mismatch"
   ],
   "note": "Proved in full."
  },
  {
   "property": "C20",
   "status": "partial",
   "theorems": [
    "C20_exact_partial",
    "C20_integer_types_partial",
    "C20_sparse_addition_refuted"
   ],
   "note": "False for float64 (the only registered sparse element type): cells stored only in the argument are lost. Proved: the exact result for every element type, and correctness for all integer element types with the initial registry."
  },
  {
   "property": "C21",
   "status": "partial",
   "theorems": [
    "C21_exact_partial",
    "C21_sparse_subtraction_refuted",
    "C21_sparse_vector_refuted"
   ],
   "note": "False: where the receiver stores nothing the argument cell itself (not negated) is the result; SparseVector.Subtract subtracts the receiver from itself. Proved: the exact result for every non-sparse-vector operand pair."
  },
  {
   "property": "C22",
   "status": "partial",
   "theorems": [
    "C22_negative_method",
    "C22_negative_operator_exact_partial",
    "C22_negative_operator_refuted"
   ],
   "note": "The method is proved for every storage class (sparse: a cell comparing equal to zero reads zero). The operator negates the output in place and ignores its input: exact theorem and refutation."
  },
  {
   "property": "C23",
   "status": "partial",
   "theorems": [
    "C23_scalar_zeros_at_line_ends_partial",
    "C23_scalar_zero_inside_last_line_panics_refuted",
    "C23_scalar_partial",
    "C23_scalar_refuted"
   ],
   "note": "Proved when every stored element that scaling makes zero is the last one of its line, in particular when there is none. False otherwise, for the same reason as C16 (panic proved for the last line)."
  },
  {
   "property": "C24",
   "status": "partial",
   "theorems": [
    "C24_transpose_partial",
    "C24_transpose_to",
    "C24_transpose_twice_partial",
    "C24_sparse_vector_refuted"
   ],
   "note": "Proved for CSR, CSC, dense matrices and dense vectors. Sparse vectors: refuted (entries At misses show up in the transpose)."
  },
  {
   "property": "C25",
   "status": "partial",
   "theorems": [
    "C25_exact_partial",
    "C25_symmetric_mask_partial",
    "C25_masked_transpose_refuted",
    "C25_nonsquare_mask_refuted"
   ],
   "note": "False: the mask is tested at the transposed position. Proved: exact result; correctness for square outputs with symmetric masks; a non-square object mask panics."
  },
  {
   "property": "C26",
   "status": "partial",
   "theorems": [
    "C26_in_place_zeros_at_line_ends_partial",
    "C26_separate_exact_partial",
    "C26_in_place_exact_partial",
    "C26_separate_refuted",
    "C26_in_place_refuted"
   ],
   "note": "False: a separate output receives the transpose; in place the operator is applied only where the mask is set. Proved: exact results for both; in place on sparse storage also when the function makes zeros, provided no stored element follows them in their line (otherwise the loop passes elements over or panics, see C16)."
  },
  {
   "property": "C27",
   "status": "proved",
   "theorems": [
    "C27_equal",
    "C27_symmetric"
   ],
   "note": "Proved also for CSR/CSC matrices of the same unregistered element type. cmp_ok (== is symmetric and respects zero) is proved for every Go number type (go_types_cmp)."
  },
  {
   "property": "C28",
   "status": "partial",
   "theorems": [
    "C28_mixed_exact_partial",
    "C28_unregistered_counts_partial",
    "C28_different_cells_refuted",
    "C28_equal_cells_refuted"
   ],
   "note": "False in both directions. Proved: the exact verdict for mixed classes and for pairs with different stored counts."
  },
  {
   "property": "C29",
   "status": "proved",
   "theorems": [
    "C29_not_equal",
    "C29_nil",
    "C29_shape"
   ],
   "note": "Proved in full."
  },
  {
   "property": "C30",
   "status": "partial",
   "theorems": [
    "C30_exact_partial",
    "C30_nonsquare_refuted",
    "C30_addition_refuted"
   ],
   "note": "False: where both are non-zero the second operand overwrites the first; non-square operands of equal shape panic in the matrix version. Proved: exact result."
  },
  {
   "property": "C31",
   "status": "partial",
   "theorems": [
    "C31_exact_partial",
    "C31_in_place_exact_partial",
    "C31_multiplication_refuted"
   ],
   "note": "False: writes the common value where the operands are equal. Proved: exact result, separate and in place."
  },
  {
   "property": "C32",
   "status": "proved",
   "theorems": [
    "C32_every_schedule",
    "C32_sequential_value"
   ],
   "note": "Every interleaving of the three goroutines is covered by the small-step model in ReduceConc.v. An operator that panics ends the process, as in Go."
  },
  {
   "property": "C33",
   "status": "partial",
   "theorems": [
    "C33_never_a_partial_result_partial",
    "C33_returns_refuted"
   ],
   "note": "False: a cancelled producer returns without sending on done, so the caller can block for ever (witnessed for every non-empty reduction). Proved: a call that does return gives the complete fold, and blocking is the only other outcome besides a crash of the operator."
  },
  {
   "property": "C34",
   "status": "partial",
   "theorems": [
    "C34_columns_fold_partial",
    "C34_maximum_of_column_and_zero_partial",
    "C34_integer_types_partial",
    "C34_sparse_vector_fold_partial",
    "C34_sparse_vector_maximum_partial",
    "C34_maximum_refuted"
   ],
   "note": "False for columns with only negative entries: DefaultMonoIDMaximum starts from 0. Proved: the result is the maximum of the column and 0, hence the column maximum whenever the column has a non-negative entry; for a general total operator the exact fold per column. For a sparse vector the one entry is the fold of its stored elements, as its iterator shows them."
  },
  {
   "property": "C35",
   "status": "proved",
   "theorems": [
    "C35_multiply_prefix",
    "C35_add_prefix",
    "C35_subtract_prefix",
    "C35_transpose_prefix",
    "C35_apply_prefix",
    "C35_apply_in_place_prefix",
    "C35_element_wise_multiply_prefix",
    "C35_element_wise_add_prefix",
    "C35_equal_prefix",
    "C35_negative_prefix",
    "C35_equal_cancelled"
   ],
   "note": "The prefix may be empty or the whole iteration. Operators are proved for outputs that are not an operand where the enumerated operand is sparse."
  },
  {
   "property": "C36",
   "status": "partial",
   "theorems": [
    "C36_scalar_termination_exact_partial",
    "C36_cancelled_scalar_refuted"
   ],
   "note": "False: exact termination condition proved, and a run that diverges for every fuel."
  },
  {
   "property": "C37",
   "status": "proved",
   "theorems": [
    "C37_symmetric"
   ],
   "note": "For every Go element type; dense storage not registered as sparse, CSR or CSC (any registry). Comparisons are ==, so a NaN makes a float matrix unsymmetric."
  },
  {
   "property": "C38",
   "status": "proved",
   "theorems": [
    "C38_skew_symmetric"
   ],
   "note": "As C37; the condition is -m(i,j) == m(j,i) with the wrap-around negation of the element type."
  },
  {
   "property": "C39",
   "status": "proved",
   "theorems": [
    "C39_product",
    "C39_integer_types"
   ],
   "note": "Each goroutine of the seven runs as one step, in an arbitrary arrival order chosen per call by sched; they only read their operands and write fresh objects (C72 has their steps one by one). Context not cancelled. Operands dense, or of any storage when the size exceeds the crossover. n*n within int64."
  },
  {
   "property": "C40",
   "status": "partial",
   "theorems": [
    "C40_surviving_indices_partial",
    "C40_mismatch_panics_partial",
    "C40_not_square_panics_refuted",
    "C40_negative_crossover_refuted",
    "C40_every_size_refuted"
   ],
   "note": "False. Proved: for every size above a non-negative crossover the exact result (product over the indices surviving the repeated halving, a smaller matrix for odd sizes); length mismatch panics; operands too small for the blocks panic; with a negative crossover the recursion never ends; witness for 3x3 with crossover 2."
  },
  {
   "property": "C41",
   "status": "proved",
   "theorems": [
    "C41_reduced"
   ],
   "note": "For every num whose operations form a field with exact division (exact rationals are an instance); dense, CSR, CSC and dense vectors. Elementary row operations and equality of the solution sets are both stated."
  },
  {
   "property": "C42",
   "status": "partial",
   "theorems": [
    "C42_always_returns_partial",
    "C42_fixed_point_partial",
    "C42_integers_refuted",
    "C42_floats_refuted"
   ],
   "note": "False: witnesses [[2,0],[0,1]] for int and [[49]] for float64. Proved for all Go types: the call returns a matrix of the same shape and storage and changes nothing else; proved for integer types: a matrix already in reduced row echelon form is a fixed point."
  },
  {
   "property": "C43",
   "status": "proved",
   "theorems": [
    "C43_levels",
    "C43_bad_arguments_panic",
    "C43_exact_types"
   ],
   "note": "Proved for every number type with exact arithmetic on non-negative values (exact integers and exact rationals are shown to be such types), any dense adjacency matrix, any source, any callback that only looks at the vector, context not cancelled. A source outside the graph or a non-square matrix panics."
  },
  {
   "property": "C44",
   "status": "partial",
   "theorems": [
    "C44_seen_graph_partial",
    "C44_packed_rows_partial",
    "C44_fixed_width_partial",
    "C44_sparse_refuted",
    "C44_fixed_width_refuted"
   ],
   "note": "False of the code: a CSR/CSC row hides entries beyond the number of its non-zeros, and fixed-width counts of walks wrap (16*16 as uint8 is 0). Proved instead: on any storage the levels are the distances in the graph the rows show; they are right if every row is packed; on fixed-width integers they are right and equal the exact counts whenever (n*A)^n fits, A bounding the weights."
  },
  {
   "property": "C45",
   "status": "proved",
   "theorems": [
    "C45_rows",
    "C45_columns",
    "C45_order_determines_result"
   ],
   "note": "Proved for all dense rune matrices and vectors in reachable states, rows and columns: fresh result, every old object unchanged, rows a permutation, sorted by code point. C45_order_determines_result: the sorted rows are unique."
  },
  {
   "property": "C46",
   "status": "proved",
   "theorems": [
    "C46_rows",
    "C46_columns"
   ],
   "note": "Proved for every environment (any cancellation instant) and without the validity hypothesis on the cells."
  },
  {
   "property": "C47",
   "status": "partial",
   "theorems": [
    "C47_rows_partial",
    "C47_columns_partial",
    "C47_sparse_refuted"
   ],
   "note": "False of the code (C47_sparse_refuted): swapping writes only the non-zero cells, so rows merge. Proved where all lines are zero at the same positions, including sortedness."
  },
  {
   "property": "C48",
   "status": "proved",
   "theorems": [
    "C48_compare",
    "C48_antisymmetric",
    "C48_transitive",
    "C48_less_greater"
   ],
   "note": "Proved for dense matrices of any two shapes; antisymmetry and transitivity for equal shapes (for different shapes with the same text Compare is +1 both ways, see C48_case)."
  },
  {
   "property": "C49",
   "status": "proved",
   "theorems": [
    "C49_mutual_exclusion",
    "C49_sequential",
    "C49_results_so_far",
    "C49_whole_programs",
    "C49_lock_released",
    "C49_no_deadlock",
    "C49_finite",
    "C49_no_lost_update"
   ],
   "note": "For any number of goroutines, programs and interleavings of all methods except Clear, Values and iteration (C50). Here the body of a call is two steps (read the object, then change it); C69 proves the same with every memory access a step of its own. The RWMutex is modelled by its documented behaviour; arguments of reading calls are not changed by others (see C60 for arguments whose methods call a MutexMatrix)."
  },
  {
   "property": "C50",
   "status": "partial",
   "theorems": [
    "C50_clear_refuted",
    "C50_map_outcome_refuted",
    "C50_iteration_never_excluded_refuted",
    "C50_clear_excludes_writers_partial"
   ],
   "note": "False: Clear takes RLock, Values/Enumerate/Map take no lock. C49_mutual_exclusion gives the exact table of what may overlap; C50_map_outcome_refuted a lost update; Clear does exclude Set and Update."
  },
  {
   "property": "C51",
   "status": "partial",
   "theorems": [
    "C51_exact_partial",
    "C51_when_right_partial",
    "C51_resize_refuted"
   ],
   "note": "False of the code when the vector shrinks: ReSize(n) with n < L leaves L-n entries instead of n (C51_resize_refuted). Proved: exactly what it does for every n >= 0, and that it is right iff n >= L or L = 2n."
  },
  {
   "property": "C52",
   "status": "partial",
   "theorems": [
    "C52_is_sparse_partial",
    "C52_register_partial",
    "C52_twice_panics",
    "C52_distinct_names_partial",
    "C52_go_types_partial",
    "C52_every_element_type_refuted",
    "C52_distinct_types_refuted",
    "C52_register_distinct_refuted",
    "C52_operators_see_it"
   ],
   "note": "False of the code: only the float64 instances are registered, so a CSR matrix of int is not sparse (C52_every_element_type_refuted), and types are told apart by name without package (C52_distinct_types_refuted, C52_register_distinct_refuted). Proved: the exact answer for every registration history; the same type twice always panics and changes nothing; with distinct names exactly the registered types are sparse; for the library's own types exactly the float64 sparse ones."
  },
  {
   "property": "C53",
   "status": "proved",
   "theorems": [
    "C53_new_context",
    "C53_other_contexts",
    "C53_cancellation",
    "C53_cancelled_parent",
    "C53_derived_contexts_lose_the_mode"
   ],
   "note": "Proved for every nesting of contexts; also that cancellation passes through NewContext, and that a context derived from NewContext's result no longer has the mode. The standard library's contexts are modelled by what Done reports."
  },
  {
   "property": "C54",
   "status": "partial",
   "theorems": [
    "C54_integer_operators",
    "C54_boolean_operators",
    "C54_splitting_partial",
    "C54_boolean_splitting",
    "C54_order",
    "C54_reductions",
    "C54_boolean_reductions",
    "C54_comparisons",
    "C54_float_comparisons",
    "C54_splitting_refuted"
   ],
   "note": "All the laws are proved for every Go integer type and bool. The last claim (Reduce does not depend on the splitting) is proved for all operators except SecondArgument with an empty chunk, where it is false (C54_splitting_refuted)."
  },
  {
   "property": "C55",
   "status": "partial",
   "theorems": [
    "C55_reachable_objects_well_formed_partial",
    "C55_unguarded_refuted"
   ],
   "note": "Proved for histories that map a sparse matrix in place to zero only at elements that are last in their line or in the last line with stored elements; false without that restriction."
  },
  {
   "property": "C56",
   "status": "proved",
   "theorems": [
    "C56_covered_cells_kept",
    "C56_mask_shape"
   ],
   "note": "Any operands, aliasing, context and outcome (including panics)."
  },
  {
   "property": "C57",
   "status": "partial",
   "theorems": [
    "C57_exact_partial",
    "C57_mismatch_partial",
    "C57_row_product_refuted"
   ],
   "note": "False: computes M v. Exact theorem and refutation."
  },
  {
   "property": "C58",
   "status": "partial",
   "theorems": [
    "C58_vector_multiply_panics_partial",
    "C58_vector_multiply_refuted"
   ],
   "note": "False: the method panics for every product that is not 1x1 (proved in general)."
  },
  {
   "property": "C59",
   "status": "partial",
   "theorems": [
    "C59_after_return_partial",
    "C59_mask_mismatch_leaks_refuted"
   ],
   "note": "False: on a mask mismatch the reducer goroutine is leaked in every execution (C59_mask_mismatch_leaks_refuted). When the mask fits, C59_after_return_partial shows that once the call has returned, cancelled or not, the remaining steps are bounded and end with both goroutines finished."
  },
  {
   "property": "C60",
   "status": "partial",
   "theorems": [
    "C60_update_uses_itself_refuted",
    "C60_two_matrices_refuted",
    "C60_read_in_read_refuted",
    "C60_ordered_partial",
    "C60_ordered_ends_partial",
    "C60_steps_bounded",
    "C60_no_calls_inside_partial"
   ],
   "note": "False: an Update whose function calls a locking method of the same matrix never ends (proved for every program and interleaving), and two Updates whose functions read the other matrix can deadlock. Proved: no deadlock, and every execution can be completed, if nested calls follow a fixed order of the locks, in particular without nested calls. A MutexMatrix does not satisfy Matrix (its Copy has another result type), so it cannot itself be passed to Multiply etc."
  },
  {
   "property": "C61",
   "status": "partial",
   "theorems": [
    "C61_contents",
    "C61_every_schedule",
    "C61_integer_sum",
    "C61_formats_agree_partial",
    "C61_float_refuted"
   ],
   "note": "Proved for all Go integer types and for any commutative monoid with unit zero over a type with exact equality, for every schedule. False for floats, where the order of the additions differs between formats (C61_float_refuted). Sparse vectors are excluded (their At and their enumeration disagree, see C07)."
  },
  {
   "property": "C62",
   "status": "proved",
   "theorems": [
    "C62_changes_nothing_else",
    "C62_changed_by_nothing_else"
   ],
   "note": "Proved for all programs over the slice model (Slices.v), which covers these calls; the operators are built from them."
  },
  {
   "property": "C63",
   "status": "partial",
   "theorems": [
    "C63_independence_refuted",
    "C63_changes_stay_in_group_partial",
    "C63_changed_as_a_list_partial",
    "C63_vector_and_slice_stay_one",
    "C63_matrix_and_slices_stay_one",
    "C63_matrix_and_raw_stay_one",
    "C63_vector_writes_through",
    "C63_slice_writes_through",
    "C63_raw_writes_through",
    "C63_growing_writes_through"
   ],
   "note": "False of the code: NewDenseMatrixFromArray and NewDenseVectorFromArray keep the caller's slices and RawMatrix returns the matrix's own (C63_independence_refuted); growing such a vector can even overwrite elements of the caller's slice beyond the part given (C63_growing_writes_through). Proved: changes stay within the sharing group computed from the program text, the changed object changes as the list model says, and sharing lasts exactly until Clear (ReSize may end it)."
  },
  {
   "property": "C64",
   "status": "proved",
   "theorems": [
    "C64_spare_room_unseen",
    "C64_as_lists",
    "C64_not_for_negative_sizes",
    "C64_negative_size"
   ],
   "note": "Programs that share nothing show exactly what the list model computes (C64_as_lists). Without the restriction on sizes the claim is false: ReSize with a negative size reslices into the spare capacity or panics (C64_not_for_negative_sizes)."
  },
  {
   "property": "C65",
   "status": "proved",
   "theorems": [
    "C65_cancelled_search",
    "C65_cancelled_search_seen"
   ],
   "note": "Proved for every number type with exact arithmetic on non-negative values, any dense adjacency matrix, and for sparse storage with respect to the graph its rows show, any source, any callback that only looks at the vector, and a cancellation before any question to the context. The number of questions asked until an entry is written is given exactly."
  },
  {
   "property": "C66",
   "status": "proved",
   "theorems": [
    "C66_expressions",
    "C66_same_meaning",
    "C66_integer_types",
    "C66_multiply_associative",
    "C66_multiply_over_add_left",
    "C66_multiply_over_add_right",
    "C66_multiply_over_subtract",
    "C66_transpose_of_product",
    "C66_scalar_of_product_left",
    "C66_scalar_of_product_right",
    "C66_negative_of_product",
    "C66_transpose_twice",
    "C66_transpose_of_sum",
    "C66_add_commutative",
    "C66_add_associative",
    "C66_subtract_adds_negative",
    "C66_subtract_then_add",
    "C66_negative_twice",
    "C66_scalar_of_sum",
    "C66_scalar_twice",
    "C66_scalar_of_scalar_sum",
    "C66_scalar_one",
    "C66_not_for_floats"
   ],
   "note": "Proved in full, for dense matrices. C66_expressions and C66_same_meaning hold for every element type with zero; the laws need a ring, which every integer type is (C66_integer_types); C66_not_for_floats shows the law of association failing for float64, as the statement says."
  },
  {
   "property": "C67",
   "status": "partial",
   "theorems": [
    "C67_multiply_into_left",
    "C67_multiply_into_right_exact_partial",
    "C67_add",
    "C67_subtract_exact_partial",
    "C67_transpose_exact_partial",
    "C67_multiply_into_right_refuted",
    "C67_subtract_into_left_refuted",
    "C67_transpose_refuted"
   ],
   "note": "Right for Multiply into its left operand and for Add with any coincidence of the three arguments. The rest is false of the code, and proved false: Multiply into its right operand uses the rows already written; Subtract never reads its right operand and computes left minus old output, so it is right only if the output holds the right operand; Transpose into itself mirrors the upper triangle. The _exact_partial theorems say for every size and mask what is left in the output."
  },
  {
   "property": "C68",
   "status": "partial",
   "theorems": [
    "C68_readers_only_refuted",
    "C68_readers_race_refuted",
    "C68_values_race_refuted",
    "C68_clears_race_refuted",
    "C68_clear_breaks_readers_refuted",
    "C68_no_other_race_partial",
    "C68_race_free_partial",
    "C68_dense_partial"
   ],
   "note": "False: At (and Element of CSR/CSC) write the value they find back under the read lock, so two readers of one stored cell of a sparse matrix race; Clear writes under the read lock, so two Clears race on every type, and an At overlapping a Clear can panic; Values reads a slice length without a lock. All are proved for every reachable matrix, not only on a witness. Everything else is proved race-free: every race involves one of these calls (C68_no_other_race_partial); on dense types only Clear."
  },
  {
   "property": "C69",
   "status": "proved",
   "theorems": [
    "C69_method_alone",
    "C69_sequential",
    "C69_results_so_far",
    "C69_whole_programs",
    "C69_lock_released",
    "C69_no_deadlock",
    "C69_finite"
   ],
   "note": "By simulation into the machine of C49. Calls whose body only reads (Scalar, Multiply, Equal, ...) are arbitrary programs of accesses that put back what they find. Memory is sequentially consistent; by C68 some of these executions (two readers of one sparse cell) have a race on an element that is rewritten with the value it holds."
  },
  {
   "property": "C70",
   "status": "proved",
   "theorems": [
    "C70_steps_are_the_call",
    "C70_as_alone",
    "C70_new_objects",
    "C70_values",
    "C70_finite",
    "C70_goes_on",
    "C70_separation_needed"
   ],
   "note": "The functions are repeated as trees of steps (Fine.v: tests of the context, reads, writes and allocations of objects), proved equal to the sequential model; any interleaving is simulated by each goroutine running alone, up to the names of new objects. A context says from which of a goroutine's own tests on it is done. A reduction appears as one goroutine (its own goroutines: C32, C61); a call that never ends (C16, C36) appears as one that stops with Diverge. C70_separation_needed: two Updates of one cell without a lock can lose one."
  },
  {
   "property": "C71",
   "status": "partial",
   "theorems": [
    "C71_sparse_operand_refuted",
    "C71_dense_operands_partial"
   ],
   "note": "False: At (and Element of CSR/CSC) write the value they find back, so two Apply calls with different outputs race on a CSR matrix they share as mask. By C70 the outcomes are right in the model, whose memory is sequentially consistent. Proved when every shared object is dense."
  },
  {
   "property": "C72",
   "status": "proved",
   "theorems": [
    "C72_as_alone",
    "C72_goes_on",
    "C72_fails",
    "C72_finite",
    "C72_no_race",
    "C72_product"
   ],
   "note": "The steps of FineStrassen.v: tests of the context, reads, writes and allocations of objects, go statements, receives. C72_as_alone/goes_on/fails compare with MathOps.MultiplyCrossoverPoint in the arrival order 1..7 (C39, C40 say what that returns, for every order); C72_product puts C39 and these together. Diverge: the recursion of a negative crossover, cut off by the fuel (C40). The sends are not steps of their own: a goroutine whose call has ended waits until it is received from."
  },
  {
   "property": "C73",
   "status": "proved",
   "theorems": [
    "C73_any_moment",
    "C73_finite",
    "C73_cells",
    "C73_product"
   ],
   "note": "The context is one flag that all goroutines of the call see and that changes once, at any moment (FineCancel.v); the block sums use context.Background() and ignore it. Hypotheses: the products of the sizes fit an int64, and above the crossover both operands have the cells that dividing reads (others panic, C40). C73_cells compares with MultiplyCrossoverPoint in the arrival order 1..7 (C39, C40); C73_product is for exact arithmetic and sizes that halve evenly. The code reports nothing: a caller has to ask the context whether the result is complete (C73_case has one with two rows missing)."
  },
  {
   "property": "C74",
   "status": "partial",
   "theorems": [
    "C74_values_may_change_while_iterating",
    "C74_open_iterator_exact",
    "C74_open_iterator_settled",
    "C74_every_element_shown_refuted",
    "C74_next_does_not_panic_refuted",
    "C74_next_returns_refuted",
    "C74_shows_what_is_there_refuted",
    "C74_shown_once_refuted"
   ],
   "note": "The positive half (values may change while positions stay, and the exact description) is proved; the last sentence is false when elements are set to or from zero, or the object is resized, under an open iterator, and refuted with witnesses: a Set ahead makes HasNext end one element early; a removal ahead makes Next panic; a Set earlier in the line makes a CSR iterator search for ever; an iterator within a line can show an element of another line as one of its own; a shortened dense vector starts again. Not described: Map with a zero result on an iterator within a line whose counts no longer fit (it removes an element of another line and breaks the row starts), and an iterator after it has panicked."
  },
  {
   "property": "C75",
   "status": "partial",
   "theorems": [
    "C75_update_pure",
    "C75_update_out_of_range",
    "C75_update_function_panics",
    "C75_update_then_set",
    "C75_update_shifted",
    "C75_map_exact",
    "C75_map_write_exact",
    "C75_map_writes_what_it_showed",
    "C75_loop_until_panic",
    "C75_update_is_set_refuted",
    "C75_update_reads_back_refuted",
    "C75_map_writes_shown_refuted",
    "C75_map_elsewhere_refuted",
    "C75_map_does_not_panic_refuted"
   ],
   "note": "Proved: everything but the last sentence of the statement, which is false of the code and refuted with witnesses: a function that sets an element before the one being updated makes Update and Map write that element instead; a value for a position not stored before can be lost; Map with a zero result can make an element appear elsewhere; Map can panic. Not described: the state of a CSR or CSC matrix after Update inserts a new nonzero element at a shifted place, or after a zero result removes an element of another line; functions that move other iterators inside Update."
  },
  {
   "property": "C76",
   "status": "partial",
   "theorems": [
    "C76_search",
    "C76_copies_keep_levels",
    "C76_search_around",
    "C76_kept_vectors_are_one",
    "C76_kept_vectors_stay_refuted"
   ],
   "note": "Proved: everything but the last sentence, which is false of the code and refuted: every round shows the same vector, cleared after each round, so all vectors kept are one object, the result. The theorem on any callback states what the callback may touch as a hypothesis (confined), met by the copying, keeping, pruning and edge-cutting callbacks given; the context is never done."
  },
  {
   "property": "C77",
   "status": "partial",
   "theorems": [
    "C77_transparent",
    "C77_methods_pass_on",
    "C77_told_apart",
    "C77_by_value_panics",
    "C77_equal",
    "C77_equal_sparse",
    "C77_equal_refuted",
    "C77_add",
    "C77_add_wrapped",
    "C77_add_refuted",
    "C77_element_wise_add",
    "C77_element_wise_multiply_does_nothing",
    "C77_apply_mirrors",
    "C77_element_wise_multiply_refuted",
    "C77_apply_refuted"
   ],
   "note": "False of the code as stated: Equal, Add, Apply and element-wise multiplication have counterexamples (refuted), and a wrapper by value panics (C77_by_value_panics). Proved exactly: the conditions under which nothing changes; Equal and Add for any mix of bare and wrapped operands of plain storage; outputs that hide an operand for dense storage. Wrappers whose methods do anything else than pass the call on are not covered. A MutexMatrix is no Matrix (C60); embedded in a struct that adds the two missing methods it is such a wrapper, as long as one goroutine uses it."
  },
  {
   "property": "C78",
   "status": "proved",
   "theorems": [
    "C78_another_matrix",
    "C78_in_place",
    "C78_in_place_zeros_at_line_ends",
    "C78_called_once_in_order",
    "C78_called_once_in_order_in_place",
    "C78_pure_functions",
    "C78_calls_depend_on_format"
   ],
   "note": "The function does not call the library. Another matrix as output: any input, also a sparse vector. Outside the quantifier: a sparse vector as output; in-place use on sparse storage when a result is zero and stored elements follow in its line. C78_calls_depend_on_format is the last sentence of the statement."
  },
  {
   "property": "C79",
   "status": "proved",
   "theorems": [
    "C79_same_answers",
    "C79_transpose",
    "C79_apply",
    "C79_subtract",
    "C79_add",
    "C79_element_wise_multiply",
    "C79_multiply",
    "C79_element_wise_add",
    "C79_element_wise_multiply_in_place",
    "C79_negative",
    "C79_apply_in_place",
    "C79_not_every_mask_is_a_predicate"
   ],
   "note": "The mask does not call the library and its Rows and Columns are constants. C79_same_answers covers all ten operators. The order of the questions is proved only within the limits that the quantifier gives; C82 has it, for operands that are not the output, at all moments of cancellation. C79_not_every_mask_is_a_predicate is the last sentence of the statement."
  },
  {
   "property": "C80",
   "status": "proved",
   "theorems": [
    "C80_add",
    "C80_subtract",
    "C80_element_wise_multiply",
    "C80_element_wise_multiply_in_place",
    "C80_element_wise_add",
    "C80_transpose",
    "C80_apply",
    "C80_multiply",
    "C80_equal",
    "C80_operands_of_the_library",
    "C80_honest_cells",
    "C80_add_honest",
    "C80_subtract_honest",
    "C80_equal_honest",
    "C80_order_of_comparison_matters"
   ],
   "note": "The methods of a caller's operand are pure and do not look at the library's objects; HasNext and Next do not panic. C80_operands_of_the_library ties the operators of Foreign.v to those of Ops.v. C80_honest_cells, C80_add_honest, C80_subtract_honest and C80_equal_honest are the case of operands that show each element once and truthfully; C80_order_of_comparison_matters is the sentence about Equal."
  },
  {
   "property": "C81",
   "status": "proved",
   "theorems": [
    "C81_add",
    "C81_subtract",
    "C81_element_wise_multiply",
    "C81_element_wise_add",
    "C81_apply",
    "C81_transpose",
    "C81_multiply",
    "C81_wrong_mask",
    "C81_wrong_sizes",
    "C81_outputs_of_the_library",
    "C81_writes_to_the_library",
    "C81_product_in_the_library"
   ],
   "note": "Rows and Columns of the caller's output are constants, its methods do not call the library, and it is not an operand; Negative and Apply in place, which use the output's own iterator, are not covered. C81_outputs_of_the_library needs no law and no well-formedness; C81_writes_to_the_library and C81_product_in_the_library put it together with the lists of calls."
  },
  {
   "property": "C82",
   "status": "proved",
   "theorems": [
    "C82_add",
    "C82_subtract",
    "C82_element_wise_multiply",
    "C82_element_wise_add",
    "C82_apply",
    "C82_transpose",
    "C82_multiply",
    "C82_wrong_mask",
    "C82_wrong_sizes",
    "C82_outputs_of_the_library",
    "C82_product_in_the_library"
   ],
   "note": "Rows and Columns of mask and output are constants, their methods do not call the library, and the output is not an operand; Negative and Apply in place are not covered (C79). C82_outputs_of_the_library and C82_product_in_the_library are about the operators of MaskMem.v, so they give for C79 the order of the questions at all moments of cancellation and with all types of output."
  },
  {
   "property": "C83",
   "status": "proved",
   "theorems": [
    "C83_add",
    "C83_element_wise_multiply",
    "C83_subtract",
    "C83_element_wise_add",
    "C83_apply",
    "C83_transpose",
    "C83_multiply",
    "C83_every_operand_answers",
    "C83_outputs_of_the_library",
    "C83_apply_to_the_library",
    "C83_product_in_the_library"
   ],
   "note": "C83_every_operand_answers shows that every operand, the library's included, meets at_gives, rows_give and columns_give for some answers. The methods of operands keep no memory and Enumerate itself and the iterator's Next do not fail. Sizes that do not match are in C81 and C82. C83_outputs_of_the_library is about masks of C81, asked with mask_says; a mask that panics counts as well."
  },
  {
   "property": "C84",
   "status": "proved",
   "theorems": [
    "C84_equal",
    "C84_equal_method",
    "C84_panics_where_shown",
    "C84_string",
    "C84_less_greater",
    "C84_compare",
    "C84_compare_own",
    "C84_library_equal",
    "C84_operands_of_the_library"
   ],
   "note": "Neither operand is nil. C84_library_equal gives the answer of the Equal method of the library's types that C84_compare asks for; the Equal method of a caller's type may answer anything, as in C84_compare_own."
  },
  {
   "property": "C85",
   "status": "proved",
   "theorems": [
    "C85_negative",
    "C85_apply_in_place",
    "C85_sizes",
    "C85_tables"
   ],
   "note": "The number of rounds (of times HasNext says true) is fixed before the loop, and HasNext does not fail. The function given to the rounds is described by what it answers for all places, values and memories."
  }
 ]
}