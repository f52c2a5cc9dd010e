{
 "claims": [
  {
   "property": "C01",
   "status": "proved",
   "theorems": [
    "C01_key_expansion",
    "C01_key_expansion_error",
    "C01_key_expansion_complete"
   ],
   "note": "At most one Ellipsis, as NumPy requires."
  },
  {
   "property": "C02",
   "status": "proved",
   "theorems": [
    "C02_predicted_shape",
    "C02_list_key_refuted"
   ],
   "note": "Every valid key tuple without Python-list keys, which the code refuses (C02_list_key_refuted; the property does not name lists)."
  },
  {
   "property": "C03",
   "status": "partial",
   "theorems": [
    "C03_again",
    "C03_once",
    "C03_sequence_refuted",
    "C03_ortho_sequence",
    "C03_sequence_partial"
   ],
   "note": "False for some sequences on a NumpyArrayAdapter (C03_sequence_refuted). Complete for OrthoArrayAdapter and masked_array() (C03_ortho_sequence). For NumpyArrayAdapter the exact outcome: after two or more indexings C03_again (only empty selections of rank 2 or more fail), after one C03_once (as C04). Only ndarray() of a single masked element is left out."
  },
  {
   "property": "C04",
   "status": "partial",
   "theorems": [
    "C04_outcome",
    "C04_orthogonal_partial",
    "C04_numpy_reads_partial",
    "C04_transposed_refuted",
    "C04_empty_sequence_refuted"
   ],
   "note": "C04_outcome: what is returned in every case without boolean masks (TypeError; the selection with one dimension moved to the front; the selection). So false for some stored keys (C04_*_refuted); right for the others (C04_orthogonal_partial; with masks C04_numpy_reads_partial)."
  },
  {
   "property": "C05",
   "status": "proved",
   "theorems": [
    "C05_ortho_reads",
    "C05_ortho_shape"
   ],
   "note": ""
  },
  {
   "property": "C06",
   "status": "proved",
   "theorems": [
    "C06_transpose",
    "C06_default",
    "C06_refused",
    "C06_transpose_index_partial",
    "C06_index"
   ],
   "note": "C06_index: any source, all NumPy keys, relative to the source's own indexing at the permuted keys; C06_transpose_index_partial instantiates it absolutely for 'supported' keys."
  },
  {
   "property": "C07",
   "status": "partial",
   "theorems": [
    "C07_newaxis",
    "C07_index_sequence_partial",
    "C07_outcome",
    "C07_after_integer_refuted"
   ],
   "note": "False for a length-changing key on a new axis after an integer (C07_after_integer_refuted). C07_outcome settles what every valid key tuple gives: NotImplementedError, ValueError, or the dimension of the key's number stretched (the wrong one, silently, after integers)."
  },
  {
   "property": "C08",
   "status": "partial",
   "theorems": [
    "C08_accepts",
    "C08_again",
    "C08_broadcast_partial",
    "C08_broadcast_index_partial",
    "C08_index_refuted",
    "C08_construct_refuted",
    "C08_index_outcome"
   ],
   "note": "Construction is settled exactly, for new and already stretched arrays (C08_accepts, C08_again). False for sequences on a stretched dimension, index arrays, zero-length leading dimensions (C08_*_refuted). C08_index_outcome settles what every valid key tuple without lists on the leading dimensions gives: NotImplementedError, ValueError, the child's own error, or NumPy's result."
  },
  {
   "property": "C09",
   "status": "partial",
   "theorems": [
    "C09_operands_partial",
    "C09_exact",
    "C09_refused",
    "C09_binary_operation_partial",
    "C09_leading_refuted"
   ],
   "note": "Exact (C09_exact): right iff no operand with broadcast leading dimensions is stretched and no added leading dimension is empty; false otherwise (C09_leading_refuted, C08_construct_refuted)."
  },
  {
   "property": "C10",
   "status": "partial",
   "theorems": [
    "C10_stack",
    "C10_stack_index_partial",
    "C10_index_refuted",
    "C10_outcome"
   ],
   "note": "Stacking complete; indexing false for two sequences on the stack dimensions and for empty selections (C10_index_refuted). C10_outcome says what every valid key tuple without lists gives: two sequences, an empty selection or a mismatched shape raise IndexError, anything else the stack of the items picked."
  },
  {
   "property": "C11",
   "status": "proved",
   "theorems": [
    "C11_mosaic"
   ],
   "note": "Complete, zero-length tiles included."
  },
  {
   "property": "C12",
   "status": "partial",
   "theorems": [
    "C12_mosaic_index_partial",
    "C12_integer",
    "C12_negative_step",
    "C12_one_tile",
    "C12_empty",
    "C12_mask",
    "C12_negative_integer",
    "C12_negative_integer_refuted",
    "C12_negative_sequence_refuted",
    "C12_negative_step_refuted",
    "C12_empty_refuted",
    "C12_mask_refuted",
    "C12_sequence",
    "C12_sequence_reads",
    "C12_every_sequence",
    "C12_sequence_kinds",
    "C12_negative_sequence",
    "C12_lost_refuted"
   ],
   "note": "False for negative positions, negative steps, masks and empty selections on the mosaic axis (C12_*_refuted). What the code does is settled for every key there: integers (C12_integer, C12_negative_integer), sequences of any positions (C12_sequence exact; values in C12_sequence_reads, C12_negative_sequence; a lone -1 may be lost: C12_lost_refuted), slices (C12_sequence_kinds, C12_negative_step, C12_one_tile), empty selections (C12_empty), masks (C12_mask)."
  },
  {
   "property": "C13",
   "status": "proved",
   "theorems": [
    "C13_constant"
   ],
   "note": ""
  },
  {
   "property": "C14",
   "status": "partial",
   "theorems": [
    "C14_index_realise_partial",
    "C14_index_meaning",
    "C14_index_realise_reals_partial",
    "C14_mask_again_refuted",
    "C14_masked_element_refuted",
    "C14_nested_refuted",
    "C14_steady_sequence_partial"
   ],
   "note": "The combination of C03-C13 over all expressions; false where they are (C14_*_refuted, C04, C07, C08, C10, C12)."
  },
  {
   "property": "C15",
   "status": "partial",
   "theorems": [
    "C15_rejects_partial",
    "C15_accepts_partial",
    "C15_adapter",
    "C15_mask_long",
    "C15_mask_short",
    "C15_constant_refuted",
    "C15_broadcast_refuted",
    "C15_mosaic_tuple_refuted",
    "C15_mosaic_negative_refuted"
   ],
   "note": "Complete (accepts iff in range) for both adapters. Rejection proved on every class for the dimensions that check; ConstantArray and the leading dimensions of a BroadcastArray do not check, a mosaic accepts a one-element tuple out of range and rejects negatives in range (C15_*_refuted). A boolean mask longer than the dimension is rejected, a shorter one accepted and only realisation raises (C15_mask_long, C15_mask_short)."
  },
  {
   "property": "C16",
   "status": "partial",
   "theorems": [
    "C16_shape_partial",
    "C16_shape_reals_partial",
    "C16_shape_refuted"
   ],
   "note": "False for the transposed reads of C04 (C16_shape_refuted)."
  },
  {
   "property": "C17",
   "status": "proved",
   "theorems": [
    "C17_indexing_ignores_data",
    "C17_shape_dtype",
    "C17_constructors"
   ],
   "note": ""
  },
  {
   "property": "C18",
   "status": "proved",
   "theorems": [
    "C18_chunks_partition",
    "C18_all_positions",
    "C18_positions_distinct",
    "C18_save_partition"
   ],
   "note": ""
  },
  {
   "property": "C19",
   "status": "proved",
   "theorems": [
    "C19_chunk_size",
    "C19_save_size"
   ],
   "note": ""
  },
  {
   "property": "C20",
   "status": "proved",
   "theorems": [
    "C20_save_realisable",
    "C20_save",
    "C20_steady"
   ],
   "note": "C20_save: any array whose pieces read right. C20_steady: steady arrays satisfy that by construction."
  },
  {
   "property": "C21",
   "status": "proved",
   "theorems": [
    "C21_sum_usable",
    "C21_count_usable",
    "C21_mean_usable",
    "C21_sum",
    "C21_count",
    "C21_mean",
    "C21_values",
    "C21_tree_sum",
    "C21_tree_count",
    "C21_tree_mean"
   ],
   "note": "C21_values: any streamable expression; C21_sum/count/mean: with the expression's elements spelled out. Exact arithmetic (laws); wrap-around is C45, misaligned inner operands are C27. Where the dtype or a missing mask makes the code raise instead: C56."
  },
  {
   "property": "C22",
   "status": "partial",
   "theorems": [
    "C22_min_partial",
    "C22_max_partial",
    "C22_min_refuted",
    "C22_max_refuted",
    "C22_doubles_partial",
    "C22_doubles_refuted",
    "C22_min_last",
    "C22_max_last",
    "C22_whole_partial",
    "C22_split_refuted",
    "C22_tree_min_partial",
    "C22_tree_max_partial"
   ],
   "note": "False when the axis arrives in several pieces: C22_min_last/max_last say exactly what is computed (the last piece only), C22_split_refuted gives wrong data for every split shape. These assume of the values only that min and max associate; C22_doubles_partial gives the values for IEEE doubles with NaN, C22_doubles_refuted shows a NaN that is lost."
  },
  {
   "property": "C23",
   "status": "partial",
   "theorems": [
    "C23_var_partial",
    "C23_std_partial",
    "C23_var_refuted",
    "C23_var_fits_partial",
    "C23_std_fits_partial",
    "C23_items_refuted",
    "C23_tree_var_partial",
    "C23_tree_std_partial"
   ],
   "note": "False when the axis arrives item by item (C23_items_refuted: 0 is reported whatever the data); proved otherwise (C23_*_fits_partial)."
  },
  {
   "property": "C24",
   "status": "proved",
   "theorems": [
    "C24_masked_var_usable",
    "C24_masked_std_usable",
    "C24_masked_var",
    "C24_masked_std",
    "C24_values",
    "C24_tree_var",
    "C24_tree_std"
   ],
   "note": "C24_values: any streamable expression, exact real arithmetic. Assumes the masked-data handlers accept the source: see C56."
  },
  {
   "property": "C25",
   "status": "proved",
   "theorems": [
    "C25_masked_mean_usable",
    "C25_masked_mean",
    "C25_values",
    "C25_tree"
   ],
   "note": "C25_values: any streamable expression, exact arithmetic."
  },
  {
   "property": "C26",
   "status": "proved",
   "theorems": [
    "C26_masked_sum_usable",
    "C26_masked_count_usable",
    "C26_masked_sum",
    "C26_masked_count",
    "C26_values",
    "C26_tree_sum",
    "C26_tree_count"
   ],
   "note": "C26_values: any streamable expression, exact arithmetic. Assumes the masked-data handlers accept the source: see C56."
  },
  {
   "property": "C27",
   "status": "partial",
   "theorems": [
    "C27_unary_partial",
    "C27_binary_partial",
    "C27_misaligned_refuted",
    "C27_unary",
    "C27_binary",
    "C27_root1",
    "C27_root2",
    "C27_refused1",
    "C27_refused2",
    "C27_tree_partial",
    "C27_refused"
   ],
   "note": "At the root of an expression without conditions (C27_root1, C27_root2); inner operations are false when the operands' streams are cut differently (C27_misaligned_refuted). Operations without a masked equivalent raise TypeError exactly when masked arrays are asked for (C27_refused)."
  },
  {
   "property": "C28",
   "status": "proved",
   "theorems": [
    "C28_steady_partial",
    "C28_steady_shared_partial",
    "C28_schedule_independent",
    "C28_same_end",
    "C28_sequential_partial",
    "C28_one_thread",
    "C28_expressions_partial",
    "C28_values_partial",
    "C28_shared_values_partial"
   ],
   "note": "C28_one_thread: for every graph (sharing, several iteration orders, unequal numbers of chunks, failures at any chunk) and every schedule the outcome is that of one thread evaluating the graph node by node, each object once (OneThread.v); schedule independence and equal end states separately. The _partial theorems are about more: that this outcome is the one of each array evaluated alone (graphs whose shared nodes are read in one order), and the NumPy value for streamable expressions, also with shared objects read in one order (C28_shared_values_partial, C28_steady_shared_partial: no schedule deadlocks, every thread finishes)."
  },
  {
   "property": "C29",
   "status": "partial",
   "theorems": [
    "C29_every_schedule_stops",
    "C29_no_sharing_partial",
    "C29_few_chunks_partial",
    "C29_aligned_partial",
    "C29_paced_partial",
    "C29_all_or_none",
    "C29_deadlock_refuted"
   ],
   "note": "Every schedule stops (no livelock), unconditionally, and whether it returns does not depend on the schedule (C29_all_or_none). A stopped schedule has returned: for graphs without sharing, whatever fails; for shared objects in at most three chunks, whatever fails (C29_few_chunks_partial; tight: C30_hang_refuted has four); for any number of chunks when nothing fails and the operands of the binary operations are divided at the same places (C29_aligned_partial) or come at the same pace (C29_paced_partial). The unrestricted claim is false of the code: C29_deadlock_refuted exhibits a shared graph where bounded queues of 3 deadlock."
  },
  {
   "property": "C30",
   "status": "partial",
   "theorems": [
    "C30_result_is_whole_partial",
    "C30_raises_partial",
    "C30_no_sharing_partial",
    "C30_only_one_thread",
    "C30_start",
    "C30_hang_refuted",
    "C30_swallowed_refuted"
   ],
   "note": "A failing balanced graph raises under every schedule when nothing is shared or what is shared comes in at most three chunks, and a delivered result is whole; refuted in general: C30_hang_refuted (four chunks: the abort leaves a shared producer blocked, the call never returns) and C30_swallowed_refuted (an operand that has more chunks than the other fails after the shorter one ended: the error is lost and an array is returned). C30_only_one_thread: what is returned is always what the single thread gets without a failure reaching a requested array."
  },
  {
   "property": "C31",
   "status": "partial",
   "theorems": [
    "C31_together_partial",
    "C31_streamable_partial",
    "C31_order_refuted"
   ],
   "note": "Proved when shared nodes are asked for in one iteration order; for streamable arrays no schedule deadlocks, together or alone (C31_streamable_partial). Refuted in general by C31_order_refuted (node cache ignores the iteration order)."
  },
  {
   "property": "C32",
   "status": "proved",
   "theorems": [
    "C32_positions",
    "C32_request_order_partial"
   ],
   "note": "C32_positions, for every graph and schedule. That the j-th result moreover equals that array evaluated alone is C31's claim; C32_request_order_partial: for consistent, balanced graphs."
  },
  {
   "property": "C33",
   "status": "proved",
   "theorems": [
    "C33_agg_index"
   ],
   "note": ""
  },
  {
   "property": "C34",
   "status": "proved",
   "theorems": [
    "C34_unary_index",
    "C34_binary_index"
   ],
   "note": ""
  },
  {
   "property": "C35",
   "status": "proved",
   "theorems": [
    "C35_accepted",
    "C35_normalised",
    "C35_refused"
   ],
   "note": ""
  },
  {
   "property": "C36",
   "status": "proved",
   "theorems": [
    "C36_multidim_stack",
    "C36_size_mismatch",
    "C36_bad_order"
   ],
   "note": ""
  },
  {
   "property": "C37",
   "status": "partial",
   "theorems": [
    "C37_normalize_slice_partial",
    "C37_forward",
    "C37_backward",
    "C37_step_zero",
    "C37_low_stop_refuted",
    "C37_negative_step_refuted"
   ],
   "note": "False for stops below -n and negative steps (C37_*_refuted); exactly when, for positive steps (C37_forward), negative steps (C37_backward) and step 0 (C37_step_zero)."
  },
  {
   "property": "C38",
   "status": "proved",
   "theorems": [
    "C38_grouping"
   ],
   "note": ""
  },
  {
   "property": "C39",
   "status": "proved",
   "theorems": [
    "C39_limit",
    "C39_short",
    "C39_few",
    "C39_units",
    "C39_units_valid"
   ],
   "note": "Exact: the result for every input is given by the number of passes compared with the limit 9999 (C39_limit)."
  },
  {
   "property": "C40",
   "status": "proved",
   "theorems": [
    "C40_stack",
    "C40_mosaic"
   ],
   "note": ""
  },
  {
   "property": "C41",
   "status": "proved",
   "theorems": [
    "C41_masked_equal",
    "C41_index"
   ],
   "note": ""
  },
  {
   "property": "C42",
   "status": "proved",
   "theorems": [
    "C42_astype",
    "C42_index"
   ],
   "note": ""
  },
  {
   "property": "C43",
   "status": "partial",
   "theorems": [
    "C43_exact",
    "C43_array_number_partial",
    "C43_number_array_partial",
    "C43_array_array",
    "C43_other_operand",
    "C43_empty_refuted"
   ],
   "note": "Every case is settled by C43_exact; the claim itself is false for arrays with a zero-length dimension (C43_empty_refuted). A NumPy number on the left may be handled by NumPy instead: C74."
  },
  {
   "property": "C44",
   "status": "partial",
   "theorems": [
    "C44_any_index",
    "C44_python_scalar",
    "C44_dtype_partial",
    "C44_python_scalar_refuted"
   ],
   "note": "C44_any_index: every array a program can build without Python numbers, any keys; with a Python number exactly when NumPy's two dtypes agree (C44_python_scalar), so false in general (C44_python_scalar_refuted)."
  },
  {
   "property": "C45",
   "status": "proved",
   "theorems": [
    "C45_sum",
    "C45_mean",
    "C45_masked_mean",
    "C45_masked_mean_fits",
    "C45_masked_count_refuted",
    "C45_overflow_refuted"
   ],
   "note": "What is returned in every case (C45_sum, C45_mean, C45_masked_mean, C45_masked_mean_fits). The mathematical sum and mean are not always returned: accumulators wrap around (C45_overflow_refuted), and so do the counters of masked means (C45_masked_count_refuted)."
  },
  {
   "property": "C46",
   "status": "proved",
   "theorems": [
    "C46_wrap_zero",
    "C46_nbytes",
    "C46_size_unit",
    "C46_negative",
    "C46_text",
    "C46_text_negative"
   ],
   "note": "Exact, including the wrap-around from 2^63 bytes on. C46_text: the printed number, below 2^53 bytes (C46_text_case: 1048575 bytes are printed as 1024.00 KiB)."
  },
  {
   "property": "C47",
   "status": "partial",
   "theorems": [
    "C47_stack",
    "C47_mosaic",
    "C47_index_error_refuted"
   ],
   "note": "The outcome in every case (C47_mosaic, the other C47 theorems); false only in that a tile with too few dimensions, and no parts at all, give IndexError instead of ValueError (C47_index_error_refuted)."
  },
  {
   "property": "C48",
   "status": "proved",
   "theorems": [
    "C48_isolated",
    "C48_assigned",
    "C48_unchecked_refuted"
   ],
   "note": "What is assigned is not checked (C48_unchecked_refuted); isolation and effect complete."
  },
  {
   "property": "C49",
   "status": "partial",
   "theorems": [
    "C49_dask_partial",
    "C49_streamable_partial",
    "C49_combine_refuted",
    "C49_limit_refuted"
   ],
   "note": "C49_dask_partial: for steady expressions (any depth, sharing, chunk size; at most `limit` chunks per leaf dimension) the task graph is built, no task order fails or gets stuck, and the results equal the arrays' values and the threaded engine's. C49_streamable_partial: the same under the threaded engine's conditions. Refuted in general: operands cut at different places raise AttributeError (C49_combine_refuted), more than 9999 pieces raise RuntimeError (C49_limit_refuted)."
  },
  {
   "property": "C50",
   "status": "proved",
   "theorems": [
    "C50_many_ellipses",
    "C50_first_refuted"
   ],
   "note": "The expansion is determined completely; C50_first_refuted records that it differs from that of the NumPy releases that accept several Ellipsis."
  },
  {
   "property": "C51",
   "status": "proved",
   "theorems": [
    "C51_group_keys",
    "C51_each_once",
    "C51_succeeds"
   ],
   "note": "Proved for any limit when group_keys returns, and it returns whenever there are at most 9999 tuples in all; beyond that the code's own limit may raise RuntimeError (see C39_limit)."
  },
  {
   "property": "C52",
   "status": "partial",
   "theorems": [
    "C52_permutation",
    "C52_default",
    "C52_other",
    "C52_negative_refuted"
   ],
   "note": "Permutations, the default and the refusal of everything else are proved completely; refuted: negative axes, which NumPy accepts, give KeyError, and a non-permutation of the right length is accepted at construction and raises KeyError at .shape."
  },
  {
   "property": "C53",
   "status": "proved",
   "theorems": [
    "C53_copy",
    "C53_isolated",
    "C53_sharing"
   ],
   "note": "Complete for arrays without circular references (deepcopy of a stack that contains itself recurses without end)."
  },
  {
   "property": "C54",
   "status": "partial",
   "theorems": [
    "C54_keeps",
    "C54_computed",
    "C54_newaxis",
    "C54_mixed_refuted",
    "C54_newaxis_refuted"
   ],
   "note": "Kept for every key without newaxis when no stack or mosaic mixes fill values; false for mixed stacks and mosaics and for newaxis (C54_*_refuted)."
  },
  {
   "property": "C55",
   "status": "proved",
   "theorems": [
    "C55_failing_save",
    "C55_interrupted_save",
    "C55_again"
   ],
   "note": "Assumes that pieces which can be read at all are read right (never_wrong)."
  },
  {
   "property": "C56",
   "status": "partial",
   "theorems": [
    "C56_same",
    "C56_expressions",
    "C56_masked_source",
    "C56_exact",
    "C56_unmasked_refuted",
    "C56_masked_equal",
    "C56_bool_refuted",
    "C56_unsigned_refuted",
    "C56_count_refuted"
   ],
   "note": "False: C56_unmasked_refuted (no mask, axis >= 1), C56_bool_refuted, C56_unsigned_refuted, C56_count_refuted; whether masked_equal data can be summed depends on the chunks (C56_masked_equal, iff). True, with the values of the main model, for masked sources (C56_masked_source) and every expression meeting the criterion (C56_expressions); C56_exact: iff for sums of a source."
  },
  {
   "property": "C57",
   "status": "partial",
   "theorems": [
    "C57_ndarray",
    "C57_where",
    "C57_broadcast_refuted",
    "C57_rescued_refuted",
    "C57_no_computation"
   ],
   "note": "False exactly for broadcasts of a lone unmasked number computed by an elementwise operation: C57_broadcast_refuted (iff, AttributeError), C57_where (nowhere else but in stacks and mosaics of these), C57_rescued_refuted (a wrapper returns ndarray()'s values). True for arrays without computation (C57_no_computation)."
  },
  {
   "property": "C58",
   "status": "partial",
   "theorems": [
    "C58_meaning_partial",
    "C58_realise_partial",
    "C58_supported",
    "C58_after_integer_refuted",
    "C58_stack_refuted",
    "C58_mask_refuted",
    "C58_mosaic_refuted",
    "C58_rebroadcast_refuted"
   ],
   "note": "Every call that returns, except five kinds of call that return wrong data silently (C58_*_refuted): a length-changing key on a new axis after an integer, an integer and a sequence separated by a slice on stack dimensions, an adapter's stored boolean mask indexed again, negative positions or steps on a mosaic axis, and stretching a stack or mosaic of arrays with broadcast leading dimensions."
  },
  {
   "property": "C59",
   "status": "partial",
   "theorems": [
    "C59_shape_partial",
    "C59_values_partial",
    "C59_same_partial",
    "C59_structural_partial",
    "C59_threads_partial",
    "C59_values_reals_partial",
    "C59_astype_refuted"
   ],
   "note": "All programs of calls except those known to be wrong: unsafe indexing (C58), stretching arrays with broadcast leading dimensions (C09), casting a cast (C59_astype_refuted), operations with Python numbers that promote differently (C44); values for arrays that are realisable (C14) or streamable by the threads (C28)."
  },
  {
   "property": "C60",
   "status": "partial",
   "theorems": [
    "C60_any_arithmetic",
    "C60_unmasked_partial",
    "C60_filled_partial",
    "C60_fill_value_partial",
    "C60_count",
    "C60_sum",
    "C60_min",
    "C60_max",
    "C60_mean",
    "C60_keeps_reals",
    "C60_unmasked_reals_partial",
    "C60_fill_value_refuted",
    "C60_mixed_refuted",
    "C60_computed_refuted"
   ],
   "note": "Equality on unmasked data and filling of rearranged data, for arrays that are realisable in both forms (C14). fill_value: sources and stacks and mosaics of them; false for transposed arrays (C60_fill_value_refuted) and parts with different fill values (C60_mixed_refuted); filling does not relate computed arrays (C60_computed_refuted). C60_any_arithmetic: for unmasked data counts, sums, minima, maxima and means agree exactly in any arithmetic (IEEE doubles included), in any chunks, over axes with at least one element."
  },
  {
   "property": "C61",
   "status": "proved",
   "theorems": [
    "C61_untouched",
    "C61_untouched_all",
    "C61_values",
    "C61_values_all",
    "C61_save",
    "C61_history",
    "C61_again"
   ],
   "note": "All arrays, without conditions on the array itself; the sources' memory must hold their values and, where ndarray() does not copy, no masked cell. One thread (see C28 for the schedules). Saving into the own source goes wrong: Example C61_own_source."
  },
  {
   "property": "C62",
   "status": "proved",
   "theorems": [
    "C62_view",
    "C62_own",
    "C62_all"
   ],
   "note": "All arrays, exact. Example C62_case: x[1:].ndarray() is a view."
  },
  {
   "property": "C63",
   "status": "proved",
   "theorems": [
    "C63_same_runs",
    "C63_untouched",
    "C63_chunks",
    "C63_no_race",
    "C63_results",
    "C63_arrays"
   ],
   "note": "All graphs and schedules. A thread's computation between two queue operations is one step. C63_arrays adds the values for expressions that can be streamed."
  },
  {
   "property": "C64",
   "status": "proved",
   "theorems": [
    "C64_values",
    "C64_method",
    "C64_schedules",
    "C64_source"
   ],
   "note": "For sources whose blocks read right (C06/C20 and fresh adapters give these); elementwise operands must come in the same blocks (otherwise C20's refutation applies). NumPy's sum of a column is one function of the column's values."
  },
  {
   "property": "C65",
   "status": "proved",
   "theorems": [
    "C65_sum",
    "C65_mean",
    "C65_limits"
   ],
   "note": "Relative error model: no overflow, and no underflow in the division. Sums and means only; the examples use 53-bit rounding to nearest from Flocq."
  },
  {
   "property": "C66",
   "status": "proved",
   "theorems": [
    "C66_in_flight",
    "C66_accumulators",
    "C66_honest",
    "C66_empty_refuted"
   ],
   "note": "Counts the chunks in queues and in local variables of the node threads and the aggregators' arrays; not the result arrays, nor what a source does to compute one block (realising a stack or mosaic of expressions evaluates them, in turn, by streaming). Sources may fail but must not answer with another shape (C66_honest: proved of sources that are read correctly). C66_empty_refuted: with a dimension of length zero the limit does not hold."
  },
  {
   "property": "C67",
   "status": "proved",
   "theorems": [
    "C67_once",
    "C67_all",
    "C67_direct",
    "C67_save",
    "C67_source",
    "C67_broadcast_refuted",
    "C67_sliced_refuted"
   ],
   "note": "A block that fails to be read ends its thread and is not counted. Elements are compared as members of a list over any type, so numbered elements show that nothing is read twice. C67_all needs an evaluation that returned, with consistent and balanced graphs (as C30). C67_broadcast_refuted and C67_sliced_refuted: the exceptions the property names."
  },
  {
   "property": "C68",
   "status": "partial",
   "theorems": [
    "C68_rows_partial",
    "C68_in_order",
    "C68_no_dimension_refuted",
    "C68_endless_refuted",
    "C68_constant_refuted",
    "C68_padding_refuted",
    "C68_realised_partial"
   ],
   "note": "Complete for arrays whose first dimension checks its indices. False otherwise: iterating over a ConstantArray, a broadcast leading dimension or data padded with a constant never ends (C68_constant_refuted, C68_endless_refuted, C68_padding_refuted), and an array without dimensions silently gives no rows (C68_no_dimension_refuted). C68_in_order: whatever the array, an iteration that ended returned a[0], a[1], ... up to the first IndexError."
  },
  {
   "property": "C69",
   "status": "partial",
   "theorems": [
    "C69_filled_partial",
    "C69_broadcast_partial",
    "C69_group_partial",
    "C69_broadcast_refuted",
    "C69_group_refuted",
    "C69_stack_refuted",
    "C69_masked_equal_refuted",
    "C69_mixed_refuted"
   ],
   "note": "C69_filled_partial: true of every array in which no masked element meets a fill value other than its own (faithful, FillSpec.v), of any class. False otherwise: a broadcast drops the fill value (exactly when it matters: C69_broadcast_partial; C69_broadcast_refuted), biggus.masked_arrays never keeps one (exactly when it matters: C69_group_partial; C69_group_refuted), stacks and mosaics of transposed arrays, or of a masked and an unmasked source, take the default (C69_stack_refuted, C69_mixed_refuted), and masking a value of masked data changes the fill value of the elements masked before (C69_masked_equal_refuted). Missing: arrays outside [realisable]."
  },
  {
   "property": "C70",
   "status": "partial",
   "theorems": [
    "C70_import",
    "C70_unary",
    "C70_binary",
    "C70_wrapper",
    "C70_masked_refuted"
   ],
   "note": "Every name: C70_import, values in C70_unary and C70_binary (operands of one shape; other shapes by C09), the wrapper in C70_wrapper. False in one respect: fmod is wrapped without np.ma.fmod, which exists, so masked_array() raises TypeError (C70_masked_refuted). Missing: None as second operand, the generated docstrings."
  },
  {
   "property": "C71",
   "status": "partial",
   "theorems": [
    "C71_exact",
    "C71_reported_partial",
    "C71_unmasked_partial",
    "C71_python_number",
    "C71_python_refuted",
    "C71_masked_element_refuted",
    "C71_masked_operation_refuted"
   ],
   "note": "Settled for every array by C71_exact (iff). True for biggus.ndarrays and masked_arrays, and for arrays built without Python numbers that are not a single masked element (C71_reported_partial, C71_unmasked_partial). False for an operation with a Python number where NumPy promotes numbers differently (iff: C71_python_number; C71_python_refuted), and for a single masked element, which NumPy returns as np.ma.masked of dtype float64 (C71_masked_element_refuted, C71_masked_operation_refuted)."
  },
  {
   "property": "C72",
   "status": "partial",
   "theorems": [
    "C72_refused",
    "C72_index_partial",
    "C72_evaluate_partial",
    "C72_python_number",
    "C72_python_refuted"
   ],
   "note": "C72_refused (iff); afterwards nothing is refused for programs without Python numbers, or with numbers NumPy treats like arrays (C72_index_partial, C72_evaluate_partial). With other Python numbers exactly when NumPy defines the operation for the array holding the number (C72_python_number), so false: biggus.bitwise_and of unsigned 64-bit integers and 1 is built, and evaluating or indexing it raises TypeError (C72_python_refuted)."
  },
  {
   "property": "C73",
   "status": "partial",
   "theorems": [
    "C73_values_partial",
    "C73_astype",
    "C73_astype_again",
    "C73_ma_partial",
    "C73_ma_rearranged",
    "C73_ma_refuted",
    "C73_astype_refuted"
   ],
   "note": "np.asarray: complete for values (C73_values_partial: realisable arrays) and, errors included, against astype unless the array is itself an astype result (C73_astype; exactly when it then agrees: C73_astype_again, so C73_astype_refuted). np.ma.asarray loses masks: right exactly when nothing is masked (C73_ma_partial, C73_ma_rearranged iff, C73_ma_refuted)."
  },
  {
   "property": "C74",
   "status": "partial",
   "theorems": [
    "C74_who",
    "C74_lazy_partial",
    "C74_now_partial",
    "C74_as_ndarray_partial",
    "C74_as_masked_partial",
    "C74_masks_refuted"
   ],
   "note": "C74_who (exact): lazy only if the array is a source, possibly under wrappers, whose __array_priority__ exceeds the left operand's; otherwise the array is evaluated at once, to plain values (C74_now_partial; equal to ndarray() resp. masked_array() of the lazy operation when nothing is masked: C74_as_ndarray_partial, C74_as_masked_partial), so masks are lost (C74_masks_refuted). NumPy's dispatch is trusted as described in NumpyLeft.v."
  },
  {
   "property": "C75",
   "status": "partial",
   "theorems": [
    "C75_outcome",
    "C75_in_order",
    "C75_one_piece",
    "C75_no_skip",
    "C75_elementwise",
    "C75_reversed_refuted",
    "C75_total_refuted"
   ],
   "note": "The claim is false in general: C75_reversed_refuted (x[::-1] saved over x) and C75_total_refuted (x minus its sum) store something that depends on MAX_CHUNK_SIZE. C75_outcome is the exact outcome for every array over the target whose pieces can be read; from it the claim for expressions whose pieces do not depend on positions stored before (C75_in_order), for arrays within the chunk limit (C75_one_piece), and for all trees of elementwise operations (C75_elementwise), without further conditions. The cast to the target's dtype is not modelled. C75_no_skip holds without any hypothesis: pieces in order, none skipped, stopping with the error of the first one that fails."
  },
  {
   "property": "C76",
   "status": "partial",
   "theorems": [
    "C76_str_shape",
    "C76_str_tells",
    "C76_str_dtype",
    "C76_str_blind",
    "C76_repr_shape_partial",
    "C76_repr_right",
    "C76_repr_dtype_refuted",
    "C76_repr_refuted"
   ],
   "note": "str is proved for every array of every class (C76_str_shape, C76_str_dtype). repr: what it shows is settled for every array (C76_repr_shape_partial: the shape of the array inside all wrappers; C76_repr_right: iff), so the claim is false for newaxis, broadcast and transposed arrays, which inherit ArrayContainer.__repr__ (C76_repr_refuted), and astype results show the wrong dtype (C76_repr_dtype_refuted)."
  }
 ]
}