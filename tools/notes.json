{
 "_proved": [
  "C02",
  "C41",
  "C48",
  "C50",
  "C28",
  "C06",
  "C66",
  "C67",
  "C45",
  "C32"
 ],
 "C01": "At most one Ellipsis, as NumPy requires.",
 "C02": "Every valid key tuple without Python-list keys, which the code refuses (C02_list_key_refuted; the property does not name lists).",
 "C03": "False for some sequences on a NumpyArrayAdapter (C03_sequence_refuted). Complete for OrthoArrayAdapter and masked_array() (C03_ortho_sequence). For NumpyArrayAdapter the exact outcome: after two or more indexings C03_again (only empty selections of rank 2 or more fail), after one C03_once (as C04). Only ndarray() of a single masked element is left out.",
 "C04": "C04_outcome: what is returned in every case without boolean masks (TypeError; the selection with one dimension moved to the front; the selection). So false for some stored keys (C04_*_refuted); right for the others (C04_orthogonal_partial; with masks C04_numpy_reads_partial).",
 "C06": "C06_index: any source, all NumPy keys, relative to the source's own indexing at the permuted keys; C06_transpose_index_partial instantiates it absolutely for 'supported' keys.",
 "C07": "False for a length-changing key on a new axis after an integer (C07_after_integer_refuted). C07_outcome settles what every valid key tuple gives: NotImplementedError, ValueError, or the dimension of the key's number stretched (the wrong one, silently, after integers).",
 "C08": "Construction is settled exactly, for new and already stretched arrays (C08_accepts, C08_again). False for sequences on a stretched dimension, index arrays, zero-length leading dimensions (C08_*_refuted). C08_index_outcome settles what every valid key tuple without lists on the leading dimensions gives: NotImplementedError, ValueError, the child's own error, or NumPy's result.",
 "C09": "Exact (C09_exact): right iff no operand with broadcast leading dimensions is stretched and no added leading dimension is empty; false otherwise (C09_leading_refuted, C08_construct_refuted).",
 "C10": "Stacking complete; indexing false for two sequences on the stack dimensions and for empty selections (C10_index_refuted). C10_outcome says what every valid key tuple without lists gives: two sequences, an empty selection or a mismatched shape raise IndexError, anything else the stack of the items picked.",
 "C11": "Complete, zero-length tiles included.",
 "C12": "False for negative positions, negative steps, masks and empty selections on the mosaic axis (C12_*_refuted). What the code does is settled for every key there: integers (C12_integer, C12_negative_integer), sequences of any positions (C12_sequence exact; values in C12_sequence_reads, C12_negative_sequence; a lone -1 may be lost: C12_lost_refuted), slices (C12_sequence_kinds, C12_negative_step, C12_one_tile), empty selections (C12_empty), masks (C12_mask).",
 "C14": "The combination of C03-C13 over all expressions; false where they are (C14_*_refuted, C04, C07, C08, C10, C12).",
 "C15": "Complete (accepts iff in range) for both adapters. Rejection proved on every class for the dimensions that check; ConstantArray and the leading dimensions of a BroadcastArray do not check, a mosaic accepts a one-element tuple out of range and rejects negatives in range (C15_*_refuted). A boolean mask longer than the dimension is rejected, a shorter one accepted and only realisation raises (C15_mask_long, C15_mask_short).",
 "C16": "False for the transposed reads of C04 (C16_shape_refuted).",
 "C20": "C20_save: any array whose pieces read right. C20_steady: steady arrays satisfy that by construction.",
 "C21": "C21_values: any streamable expression; C21_sum/count/mean: with the expression's elements spelled out. Exact arithmetic (laws); wrap-around is C45, misaligned inner operands are C27. Where the dtype or a missing mask makes the code raise instead: C56.",
 "C22": "False when the axis arrives in several pieces: C22_min_last/max_last say exactly what is computed (the last piece only), C22_split_refuted gives wrong data for every split shape. These assume of the values only that min and max associate; C22_doubles_partial gives the values for IEEE doubles with NaN, C22_doubles_refuted shows a NaN that is lost.",
 "C23": "False when the axis arrives item by item (C23_items_refuted: 0 is reported whatever the data); proved otherwise (C23_*_fits_partial).",
 "C27": "At the root of an expression without conditions (C27_root1, C27_root2); inner operations are false when the operands' streams are cut differently (C27_misaligned_refuted). Operations without a masked equivalent raise TypeError exactly when masked arrays are asked for (C27_refused).",
 "C37": "False for stops below -n and negative steps (C37_*_refuted); exactly when, for positive steps (C37_forward), negative steps (C37_backward) and step 0 (C37_step_zero).",
 "C39": "Exact: the result for every input is given by the number of passes compared with the limit 9999 (C39_limit).",
 "C43": "Every case is settled by C43_exact; the claim itself is false for arrays with a zero-length dimension (C43_empty_refuted). A NumPy number on the left may be handled by NumPy instead: C74.",
 "C44": "C44_any_index: every array a program can build without Python numbers, any keys; with a Python number exactly when NumPy's two dtypes agree (C44_python_scalar), so false in general (C44_python_scalar_refuted).",
 "C45": "What is returned in every case (C45_sum, C45_mean, C45_masked_mean, C45_masked_mean_fits). The mathematical sum and mean are not always returned: accumulators wrap around (C45_overflow_refuted), and so do the counters of masked means (C45_masked_count_refuted).",
 "C46": "Exact, including the wrap-around from 2^63 bytes on. C46_text: the printed number, below 2^53 bytes (C46_text_case: 1048575 bytes are printed as 1024.00 KiB).",
 "C47": "The outcome in every case (C47_mosaic, the other C47 theorems); false only in that a tile with too few dimensions, and no parts at all, give IndexError instead of ValueError (C47_index_error_refuted).",
 "C48": "What is assigned is not checked (C48_unchecked_refuted); isolation and effect complete.",
 "C28": "C28_one_thread: for every graph (sharing, several iteration orders, unequal numbers of chunks, failures at any chunk) and every schedule the outcome is that of one thread evaluating the graph node by node, each object once (OneThread.v); schedule independence and equal end states separately. The _partial theorems are about more: that this outcome is the one of each array evaluated alone (graphs whose shared nodes are read in one order), and the NumPy value for streamable expressions, also with shared objects read in one order (C28_shared_values_partial, C28_steady_shared_partial: no schedule deadlocks, every thread finishes).",
 "C29": "Every schedule stops (no livelock), unconditionally, and whether it returns does not depend on the schedule (C29_all_or_none). A stopped schedule has returned: for graphs without sharing, whatever fails; for shared objects in at most three chunks, whatever fails (C29_few_chunks_partial; tight: C30_hang_refuted has four); for any number of chunks when nothing fails and the operands of the binary operations are divided at the same places (C29_aligned_partial) or come at the same pace (C29_paced_partial). The unrestricted claim is false of the code: C29_deadlock_refuted exhibits a shared graph where bounded queues of 3 deadlock.",
 "C30": "A failing balanced graph raises under every schedule when nothing is shared or what is shared comes in at most three chunks, and a delivered result is whole; refuted in general: C30_hang_refuted (four chunks: the abort leaves a shared producer blocked, the call never returns) and C30_swallowed_refuted (an operand that has more chunks than the other fails after the shorter one ended: the error is lost and an array is returned). C30_only_one_thread: what is returned is always what the single thread gets without a failure reaching a requested array.",
 "C31": "Proved when shared nodes are asked for in one iteration order; for streamable arrays no schedule deadlocks, together or alone (C31_streamable_partial). Refuted in general by C31_order_refuted (node cache ignores the iteration order).",
 "C32": "C32_positions, for every graph and schedule. That the j-th result moreover equals that array evaluated alone is C31's claim; C32_request_order_partial: for consistent, balanced graphs.",
 "C50": "The expansion is determined completely; C50_first_refuted records that it differs from that of the NumPy releases that accept several Ellipsis.",
 "C49": "C49_dask_partial: for steady expressions (any depth, sharing, chunk size; at most `limit` chunks per leaf dimension) the task graph is built, no task order fails or gets stuck, and the results equal the arrays' values and the threaded engine's. C49_streamable_partial: the same under the threaded engine's conditions. Refuted in general: operands cut at different places raise AttributeError (C49_combine_refuted), more than 9999 pieces raise RuntimeError (C49_limit_refuted).",
 "C51": "Proved for any limit when group_keys returns, and it returns whenever there are at most 9999 tuples in all; beyond that the code's own limit may raise RuntimeError (see C39_limit).",
 "C52": "Permutations, the default and the refusal of everything else are proved completely; refuted: negative axes, which NumPy accepts, give KeyError, and a non-permutation of the right length is accepted at construction and raises KeyError at .shape.",
 "C53": "Complete for arrays without circular references (deepcopy of a stack that contains itself recurses without end).",
 "C54": "Kept for every key without newaxis when no stack or mosaic mixes fill values; false for mixed stacks and mosaics and for newaxis (C54_*_refuted).",
 "C24": "C24_values: any streamable expression, exact real arithmetic. Assumes the masked-data handlers accept the source: see C56.",
 "C25": "C25_values: any streamable expression, exact arithmetic.",
 "C26": "C26_values: any streamable expression, exact arithmetic. Assumes the masked-data handlers accept the source: see C56.",
 "C55": "Assumes that pieces which can be read at all are read right (never_wrong).",
 "C56": "False: C56_unmasked_refuted (no mask, axis >= 1), C56_bool_refuted, C56_unsigned_refuted, C56_count_refuted; whether masked_equal data can be summed depends on the chunks (C56_masked_equal, iff). True, with the values of the main model, for masked sources (C56_masked_source) and every expression meeting the criterion (C56_expressions); C56_exact: iff for sums of a source.",
 "C57": "False exactly for broadcasts of a lone unmasked number computed by an elementwise operation: C57_broadcast_refuted (iff, AttributeError), C57_where (nowhere else but in stacks and mosaics of these), C57_rescued_refuted (a wrapper returns ndarray()'s values). True for arrays without computation (C57_no_computation).",
 "C58": "Every call that returns, except five kinds of call that return wrong data silently (C58_*_refuted): a length-changing key on a new axis after an integer, an integer and a sequence separated by a slice on stack dimensions, an adapter's stored boolean mask indexed again, negative positions or steps on a mosaic axis, and stretching a stack or mosaic of arrays with broadcast leading dimensions.",
 "C59": "All programs of calls except those known to be wrong: unsafe indexing (C58), stretching arrays with broadcast leading dimensions (C09), casting a cast (C59_astype_refuted), operations with Python numbers that promote differently (C44); values for arrays that are realisable (C14) or streamable by the threads (C28).",
 "C60": "Equality on unmasked data and filling of rearranged data, for arrays that are realisable in both forms (C14). fill_value: sources and stacks and mosaics of them; false for transposed arrays (C60_fill_value_refuted) and parts with different fill values (C60_mixed_refuted); filling does not relate computed arrays (C60_computed_refuted). C60_any_arithmetic: for unmasked data counts, sums, minima, maxima and means agree exactly in any arithmetic (IEEE doubles included), in any chunks, over axes with at least one element.",
 "C61": "All arrays, without conditions on the array itself; the sources' memory must hold their values and, where ndarray() does not copy, no masked cell. One thread (see C28 for the schedules). Saving into the own source goes wrong: Example C61_own_source.",
 "C62": "All arrays, exact. Example C62_case: x[1:].ndarray() is a view.",
 "C63": "All graphs and schedules. A thread's computation between two queue operations is one step. C63_arrays adds the values for expressions that can be streamed.",
 "C64": "For sources whose blocks read right (C06/C20 and fresh adapters give these); elementwise operands must come in the same blocks (otherwise C20's refutation applies). NumPy's sum of a column is one function of the column's values.",
 "C65": "Relative error model: no overflow, and no underflow in the division. Sums and means only; the examples use 53-bit rounding to nearest from Flocq.",
 "C66": "Counts the chunks in queues and in local variables of the node threads and the aggregators' arrays; not the result arrays, nor what a source does to compute one block (realising a stack or mosaic of expressions evaluates them, in turn, by streaming). Sources may fail but must not answer with another shape (C66_honest: proved of sources that are read correctly). C66_empty_refuted: with a dimension of length zero the limit does not hold.",
 "C67": "A block that fails to be read ends its thread and is not counted. Elements are compared as members of a list over any type, so numbered elements show that nothing is read twice. C67_all needs an evaluation that returned, with consistent and balanced graphs (as C30). C67_broadcast_refuted and C67_sliced_refuted: the exceptions the property names.",
 "C68": "Complete for arrays whose first dimension checks its indices. False otherwise: iterating over a ConstantArray, a broadcast leading dimension or data padded with a constant never ends (C68_constant_refuted, C68_endless_refuted, C68_padding_refuted), and an array without dimensions silently gives no rows (C68_no_dimension_refuted). C68_in_order: whatever the array, an iteration that ended returned a[0], a[1], ... up to the first IndexError.",
 "C69": "C69_filled_partial: true of every array in which no masked element meets a fill value other than its own (faithful, FillSpec.v), of any class. False otherwise: a broadcast drops the fill value (exactly when it matters: C69_broadcast_partial; C69_broadcast_refuted), biggus.masked_arrays never keeps one (exactly when it matters: C69_group_partial; C69_group_refuted), stacks and mosaics of transposed arrays, or of a masked and an unmasked source, take the default (C69_stack_refuted, C69_mixed_refuted), and masking a value of masked data changes the fill value of the elements masked before (C69_masked_equal_refuted). Missing: arrays outside [realisable].",
 "C70": "Every name: C70_import, values in C70_unary and C70_binary (operands of one shape; other shapes by C09), the wrapper in C70_wrapper. False in one respect: fmod is wrapped without np.ma.fmod, which exists, so masked_array() raises TypeError (C70_masked_refuted). Missing: None as second operand, the generated docstrings.",
 "C71": "Settled for every array by C71_exact (iff). True for biggus.ndarrays and masked_arrays, and for arrays built without Python numbers that are not a single masked element (C71_reported_partial, C71_unmasked_partial). False for an operation with a Python number where NumPy promotes numbers differently (iff: C71_python_number; C71_python_refuted), and for a single masked element, which NumPy returns as np.ma.masked of dtype float64 (C71_masked_element_refuted, C71_masked_operation_refuted).",
 "C72": "C72_refused (iff); afterwards nothing is refused for programs without Python numbers, or with numbers NumPy treats like arrays (C72_index_partial, C72_evaluate_partial). With other Python numbers exactly when NumPy defines the operation for the array holding the number (C72_python_number), so false: biggus.bitwise_and of unsigned 64-bit integers and 1 is built, and evaluating or indexing it raises TypeError (C72_python_refuted).",
 "C73": "np.asarray: complete for values (C73_values_partial: realisable arrays) and, errors included, against astype unless the array is itself an astype result (C73_astype; exactly when it then agrees: C73_astype_again, so C73_astype_refuted). np.ma.asarray loses masks: right exactly when nothing is masked (C73_ma_partial, C73_ma_rearranged iff, C73_ma_refuted).",
 "C74": "C74_who (exact): lazy only if the array is a source, possibly under wrappers, whose __array_priority__ exceeds the left operand's; otherwise the array is evaluated at once, to plain values (C74_now_partial; equal to ndarray() resp. masked_array() of the lazy operation when nothing is masked: C74_as_ndarray_partial, C74_as_masked_partial), so masks are lost (C74_masks_refuted). NumPy's dispatch is trusted as described in NumpyLeft.v.",
 "C75": "The claim is false in general: C75_reversed_refuted (x[::-1] saved over x) and C75_total_refuted (x minus its sum) store something that depends on MAX_CHUNK_SIZE. C75_outcome is the exact outcome for every array over the target whose pieces can be read; from it the claim for expressions whose pieces do not depend on positions stored before (C75_in_order), for arrays within the chunk limit (C75_one_piece), and for all trees of elementwise operations (C75_elementwise), without further conditions. The cast to the target's dtype is not modelled. C75_no_skip holds without any hypothesis: pieces in order, none skipped, stopping with the error of the first one that fails.",
 "C76": "str is proved for every array of every class (C76_str_shape, C76_str_dtype). repr: what it shows is settled for every array (C76_repr_shape_partial: the shape of the array inside all wrappers; C76_repr_right: iff), so the claim is false for newaxis, broadcast and transposed arrays, which inherit ArrayContainer.__repr__ (C76_repr_refuted), and astype results show the wrong dtype (C76_repr_dtype_refuted)."
}