{"id": "C01", "title": "Key expansion follows NumPy", "statement": "When an array of n dimensions is indexed with any tuple of keys holding at most one Ellipsis, the keys are interpreted exactly as NumPy interprets them: the Ellipsis (or, without one, the end of the tuple) stands for as many full slices as are needed to address every dimension once, newaxis keys address no dimension, and an IndexError is raised exactly when more than n dimensions are addressed.", "quantifier": "every number of dimensions, every tuple of keys of every kind with at most one Ellipsis", "why_tests_cant": "the key tuples are unboundedly long and mix seven kinds of key", "anchors": ["biggus/_init.py:_full_keys", "biggus/_init.py:Array.__getitem__"]}
{"id": "C02", "title": "Predicted shape of an indexing result", "statement": "For every shape and every valid tuple of keys (integers, slices with any start/stop/step, tuples or arrays of integers, boolean masks, newaxis, at most one Ellipsis) the shape reported for the indexing result is the orthogonal-indexing shape: an integer removes its dimension, a slice leaves as many elements as Python's range over slice.indices, a tuple its length, a mask the number of True, newaxis a 1.", "quantifier": "every shape and every valid key tuple", "why_tests_cant": "slice.indices arithmetic has unbounded integer inputs", "anchors": ["biggus/_init.py:_sliced_shape", "biggus/_init.py:_full_keys"]}
{"id": "C03", "title": "Indexing an adapter repeatedly composes", "statement": "Indexing an adapter with any sequence of valid (non-boolean) orthogonal key tuples, then realising it, yields the same array as applying the selections one after the other to the concrete array.", "quantifier": "every concrete array, every finite sequence of valid key tuples", "why_tests_cant": "the remapping state after k steps depends on the whole history of keys", "anchors": ["biggus/_init.py:_ArrayAdapter._getitem_full_keys", "biggus/_init.py:_ArrayAdapter._remap_new_key", "biggus/_init.py:_ArrayAdapter._cleanup_new_key"]}
{"id": "C04", "title": "NumpyArrayAdapter reads are orthogonal", "statement": "Realising a NumpyArrayAdapter over a NumPy array with any stored keys gives the orthogonal selection (each tuple key applied independently to its own dimension), although NumPy itself would zip several tuples together.", "quantifier": "every concrete array and every tuple of stored keys", "why_tests_cant": "NumPy changes its rule with the number and the position of tuple and integer keys", "anchors": ["biggus/_init.py:NumpyArrayAdapter._apply_keys"]}
{"id": "C05", "title": "OrthoArrayAdapter reads are orthogonal", "statement": "Realising an OrthoArrayAdapter over a source with orthogonal indexing gives the orthogonal selection for any stored keys, with the shape the adapter reports.", "quantifier": "every source and every tuple of stored keys", "why_tests_cant": "unbounded key tuples", "anchors": ["biggus/_init.py:OrthoArrayAdapter._apply_keys"]}
{"id": "C06", "title": "Transposition commutes with indexing", "statement": "Indexing a TransposedArray and realising it gives the same as realising the transposed array and indexing that orthogonally, for any permutation of the axes and any keys.", "quantifier": "every array, every permutation of its axes, every valid key tuple", "why_tests_cant": "permutations and keys interact in unboundedly many ways", "anchors": ["biggus/_init.py:TransposedArray._getitem_full_keys", "biggus/_init.py:TransposedArray._apply_axes_mapping"]}
{"id": "C07", "title": "newaxis indexing", "statement": "Indexing with newaxis keys adds axes of length 1 at the requested places and selects on the others as usual; such an array can be indexed again, at its new axes too, with the usual orthogonal meaning.", "quantifier": "every array, every key tuple containing newaxis, every later key tuple", "why_tests_cant": "positions of new axes are remapped by every later indexing operation", "anchors": ["biggus/_init.py:NewAxesArray.__getitem__", "biggus/_init.py:NewAxesArray.shape"]}
{"id": "C08", "title": "Broadcast arrays behave like the broadcast", "statement": "A BroadcastArray realises to the NumPy broadcast of its source, with length-1 dimensions stretched and leading dimensions prepended; indexing it with valid keys and realising equals realising and indexing.", "quantifier": "every source array, set of stretched axes, leading shape and valid key tuple", "why_tests_cant": "axes are renumbered after each removed dimension", "anchors": ["biggus/_init.py:BroadcastArray._getitem_full_keys", "biggus/_init.py:BroadcastArray._broadcast_numpy_array"]}
{"id": "C09", "title": "Operand broadcasting follows NumPy", "statement": "Combining two arrays broadcasts both to the shape NumPy broadcasting gives, and raises ValueError exactly when NumPy does; an operand already of the full shape is passed through unchanged.", "quantifier": "every pair of shapes and arrays", "why_tests_cant": "all pairs of shapes of any rank", "anchors": ["biggus/_init.py:BroadcastArray.broadcast_arrays", "biggus/_init.py:BroadcastArray._compute_broadcast_kwargs", "biggus/_init.py:BroadcastArray._compute_broadcast_shape"]}
{"id": "C10", "title": "Stack is elementwise stacking and commutes with indexing", "statement": "An ArrayStack of shape S over items of shape T has shape S+T; the item at stack index i is found at result[i]; indexing the stack with valid keys and realising equals realising and indexing.", "quantifier": "every stack shape, item array and valid key tuple", "why_tests_cant": "unbounded item and key combinations", "anchors": ["biggus/_init.py:ArrayStack._getitem_full_keys", "biggus/_init.py:ArrayStack.ndarray"]}
{"id": "C11", "title": "Mosaic realises to the concatenation", "statement": "A LinearMosaic realises to the concatenation of its tiles along the axis, its shape is the sum along that axis, for any number of tiles, including tiles of length 0.", "quantifier": "every axis, number and shapes of tiles", "why_tests_cant": "unbounded number of tiles and lengths", "anchors": ["biggus/_init.py:LinearMosaic.ndarray", "biggus/_init.py:LinearMosaic.shape"]}
{"id": "C12", "title": "Mosaic indexing commutes with realising", "statement": "Indexing a LinearMosaic with any valid key tuple and realising equals realising the concatenation and indexing it.", "quantifier": "every mosaic and valid key tuple", "why_tests_cant": "tile lookup depends on running sums of tile lengths and the sign of keys", "anchors": ["biggus/_init.py:LinearMosaic._getitem_full_keys"]}
{"id": "C13", "title": "Constant arrays", "statement": "ConstantArray/zeros/ones of a shape realise to that shape filled with the value, and every valid indexing gives a constant array of the orthogonal shape.", "quantifier": "every shape, value and valid key tuple", "why_tests_cant": "unbounded shapes", "anchors": ["biggus/_init.py:ConstantArray"]}
{"id": "C14", "title": "Index-then-realise equals realise-then-index", "statement": "For any array built from adapters, constants, newaxis, broadcasts, casts, value masks, transpositions, stacks, mosaics, aggregations and elementwise operations nested to any depth: indexing it and realising the result equals realising it and indexing the result orthogonally.", "quantifier": "every expression tree of any depth and every valid key tuple", "why_tests_cant": "the number of nested expressions is infinite and each class rewrites keys for its children", "anchors": ["biggus/_init.py:Array.__getitem__"]}
{"id": "C15", "title": "Out-of-range indices are rejected", "statement": "An integer or tuple index outside [-n, n) on a dimension of length n raises IndexError at indexing time, and no in-range index does.", "quantifier": "every array, dimension and integer", "why_tests_cant": "unbounded integers", "anchors": ["biggus/_init.py:_ArrayAdapter._cleanup_new_key", "biggus/_init.py:_ArrayAdapter._remap_new_key", "biggus/_init.py:ConstantArray.__getitem__"]}
{"id": "C16", "title": "Reported shape is the realised shape", "statement": "For any array expression the .shape property equals the shape of the array that ndarray() and masked_array() return.", "quantifier": "every expression tree", "why_tests_cant": "infinitely many nested expressions", "anchors": ["biggus/_init.py:Array.shape"]}
{"id": "C17", "title": "Laziness: structure never depends on data", "statement": "Building and indexing arrays only rearranges keys: success or failure and the resulting shape depend on shapes, dtypes and keys alone, never on stored values, and the concrete source is untouched.", "quantifier": "every pair of arrays with equal structure and different data, every key tuple", "why_tests_cant": "quantifies over pairs of runs", "anchors": ["biggus/_init.py:Array.__getitem__"]}
{"id": "C18", "title": "Chunks partition the index space", "statement": "For every shape, chunk limit and iteration order, the chunk keys used for evaluation visit every element position exactly once.", "quantifier": "every shape, positive chunk limit and permutation of the dimensions", "why_tests_cant": "unbounded shapes", "anchors": ["biggus/_init.py:ProducerNode.chunk_index_gen", "biggus/_init.py:_all_slices_inner"]}
{"id": "C19", "title": "Chunks respect the size limit", "statement": "No chunk requested during evaluation or save holds more than MAX_CHUNK_SIZE elements.", "quantifier": "every shape and positive chunk limit", "why_tests_cant": "unbounded shapes", "anchors": ["biggus/_init.py:_all_slices_inner", "biggus/_init.py:MAX_CHUNK_SIZE"]}
{"id": "C20", "title": "save writes every cell exactly once with the right value", "statement": "If each piece that save visits reads as that piece of the array, then after save([array],[target]) every cell of the target holds the realised value of the array at that position, each written exactly once, whatever the chunk limit and the previous content of the target.", "quantifier": "every array of any class whose pieces read right, every chunk limit and previous target content", "why_tests_cant": "unbounded arrays", "anchors": ["biggus/_init.py:save"]}
{"id": "C21", "title": "sum, count and mean do not depend on chunking", "statement": "In exact arithmetic, sum, count and mean over any axis realise to the aggregate, over the whole axis, of the values the engine gives for the operand, however the operand is split into chunks.", "quantifier": "every expression made of arrays whose blocks read right (whatever their class), aggregations of any kind that do not raise, and elementwise operations on equally cut operands; every axis and chunk limit", "why_tests_cant": "all chunkings of unbounded arrays", "anchors": ["biggus/_init.py:_SumStreamsHandler", "biggus/_init.py:_CountStreamsHandler", "biggus/_init.py:_MeanStreamsHandler", "biggus/_init.py:_AggregationStreamsHandler.process_chunks"]}
{"id": "C22", "title": "min and max do not depend on chunking", "statement": "min and max over any axis realise to the minimum/maximum over the whole axis, however the array is split into chunks.", "quantifier": "every array, axis and chunk limit", "why_tests_cant": "the axis must be longer than a multi-megabyte chunk to be split", "anchors": ["biggus/_init.py:_MinStreamsHandler", "biggus/_init.py:_MaxStreamsHandler"]}
{"id": "C23", "title": "std and var do not depend on chunking", "statement": "std and var (unmasked) over any axis realise, in exact arithmetic, to the standard deviation / variance with the requested ddof over the whole axis, however the array is split.", "quantifier": "every real-valued array, axis, ddof and chunk limit", "why_tests_cant": "all chunkings; single-pass algorithm needs an inductive invariant", "anchors": ["biggus/_init.py:_StdStreamsHandler", "biggus/_init.py:_VarStreamsHandler"]}
{"id": "C24", "title": "masked std and var", "statement": "Masked std/var over any axis equal, in exact arithmetic, the standard deviation/variance of the unmasked observations of each column for every pattern of masks and every chunking; a column without observations (or with as many as ddof) is masked.", "quantifier": "every expression made of arrays whose blocks read right (whatever their class), aggregations of any kind that do not raise, and elementwise operations on equally cut operands; every mask pattern, axis, ddof and chunk limit", "why_tests_cant": "exponentially many mask patterns", "anchors": ["biggus/_init.py:_StdMaskedStreamsHandler", "biggus/_init.py:_VarMaskedStreamsHandler"]}
{"id": "C25", "title": "masked mean and mdtol", "statement": "The masked mean of a column is the mean of its unmasked values and is masked exactly when there are none or when the fraction of masked values exceeds mdtol (mdtol<1), for every chunking.", "quantifier": "every expression made of arrays whose blocks read right (whatever their class), aggregations of any kind that do not raise, and elementwise operations on equally cut operands; every mask pattern, mdtol, axis and chunk limit", "why_tests_cant": "all chunkings and mask patterns", "anchors": ["biggus/_init.py:_MeanMaskedStreamsHandler"]}
{"id": "C26", "title": "masked sum and count", "statement": "The masked sum of a column is the sum of its unmasked values, masked exactly when every value is masked; the masked count is the number of unmasked values; for every chunking.", "quantifier": "every expression made of arrays whose blocks read right (whatever their class), aggregations of any kind that do not raise, and elementwise operations on equally cut operands; every mask pattern, axis and chunk limit", "why_tests_cant": "all chunkings and mask patterns", "anchors": ["biggus/_init.py:_SumMaskedStreamsHandler", "biggus/_init.py:_CountMaskedStreamsHandler"]}
{"id": "C27", "title": "Streamed elementwise operations pair the right elements", "statement": "When an elementwise expression is evaluated by the streaming engine, each output element combines the elements of the operands at that same position.", "quantifier": "every pair of operands, chunk limit and iteration order", "why_tests_cant": "operands with different chunk boundaries only arise for very large inputs", "anchors": ["biggus/_init.py:_ElementwiseStreamsHandler.process_chunks", "biggus/_init.py:ConsumerNode.run"]}
{"id": "C28", "title": "Evaluation is deterministic under every thread schedule", "statement": "Whatever the interleaving of the node threads, if evaluation terminates its outcome (the arrays or the exception) is that of the sequential streaming semantics: a single thread that goes through the graph node by node, each Array object once.", "quantifier": "every expression graph, every schedule", "why_tests_cant": "thread interleavings cannot be enumerated by tests", "anchors": ["biggus/_init.py:ProducerNode.run", "biggus/_init.py:ConsumerNode.run", "biggus/_init.py:AllThreadedEngine.Group.evaluate"]}
{"id": "C29", "title": "Evaluation of an expression never deadlocks", "statement": "With bounded queues of size 3, every schedule of an evaluation makes progress and terminates.", "quantifier": "every expression graph, number of chunks and schedule", "why_tests_cant": "deadlock depends on scheduling and on the number of chunks", "anchors": ["biggus/_init.py:ConsumerNode.add_input_nodes", "biggus/_init.py:AllThreadedEngine.Group.evaluate"]}
{"id": "C30", "title": "Errors during evaluation surface", "statement": "If any node raises while processing a chunk, evaluation raises an exception and never returns a partially filled array, under every schedule.", "quantifier": "every expression, failing chunk and schedule", "why_tests_cant": "error timing relative to other threads", "anchors": ["biggus/_init.py:Node.abort", "biggus/_init.py:NdarrayNode.abort", "biggus/_init.py:AllThreadedEngine.Group.evaluate"]}
{"id": "C31", "title": "Evaluating arrays together equals evaluating them separately", "statement": "ndarrays([a,b,...]) returns the same arrays as evaluating each one alone, also when they share sub-expressions.", "quantifier": "every list of arrays with any sharing", "why_tests_cant": "sharing patterns and iteration orders", "anchors": ["biggus/_init.py:AllThreadedEngine.Group._make_node"]}
{"id": "C32", "title": "Results come back in request order", "statement": "The i-th element returned by ndarrays/masked_arrays belongs to the i-th array requested: it has that array's shape and is put together from exactly the chunks computed for that array, in whatever order the threads finish. (That it equals the array evaluated alone is C31.)", "quantifier": "every list of arrays, with any sharing between them, and every interleaving of the threads", "why_tests_cant": "every length of list and every schedule", "anchors": ["biggus/_init.py:AllThreadedEngine._evaluate"]}
{"id": "C33", "title": "Aggregations commute with indexing", "statement": "Indexing an aggregation result gives the aggregation, over the correspondingly shifted axis, of the indexed source.", "quantifier": "every aggregation, axis and valid key tuple", "why_tests_cant": "axis renumbering after removed dimensions", "anchors": ["biggus/_init.py:_Aggregation._getitem_full_keys"]}
{"id": "C34", "title": "Elementwise operations commute with indexing", "statement": "Indexing a unary or binary elementwise expression gives the operation applied to the indexed operands.", "quantifier": "every operation, operands and valid key tuple", "why_tests_cant": "unbounded combinations", "anchors": ["biggus/_init.py:_Elementwise._getitem_full_keys"]}
{"id": "C35", "title": "Axis normalisation", "statement": "An aggregation accepts an axis argument exactly when it is an integer (or one-element sequence) in [-ndim, ndim), treats a negative axis as counted from the end, and raises ValueError for out-of-range values, TypeError for non-integers and AxisSupportError (AssertionError for min, max and sum) for None or several axes.", "quantifier": "every integer, list of integers and number of dimensions", "why_tests_cant": "unbounded integers", "anchors": ["biggus/_init.py:_normalise_axis", "biggus/_init.py:count", "biggus/_init.py:min"]}
{"id": "C36", "title": "multidim_array_stack orders", "statement": "multidim_array_stack(arrays, shape, order) places array number k at the multi-index that k has in C (row-major) or Fortran (column-major) order of the given shape, and raises ValueError when the product of the shape is not the number of arrays.", "quantifier": "every stack shape of any rank, both orders", "why_tests_cant": "unbounded ranks and lengths", "anchors": ["biggus/_init.py:ArrayStack.multidim_array_stack", "biggus/_init.py:_groups_of"]}
{"id": "C37", "title": "normalize_slice preserves the selection", "statement": "normalize_slice(s, n) selects the same indices of a dimension of length n as s.", "quantifier": "every slice and dimension length", "why_tests_cant": "unbounded integers", "anchors": ["biggus/experimental/key_grouper.py:normalize_slice"]}
{"id": "C38", "title": "Dimension grouping", "statement": "For inputs each of which cuts a dimension into consecutive non-empty pieces, listed in any order and each any number of times, whenever dimension_group_to_lowest_common returns (see C39) it yields groups at exactly the common cut points, each group listing, for each input, exactly the pieces inside it (as often as listed), in order.", "quantifier": "every number of inputs and every set of cut points", "why_tests_cant": "unbounded cut points", "anchors": ["biggus/experimental/key_grouper.py:dimension_group_to_lowest_common"]}
{"id": "C39", "title": "How many chunks grouping can take", "statement": "Grouping the chunk keys of one dimension gives a result exactly when the passes it needs (one for each cut point common to all inputs, and for every other cut point as many as the most repeated piece ending there) are at most 9999; otherwise it raises RuntimeError. In particular a dimension of length up to 9999 whose pieces are listed once, or at most 9999 pieces in all, are always grouped, and one input of 10000 unit pieces never is.", "quantifier": "every dimension length, number of inputs, way of cutting each, order, repetition and spelling of the keys", "why_tests_cant": "a fixed internal iteration limit is hit only by large inputs", "anchors": ["biggus/experimental/key_grouper.py:dimension_group_to_lowest_common"]}
{"id": "C40", "title": "fill_value of stacks and mosaics", "statement": "A stack or mosaic keeps the common fill_value of its parts if they all agree and falls back to the dtype default otherwise, whatever their order.", "quantifier": "every list of parts", "why_tests_cant": "every length and order", "anchors": ["biggus/_init.py:ArrayStack.__init__", "biggus/_init.py:LinearMosaic.__init__"]}
{"id": "C41", "title": "masked_equal", "statement": "masked_equal(a, v).masked_array() masks exactly the cells that are masked in a or equal v; ndarray() is unaffected; both commute with indexing.", "quantifier": "every array, value and key tuple", "why_tests_cant": "unbounded arrays", "anchors": ["biggus/_init.py:MaskValueArray"]}
{"id": "C42", "title": "astype", "statement": "a.astype(d) has dtype d, realises to the elementwise cast of a, a second astype replaces the first, and indexing keeps the dtype.", "quantifier": "every array, dtypes and keys", "why_tests_cant": "unbounded arrays", "anchors": ["biggus/_init.py:AsDataTypeArray"]}
{"id": "C43", "title": "Arithmetic operators", "statement": "a op b and the reflected form evaluate the NumPy operation with its operands in the written order for +, -, *, /, //, **, comparison-free operators, with scalars treated as broadcast constants.", "quantifier": "every pair of operands", "why_tests_cant": "order of arguments for all values", "anchors": ["biggus/_init.py:Array.__add__", "biggus/_init.py:Array.__radd__", "biggus/_init.py:Array.__rsub__"]}
{"id": "C44", "title": "dtype is stable under indexing", "statement": "Indexing never changes the dtype of an array.", "quantifier": "every expression and key tuple", "why_tests_cant": "dtype promotion depends on how the expression was built", "anchors": ["biggus/_init.py:_Elementwise.__init__", "biggus/_init.py:_Elementwise._getitem_full_keys"]}
{"id": "C45", "title": "Integer sums and means wrap exactly where the running type overflows", "statement": "sum and mean of an integer array accumulate in the array's own integer type. The sum returned is the mathematical sum reduced to that type; the mean of an unmasked array is the mathematical mean exactly when the mathematical sum fits the type, whatever chunks it arrives in; the mean of a masked array also keeps its element count in a counter of fixed width, and is the mean of the unmasked values while both fit.", "quantifier": "every integer width, every array, every division of it into chunks", "why_tests_cant": "needs sums above the type maximum", "anchors": ["biggus/_init.py:_MeanStreamsHandler.bootstrap", "biggus/_init.py:_SumStreamsHandler.bootstrap", "biggus/_init.py:_MeanMaskedStreamsHandler.bootstrap"]}
{"id": "C46", "title": "Human-readable size", "statement": "nbytes is the product of the shape times the item size as a signed 64-bit number: exactly right below 2^63 bytes, wrapped from there on. size(array) uses the largest binary unit (up to TiB) whose value is at least 1 and prints the number in it to two decimals, within half a hundredth (bytes as a whole number); a negative wrapped count is printed in bytes.", "quantifier": "every shape, item size and number of bytes", "why_tests_cant": "unit boundaries over all integers", "anchors": ["biggus/_init.py:size", "biggus/_init.py:Array.nbytes"]}
{"id": "C47", "title": "Mosaic and stack constructors validate their parts", "statement": "LinearMosaic and ArrayStack succeed exactly when all parts agree in shape (off the mosaic axis), dtype and the axis is in range; otherwise ValueError.", "quantifier": "every list of parts and axis", "why_tests_cant": "every length of list", "anchors": ["biggus/_init.py:LinearMosaic.__init__", "biggus/_init.py:ArrayStack.__init__"]}
{"id": "C48", "title": "Stack item assignment is isolated", "statement": "stack[i] = x replaces exactly the item at stack index i: other items, and arrays obtained earlier by indexing the stack, are unchanged.", "quantifier": "every stack, index and history of assignments and views", "why_tests_cant": "aliasing over histories", "anchors": ["biggus/_init.py:ArrayStack.__setitem__", "biggus/_init.py:ArrayStack._getitem_full_keys"]}
{"id": "C49", "title": "Dask engine agrees with the threaded engine", "statement": "For aggregations and elementwise expressions, evaluating through the dask task graph gives the same array as the threaded engine, for any chunking and any task order allowed by the graph.", "quantifier": "every expression, chunk limit and task order", "why_tests_cant": "task orders and chunkings are unbounded", "anchors": ["biggus/experimental/dask_engine.py:DaskGroup._make_stream_handler_nodes", "biggus/experimental/dask_engine.py:DaskGroup.collect"]}
{"id": "C50", "title": "Several Ellipsis keys", "statement": "When a key tuple holds several Ellipsis, all other keys keep their places and every Ellipsis stands for one full slice, except one of them, which stands for all dimensions not otherwise addressed; if the keys address exactly one dimension too many the first Ellipsis is dropped, and with more an IndexError is raised. (The NumPy releases that accept several Ellipsis expand the first; biggus expands the middle one.)", "quantifier": "every number of dimensions, every tuple of keys with any number of Ellipsis", "why_tests_cant": "the position that absorbs the remaining dimensions depends on the number and places of all Ellipsis in an unboundedly long tuple", "anchors": ["biggus/_init.py:_full_keys"]}
{"id": "C51", "title": "Grouping of tuples of chunk keys", "statement": "Given several lists of key tuples, each the boxes of a rectangular grid over the same shape (listed in any order, with repeats, in any spelling of the slices), group_keys returns exactly one group per box bounded by neighbouring cut points common to all the grids, in row-major order; every tuple of every input occurs in exactly one group.", "quantifier": "every number of dimensions and inputs, every grid per input, every order, repetition and spelling of the tuples", "why_tests_cant": "grids, dimensions and inputs are unbounded, and grouping is a product over dimensions of a stateful loop", "anchors": ["biggus/experimental/key_grouper.py:group_keys", "biggus/experimental/key_grouper.py:dimension_group_to_lowest_common"]}
{"id": "C52", "title": "Axes of a transposition", "statement": "biggus.transpose(array, axes) accepts the axes NumPy accepts (permutations, axes counted from the end, and reversal by default) and gives NumPy's shape; every other list of axes is refused with a ValueError when the transposition is made.", "quantifier": "every shape and every list of integers as axes", "why_tests_cant": "every list of integers over every number of dimensions", "anchors": ["biggus/_init.py:TransposedArray.__init__", "biggus/_init.py:TransposedArray._apply_axes_mapping", "biggus/_init.py:TransposedArray.shape"]}
{"id": "C53", "title": "Deep copies are equal and independent", "statement": "copy.deepcopy of an array that holds stacks (nested, shared, also several stacks over one object array) and sources gives an array that stands for the same values and has the same sharing inside; afterwards no item assignment, change of source data or construction on one side changes any array on the other side.", "quantifier": "every array built by any program, every nesting and sharing, every later interleaved history of operations on the originals and on the copy", "why_tests_cant": "aliasing over unbounded object graphs and histories", "anchors": ["biggus/_init.py:ArrayStack.__deepcopy__", "biggus/_init.py:ArrayStack.__setitem__", "biggus/_init.py:ArrayStack.__init__"]}
{"id": "C54", "title": "fill_value is stable under indexing", "statement": "array[keys].fill_value equals array.fill_value (NaN counting as equal to NaN) for every array and every key tuple for which indexing returns.", "quantifier": "every array that any sequence of constructors, functions and indexing can produce, every key tuple", "why_tests_cant": "unbounded nestings of array classes and key tuples", "anchors": ["biggus/_init.py:Array.fill_value", "biggus/_init.py:_ArrayAdapter.fill_value", "biggus/_init.py:ArrayStack.fill_value", "biggus/_init.py:LinearMosaic.fill_value"]}
{"id": "C55", "title": "An interrupted save leaves nothing wrong", "statement": "If save raises because a piece cannot be read, or is stopped after any number of pieces, the target holds the right value at every position of the pieces already written and its previous content everywhere else; the error is the one raised by reading the next piece; a later successful save completes the target.", "quantifier": "every array, chunk limit, previous target content and point of failure", "why_tests_cant": "every crash point of unbounded runs", "anchors": ["biggus/_init.py:save"]}
{"id": "C56", "title": "Sums and means work whatever the source's mask and dtype", "statement": "masked_array() of a sum or mean gives the result for every source, whether or not it happens to have a mask array, and for every numeric dtype; ndarray() likewise. It does not depend on how the source is split into chunks whether the call succeeds.", "quantifier": "every source array, axis, chunk limit, dtype and pattern of masked values", "why_tests_cant": "success depends on which chunks contain a masked value, for all data, shapes and chunk limits", "anchors": ["biggus/_init.py:_SumMaskedStreamsHandler", "biggus/_init.py:_MeanMaskedStreamsHandler", "biggus/_init.py:_MeanStreamsHandler", "biggus/_init.py:_ArrayAdapter.masked_array"]}
{"id": "C57", "title": "masked_array() of a wrapped array keeps its masks", "statement": "masked_array() of an array that wraps another (broadcast, transposed, cast, with new axes, stacked) returns the wrapped array's masked values rearranged: it neither raises AttributeError nor silently substitutes the values of ndarray().", "quantifier": "every composition of array classes over every source", "why_tests_cant": "all compositions; an error of an inner array is caught and turned into different values", "anchors": ["biggus/_init.py:ArrayContainer.masked_array", "biggus/_init.py:BroadcastArray.masked_array", "biggus/_init.py:_Elementwise.masked_array"]}
{"id": "C58", "title": "An indexing that returns, returns the right data", "statement": "Whatever combination of integers, slices, sequences, masks and new axes is used, and on whatever array expression: if a[keys] returns an array instead of raising, then that array has the shape and the values of the orthogonal selection.  No call silently returns something else.", "quantifier": "every array expression nested to any depth, every key tuple valid for its shape, whether or not the classes involved implement it", "why_tests_cant": "all expressions and all key tuples; each class raises on a different set of keys it does not implement, and only those it does not reject matter", "anchors": ["biggus/_init.py:Array.__getitem__", "biggus/_init.py:NewAxesArray.__getitem__", "biggus/_init.py:BroadcastArray._getitem_full_keys", "biggus/_init.py:ArrayStack._getitem_full_keys", "biggus/_init.py:LinearMosaic._getitem_full_keys"]}
{"id": "C59", "title": "A program of biggus calls computes what the same NumPy program computes", "statement": "Any sequence of biggus calls - wrapping sources, constants, indexing, new axes, broadcasting, transposing, casting, masking, stacking, joining, aggregating, unary and binary operations - yields an array whose shape is that of the NumPy array obtained by the same calls, and which realises to that array, from filled sources for ndarray() and from masked sources for masked_array().", "quantifier": "every program, of any length and nesting, over every source", "why_tests_cant": "unbounded compositions of all operations; every array a program can build must be covered", "anchors": ["biggus/_init.py:Array.__getitem__", "biggus/_init.py:BroadcastArray.__init__", "biggus/_init.py:ArrayStack.__init__", "biggus/_init.py:LinearMosaic.__init__", "biggus/_init.py:_Elementwise.__init__", "biggus/_init.py:_Aggregation.__init__"]}
{"id": "C60", "title": "ndarray() and masked_array() agree", "statement": "When no source has a masked element and no operation masks one, masked_array() has no masked element and equals ndarray(). When an array only rearranges source data, ndarray() is masked_array() with every masked element replaced by the sources' fill value, which is the fill_value the array reports.", "quantifier": "every array expression over every source, any chunking", "why_tests_cant": "all expressions: the two forms are computed by different code in every class and by different aggregation handlers", "anchors": ["biggus/_init.py:_ArrayAdapter.ndarray", "biggus/_init.py:_ArrayAdapter.masked_array", "biggus/_init.py:Array.fill_value", "biggus/_init.py:_Elementwise.masked_array", "biggus/_init.py:_Aggregation.masked_array", "biggus/_init.py:LinearMosaic.masked_array"]}
{"id": "C61", "title": "Evaluation changes nothing that already exists", "statement": "ndarray(), masked_array(), ndarrays() and masked_arrays() leave the data of every source, and every array handed out before, as they were, whether they succeed or raise, although running totals are updated in place and chunks may be views; save() changes only its target. So an array evaluated again, after any sequence of evaluations, saves and writes elsewhere, gives the same values. save() stores the array's values if the target is not the memory of one of its own sources.", "quantifier": "every array, memory, chunk size, and sequence of evaluations, saves and writes; also when an evaluation raises", "why_tests_cant": "aliasing between chunks, running totals and sources depends on the chunking, the classes combined and the history", "anchors": ["biggus/_init.py:_StdStreamsHandler.process_data", "biggus/_init.py:_SumStreamsHandler.process_data", "biggus/_init.py:_AggregationStreamsHandler.process_chunks", "biggus/_init.py:NdarrayNode.process_chunks", "biggus/_init.py:_ArrayAdapter.ndarray", "biggus/_init.py:save"]}
{"id": "C62", "title": "When a result shares memory with a source", "statement": "The arrays returned by ndarrays() and masked_arrays() are memory of their own: writing to one changes no source and no other result. The result of ndarray() or masked_array() is a view of a source exactly when the array is that source indexed by integers and slices (not to a single element) and not copied for filling, under new axes, broadcasting, transposing and, for ndarray(), masked_equal; otherwise it is memory of its own.", "quantifier": "every array expression, source and memory", "why_tests_cant": "all expressions; sharing shows only when something is written later", "anchors": ["biggus/_init.py:_ArrayAdapter.ndarray", "biggus/_init.py:_ArrayAdapter.masked_array", "biggus/_init.py:NewAxesArray.ndarray", "biggus/_init.py:BroadcastArray.ndarray", "biggus/_init.py:TransposedArray.ndarray", "biggus/_init.py:NdarrayNode.__init__"]}
{"id": "C63", "title": "Threads of an evaluation share memory safely", "statement": "While biggus.ndarrays()/masked_arrays() evaluates arrays with its threads, the arrays handed from thread to thread are shared, not copied. Under every schedule: an array that has been handed over is never changed afterwards; no two threads write to the same array; nothing that existed before the call is changed; the arrays returned are new and distinct, and are not changed by threads still running after the call has returned; and all results are those of threads that exchange values.", "quantifier": "all expression graphs (with objects shared in any way), requests, chunk sizes, operations, contents of memory, and all schedules of the threads", "why_tests_cant": "data races depend on the schedule; a test sees one interleaving, and shared chunks that are overwritten late may go unnoticed", "anchors": ["biggus/_init.py: Node.output (112-120), ConsumerNode.run (253-278), NdarrayNode (302-334), AllThreadedEngine._evaluate_group (387-424)", "biggus/_init.py: _AggregationStreamsHandler.process_chunks (2275-2293) and the handlers (2296-2609)"]}
{"id": "C64", "title": "Aggregations operation by operation, in any arithmetic", "statement": "Evaluating an expression of elementwise operations and sums, means, minima, maxima, counts, standard deviations and variances of arrays gives, element for element, the values of fixed formulas: the blocks of the axis that MAX_CHUNK_SIZE and the shape determine, the NumPy result of each block, and the exact sequence of operations that combines them. This needs no law of arithmetic, so it holds for floating point to the last bit; the results do not depend on the schedule of the threads or on the content of fresh memory, but they do depend on MAX_CHUNK_SIZE.", "quantifier": "all arithmetics (any addition, multiplication, comparison ..., associative or not), all expressions of elementwise operations and aggregations over readable sources, shapes, axes, contents with and without masks, chunk limits, initial contents of memory and schedules", "why_tests_cant": "bitwise reproducibility is a statement about every schedule and every shape; tests compare with a tolerance, which hides the order of operations", "anchors": ["biggus/_init.py: _all_slices_inner (2120-2159), ProducerNode.chunk_index_gen (160-187), the handlers (2200-2609), _Aggregation (2622-2676)"]}
{"id": "C65", "title": "Accuracy of sums and means with rounded arithmetic", "statement": "If additions and divisions have a relative error of at most u, the sum along an axis differs from the exact sum by at most ((1+u)^(h+c) - 1) times the sum of the absolute values, where c is the number of chunks along the axis and h the number of additions any element goes through in NumPy's sum of one chunk, in whatever order NumPy adds; a mean has one more rounding. Results with different MAX_CHUNK_SIZE differ by no more than the two errors.", "quantifier": "all rounded arithmetics with relative error u, all orders of summation within a chunk, expressions, shapes, axes, contents, masks and chunk limits", "why_tests_cant": "an error bound ranges over all inputs; tests use data for which errors are small and compare with a tolerance chosen by hand", "anchors": ["biggus/_init.py: _SumStreamsHandler, _SumMaskedStreamsHandler, _MeanStreamsHandler, _MeanMaskedStreamsHandler (2375-2500)", "biggus/_init.py: MAX_CHUNK_SIZE (2113), _all_slices_inner (2120-2159)"]}
{"id": "C66", "title": "Streaming in bounded memory", "statement": "While an expression is evaluated, no queue ever holds more than three messages, no chunk in a queue or in the hands of a thread has more than MAX_CHUNK_SIZE elements (one, if MAX_CHUNK_SIZE is less), the arrays in which aggregations accumulate are no larger either, and there are at most ten chunks per array object of the expression and requested result. So the memory in flight does not depend on the sizes of the arrays (of which none may have a dimension of length zero).", "quantifier": "all expression graphs (shared objects, misaligned and repeated operands included), several results at once, array sizes, chunk limits, realisations of the sources (also failing ones), schedules and moments", "why_tests_cant": "peak memory is a statement about every intermediate state of every interleaving and about arrays of every size, larger than any test can afford", "anchors": ["biggus/_init.py: ConsumerNode.add_input_nodes (Queue(maxsize=3)), ProducerNode.run, ConsumerNode.run (138-278)", "biggus/_init.py: MAX_CHUNK_SIZE (2113), _all_slices_inner (2120-2159), _AggregationStreamsHandler (2200-2300)"]}
{"id": "C67", "title": "One pass over the data", "statement": "While expressions over a source are evaluated, in one call, each element of the wrapped arrays (a NumPy array, a netCDF variable, ...) behind that source is read at most once, however many operations and requested results use the source, and exactly once by the time the results are returned. ndarray(), masked_array() and save of the source alone read each element exactly once too. The source may be put together from wrapped arrays by adding axes, transposing, changing dtype, masking, stacking and concatenating. (Not so for broadcast sources, nor for a NumpyArrayAdapter that was indexed before.)", "quantifier": "all expression graphs, several results at once, ways of putting a source together, array sizes, chunk limits, schedules and moments of the evaluation", "why_tests_cant": "tests look at results, not at what is read; how often an element is read depends on how chunk keys, mosaics and adapters' keys combine for every shape and chunk limit, and on the schedule", "anchors": ["biggus/_init.py: ProducerNode.chunk_index_gen, ProducerNode.run (138-204), AllThreadedEngine._make_node (369-385)", "biggus/_init.py: NumpyArrayAdapter._apply_keys (1506-1545), OrthoArrayAdapter._apply_keys (1572-1574), _remap_new_key (1382-1421)", "biggus/_init.py: LinearMosaic._getitem_full_keys (1976-2054), save (2162-2196)"]}
{"id": "C68", "title": "Iterating over an array", "statement": "for row in a, list(a) and unpacking visit the rows a[0], a[1], ... of an array with at least one dimension, each exactly once and in order, and then stop; the rows realise to the rows of the realised array. An array without dimensions cannot be iterated over (TypeError, as in NumPy).", "quantifier": "all array expressions with any number of rows; all lengths of waiting", "why_tests_cant": "an iteration ends only if the first index past the end raises IndexError on that class of array, nested in any way; that an iteration never ends cannot be observed by a test at all", "anchors": ["biggus/_init.py: Array (449-665: __getitem__ without __iter__ and __len__), Array.__getitem__ (508-520)", "biggus/_init.py: ConstantArray.__getitem__ (1244-1248), BroadcastArray._getitem_full_keys (915-964), LinearMosaic._getitem_full_keys (1976-2054)"]}
{"id": "C69", "title": "Filling a masked result gives the plain result", "statement": "a.masked_array().filled() equals a.ndarray(), and likewise biggus.masked_arrays(a)[0].filled() equals biggus.ndarrays([a])[0]: the fill value the masked result carries is the one the masked elements are given when a plain array is asked for.", "quantifier": "all array expressions over sources with any masks and fill values", "why_tests_cant": "the fill value a result carries depends on every class between the sources and the result, nested in any way, and a wrong one shows only on masked elements of sources with a fill value of their own", "anchors": ["biggus/_init.py: masked_array of NewAxesArray (859-861), BroadcastArray (1110-1118), AsDataTypeArray (1155-1157), MaskValueArray (1179-1181), ConstantArray (1255-1258), _ArrayAdapter (1484-1491), TransposedArray (1711-1715), ArrayStack (1829-1836), LinearMosaic (2067-2079)", "biggus/_init.py: NdarrayNode.__init__ (312-317), fill_value (481-484, 1333-1337, 1791-1793, 1963-1965)"]}
{"id": "C70", "title": "The module's elementwise functions are NumPy's", "statement": "Importing biggus binds each of the wrapped names (negative ... trunc; add ... fmod) once. biggus.f(a) and biggus.f(a, b) give a lazy array whose ndarray() is np.f of the elements and whose masked_array() is np.ma's function of that name, for sub np.subtract; where np.ma has none, masked_array() raises TypeError. A wrong number of arguments, or an operand that is no array or number, raises TypeError; shapes that do not broadcast raise ValueError. Wrapping what is no ufunc raises TypeError, and a ufunc with other numbers of inputs or outputs ValueError.", "quantifier": "every wrapped name, every contents of the modules np and np.ma with NumPy's documented numbers of arguments, all operand arrays", "why_tests_cant": "the table has seventy entries, each free to name the wrong function, arity or masked form, and the values must agree for all arrays", "anchors": ["biggus/_init.py: _unary_fn_wrapper, _dual_input_fn_wrapper, _ufunc_wrapper (3052-3102)", "biggus/_init.py: the wrapped functions (3105-3195)", "biggus/_init.py: _Elementwise.__init__ (2945-2996)"]}
{"id": "C71", "title": "Results have the dtype the array reports", "statement": "The NumPy array returned by a.ndarray(), a.masked_array(), biggus.ndarrays([a]) or biggus.masked_arrays([a]) has dtype a.dtype.", "quantifier": "all array expressions, however built, in both forms and both ways of evaluation", "why_tests_cant": "each class takes its result's dtype from another place (the source, the operation, the property), nested in any way; the exceptions depend on single masked elements and on Python numbers", "anchors": ["biggus/_init.py: ndarray and masked_array of every class (716-726, 855-861, 1105-1118, 1151-1157, 1179-1181, 1250-1258, 1473-1491, 1707-1715, 1823-1836, 2053-2079, 2658-2668, 3023-3036)", "biggus/_init.py: NdarrayNode.__init__ (312-317), _Elementwise.__init__ (2945-2996)"]}
{"id": "C72", "title": "Undefined operations are refused when they are built", "statement": "An elementwise operation that NumPy does not define for the dtypes of its operands raises TypeError when it is called on the lazy arrays; once an expression has been built, neither indexing it with any keys nor evaluating it raises TypeError for that reason.", "quantifier": "all expressions a program can build, all domains of operations, all keys, both forms", "why_tests_cant": "indexing rebuilds every operation inside the expression and so asks NumPy again, with the dtypes the indexed operands have; the claim needs these to stay the same through all classes", "anchors": ["biggus/_init.py: _Elementwise.__init__ (2945-2996), _getitem_full_keys (3014-3021), ndarray, masked_array (3023-3036)", "biggus/_init.py: _ElementwiseStreamsHandler.process_chunks (2930-2933)"]}
{"id": "C73", "title": "Conversion by NumPy", "statement": "np.asarray(a) has the values of a.ndarray(); np.asarray(a, dtype) those of a.astype(dtype).ndarray(); np.ma.asarray(a) those of a.masked_array(), masks included.", "quantifier": "every array of any class, every dtype, every placement of masked elements", "why_tests_cant": "NumPy converts through __array__, so the claim ranges over every expression and every pair of casts; losing masks is silent", "anchors": ["biggus/_init.py:Array.__array__", "biggus/_init.py:Array.astype", "biggus/_init.py:AsDataTypeArray.astype"]}
{"id": "C74", "title": "A NumPy operand on the left of an operator", "statement": "x op a, with x a NumPy number, ndarray or masked array and a a biggus Array, is a lazily evaluated biggus Array with NumPy's values and masks, as a op x is.", "quantifier": "every NumPy left operand, every array of any class over any source, every operator", "why_tests_cant": "which side computes depends on the priorities of the classes the array is built from, over all nestings", "anchors": ["biggus/_init.py:Array.__radd__", "biggus/_init.py:ArrayContainer.__array_priority__", "biggus/_init.py:_ArrayAdapter.__array_priority__", "biggus/_init.py:Array.__array__"]}
{"id": "C75", "title": "Saving over a source", "statement": "save([a], [x]) leaves in x the values a had before the save, also when a itself reads x (an update in place), whatever the chunk limit.", "quantifier": "every lazy array over the target and other sources, every content of the target, every chunk limit, both forms", "why_tests_cant": "whether a piece is read before or after the positions it depends on have been overwritten depends on the shape, the chunk limit and the expression; small test arrays are a single piece, for which nothing can go wrong", "anchors": ["biggus/_init.py: save (2162-2196)", "biggus/_init.py: _all_slices_inner (2120-2159)", "biggus/_init.py: _ArrayAdapter"]}
{"id": "C76", "title": "Printing an array", "statement": "str(a) and repr(a) show the shape and dtype of a, whatever class it has: reading the numbers in the brackets after 'shape=' gives a.shape, in order, and the text after 'dtype=' is a.dtype's. What they show never depends on data.", "quantifier": "every array of every class, any shape and dtype", "why_tests_cant": "all shapes (number of digits, number of dimensions) and every nesting of wrappers, each class inheriting one of three different printing methods", "anchors": ["biggus/_init.py:Array.__str__", "biggus/_init.py:Array.__repr__", "biggus/_init.py:ArrayContainer.__repr__", "biggus/_init.py:TransposedArray.__repr__", "biggus/_init.py:size"]}
