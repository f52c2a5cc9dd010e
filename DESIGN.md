# Formal model of SciTools/biggus in Rocq (Coq 8.16.1)

## Approach

The model is an executable Gallina re-reading of `/repo/biggus/_init.py`,
`/repo/biggus/experimental/key_grouper.py` and
`/repo/biggus/experimental/dask_engine.py`, function by function and branch by
branch, with Python exceptions as values of an error type (`res A := Ok a | Err e`).
Arrays of unbounded rank and size are `{| nshape : list nat ; nget : list nat -> W |}`,
compared on all in-bounds indices (`nd_eq`).  NumPy itself is external: the pieces
the code calls are modelled by executable functions in `NDArray.v` and are part of
the trusted base.

Values: an array cell is `option V` (`None` = masked); `V` and the arithmetic on it
(`numops V`) are universally quantified.  Laws such as associativity of `+` are
hypotheses visible in the statements; std/var are proved over Coq's reals `R`.

### Files (under `rocq/theories/`, in build order)

Model (every definition cites the lines it models):

| file | models |
|------|--------|
| `Base`, `PySlice` | errors, monad; CPython `slice.indices` and `range` |
| `Keys` | key kinds, `_full_keys`, `_sliced_shape` |
| `NDArray` | NumPy: basic and 1-D advanced indexing, `take`, item assignment, broadcasting, `ndindex` |
| `Arrays` | the array classes as a datatype `barr`; constructors and their checks, `.shape`, `.dtype`, `.fill_value`, `__getitem__` |
| `Chunks` | `_all_slices_inner`, `chunk_index_gen` |
| `Handlers` | the streams handlers of count, min, max, sum, mean, std, var, unmasked and masked |
| `Realise` | `ndarray()`/`masked_array()` of every class, the streaming engine in sequential form, `save` |
| `MaskKinds` | `Realise` again, with the kind of mask (none, `nomask`, a mask array) and the class of dtype, the errors they cause in sums and means, and `ArrayContainer`'s `except AttributeError` |
| `Small` | the aggregation functions and `_normalise_axis`, operator methods, `multidim_array_stack`, `size`, `nbytes`, stack assignment, axes of a transposition, integer accumulators |
| `Objects` | array objects in memory: stacks, object arrays, sources; deep copy |
| `Kahn`, `Threads` | the threaded engine: nodes, threads, bounded queues, any interleaving |
| `Reads` | what adapters take from the concrete arrays they wrap |
| `Iter` | iteration by Python's sequence protocol |
| `Ufuncs` | `_unary_fn_wrapper`, `_dual_input_fn_wrapper`, `_ufunc_wrapper`, the table of wrapped functions (3052-3195) |
| `ResultType` | the dtype of the arrays returned by `ndarray()`, `masked_array()`, `ndarrays` and `masked_arrays` |
| `Probe` | operations defined for some dtypes only: the probe of `_Elementwise.__init__`, indexing and evaluating |
| `NumpyLeft` | `Array.__array__`, `__array_priority__`, and NumPy's dispatch of operators with a NumPy left operand |
| `SaveIn` | `save` when its target is a source of the saved array |
| `ResultFill` | the fill value carried by the results of `masked_array()` and `masked_arrays` |
| `Memory` | evaluation and `save` on buffers and views; handlers that update in place |
| `MemThreads` | the threaded engine on memory the threads share |
| `KeyGrouper` | `normalize_slice`, `dimension_group_to_lowest_common`, `group_keys` |
| `Dask` | the dask task graph and its execution in any order |

Specification (small, models nothing): `Spec` (orthogonal selection, NumPy key
expansion, concatenation, broadcasting, whole-axis aggregates, `den`: the array an
expression denotes), `Supported`, `Realisable`, `Steady` (the conditions under which
the partial claims hold), `Built` (the arrays a program can come to hold), `Programs` (biggus calls beside the NumPy calls they stand for), `Skeleton`, `ThreadSpec`, `GroupSpec`, and the definitions
at the head of `BoundClaims`, `EllClaims`, `ChunkClaims`, `Compose` (`streams`: expressions the engine can stream),
`PropSources` (`over`), `ExactSpec` (aggregations operation by operation), the head of `Rounding`, `FootSpec` (memory in flight), and `ReadSpec` (the elements an array consists of, the blocks asked for so far).

`realise` carries a fuel that bounds the nesting of engine evaluations.  `Fuel`
proves that it is only a device: a result obtained with some fuel is the result
with any larger fuel (`realise_more`), and with fuel equal to the nesting of the
expression the outcome, an error included, no longer changes (`realise_enough`).

Proofs: `Sound`, `*Lemmas`, `Get*`, `*OK`, `*Claims`, `Net*`, `Thread*`, `Group*`.

Theorems: the files `Prop*.v` hold the property theorems, each followed by
`Print Assumptions`, with `Example`s that show a concrete case meeting the
hypotheses.  Where the code violates a property there is a theorem `*_refuted` with
a witness (found by reading the code, and a defect of the code, not of the model),
next to `*_partial` theorems for the widest class on which the property was proved.

## Per property

| id | modelled | how it is proved |
|----|----------|------------------|
| C01, C50 | `_full_keys` (while loop, both ends) | induction on the key list; equality with `np_expand` resp. `ell_at` |
| C02 | `_sliced_shape`, `slice.indices` | per-key case analysis against `sel_shape` |
| C03 | adapter remap/cleanup | induction over the list of key tuples, composition of selections; exact outcome for NumpyArrayAdapter from C04_outcome (invariant: after two indexings only integers and tuples are stored) |
| C04 | `_apply_keys`, NumPy `__getitem__`/`take` | `np_index`/`np_take` lemmas; the outcome by cases on where the integers and tuples stand (`C04_outcome`); refuted for an integer and a tuple separated by a slice |
| C05 | Ortho `_apply_keys` | direct |
| C06, C52 | `TransposedArray` | permutation lemmas; indexing relative to the source's own (`SwapClaims`); negative axes refuted |
| C07 | `NewAxesArray` | induction over keys; refuted for an integer before a non-trivial key on a new axis; exact outcome of every key tuple (C07_outcome, PropNewax.v) |
| C08, C09 | `BroadcastArray` | induction over keys and dimensions; exactly which constructions are accepted, and their result (C08_accepts, C08_again, PropBcast.v); refuted with leading shapes; exact outcome of every key tuple (C08_index_outcome, PropStretch.v) |
| C10 | `ArrayStack` | partial (at most one sequence on the stack dimensions); refuted otherwise; exact outcome of every key tuple (C10_outcome, PropStack.v) |
| C11, C12 | `LinearMosaic` | running-sum/searchsorted lemmas; refuted for negative positions and steps; exact outcome of those keys by rewriting the plan (`PropMosaic.v`), and of every sequence by cutting it into runs read from one tile (`PropTiles.v`) |
| C13 | `ConstantArray` | direct |
| C14, C16, C33, C34, C41, C42 | whole expression datatype | structural induction with nested lists; `steady` removes the conditions on intermediate results |
| C15 | cleanup/remap, all classes | iff for adapters; per-dimension `checked`; refuted for constants, leading dimensions, mosaics |
| C17 | expressions without their data (`Skeleton`) | commutation of indexing with forgetting the data |
| C18, C19, C20 | `_all_slices_inner`, `chunk_index_gen`, `save` | induction on the shape |
| C55 | `save` as a loop that may stop (`SaveLoop`) | invariant: written pieces right, rest untouched |
| C21-C26 | handlers folded over chunks | invariant of each fold, over any array whose blocks read right (`Compose`); min/max/std/var: exactly what is computed when the axis is split |
| C56 | `MaskKinds`: mask kinds and dtype classes in the handlers | agreement with `Realise` by induction over streamed expressions; exact condition for sums of a source; refuted for sources without mask, counts, booleans, unsigned means |
| C57 | `MaskKinds`: `ArrayContainer` catching AttributeError | induction over arrays: exactly where AttributeError arises; refuted: the wrapper returns ndarray()'s values |
| C58 | `getitem` (as C14), without assuming which keys are implemented | `Sound`: induction over the expression from the fact that the call returned; excluded calls (`safe_keys`) each refuted by a silent wrong result |
| C59 | `Programs`: public calls side by side with the NumPy calls they stand for (`program a M`) | `ProgramClaims`: induction over the program, each call by the class's theorem (C07-C13, C58) and congruence of the NumPy operation; then realisation (C14) and the threads (C28) |
| C60 | the two forms `den false`/`den true` of every class; `MaskSpec`: `never_masked`, `rearranged`, `filled` | `MaskAgree`: one induction for a relation between the cells of the two forms (equal and unmasked; filled), each class preserving it; then realisation (C14). Counterexamples by computation |
| C61 | evaluation on memory (`Memory.v`): handlers with in-place updates, views, chunks, results, `save` | `MemLemmas`, `MemReal`: each handler on memory simulates the handler without memory and writes only above a base location; so do streams, storing and realisation, for every heap; then induction over histories |
| C62 | the locations of results; `MemSpec.shared`: when a result is a view of a source | induction on the array for `mrealise`, freshness of stored results for the engine |
| C63 | the threaded engine on shared memory (`MemThreads.v`) | ownership invariant (`MemNet.inv`: whose memory, nobody's memory is never written), proved step by step for every kind of node (`MemNodes`); a bisimulation with the threads on values (`MemRun`) |
| C64 | aggregations with the operations of `V` uninterpreted (no laws); `ExactSpec.v` gives the blocks of an axis and the formulas | every handler folds its formula (`Exact.exact_run`); the engine hands it these blocks (`Compose.streams`); schedules by C28/C29 |
| C65 | the same over the reals with rounded addition and division (`Rounding.v`); np.sum is any order and grouping of additions | induction on the tree of additions, then on the chunks |
| C66 | the threaded network of C28-C31; `FootSpec.v` says which chunks queues and local variables refer to | every chunk of a node is a slab of its array within the limit, by induction along the queues; slabs are closed under removing an axis and broadcasting |
| C67 | `Reads.v`: the calls of `concrete.__getitem__` of every block; the threaded network says which blocks have been computed | blocks of such sources keep at most one tuple among a NumpyArrayAdapter's keys, so take exactly what they keep; the block keys partition the positions (C17), so what they take is a permutation of the source's elements; a prefix of the keys takes a part of it |
| C68 | `Iter.v`: Python's iteration protocol over `__getitem__`, with the observer's patience as fuel | rows from C14, the end from C15; never-ending ones because on some dimensions the result does not depend on the index |
| C69 | `ResultFill.v`: the fill value of each class's masked result; `FillSpec`: `faithful` | the relation of C60 between the two forms, with the fill value changing from class to class; for broadcasts and the engine an equivalence. Counterexamples by computation |
| C70 | `Ufuncs.v`: the wrappers and the table, over any `np` and `np.ma` | the table is checked against the names, numbers of arguments and masked forms NumPy documents; values by C27 |
| C71 | `ResultType.v`: the dtype of each class's result | structural induction to the array at the bottom of the views; an equivalence (`C71_exact`), with C44's invariant for built arrays. Counterexamples by computation |
| C72 | `Probe.v`: operations with a domain of dtypes | an invariant (every operation reports NumPy's dtype and is defined) kept by every constructor and by indexing. Counterexample by computation |
| C73 | `NumpyLeft.v`: `__array__` as called by np.asarray and np.ma.asarray | equations with `realise` of the astype array; C60's relation of the two forms for masks. Counterexamples by computation |
| C74 | `NumpyLeft.v`: priorities of sources and wrappers, NumPy's rule for giving way | induction on the wrappers (`reaches`), then C09 for the lazy branch and NumPy's broadcasting for the eager one. Counterexample by computation |
| C75 | `SaveIn.v`: the loop of `save` with the array a function of the target's present content | invariant of the loop (induction on the pieces), with the partition of C18/C20; then elementwise trees through C27. Counterexamples by computation (a reversed target, a target minus its sum) |
| C76 | `Text.v`: the strings of `str`, `repr` and `size`, with CPython's decimal printing | a reader of decimal numbers written independently of the printer; induction on the digits, the shape and the wrappers |
| C27 | lock-step zip of chunk streams | unconditional at the root; alignment of cuts inside; refuted for misaligned cuts |
| C28-C30 | small-step network with queues of size 3; one thread going through the graph node by node (`OneThread`) | Kahn prefix invariant, failures included (`NetDen`); progress measure; the outcome is the single thread's for every graph; no-deadlock refuted for shared graphs, proved without sharing, for shared objects in at most three chunks (`NetSmall`, `ThreadSmall`: ordering by age, every queue can take all of a shared stream) and for operands cut at the same places (`ThreadClock`: a common clock read off the keys) |
| C31, C32 | node cache | consistent graphs equal separate evaluation; refuted for two orders |
| C35 | aggregation functions | case analysis |
| C36 | recursive subdivision | induction on the shape |
| C37-C39, C51 | key_grouper | loop invariant over cut points, exact count of the passes; normalize_slice refuted for out-of-range stops and some negative steps, with the exact condition for steps of either sign |
| C40, C47 | constructors | list induction |
| C43 | operator methods | direct on the model of each method; exact in PropBcast.v (C43_exact) |
| C44 | dtype computation | invariant over all histories of constructors and indexing (`Built`), any keys; iff for Python scalars |
| C54 | `.fill_value` of every class | the same invariant; refuted for mixed stacks and newaxis |
| C45 | wrapping arithmetic over any chunks, masked and unmasked | exact: the sum is the wrapped sum, the mean is right iff the sum fits; the masked counter refuted by computation |
| C46 | `nbytes`, `size`, the printed text (`Text.v`) | modular arithmetic, exact; the text by reading it back |
| C48 | stacks in a heap | invariants over histories |
| C53 | objects with identity, `__deepcopy__` with its memo | invariant of the memo; frame property of reachable locations |
| C49 | dask graph, any task order | invariant of the graph builder; refuted for misaligned cuts and more than 9999 pieces |

## Trusted base

* Coq 8.16.1's kernel (with its `vm_compute`), `coqc` and the standard library.
* Axioms, as listed by `Print Assumptions` after each theorem: theorems over the
  reals (all names with `std`, `var`, `reals`, and C23-C24, C65) use the standard
  library's `ClassicalDedekindReals.sig_not_dec`,
  `ClassicalDedekindReals.sig_forall_dec` and
  `FunctionalExtensionality.functional_extensionality_dep`.  Every other theorem is
  closed under the global context.  The development adds no axiom.
* The reading of the Python code into Gallina: the code was not run.  Each
  definition cites its lines so that this can be checked.
* The model of NumPy (1.13-1.18: they accept indexing by a list of slices, as in
  `data[indices]`, and do not convert the Arrays in a list given to
  `np.array(..., dtype='O')`) in `NDArray.v` and at the top of `Realise.v`, and of
  CPython's slices in `PySlice.v`.

### What the model abstracts

* The operations on elements are parameters (`numops V`), in the order in which the
  code applies them; `vsum` is np.sum of a list of values in NumPy's own order.
  Sums and means (C21, C25, C26) assume the laws of exact arithmetic (`laws`), which
  doubles break (`double_no_laws`); minima and maxima (C22) assume only that minimum
  and maximum associate (`orders`), which IEEE doubles do, NaN included
  (`PropDoubles.v`: `double_orders`, C22_doubles); counts and elementwise operations
  (C21_count, C26_*_count, C27) assume nothing.  C64 assumes no law and so
  also covers floating point (rounding, NaN, infinities), C65 bounds the errors of
  sums and means.  NumPy's sum along an axis is taken to depend on the values of the
  column only, not on the shape or memory layout of the chunk around it.  The dtype of
  intermediate values is outside the model, and so is the conversion of chunks stored
  into a result (302-334): by C71 it changes nothing for operations built without
  Python numbers; the last rounding of a mean, std or var to a narrower float, and the
  narrowing of an operation with a Python number, are not represented.  dtypes are numbers with a
  cast function; integer wrap-around is treated in `Small.int_mean` and `Small.int_mean_masked` (C45) and
  `nbytes` (C46) only.
* Data hidden under a mask is not represented (`None`), so what NumPy leaves there
  is not claimed.
* In the main model (`Realise`) masked arrays carry a full mask array and totals
  accept every dtype.  Where NumPy's `nomask`, results without a `mask` attribute
  and same-kind casting make the code raise or return other values is the subject
  of the finer model `MaskKinds` (C56, C57); C56_same and C56_expressions say when
  the theorems about the main model carry over.  Which NumPy results have a mask
  array is stated there (`adapt_kind`, `el_kind`, `maskv_kind`, `store_kind`).
* np.empty gives arbitrary content: the parameter `garbage`, universally quantified.
* MAX_CHUNK_SIZE is the parameter `maxc`, universally quantified.
* Index arrays of rank other than 1 and Python objects that are not keys are not
  modelled.
* Threads: a step of a thread is one queue operation together with the local
  computation before it; `Queue.get/put` block and are atomic; queues hold 3
  messages (line 230), and every interleaving is allowed.  Python's
  thread start-up, daemon flags and memory model are not represented.
* Dask: dictionaries keep insertion order (Python 3.7), `uuid4` names do not
  collide, every task runs at most once, when its dependencies have run.
* Sharing in memory: arrays are values, except in C61 to C63 (the evaluation again,
  on buffers and views, with the results of the two models proved equal), C48 and C53
  (stacks and sources with identity) and C31 (node cache by object identity).
* Memory (`Memory.v`): data and mask of a masked array are one buffer; temporaries
  within a statement are not allocated; nodes run one after the other, stacks and
  mosaics realise all parts before storing the first; a source that is indexed gives
  a view exactly for integer and slice keys (NumPy's basic indexing).
  With threads (`MemThreads.v`), what a thread computes between two queue operations
  is one step; that these computations touch disjoint memory is C63_no_race and
  C63_chunks.

* Text (`Text.v`): the repr of a dtype and of a transposed array's axes are parameters;
  the rounding of a byte count of 2^53 or more to a double is not represented.

### Not modelled

`_normalise_keys` (unused), `Group.__repr__`, docstrings, `export`, the visualisation in dask_engine.py.

NumPy's treatment of foreign operands (C73, C74) is taken from its documentation: a
NumPy number or array gives way in `x op a` exactly when `a.__array_priority__` is
greater than its own (numbers and absent attributes -1000000, ndarray 0,
MaskedArray 15; `a` has no `__array_ufunc__`), and otherwise converts `a` by
`__array__`.
