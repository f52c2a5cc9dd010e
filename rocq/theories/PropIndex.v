(** Properties C03 - C08, C10 - C14, C16, C33, C34, C41, C42, C44: realisation of
    each kind of array and indexing.

    Reading guide.  [V], [O : numops V] are the element type and its arithmetic,
    [maxc] is MAX_CHUNK_SIZE, [garbage] the content of fresh memory, [m] chooses
    between ndarray() ([false]) and masked_array() ([true]); all are arbitrary.
    [realise O maxc garbage fuel m a = Ok d] says that realising [a] returns [d]
    ([fuel] bounds the nesting of evaluations inside evaluations).
    [oindex d keys] (Spec.v) is orthogonal indexing of a concrete array,
    [nd_eq] equality of shape and of every cell.  [supported a keys]
    (Supported.v) and [realisable] (Realisable.v) delimit the keys and arrays for
    which the code is right; the [_refuted] theorems show what happens beyond. *)
From Verif Require Import Base PySlice Keys NDArray Arrays Chunks Handlers Realise Spec Supported HandlerLemmas RealOps Realisable IndexClaims AdapterClaims ClassClaims BroadcastClaims GetItem Samples.
From Coq Require Import Reals.

Section Index.
Context {V : Type} (O : numops V).
Variable maxc : nat.
Variable garbage : list nat -> option V.
Variable m : bool.
Variable fuel : nat.
Notation realise := (realise O maxc garbage).
Notation realisable := (realisable maxc m (exact O)).
Notation usable := (usable maxc m (exact O) fuel).
Notation reads := (reads O maxc garbage m fuel).
Notation commutes := (commutes O maxc garbage m (exact O) fuel).

(** C03: any sequence of key tuples applied to an OrthoArrayAdapter selects, when
    realised as a masked array, what the same selections give one after the other
    on the source. *)
Theorem C03_ortho_sequence c kss :
  Forall (fun ks => existsb (fun k => is_mask k || is_new k) ks = false) kss -> valid_seq (source c) kss ->
  exists b d, getitems (AAdapt true c []) kss = Ok b /\ realise (S fuel) true b = Ok d
    /\ nd_eq d (nd_map (fill_cell true (src_fill O c)) (oindexes (source c) kss)).
Proof.
  intros H1 H2. exact (adapter_indexing O maxc garbage fuel true true c kss H1 H2 (or_introl eq_refl) (or_introl eq_refl)).
Qed.

(** C03 for both adapters and both ways of realising.  Missing: for a
    NumpyArrayAdapter indexed once, the stored keys must satisfy [numpy_ok]
    (no tuple separated from an integer by a slice); indexed several times, the
    selection must not be empty (C03_once and C03_again in PropAdapter.v say what
    happens then); ndarray() of a 0-dimensional masked element is excluded. *)
Theorem C03_sequence_partial o c kss :
  Forall (fun ks => existsb (fun k => is_mask k || is_new k) ks = false) kss -> valid_seq (source c) kss ->
  (o = true \/ kss = [] \/ (exists k1, kss = [k1] /\ forall ks', getitem (AAdapt o c []) k1 = Ok (AAdapt o c ks') -> numpy_ok ks')
   \/ (2 <= length kss /\ Forall (fun n => 1 <= n) (nshape (oindexes (source c) kss)))) ->
  (m = true \/ nshape (oindexes (source c) kss) <> [] \/ forall i, c_cell c i <> None) ->
  exists b d, getitems (AAdapt o c []) kss = Ok b /\ realise (S fuel) m b = Ok d
    /\ nd_eq d (nd_map (fill_cell m (src_fill O c)) (oindexes (source c) kss)).
Proof. exact (adapter_indexing O maxc garbage fuel m o c kss). Qed.

(** C04: a NumpyArrayAdapter reads the orthogonal selection of its source.
    Missing: stored keys outside [numpy_ok], and ndarray() of a 0-dimensional
    masked element. *)
Theorem C04_numpy_reads_partial c ks :
  Forall stored_key ks -> valid_keys ks (c_shape c) -> numpy_ok ks ->
  (m = true \/ shape (AAdapt false c ks) <> [] \/ forall i, c_cell c i <> None) ->
  exists d, realise (S fuel) m (AAdapt false c ks) = Ok d
    /\ nd_eq d (nd_map (fill_cell m (src_fill O c)) (oindex (source c) ks)).
Proof. intros H1 H2 H3. exact (RealiseOK.adapter_real O m false c ks H1 H2 (or_intror H3)). Qed.

(** C05: an OrthoArrayAdapter reads the orthogonal selection of its source, with
    the shape it reports. *)
Theorem C05_ortho_reads c ks : Forall stored_key ks -> valid_keys ks (c_shape c) ->
  (m = true \/ shape (AAdapt true c ks) <> [] \/ forall i, c_cell c i <> None) ->
  exists d, realise (S fuel) m (AAdapt true c ks) = Ok d
    /\ nd_eq d (nd_map (fill_cell m (src_fill O c)) (oindex (source c) ks)).
Proof. intros H1 H2. exact (RealiseOK.adapter_real O m true c ks H1 H2 (or_introl eq_refl)). Qed.

Theorem C05_ortho_shape (c : @concrete V) ks : Forall stored_key ks -> valid_keys ks (c_shape c) ->
  shape (AAdapt true c ks) = nshape (oindex (source c) ks).
Proof. intros H1 H2. symmetry. exact (GetBase.den_shape O true (AAdapt true c ks) (conj H1 H2)). Qed.

(** C06: transposition by any permutation moves every element to the permuted
    position. *)
Theorem C06_transpose a axes : usable a -> NoDup axes -> length axes = ndim a -> Forall (fun x => x < ndim a) axes ->
  exists t, mk_trans a (Some axes) = Ok t /\ usable t
    /\ exists da dt, reads a da /\ reads t dt
       /\ nshape dt = map (fun ax => nth ax (nshape da) 0) axes
       /\ forall idx, inb (nshape da) idx -> nget dt (map (fun ax => nth ax idx 0) axes) = nget da idx.
Proof. exact (trans_claim O maxc garbage m (exact O) fuel (exact_right O m) a axes). Qed.

(** C06: without axes the dimensions are reversed; a wrong number of axes is
    refused. *)
Theorem C06_default a : usable a ->
  exists t, mk_trans a None = Ok t /\ usable t
    /\ exists da dt, reads a da /\ reads t dt /\ nshape dt = rev (nshape da)
       /\ forall idx, inb (nshape da) idx -> nget dt (rev idx) = nget da idx.
Proof. exact (trans_default O maxc garbage m (exact O) fuel (exact_right O m) a). Qed.
Theorem C06_refused (a : @barr V) axes : length axes <> ndim a -> mk_trans a (Some axes) = Err ValueError.
Proof. intros H. unfold mk_trans. rewrite (proj2 (Nat.eqb_neq _ _) H). reflexivity. Qed.

(** C06: indexing a transposed array.  Missing: keys outside [supported], results
    outside [realisable]. *)
Theorem C06_transpose_index_partial a axes keys : usable (ATrans a axes) ->
  valid_keys keys (shape (ATrans a axes)) -> supported (ATrans a axes) keys ->
  (forall b, getitem (ATrans a axes) keys = Ok b -> realisable fuel b) ->
  exists b dt db, getitem (ATrans a axes) keys = Ok b /\ reads (ATrans a axes) dt /\ reads b db
    /\ nd_eq db (oindex dt keys).
Proof. intros H. exact (usable_commutes O maxc garbage m (exact O) fuel (exact_right O m) _ H keys). Qed.

(** C07: a NewAxesArray has axes of length one at the requested places ([na_i]
    of them before axis [i]) and is otherwise its source. *)
Theorem C07_newaxis a na : usable a -> length na = S (ndim a) ->
  exists b, mk_newax a na = Ok b /\ usable b
    /\ exists da db, reads a da /\ reads b db /\ nshape db = newax_layout 1 (nshape da) na
       /\ forall idx, inb (nshape da) idx -> nget db (newax_layout 0 idx na) = nget da idx.
Proof. exact (newax_claim O maxc garbage m (exact O) fuel (exact_right O m) a na). Qed.

(** C07: any sequence of key tuples, with newaxis keys anywhere, on any array.
    Missing: keys outside [supported] (such as a length-changing key on a new axis
    after an integer key), results outside [realisable]. *)
Theorem C07_index_sequence_partial a kss da : usable a -> reads a da -> valid_seq da kss -> supported_seq a kss ->
  (forall b, getitems a kss = Ok b -> realisable fuel b) ->
  exists b db, getitems a kss = Ok b /\ reads b db /\ nd_eq db (oindexes da kss).
Proof. intros [H1 H2]. exact (index_sequence O maxc garbage m (exact O) (exact_right O m) fuel a kss da H1 H2). Qed.

(** C08: a BroadcastArray has the leading dimensions, then the source's
    dimensions with those in the dictionary stretched from one; every element is
    the source's, read at 0 on the stretched dimensions.  Missing: re-broadcasting
    an array that already has broadcast leading dimensions ([nolead]). *)
Theorem C08_broadcast_partial a dict lead : usable a -> NoDup (map fst dict) ->
  Forall (fun p => fst p < ndim a /\ nth (fst p) (shape a) 0 = 1) dict -> Forall (fun n => 1 <= n) lead ->
  (dict = [] \/ nolead a) ->
  exists b, mk_bcast a dict lead = Ok b /\ usable b
    /\ exists da db, reads a da /\ reads b db
       /\ length (nshape db) = length lead + length (nshape da)
       /\ (forall i, i < length lead -> nth i (nshape db) 0 = nth i lead 0)
       /\ (forall i, i < length (nshape da) ->
             nth (length lead + i) (nshape db) 0 = match dict_find i dict with Some n => n | None => nth i (nshape da) 0 end)
       /\ forall o idx, length o = length lead -> length idx = length (nshape da) -> inb (nshape db) (o ++ idx) ->
             nget db (o ++ idx)
             = nget da (map (fun i => match dict_find i dict with Some _ => 0 | None => nth i idx 0 end) (seq 0 (length idx))).
Proof. exact (bcast_claim O maxc garbage m (exact O) fuel (exact_right O m) a dict lead). Qed.

(** C08: indexing a broadcast array.  Missing: sequence keys on a stretched
    dimension, index arrays, empty selections of leading dimensions. *)
Theorem C08_broadcast_index_partial a dict lead keys : usable (ABcast a dict lead) ->
  valid_keys keys (shape (ABcast a dict lead)) -> supported (ABcast a dict lead) keys ->
  (forall b, getitem (ABcast a dict lead) keys = Ok b -> realisable fuel b) ->
  exists b dt db, getitem (ABcast a dict lead) keys = Ok b /\ reads (ABcast a dict lead) dt /\ reads b db
    /\ nd_eq db (oindex dt keys).
Proof. intros H. exact (usable_commutes O maxc garbage m (exact O) fuel (exact_right O m) _ H keys). Qed.

(** C09: two operands are broadcast to the shape NumPy gives, cell by cell; an
    operand already of the full shape is passed through.  Both operands must be
    [broadcastable]: a BroadcastArray with leading dimensions of its own is not
    stretched, and no added leading dimension is of length zero. *)
Theorem C09_operands_partial (a b : @barr V) full : wf a -> wf b -> 
  np_bshape (shape a) (shape b) = Some full -> broadcastable a full -> broadcastable b full ->
  exists a' b', broadcast_arrays a b = Ok (a', b') /\ wf a' /\ wf b' /\ shape a' = full /\ shape b' = full
    /\ (forall m o, inb full o -> nget (den O m a') o = nget (den O m a) (bc_idx (shape a) o))
    /\ (forall m o, inb full o -> nget (den O m b') o = nget (den O m b) (bc_idx (shape b) o))
    /\ (shape a = full -> a' = a) /\ (shape b = full -> b' = b).
Proof.
  intros H1 H2 H3 H4 H5. destruct (broadcast_arrays_ok O a b full H1 H2 H4 H5 H3) as (a' & b' & H).
  exists a', b'. tauto.
Qed.

(** C09: and these conditions are exact: whenever one of the operands is not
    [broadcastable], the operands are refused or come out with a wrong shape. *)
Theorem C09_exact (a b : @barr V) full : wf a -> wf b -> np_bshape (shape a) (shape b) = Some full ->
  (exists a' b', broadcast_arrays a b = Ok (a', b') /\ shape a' = full /\ shape b' = full)
  <-> broadcastable a full /\ broadcastable b full.
Proof. exact (broadcast_arrays_iff O a b full). Qed.

(** C09: incompatible shapes are refused with ValueError. *)
Theorem C09_refused (a b : @barr V) : np_bshape (shape a) (shape b) = None -> broadcast_arrays a b = Err ValueError.
Proof. exact (broadcast_arrays_refused a b). Qed.

(** C09/C27: a binary operation on arrays of any two shapes that broadcast
    together combines, at each position of the full shape, the elements NumPy
    broadcasting pairs. *)
Theorem C09_binary_operation_partial o a b py full : usable a -> usable b ->
  np_bshape (shape a) (shape b) = Some full -> broadcastable a full -> broadcastable b full ->
  (forall e, mk_el2 o a b py = Ok e -> realisable fuel e) ->
  exists e da db r, mk_el2 o a b py = Ok e /\ reads a da /\ reads b db /\ reads e r /\ nshape r = full
    /\ forall i, inb full i -> nget r i = op2_sem m o (nget da (bc_idx (nshape da) i)) (nget db (bc_idx (nshape db) i)).
Proof. intros H1 H2 H3 H4 H5. exact (mk_el2_claim O maxc garbage m (exact O) fuel (exact_right O m) o a b py full H1 H2 H4 H5 H3). Qed.

(** C10: stacking equally shaped and typed arrays ([items], in C order of the
    stack shape [ssh]): shape [ssh + item shape], and the item at stack index [i]
    is found at [result[i]]. *)
Theorem C10_stack ssh items it0 : length items = prodn ssh -> Forall usable items -> Forall dt_stable items ->
  In it0 items -> Forall (fun it => shape it = shape it0 /\ dtype it = dtype it0) items ->
  exists st, mk_stack ssh items = Ok st /\ usable st
    /\ exists ds d, Forall2 reads items ds /\ reads st d
       /\ nshape d = ssh ++ shape it0
       /\ forall i idx d0, inb ssh i -> inb (shape it0) idx ->
            nget d (i ++ idx) = nget (nth (ravel ssh i) ds d0) idx.
Proof. exact (stack_claim O maxc garbage m (exact O) fuel (exact_right O m) ssh items it0). Qed.

(** C10: indexing a stack.  Missing: two sequence keys (or a sequence key
    separated from an integer) on the stack dimensions, empty selections of
    them. *)
Theorem C10_stack_index_partial ssh items keys : usable (AStack ssh items) ->
  valid_keys keys (shape (AStack ssh items)) -> supported (AStack ssh items) keys ->
  (forall b, getitem (AStack ssh items) keys = Ok b -> realisable fuel b) ->
  exists b dt db, getitem (AStack ssh items) keys = Ok b /\ reads (AStack ssh items) dt /\ reads b db
    /\ nd_eq db (oindex dt keys).
Proof. intros H. exact (usable_commutes O maxc garbage m (exact O) fuel (exact_right O m) _ H keys). Qed.

(** C11: a LinearMosaic realises to the concatenation of its tiles: its length
    along the axis is the sum of theirs, and the element of tile [p] at [idx] is
    found at [idx] shifted along the axis by the lengths of the tiles before.
    Tiles of length 0 included. *)
Theorem C11_mosaic tiles axis t0 : Forall usable tiles -> Forall dt_stable tiles -> In t0 tiles ->
  axis < ndim t0 ->
  Forall (fun t => ndim t = ndim t0 /\ remove_at axis (shape t) = remove_at axis (shape t0) /\ dtype t = dtype t0) tiles ->
  exists b, mk_mosaic tiles (Z.of_nat axis) = Ok b /\ usable b
    /\ exists ds d, Forall2 reads tiles ds /\ reads b d
       /\ length (nshape d) = ndim t0
       /\ remove_at axis (nshape d) = remove_at axis (shape t0)
       /\ nth axis (nshape d) 0 = list_sum (map (fun t => nth axis (nshape t) 0) ds)
       /\ forall p idx d0, p < length ds -> inb (nshape (nth p ds d0)) idx ->
            nget d (set_nth axis (list_sum (map (fun t => nth axis (nshape t) 0) (firstn p ds)) + nth axis idx 0) idx)
            = nget (nth p ds d0) idx.
Proof. exact (mosaic_claim O maxc garbage m (exact O) fuel (exact_right O m) tiles axis t0). Qed.

(** C12: indexing a mosaic.  Missing: negative positions, negative steps, masks
    and empty selections on the mosaic axis. *)
Theorem C12_mosaic_index_partial tiles axis keys : usable (AMosaic tiles axis) ->
  valid_keys keys (shape (AMosaic tiles axis)) -> supported (AMosaic tiles axis) keys ->
  (forall b, getitem (AMosaic tiles axis) keys = Ok b -> realisable fuel b) ->
  exists b dt db, getitem (AMosaic tiles axis) keys = Ok b /\ reads (AMosaic tiles axis) dt /\ reads b db
    /\ nd_eq db (oindex dt keys).
Proof. intros H. exact (usable_commutes O maxc garbage m (exact O) fuel (exact_right O m) _ H keys). Qed.

(** C13: a constant array realises to its value everywhere, and every valid key
    tuple gives the constant array of the orthogonal shape (lists as keys are
    refused by the code, see C02). *)
Theorem C13_constant sh v d keys s : fuel <> 0 -> oselect keys sh = Some s -> existsb is_list keys = false ->
  reads (AConst sh v d) (mkND sh (fun _ => Some v))
  /\ getitem (AConst sh v d) keys = Ok (AConst (sel_shape s) v d).
Proof. exact (const_claim O maxc garbage m fuel sh v d keys s). Qed.

(** C14: for any expression nested to any depth, indexing then realising equals
    realising then indexing orthogonally.  Missing: keys outside [supported] and
    arrays outside [realisable], each with a counterexample among the [_refuted]
    theorems; standard deviation and variance are in the next theorem. *)
Theorem C14_index_realise_partial a keys : wf a -> valid_keys keys (shape a) -> supported a keys ->
  realisable fuel a -> (forall b, getitem a keys = Ok b -> realisable fuel b) ->
  exists b da db, getitem a keys = Ok b /\ realise fuel m a = Ok da /\ realise fuel m b = Ok db
    /\ nd_eq db (oindex da keys).
Proof. exact (index_commutes O maxc garbage m (exact O) (exact_right O m) fuel a keys). Qed.

(** C14: the lazy part alone: for every well-formed expression and supported keys
    indexing succeeds, and what the result stands for ([den], Spec.v) is the
    orthogonal selection of what the array stands for.  Nothing is assumed about
    chunking or arithmetic. *)
Theorem C14_index_meaning (a : @barr V) keys : wf a -> valid_keys keys (shape a) -> supported a keys ->
  exists b, getitem a keys = Ok b /\ wf b /\ forall m, nd_eq (den O m b) (oindex (den O m a) keys).
Proof. intros H1 H2 H3. destruct (getitem_ok O a keys H1 H2 H3) as (b & B1 & B2 & B3 & _). exists b. tauto. Qed.

(** C16: the reported shape is the shape of the realised array. *)
Theorem C16_shape_partial a : wf a -> realisable fuel a ->
  exists d, realise fuel m a = Ok d /\ nshape d = shape a.
Proof. exact (shape_realised O maxc garbage m (exact O) (exact_right O m) fuel a). Qed.

(** C41: masked_equal masks exactly the cells that are masked already or equal
    the value, in masked_array(); ndarray() is unaffected. *)
Theorem C41_masked_equal a v : usable a ->
  usable (masked_equal a v)
  /\ exists da db, reads a da /\ reads (masked_equal a v) db /\ nshape db = nshape da
     /\ forall idx, inb (nshape da) idx ->
          nget db idx = match nget da idx with
                        | Some x => if m && veqb O x v then None else Some x
                        | None => None
                        end.
Proof. exact (masked_equal_claim O maxc garbage m (exact O) fuel (exact_right O m) a v). Qed.

(** C41: masked_equal commutes with indexing, for every array and every key tuple
    (also invalid ones: both sides fail alike). *)
Theorem C41_index (a : @barr V) v keys : getitem (masked_equal a v) keys = (b <- getitem a keys ;; Ok (masked_equal b v)).
Proof. exact eq_refl. Qed.

(** C42: astype sets the dtype, casts every cell, and a second astype replaces
    the first. *)
Theorem C42_astype a d : usable a ->
  dtype (astype a d) = d /\ (forall d', astype (astype a d') d = astype a d)
  /\ usable (AAsTy a d)
  /\ exists da db, reads a da /\ reads (AAsTy a d) db /\ nshape db = nshape da
     /\ forall idx, inb (nshape da) idx ->
          nget db idx = match nget da idx with Some v => Some (vcast O d v) | None => None end.
Proof. exact (astype_claim O maxc garbage m (exact O) fuel (exact_right O m) a d). Qed.

(** C42: indexing a cast array keeps the dtype and indexes the source. *)
Theorem C42_index (a : @barr V) d keys b : getitem (AAsTy a d) keys = Ok b ->
  dtype b = d /\ exists c, getitem a keys = Ok c /\ b = AAsTy c d.
Proof.
  cbn [getitem]. destruct (getitem a keys) as [c|e]; cbn [bind]; [|discriminate]. intros H. injection H as <-. eauto.
Qed.

(** C44: indexing keeps the dtype.  Missing: expressions in which an elementwise
    operation had a Python scalar operand ([dt_stable]). *)
Theorem C44_dtype_partial (a : @barr V) keys : wf a -> dt_stable a -> valid_keys keys (shape a) -> supported a keys ->
  exists b, getitem a keys = Ok b /\ dtype b = dtype a.
Proof.
  intros H1 H2 H3 H4. destruct (getitem_ok O a keys H1 H3 H4) as (b & E & _ & _ & T). exists b. split; [exact E|]. exact (proj2 (T H2)).
Qed.

End Index.

(** C14 and C16 over the real numbers, with standard deviations and variances as
    well ([ddof_ok]: masked, or [ddof] below the length of the axis). *)
Theorem C14_index_realise_reals_partial cast dfill dtf dti maxc garbage m fuel a keys :
  let O := real_ops cast dfill dtf dti in
  wf a -> valid_keys keys (shape a) -> supported a keys -> realisable maxc m (ddof_ok m) fuel a ->
  (forall b, getitem a keys = Ok b -> realisable maxc m (ddof_ok m) fuel b) ->
  exists b da db, getitem a keys = Ok b /\ realise O maxc garbage fuel m a = Ok da
    /\ realise O maxc garbage fuel m b = Ok db /\ nd_eq db (oindex da keys).
Proof. exact (index_commutes (real_ops cast dfill dtf dti) maxc garbage m (ddof_ok m) (right_real cast dfill dtf dti m) fuel a keys). Qed.
Theorem C16_shape_reals_partial cast dfill dtf dti maxc garbage m fuel a :
  wf a -> realisable maxc m (ddof_ok m) fuel a ->
  exists d, realise (real_ops cast dfill dtf dti) maxc garbage fuel m a = Ok d /\ nshape d = shape a.
Proof. exact (shape_realised (real_ops cast dfill dtf dti) maxc garbage m (ddof_ok m) (right_real cast dfill dtf dti m) fuel a). Qed.

Print Assumptions C03_ortho_sequence.
Print Assumptions C03_sequence_partial.
Print Assumptions C04_numpy_reads_partial.
Print Assumptions C05_ortho_reads.
Print Assumptions C05_ortho_shape.
Print Assumptions C06_transpose.
Print Assumptions C06_default.
Print Assumptions C06_refused.
Print Assumptions C06_transpose_index_partial.
Print Assumptions C07_newaxis.
Print Assumptions C07_index_sequence_partial.
Print Assumptions C08_broadcast_partial.
Print Assumptions C08_broadcast_index_partial.
Print Assumptions C09_operands_partial.
Print Assumptions C09_exact.
Print Assumptions C09_refused.
Print Assumptions C09_binary_operation_partial.
Print Assumptions C10_stack.
Print Assumptions C10_stack_index_partial.
Print Assumptions C11_mosaic.
Print Assumptions C12_mosaic_index_partial.
Print Assumptions C13_constant.
Print Assumptions C14_index_realise_partial.
Print Assumptions C14_index_meaning.
Print Assumptions C16_shape_partial.
Print Assumptions C41_masked_equal.
Print Assumptions C41_index.
Print Assumptions C42_astype.
Print Assumptions C42_index.
Print Assumptions C44_dtype_partial.
Print Assumptions C14_index_realise_reals_partial.
Print Assumptions C16_shape_reals_partial.
