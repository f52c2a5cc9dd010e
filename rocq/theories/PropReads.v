(** PropReads: C67, the elements of the sources are read once. *)
From Verif Require Import Base Lib PySlice Keys NDArray Arrays Chunks Handlers Realise Spec SelLemmas KeyLemmas GetBase ChunkLemmas Samples Kahn Threads ThreadSpec ThreadRun PropBounds PropThreads PropFootprint Reads ReadSpec ReadLemmas ReadOnce ReadRun.
From Coq Require Import Permutation.

(** C67: at every moment of every schedule of an evaluation, no element of a source
    has been taken twice: what the source's thread has taken so far, for all the
    operations that use the source together, can be completed to the elements the
    source consists of.  (Elements are compared as members of a list, in any type
    [V]: take numbered elements to tell equal values apart.) *)
Theorem C67_once {V} (O : numops V) maxc garbage rz m dag roots net s i a n l :
  dag_ok dag roots -> typed O dag -> network O maxc garbage rz m dag roots = Ok net -> reached net dag roots s ->
  nth_error dag i = Some (EArr a) -> nth_error net i = Some n -> nth_error (fst s) i = Some l -> wf a -> layout false 0 a ->
  exists taken rest, taken_by a (asked n l) = Ok taken /\ Permutation (taken ++ rest) (parts a).
Proof.
  intros D HT HN [n0 Hs] He En El Hw Hl.
  destruct (source_once O maxc garbage rz m dag roots D HT net HN bounded s n0 Hs i a n l He En El Hw Hl) as (tk & rest & H1 & H2 & _). eauto.
Qed.
(** When the evaluation has returned results, every element of every source it
    needed has been taken exactly once. *)
Theorem C67_all {V} (O : numops V) maxc garbage rz m dag roots net s ds i o a :
  dag_ok dag roots -> typed O dag -> consistent O dag roots -> balanced O maxc dag roots ->
  network O maxc garbage rz m dag roots = Ok net -> reached net dag roots s -> returned O garbage dag roots s = Ok ds ->
  nth_error dag i = Some (EArr a) -> wants O dag roots i o -> wf a -> layout false 0 a ->
  exists n l taken, nth_error net i = Some n /\ nth_error (fst s) i = Some l
    /\ taken_by a (asked n l) = Ok taken /\ Permutation taken (parts a).
Proof.
  intros D HT CS BL HN [n0 Hs] HR He HWt Hw Hl.
  destruct (all_normal O maxc garbage rz m dag roots D CS BL net HN bounded s n0 Hs ds HR i o HWt) as (n & l & h & g & En & El & Ec & Hc).
  destruct (source_once O maxc garbage rz m dag roots D HT net HN bounded s n0 Hs i a n l He En El Hw Hl) as (tk & rest & H1 & H2 & H3).
  exists n, l, tk. rewrite (H3 Hc h g Ec), app_nil_r in H2. auto.
Qed.
(** [ndarray()] and [masked_array()] of such an array itself take each element once. *)
Theorem C67_direct {V} ints n (a : @barr V) : wf a -> layout ints n a -> reads a = Ok (parts a).
Proof. intros Hw Hl. apply reads_parts; auto. eapply layout_thrift; eauto. Qed.
(** So does [save]. *)
Theorem C67_save {V} (O : numops V) maxc (a : @barr V) : wf a -> layout true 0 a ->
  exists taken, taken_by a (save_keys maxc (shape a)) = Ok taken /\ Permutation taken (parts a).
Proof. intros. apply (saved_taken O true maxc a); auto. Qed.
(** What a wrapped array consists of: all its elements. *)
Theorem C67_source {V} o (c : @concrete V) : parts (AAdapt o c []) = elements (mkND (c_shape c) (c_cell c)).
Proof.
  cbn [parts]. apply elements_eq. unfold oindex. cbn [nshape]. unfold oselect, np_expand. cbn.
  rewrite Nat.sub_0_r. rewrite sel_keys_repeat_full. apply nd_sel_full.
Qed.

(** A broadcast array is read again for every chunk that needs it: [x] of one row,
    stretched to four rows, in chunks of three elements. *)
Theorem C67_broadcast_refuted : exists (a : @barr Z) order taken, wf a /\ perm order (ndim a)
  /\ taken_by a (chunk_index_gen 3 (shape a) order) = Ok taken
  /\ parts a = [Some 0%Z; Some 1%Z; Some 2%Z] /\ length taken = 12.
Proof.
  exists (ABcast (arr [1; 3]) [(0, 4)] []), [0; 1].
  eexists. split; [unfold arr; wfs|]. split; [vm_compute; repeat constructor; cbn; intuition congruence|]. split; [vm_compute; reflexivity|]. split; vm_compute; reflexivity.
Qed.
(** A NumpyArrayAdapter that was indexed before: [x[0:4, 0:4]] of six by six, in chunks
    of four elements, reads all of [x] for every chunk. *)
Theorem C67_sliced_refuted : exists (a b : @barr Z) order taken, a = arr [6; 6] /\ getitem a [S3 0 4 1; S3 0 4 1] = Ok b /\ wf b /\ perm order (ndim b)
  /\ taken_by b (chunk_index_gen 4 (shape b) order) = Ok taken
  /\ length (parts b) = 16 /\ taken = flat_map (fun _ => elements (mkND [6; 6] (c_cell (numbered [6; 6])))) (seq 0 4).
Proof.
  exists (arr [6; 6]). eexists. exists [0; 1]. eexists. split; [reflexivity|]. split; [vm_compute; reflexivity|].
  split; [unfold arr; wfs|]. split; [vm_compute; repeat constructor; cbn; intuition congruence|]. split; [vm_compute; reflexivity|]. split; vm_compute; reflexivity.
Qed.

(** ** The hypotheses are met *)
(** [ndarrays([sum(x, axis=0), -x])] as in C66_moment, after fifteen steps: [x] is
    used twice, its first four rows have been read. *)
Example C67_moment : typed z_ops tall /\ wf (arr [7; 3]) /\ layout false 0 (arr [7; 3])
  /\ exists n l, nth_error (znet 3 false tall [1; 2]) 0 = Some n /\ nth_error (fst (zat 15 3 false tall [1; 2])) 0 = Some l
  /\ length (asked n l) = 4.
Proof.
  split; [intros i e He; destruct i as [|[|[|i]]]; cbn in He; try (injection He as <-; cbn; auto; lia); destruct i; discriminate|].
  split; [unfold arr; wfs|]. split; [cbn; repeat constructor; lia|].
  eexists. eexists. split; [vm_compute; reflexivity|]. split; [vm_compute; reflexivity|]. vm_compute. reflexivity.
Qed.
(** [ndarrays([-x, sum(x + x, axis=1)])] where [x] is a mosaic of a mosaic and a
    transposed array: used three times, read once. *)
Definition quilt3 : @barr Z := AMosaic [AMosaic [oarr [3; 4]; oarr [2; 4]] 0; ATrans (arr [4; 4]) [1; 0]] 0.
Definition thrice : list (@entry Z) := [EArr quilt3; EEl1 zneg1 0 0; EEl2 zadd2 0 0 0; EAgg GSum 2 1 0].
Definition thrice_orders := [(1, [0; 1]); (3, [0]); (0, [0; 1]); (2, [0; 1])].
Example C67_case : exists net ds, let s := zend 4 false thrice [1; 3] in
  dag_ok thrice [1; 3] /\ typed z_ops thrice /\ consistent z_ops thrice [1; 3] /\ balanced z_ops 4 thrice [1; 3]
  /\ network z_ops 4 filler (zrz 4 false) false thrice [1; 3] = Ok net /\ reached net thrice [1; 3] s
  /\ returned z_ops filler thrice [1; 3] s = Ok ds /\ wants z_ops thrice [1; 3] 0 [0; 1] /\ wf quilt3 /\ layout false 0 quilt3
  /\ length (parts quilt3) = 36.
Proof.
  exists (znet 4 false thrice [1; 3]). eexists. cbv zeta.
  split; [apply dag_check; vm_compute; reflexivity|].
  split; [intros i e He; destruct i as [|[|[|[|i]]]]; cbn in He; try (injection He as <-; cbn; auto; lia); destruct i; discriminate|].
  split; [apply (consistent_check z_ops thrice [1; 3] thrice_orders); vm_compute; reflexivity|].
  split; [apply (balanced_check z_ops 4 thrice [1; 3] thrice_orders); vm_compute; reflexivity|].
  split; [apply znet_ok; vm_compute; reflexivity|]. split; [apply run_steps|].
  split; [vm_compute; reflexivity|].
  split; [apply (wants_src z_ops thrice [1; 3] 1 [0; 1] (EEl1 zneg1 0 0) 0 (wants_root z_ops thrice [1; 3] 1 (or_introl eq_refl)) eq_refl (or_introl eq_refl))|].
  split; [unfold quilt3, arr, oarr; wfs|]. split; [cbn; repeat (constructor; auto)|]. vm_compute. reflexivity.
Qed.
Example C67_save_case : wf (AMosaic [arr [3; 4]; arr [2; 4]] 0) /\ layout true 0 (AMosaic [arr [3; 4]; arr [2; 4]] 0)
  /\ length (save_keys 2 [5; 4]) = 10 /\ existsb (existsb is_scalar) (save_keys 2 [5; 4]) = true.
Proof. split; [unfold arr; wfs|]. split; [cbn; repeat first [apply conj | apply Forall_cons | apply Forall_nil | exact I | lia | (vm_compute; lia) | (right; solve [auto 6])]|]. split; vm_compute; reflexivity. Qed.
Print Assumptions C67_once.
Print Assumptions C67_all.
Print Assumptions C67_direct.
Print Assumptions C67_save.
Print Assumptions C67_source.
Print Assumptions C67_broadcast_refuted.
Print Assumptions C67_sliced_refuted.
