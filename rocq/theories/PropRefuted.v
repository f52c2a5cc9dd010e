(** Counterexamples: for each restriction in the theorems named [_partial], an
    array and keys of the kind the property quantifies over for which the
    modelled code does something else.  All are computed by the model. *)
From Verif Require Import Base PySlice Keys NDArray Arrays Chunks Handlers Realise Spec Supported HandlerLemmas Realisable GetStack Samples Small.

Definition blank (_ : list nat) : option Z := None.
(** Indexing then realising [a] gives what realising then indexing gives; integer
    data, MAX_CHUNK_SIZE = 100. *)
Definition agrees (m : bool) (a : @barr Z) (keys : list key) : Prop :=
  exists b da db, getitem a keys = Ok b /\ realise z_ops 100 blank 3 m a = Ok da /\ realise z_ops 100 blank 3 m b = Ok db
    /\ nd_eq db (oindex da keys).
Definition before (m : bool) (a : @barr Z) keys := flat (b <- getitem a keys ;; realise z_ops 100 blank 3 m b).
Definition after (m : bool) (a : @barr Z) keys := flat (d <- realise z_ops 100 blank 3 m a ;; Ok (oindex d keys)).
Lemma agrees_flat m a keys : agrees m a keys -> before m a keys = after m a keys.
Proof.
  intros (b & da & db & E1 & E2 & E3 & [H1 H2]). unfold before, after. rewrite E1, E2. cbn [bind]. rewrite E3. cbn [bind flat].
  unfold flat. cbn [bind]. rewrite <- H1. do 2 f_equal. apply map_ext_in. intros o Ho. apply ndindex_In in Ho. auto.
Qed.
Ltac differ := intros H; apply agrees_flat in H; vm_compute in H; discriminate.
Ltac valid := vm_compute; discriminate.

(** C04: one sequence and an integer separated by a slice: NumPy moves the
    sequence's dimension to the front, and the result is transposed; shape (2, 3)
    instead of (3, 2). *)
Theorem C04_transposed_refuted : exists (c : @concrete Z) ks, Forall stored_key ks /\ valid_keys ks (c_shape c)
  /\ match realise z_ops 100 blank 3 false (AAdapt false c ks) with Ok d => nshape d = [2;3] | Err _ => False end
  /\ nshape (oindex (mkND (c_shape c) (c_cell c)) ks) = [3;2].
Proof. exists (numbered [2;3;4]), [KInt 0; KFull; KTuple [0;1]%Z]. repeat split; repeat constructor; valid. Qed.
(** C04: two sequences of which one is empty: TypeError instead of an empty
    array. *)
Theorem C04_empty_sequence_refuted : exists (c : @concrete Z) ks, Forall stored_key ks /\ valid_keys ks (c_shape c)
  /\ realise z_ops 100 blank 3 false (AAdapt false c ks) = Err TypeError.
Proof. exists (numbered [3;3]), [KTuple []; KTuple [0;1]%Z]. repeat split; repeat constructor; valid. Qed.

(** C07: on a new axis, after an integer key, a key that changes the length. *)
Theorem C07_after_integer_refuted : exists (a : @barr Z) keys, wf a /\ valid_keys keys (shape a)
  /\ getitem a keys = Err ValueError.
Proof.
  exists (ANewAx (arr [2;3]) [0;0;1]), [KInt 0; KFull; KTuple [0;0]%Z].
  split; [repeat split; try constructor; valid|]. split; [valid|reflexivity].
Qed.

(** C08: a sequence on a stretched dimension is not implemented, an index array of
    two or more elements raises ValueError, a leading dimension of length zero is
    refused, and stretching behind a leading dimension raises ValueError. *)
Theorem C08_index_refuted : exists (a : @barr Z) k1 k2, wf a /\ valid_keys k1 (shape a) /\ valid_keys k2 (shape a)
  /\ getitem a k1 = Err NotImplementedErr /\ getitem a k2 = Err ValueError.
Proof.
  exists (ABcast (arr [1;4]) [(0,3)] []), [KTuple [0;1]%Z], [KFull; KArr [0;1]%Z].
  split; [repeat split; try constructor; try constructor; cbn; try valid; intuition|]. split; [valid|]. split; [valid|]. split; reflexivity.
Qed.
Theorem C08_construct_refuted : exists (a : @barr Z), wf a /\ shape a = [1] /\ mk_bcast a [] [0] = Err ValueError
  /\ exists b, mk_bcast a [] [2] = Ok b /\ shape b = [2;1] /\ mk_bcast b [(1,3)] [] = Err ValueError.
Proof.
  exists (arr [1]). split; [split; [constructor|valid]|]. split; [reflexivity|]. split; [reflexivity|].
  eexists. split; [reflexivity|]. split; reflexivity.
Qed.

(** C09: an operand that was itself broadcast along a new leading dimension is
    combined with an array NumPy would stretch it to: the operand comes out with
    the dimensions in the wrong order, or the operation raises ValueError. *)
Theorem C09_leading_refuted : exists (a b c : @barr Z), wf a /\ wf b /\ wf c
  /\ np_bshape (shape a) (shape b) = Some [3;1]
  /\ (exists a' b', broadcast_arrays a b = Ok (a', b') /\ shape a' = [1;3])
  /\ np_bshape (shape a) (shape c) = Some [1;3] /\ broadcast_arrays a c = Err ValueError.
Proof.
  exists (ABcast (arr [1]) [] [1]), (arr [3;1]), (arr [1;3]).
  split; [repeat split; try constructor; try constructor; cbn; try valid; intuition|]. split; [split; [constructor|valid]|]. split; [split; [constructor|valid]|].
  split; [reflexivity|]. split; [eexists _, _; split; reflexivity|]. split; reflexivity.
Qed.

(** C10: two sequences on a stack, and an empty selection: IndexError. *)
Theorem C10_index_refuted : exists (a : @barr Z) k1 k2, wf a /\ valid_keys k1 (shape a) /\ valid_keys k2 (shape a)
  /\ getitem a k1 = Err IndexError /\ getitem a k2 = Err IndexError.
Proof.
  exists (AStack [2;2] [arr [3]; arr [3]; arr [3]; arr [3]]), [KTuple [0;1]%Z; KTuple [0;1]%Z], [S3 0 0 1].
  split; [repeat split; try (repeat constructor; fail); try valid|]. split; [valid|]. split; [valid|]. split; reflexivity.
Qed.

Definition mos : @barr Z := AMosaic [arr [2]; arr [3]] 0.
Lemma mos_wf : wf mos.
Proof. repeat split; try (repeat constructor; fail); try valid. Qed.
(** C12: negative integers, negative positions in sequences, negative steps,
    empty selections and boolean masks along the mosaic axis. *)
Theorem C12_negative_integer_refuted : exists (a : @barr Z) keys, wf a /\ valid_keys keys (shape a) /\ getitem a keys = Err IndexError.
Proof. exists mos, [KInt (-4)]. split; [exact mos_wf|]. split; [valid|reflexivity]. Qed.
Theorem C12_negative_sequence_refuted : exists (a : @barr Z) keys, wf a /\ valid_keys keys (shape a) /\ ~ agrees true a keys
  /\ before true a keys = Ok ([2], [Some 0; Some 0]%Z) /\ after true a keys = Ok ([2], [Some 2; Some 0]%Z).
Proof. exists mos, [KTuple [-1;0]%Z]. split; [exact mos_wf|]. split; [valid|]. split; [differ|]. split; reflexivity. Qed.
Theorem C12_negative_step_refuted : exists (a : @barr Z) keys, wf a /\ valid_keys keys (shape a) /\ ~ agrees true a keys
  /\ before true a keys = Ok ([5], [Some 1; Some 0; Some 2; Some 1; Some 0]%Z)
  /\ after true a keys = Ok ([5], [Some 2; Some 1; Some 0; Some 1; Some 0]%Z).
Proof. exists mos, [KSlice (mkS None None (Some (-1)%Z))]. split; [exact mos_wf|]. split; [valid|]. split; [differ|]. split; reflexivity. Qed.
Theorem C12_empty_refuted : exists (a : @barr Z) keys, wf a /\ valid_keys keys (shape a) /\ getitem a keys = Err IndexError.
Proof. exists mos, [S3 0 0 1]. split; [exact mos_wf|]. split; [valid|reflexivity]. Qed.
Theorem C12_mask_refuted : exists (a : @barr Z) keys, wf a /\ valid_keys keys (shape a) /\ getitem a keys = Err TypeError.
Proof. exists mos, [KMask [true;false;true;false;false]]. split; [exact mos_wf|]. split; [valid|reflexivity]. Qed.

(** C14: the same defects inside an expression; a boolean mask indexed again; a
    masked element as ndarray() (0 instead of the fill value -1). *)
Theorem C14_mask_again_refuted : exists (a : @barr Z) keys, wf a /\ valid_keys keys (shape a) /\ ~ agrees true a keys.
Proof.
  exists (AAdapt false (numbered [4]) [KMask [false;true;true;true]]), [S3 0 2 1].
  split; [split; [repeat constructor|valid]|]. split; [valid|differ].
Qed.
Theorem C14_masked_element_refuted : exists (a : @barr Z) keys, wf a /\ valid_keys keys (shape a) /\ ~ agrees false a keys
  /\ before false a keys = Ok ([], [Some 0%Z]) /\ after false a keys = Ok ([], [Some (-1)%Z]).
Proof.
  exists (marr [3]), [KInt 0]. split; [split; [constructor|valid]|]. split; [valid|]. split; [differ|]. split; reflexivity.
Qed.
Theorem C14_nested_refuted : exists (a : @barr Z) keys, wf a /\ valid_keys keys (shape a) /\ ~ agrees true a keys.
Proof.
  exists (AMaskV (ATrans (arr [2;3;4]) [0;1;2]) 5%Z), [KInt 0; KFull; KTuple [0;1]%Z].
  split; [|split; [valid|differ]]. cbn [wf]. repeat split; try valid; repeat constructor; cbn; intuition lia.
Qed.

(** C16: the shape reported and the shape realised differ. *)
Theorem C16_shape_refuted : exists (a : @barr Z) d, wf a /\ realise z_ops 100 blank 3 false a = Ok d /\ nshape d <> shape a.
Proof.
  exists (AAdapt false (numbered [2;3;4]) [KInt 0; KFull; KTuple [0;1]%Z]). eexists.
  split; [split; [repeat constructor|valid]|]. split; [reflexivity|]. vm_compute. discriminate.
Qed.

(** C44: an elementwise operation with a Python scalar loses its dtype when
    indexed: here dtype 0 becomes 1. *)
Theorem C44_python_scalar_refuted : exists (o : @op2 Z) a b keys, wf a /\ valid_keys keys (shape a) /\
  match mk_el2 o a b (Some true) with
  | Ok e => dtype e = 0 /\ match getitem e keys with Ok f => dtype f = 1 | Err _ => False end
  | Err _ => False
  end.
Proof.
  exists (mkOp2 Z.add None (fun _ _ => 1) (fun a _ => a)), (arr [2;2]), (AConst [] 1%Z 1), [KInt 0].
  split; [split; [constructor|valid]|]. split; [valid|]. vm_compute. split; reflexivity.
Qed.

(** C46: from 2^63 bytes on, [nbytes] wraps around: here it is 0. *)
Theorem C46_wrap_zero : exists a : @barr Z, nbytes (fun _ => 8%Z) a = 0%Z /\ (2 ^ 63 <= Z.of_nat (prodn (shape a)) * 8)%Z.
Proof.
  exists (AConst [Z.to_nat (2 ^ 61)] 0%Z 0). unfold nbytes. cbn [shape dtype fold_left]. cbn [prodn fold_right].
  rewrite Nat.mul_1_r, Z2Nat.id by lia. split; [reflexivity|lia].
Qed.

Print Assumptions C04_transposed_refuted.
Print Assumptions C04_empty_sequence_refuted.
Print Assumptions C07_after_integer_refuted.
Print Assumptions C08_index_refuted.
Print Assumptions C08_construct_refuted.
Print Assumptions C09_leading_refuted.
Print Assumptions C10_index_refuted.
Print Assumptions C12_negative_integer_refuted.
Print Assumptions C12_negative_sequence_refuted.
Print Assumptions C12_negative_step_refuted.
Print Assumptions C12_empty_refuted.
Print Assumptions C12_mask_refuted.
Print Assumptions C14_mask_again_refuted.
Print Assumptions C14_masked_element_refuted.
Print Assumptions C14_nested_refuted.
Print Assumptions C16_shape_refuted.
Print Assumptions C44_python_scalar_refuted.
Print Assumptions C46_wrap_zero.
