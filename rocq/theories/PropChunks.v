(** Properties C18, C19 and C20: chunking and [save].

    [chunk_index_gen maxc sh order] are the key tuples with which the engine
    visits an array of shape [sh] in the iteration order [order], [save_keys]
    those of [save]; [positions sh keys] (ChunkClaims.v) the list of positions
    that a key tuple selects, [ndindex sh] the list of all positions. *)
From Verif Require Import Base PySlice Keys NDArray Arrays Chunks Handlers Realise Spec Supported GetBase ChunkLemmas HandlerLemmas RealOps Realisable RealiseOK ChunkClaims ClassClaims SaveClaims Samples.
From Coq Require Import Permutation.

(** C18: every chunk limit (even 0), shape and iteration order: each position is
    visited exactly once. *)
Theorem C18_chunks_partition maxc sh order :
  length order = length sh -> NoDup order -> Forall (fun i => i < length sh) order ->
  Permutation (flat_map (positions sh) (chunk_index_gen maxc sh order)) (ndindex sh).
Proof. intros H1 H2 H3. exact (chunk_perm maxc sh order (conj H1 (conj H2 H3))). Qed.
Theorem C18_all_positions sh idx : In idx (ndindex sh) <-> inb sh idx.
Proof. exact (GetStack.ndindex_In sh idx). Qed.
Theorem C18_positions_distinct sh : NoDup (ndindex sh).
Proof. exact (NoDup_ndindex sh). Qed.
Theorem C18_save_partition maxc sh : Permutation (flat_map (positions sh) (save_keys maxc sh)) (ndindex sh).
Proof. exact (save_perm maxc sh). Qed.

Example C18_case :
  chunk_index_gen 4 [2; 3; 3] [2; 0; 1]
  = [ [sl 0 1; sl 0 1; KFull]; [sl 0 1; sl 1 2; KFull]; [sl 0 1; sl 2 3; KFull];
      [sl 1 2; sl 0 1; KFull]; [sl 1 2; sl 1 2; KFull]; [sl 1 2; sl 2 3; KFull] ].
Proof. reflexivity. Qed.
Example C18_positions : positions [4; 3] [sl 1 3; KFull] = [[1; 0]; [1; 1]; [1; 2]; [2; 0]; [2; 1]; [2; 2]].
Proof. reflexivity. Qed.

(** C19: no chunk holds more elements than the limit. *)
Theorem C19_chunk_size maxc sh order k : 1 <= maxc ->
  length order = length sh -> NoDup order -> Forall (fun i => i < length sh) order ->
  In k (chunk_index_gen maxc sh order) -> length (positions sh k) <= maxc.
Proof. exact (chunk_positions maxc sh order k). Qed.
Theorem C19_save_size maxc sh k : 1 <= maxc -> In k (save_keys maxc sh) -> length (positions sh k) <= maxc.
Proof. exact (save_positions maxc sh k). Qed.
Example C19_case : map (fun k => length (positions [5; 3] k)) (chunk_index_gen 6 [5; 3] [0; 1]) = [6; 6; 3].
Proof. reflexivity. Qed.

(** C20: [save] with any chunk limit and any previous content [g] of the target
    leaves the realised array in it, and writes every position exactly once.
    Missing: arrays whose chunks fall outside [supported]/[realisable]. *)
Theorem C20_save_realisable {V} (O : numops V) maxc garbage m fuel a g : wf a -> realisable maxc m (exact O) fuel a ->
  (forall k, In k (save_keys maxc (shape a)) -> supported a k
     /\ forall b, getitem a k = Ok b -> realisable maxc m (exact O) fuel b) ->
  exists ws r d, save_writes O maxc garbage fuel m a = Ok ws /\ save O maxc garbage fuel m a (mkND (shape a) g) = Ok r
    /\ realise O maxc garbage fuel m a = Ok d /\ nd_eq r d
    /\ Permutation (flat_map (fun w => positions (shape a) (fst w)) ws) (ndindex (shape a)).
Proof. exact (save_realised O maxc garbage m (exact O) (exact_right O m) fuel a g). Qed.

Print Assumptions C18_chunks_partition.
Print Assumptions C18_all_positions.
Print Assumptions C18_positions_distinct.
Print Assumptions C18_save_partition.
Print Assumptions C19_chunk_size.
Print Assumptions C19_save_size.
Print Assumptions C20_save_realisable.
