(** Property C49: the dask engine (biggus/experimental/dask_engine.py).

    [dask_graph maxc limit m dag roots] is the task graph built for the arrays
    [roots] of the expression graph [dag], with the numbers of the tasks holding
    the results; [dask_runs g s]: some order of the tasks has led to the memory [s]
    (Dask.v).  [works g] (DaskClaims.v): whatever the order, no task fails, as long
    as something is missing some task can run, a run to the end exists, and the
    value of a task does not depend on the order.  [limit] is 9999 in the code. *)
From Verif Require Import Base PySlice Keys NDArray Arrays Chunks Handlers Realise Spec Supported Lib SelLemmas KeyLemmas GetBase GetSimple GetItem ChunkLemmas HandlerLemmas Realisable StreamLemmas RealOK RealiseOK ClassClaims Samples KeyGrouper GroupSpec GroupLemmas Kahn Threads ThreadSpec ThreadSem Steady SteadyReal SteadyClaims PropBounds PropThreads PropSteady Dask GroupKeys DaskKeys DaskOK DaskClaims.
From Coq Require Import ZifyBool ZifyNat.

(** C49, for steady expressions (Steady.v) of any size and depth, any sharing of
    array objects, any chunk size, any order of the tasks: the graph is built, it
    works, and the results are the arrays' values, the same as the threaded
    engine's ([engine_eval]).  [few]: the leaves have at most [limit] chunks along
    each dimension.  Missing: operands cut at different places and more chunks,
    where the claim is false (below); arrays that are not steady. *)
Theorem C49_dask_partial {V} (O : numops V) maxc limit garbage fuel m ints arrs (dag : list entry) roots : dag_ok dag roots ->
  (forall r, In r roots -> wf (expr O dag r) /\ steady maxc m (exact O) ints arrs true fuel (expr O dag r) /\ few maxc limit (expr O dag r)) ->
  let rz := realise O maxc garbage fuel m in
  exists ids g, dask_graph O maxc limit m dag roots = Ok (ids, g) /\ works O garbage rz m g
    /\ forall s, dask_runs O garbage rz m g s -> done g s -> exists ds, gives ids s ds
         /\ Forall2 (fun r d => nd_eq d (den O m (expr O dag r)) /\ exists d', engine_eval O maxc garbage rz m (expr O dag r) = Ok d' /\ nd_eq d d') roots ds.
Proof.
  intros HD HF rz. apply (dask_claim O maxc limit garbage m (exact O) (exact_right O m) fuel dag roots HD).
  intros r Hr. destruct (HF r Hr) as (H1 & H2 & H3). split; auto. split.
  - exact (steady_streamable O maxc m (exact O) ints fuel _ arrs H1 H2).
  - exact (steady_fine O maxc limit m (exact O) ints fuel _ arrs H1 H2 H3).
Qed.

(** C49 under the conditions of the threaded engine's theorem (C28): what can be
    streamed can be evaluated with dask, if the pieces of the computed arrays can be
    taken out of them ([dask_fine], DaskOK.v). *)
Theorem C49_streamable_partial {V} (O : numops V) maxc limit garbage fuel m HG (dag : list entry) roots : (forall g, handler_right O m g (HG g)) -> dag_ok dag roots ->
  (forall r, In r roots -> wf (expr O dag r) /\ streamable maxc m HG (realisable maxc m HG fuel) (expr O dag r) /\ dask_fine maxc limit (expr O dag r)) ->
  let rz := realise O maxc garbage fuel m in
  exists ids g, dask_graph O maxc limit m dag roots = Ok (ids, g) /\ works O garbage rz m g
    /\ forall s, dask_runs O garbage rz m g s -> done g s -> exists ds, gives ids s ds
         /\ Forall2 (fun r d => nd_eq d (den O m (expr O dag r)) /\ exists d', engine_eval O maxc garbage rz m (expr O dag r) = Ok d' /\ nd_eq d d') roots ds.
Proof. intros HR HD HF. apply (dask_claim O maxc limit garbage m HG HR fuel dag roots HD HF). Qed.

(** C49 is false of the code: when the operands of an addition are not cut at the
    same places, building the graph raises AttributeError ([uuid.uuid]), although
    the array has a value and, cut in one piece, is evaluated. *)
Definition uneven : list (@entry Z) := [EArr (arr [4; 3]); EAgg GSum 0 1 0; EArr (arr [4]); EEl2 zadd2 1 2 0].
Theorem C49_combine_refuted : exists (dag : list (@entry Z)) (roots : list nat),
  dag_ok dag roots /\ (forall r, In r roots -> wf (expr z_ops dag r)) /\
  (forall limit, 8 <= limit -> dask_graph z_ops 4 limit false dag roots = Err AttrErr) /\
  exists ids g, dask_graph z_ops 12 20 false dag roots = Ok (ids, g).
Proof.
  exists uneven, [3]. split; [apply dag_check; vm_compute; reflexivity|]. split.
  { intros r [<-|[]]. cbn. wfs. }
  split.
  - intros limit Hl. do 8 (destruct limit as [|limit]; [lia|]). vm_compute. reflexivity.
  - assert (H : match dask_graph z_ops 12 20 false uneven [3] with Ok _ => true | Err _ => false end = true) by (vm_compute; reflexivity).
    destruct (dask_graph z_ops 12 20 false uneven [3]) as [[ids g]|]; [eauto|discriminate].
Qed.

(** C49 is false of the code: the negative of an array cut into more than 9999
    pieces is refused with RuntimeError; the threaded engine evaluates it. *)
Definition long (k : nat) : list (@entry Z) := [EArr (AConst [k] 1%Z 0); EEl1 zneg1 0 0].
Lemma long_wf k : wf (expr z_ops (long k) 1) /\ steady 1 false (exact z_ops) false false true 1 (expr z_ops (long k) 1).
Proof. change (expr z_ops (long k) 1) with (AEl1 zneg1 (AConst [k] 1%Z 0) 0). split; [exact I|]. split; [exact (le_n 1)|intros; discriminate]. Qed.
Lemma dimension_group_ext limit n l l' : map (fun k => normalize_slice k n) l = map (fun k => normalize_slice k n) l' -> dimension_group limit n [l] = dimension_group limit n [l'].
Proof. intros H. unfold dimension_group. cbn [map]. rewrite H. auto. Qed.
Lemma mapM_unit {A B C} (f : B -> res C) (u : A -> B) (h : A -> C) l : (forall x, In x l -> f (u x) = Ok (h x)) -> mapM f (map u l) = Ok (map h l).
Proof. induction l as [|x l IH]; intros H; simpl; auto. rewrite H by (simpl; auto). simpl. rewrite IH; auto. intros; apply H; simpl; auto. Qed.
Lemma long_refused limit k : limit < k -> group_keys limit [k] [map (fun i => [mkS (Some (Z.of_nat i)) (Some (Z.of_nat (i + 1))) None]) (seq 0 k)] = Err RuntimeErr.
Proof.
  intros Hk. set (l := map _ (seq 0 k)). unfold group_keys. destruct l as [|x l'] eqn:El; [destruct k; [lia|discriminate]|]. rewrite <- El.
  cbn [length seq combine foldM fst snd]. unfold group_dim. cbn [foldM fst snd mapM].
  assert (E : mapM (at_dim 0) l = Ok (map (fun i => mkS (Some (Z.of_nat i)) (Some (Z.of_nat (i + 1))) None) (seq 0 k))) by (apply mapM_unit; auto).
  rewrite E. cbn [bind]. rewrite (dimension_group_ext limit k _ (map (piece k) (units k))); [rewrite units_limit by auto; auto|].
  unfold units. rewrite !map_map. apply map_ext_in. intros i Hi. apply in_seq in Hi. change (mkS (Some (Z.of_nat i)) (Some (Z.of_nat (i + 1))) None) with (kslice (sl i (i + 1))).
  assert (HC : chunk_key k (sl i (i + 1))) by (right; exists i, (i + 1); split; [auto|lia]).
  rewrite kpiece_norm by auto. simpl kpiece. rewrite !Nat2Z.id. rewrite piece_norm by (cbn [fst snd]; lia). rewrite Nat.add_1_r. auto.
Qed.
Lemma long_slices k : 2 <= k -> all_slices 1 true [k] = [map (fun i => sl i (i + 1)) (seq 0 k)].
Proof.
  intros Hk. rewrite all_slices_cons. cbn [prodn fold_right all_slices fst all_slices_aux]. unfold dim_slices. rewrite Nat.mul_1_r. replace (k <=? 1) with false by lia.
  cbn [Nat.ltb Nat.leb]. rewrite (Nat.div_1_r 1), Nat.add_sub, Nat.div_1_r. f_equal. apply map_ext_in. intros i Hi. apply in_seq in Hi. rewrite Nat.mul_1_r. f_equal. lia.
Qed.
Lemma leaf_keys {V} maxc (a : @barr V) order st r : leaf_nodes maxc a order st = Ok r -> map snd (fst r) = chunk_index_gen maxc (shape a) (rev order).
Proof.
  unfold leaf_nodes. generalize (chunk_index_gen maxc (shape a) (rev order)) as L. intros L.
  assert (H : forall L (acc r : dnodes * @dstate V), foldM (fun acc k => b <- getitem a k ;; Ok (fst acc ++ [(length (fst (snd acc)), k)], (fst (snd acc) ++ [TLeaf k b], snd (snd acc)))) acc L = Ok r -> map snd (fst r) = map snd (fst acc) ++ L).
  { clear. induction L as [|k L IH]; intros acc r H; cbn [foldM] in H; [injection H as <-; rewrite app_nil_r; auto|].
    destruct (getitem a k) as [b|]; [|discriminate]. cbn [bind] in H. apply IH in H. rewrite H. cbn [fst snd]. rewrite map_app, <- app_assoc. auto. }
  intros E. apply H in E. auto.
Qed.
Lemma long_keys k : 2 <= k -> chunk_index_gen 1 [k] [0] = map (fun i => [sl i (i + 1)]) (seq 0 k).
Proof.
  intros Hk. unfold chunk_index_gen. rewrite long_slices by auto. change [0] with (seq 0 (length [map (fun i => sl i (i + 1)) (seq 0 k)])). rewrite gen_keys_prodl.
  cbn [prodl]. induction (seq 0 k) as [|i l IH]; auto. cbn [map flat_map app] in *. f_equal. exact IH.
Qed.
Theorem C49_limit_refuted k garbage : (9999 < Z.of_nat k)%Z ->
  dag_ok (long k) [1] /\ wf (expr z_ops (long k) 1) /\ dask_graph z_ops 1 code_limit false (long k) [1] = Err RuntimeErr
  /\ exists d, engine_eval z_ops 1 garbage (realise z_ops 1 garbage 1 false) false (expr z_ops (long k) 1) = Ok d /\ nd_eq d (den z_ops false (expr z_ops (long k) 1)).
Proof.
  intros Hk. assert (Hk' : code_limit < k) by (apply Nat2Z.inj_lt; unfold code_limit; rewrite Z2Nat.id by discriminate; exact Hk). assert (H2 : 2 <= k) by lia. clear Hk.
  destruct (long_wf k) as [Hw Hs]. pose proof (steady_streamable z_ops 1 false (exact z_ops) false 1 _ false Hw Hs) as HSt.
  split.
  { split; [|split].
    - intros [|[|[|i]]] e s He Hin; cbn in He; try discriminate; injection He as <-; cbn in Hin; [destruct Hin|destruct Hin as [<-|[]]; auto].
    - intros [|[|[|i]]] a He; cbn in He; try discriminate; injection He as <-; exact I.
    - intros r [<-|[]]. cbn. auto. }
  split; [exact Hw|]. split.
  2:{ exact (engine_ok z_ops 1 garbage false (exact z_ops) (exact_right z_ops false) (realisable 1 false (exact z_ops) 1) _ (realise_ok z_ops 1 garbage false (exact z_ops) (exact_right z_ops false) 1) _ Hw HSt). }
  generalize dependent code_limit. intros limit Hl. change (expr z_ops (long k) 1) with (AEl1 zneg1 (AConst [k] 1%Z 0) 0) in *. destruct HSt as [_ HSt].
  unfold dask_graph. cbn [make_roots]. change (ndim (expr z_ops (long k) 1)) with 1. cbn [seq].
  assert (E : make_nodes z_ops 1 limit false 2 (long k) 1 [0] ([], repeat None (length (long k))) = Err RuntimeErr).
  2:{ rewrite E. auto. }
  cbn [make_nodes nth snd long length repeat nth_error has_handler op1_fun zneg1 o1_np bind entry_srcs foldM src_order].
  change (expr z_ops (long k) 0) with (AConst [k] 1%Z 0 : @barr Z). change (expr z_ops (long k) 1) with (AEl1 zneg1 (AConst [k] 1%Z 0) 0).
  destruct (leaf_ok z_ops 1 garbage (realise z_ops 1 garbage 1 false) false (exact z_ops) (realisable 1 false (exact z_ops) 1)
    (realise_ok z_ops 1 garbage false (exact z_ops) (exact_right z_ops false) 1) (AConst [k] 1%Z 0) [0] [] [None; None] I I HSt (perm_seq 1)) as (ns & g & E & _).
  { intros i t H. destruct i; discriminate. } { intros i H. cbn in H. lia. }
  rewrite E. cbn [bind fst snd]. pose proof (leaf_keys _ _ _ _ _ E) as EK. cbn [fst rev app shape] in EK. rewrite long_keys in EK by auto.
  assert (ES : exists X, source_keys (EEl1 zneg1 0 0) ns = Ok X /\ map fst X = map (fun i => [mkS (Some (Z.of_nat i)) (Some (Z.of_nat (i + 1))) None]) (seq 0 k)).
  { revert EK. clear. generalize (seq 0 k) as l. induction ns as [|[j n] ns IH]; intros [|i l] H; cbn [map] in H; try discriminate; [exists []; auto|].
    injection H as H1 H2. cbn [snd] in *. destruct (IH l H2) as (X & E1 & E2). unfold source_keys in *. cbn [out_keys] in *. cbn [mapM snd fst]. rewrite H1. cbn [mapM slice_of sl bind].
    rewrite E1. eexists. split; [reflexivity|]. cbn [map fst]. rewrite E2. auto. }
  destruct ES as (X & E1 & E2). rewrite E1. cbn [bind fst snd app map shape]. rewrite E2, long_refused by auto. auto.
Qed.

Print Assumptions C49_dask_partial.
Print Assumptions C49_streamable_partial.
Print Assumptions C49_combine_refuted.
Print Assumptions C49_limit_refuted.

(** ** The hypotheses are met *)
(** [x.sum(0)], [(x + x).sum(1)], [x.sum(0)] again and [(x + x).sum(1).sum(0)] asked
    for together, [x] of shape (4, 3) in chunks of at most 2 elements; the
    threaded engine fails on such sharing (C31). *)
Definition shared : list (@entry Z) := [EArr (arr [4; 3]); EAgg GSum 0 0 0; EEl2 zadd2 0 0 0; EAgg GSum 2 1 0; EAgg GSum 3 0 0].
Example shared_hyp : dag_ok shared [1; 3; 1; 4] /\ forall r, In r [1; 3; 1; 4] ->
  wf (expr z_ops shared r) /\ steady 2 false (exact z_ops) true false true 1 (expr z_ops shared r) /\ few 2 20 (expr z_ops shared r).
Proof.
  split; [apply dag_check; vm_compute; reflexivity|]. intros r Hr.
  assert (HF : Forall (fun r => wf (expr z_ops shared r) /\ steady 2 false (exact z_ops) true false true 1 (expr z_ops shared r) /\ few 2 20 (expr z_ops shared r)) [1; 3; 1; 4]).
  { repeat (apply Forall_cons; [|]); [..|apply Forall_nil]; (split; [cbn; wfs|]); (split; [unfold shared; cbn [expr exprs fold_left entry_expr app nth]; unfold arr; sts|]); unfold shared; cbn [expr exprs fold_left entry_expr app nth few];
      try split; vm_compute; repeat constructor. }
  rewrite Forall_forall in HF. auto.
Qed.
Example C49_dask_case garbage := C49_dask_partial z_ops 2 20 garbage 1 false true false shared [1; 3; 1; 4] (proj1 shared_hyp) (proj2 shared_hyp).
