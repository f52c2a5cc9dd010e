(** Claims without conditions on intermediate results.

    The theorems of PropIndex.v, PropAgg.v and PropChunks.v assume that the arrays
    met on the way can be indexed and realised ([supported], [realisable],
    [usable]).  Here the only condition is on the expression the user wrote:

    - [optree sh a] (SteadyClaims.v): [a] is made by elementwise operations, nested to
      any depth, from new adapters and constants of shape [sh]; [optree_at a i] is
      its element at [i];
    - [steady] (Steady.v), for every kind of array and expression: a condition on
      shapes, checked once by going down the expression.  [cutting] are
      the keys: integers in range, non-empty slices with a positive step, full
      slices, Ellipsis.

    The chunk limit [maxc], the content [garbage] of fresh memory and the choice
    [m] between ndarray() and masked_array() are arbitrary. *)
From Verif Require Import Base PySlice Keys NDArray Arrays Chunks Handlers Realise Spec Supported Lib SelLemmas GetBase GetSimple HandlerLemmas RealOps Realisable IndexClaims ClassClaims ChunkClaims Samples Steady SteadyReal SteadyClaims PropAgg PropBounds Kahn Threads ThreadSpec NetLemmas ThreadTree ThreadRun PropThreads.
From Coq Require Import Permutation Reals.

Section Exact.
Context {V : Type} (O : numops V).
Variable maxc : nat.
Variable garbage : list nat -> option V.
Variable m : bool.
Variable fuel : nat.
Notation realise := (realise O maxc garbage fuel).

(** C14: index a steady array with any sequence of acceptable key tuples: every
    step is accepted, and the result realises to the selections made one after
    the other on the realised array.  Missing: arrays that are not steady, other
    keys. *)
Theorem C14_steady_sequence_partial ints arrs a kss : wf a -> steady maxc m (exact O) ints arrs false fuel a ->
  exists da, realise m a = Ok da /\ nshape da = shape a /\
    (cutting_seq ints arrs da kss -> exists b db, getitems a kss = Ok b /\ realise m b = Ok db /\ nd_eq db (oindexes da kss)).
Proof.
  intros Hw Hs. pose proof (steady_usable O maxc m (exact O) ints arrs fuel a Hw Hs) as HU.
  destruct (usable_reads O maxc garbage m (exact O) fuel (exact_right O m) a HU) as (da & Ea & Da). exists da. split; [exact Ea|].
  split; [exact (reads_shape O maxc garbage m (exact O) fuel (exact_right O m) a da HU Ea)|]. intros HC.
  destruct (steady_sequence O maxc garbage m (exact O) (exact_right O m) ints arrs fuel kss a da Hw Hs Ea HC) as (b & db & E1 & E2 & E3 & _).
  exists b, db. auto.
Qed.

(** C20: saving a steady array leaves the realised array in the target, whatever
    was in it, and writes every position once. *)
Theorem C20_steady arrs a g : wf a -> steady maxc m (exact O) true arrs false fuel a ->
  exists ws r d, save_writes O maxc garbage fuel m a = Ok ws /\ save O maxc garbage fuel m a (mkND (shape a) g) = Ok r
    /\ realise m a = Ok d /\ nd_eq r d
    /\ Permutation (flat_map (fun w => positions (shape a) (fst w)) ws) (ndindex (shape a)).
Proof. exact (steady_save O maxc garbage m (exact O) (exact_right O m) fuel arrs a g). Qed.
End Exact.

Section Trees.
Context {V : Type} (O : numops V).
Variable maxc : nat.
Variable garbage : list nat -> option V.
Variable fuel : nat.
Hypothesis Hfuel : 2 <= fuel.
Variable sh : list nat.
Hypothesis Hsh : Forall (fun n => 1 <= n) sh.
Notation realise := (realise O maxc garbage fuel).

Lemma tree_usable m HG (a : @barr V) : optree m sh a -> data_ok m a -> usable maxc m HG fuel a.
Proof.
  intros HT HD. apply (steady_usable O maxc m HG false false); [apply (tree_ok O m sh a HT)|]. apply (tree_top O maxc m HG sh); auto.
Qed.
Lemma tree_reads m (a : @barr V) d : optree m sh a -> data_ok m a -> realise m a = Ok d -> nd_eq d (mkND sh (optree_at O m a)).
Proof.
  intros HT HD E. pose proof (reads_den O maxc garbage m (exact O) fuel (exact_right O m) a d (tree_usable m _ a HT HD) E) as H.
  eapply nd_eq_trans; [exact H|]. apply (tree_ok O m sh a HT).
Qed.

(** C27: any tree of elementwise operations gives, at each position, the
    operations applied to the elements at that position. *)
Theorem C27_tree_partial m a : optree m sh a -> data_ok m a ->
  exists r, realise m a = Ok r /\ nshape r = sh /\ forall i, inb sh i -> nget r i = optree_at O m a i.
Proof.
  intros HT HD. destruct (usable_reads O maxc garbage m (exact O) fuel (exact_right O m) a (tree_usable m _ a HT HD)) as (r & E & _).
  exists r. split; [exact E|]. destruct (tree_reads m a r HT HD E) as [R1 R2]. split; [exact R1|]. intros i Hi. apply R2. rewrite R1. exact Hi.
Qed.

(** The column of elements aggregated into position [o]. *)
Definition col m a axis o : list (option V) := map (fun k => optree_at O m a (insert_at axis k o)) (seq 0 (nth axis sh 0)).
Lemma tree_agg_claim m HG g a axis d : (forall g, handler_right O m g (HG g)) -> optree m sh a -> data_ok m a -> axis < length sh ->
  HG g (nth axis sh 0) -> piecewise maxc m g (nth axis sh 0) (prodn (skipn (S axis) sh)) ->
  exists r, realise m (AAgg g a axis d) = Ok r /\ nshape r = remove_at axis sh
    /\ forall o, inb (remove_at axis sh) o -> nget r o = agg_spec O m g (col m a axis o).
Proof.
  intros HR HT HD Hax H1 H2. destruct (tree_ok O m sh a HT) as (W & S & _ & D).
  pose proof (tree_agg O maxc m HG sh a fuel g axis d HT HD Hsh Hfuel H1 H2) as HS.
  assert (HW : wf (AAgg g a axis d)) by (split; [exact W|unfold ndim; rewrite S; exact Hax]).
  pose proof (steady_usable O maxc m HG false false fuel _ HW HS) as HU.
  destruct (usable_reads O maxc garbage m HG fuel HR _ HU) as (r & E & [R1 R2]). exists r. split; [exact E|].
  assert (Hr : nshape r = remove_at axis sh) by (rewrite R1; cbn [den nshape]; rewrite (proj1 D); reflexivity).
  split; [exact Hr|]. intros o Ho. rewrite R2 by (rewrite Hr; exact Ho). cbn [den nget]. f_equal. unfold column, col. rewrite (proj1 D). cbn [nshape].
  apply map_ext_in. intros k Hk. apply in_seq in Hk. apply (proj2 D). rewrite (proj1 D). cbn [nshape]. rewrite <- (insert_remove axis 0 sh Hax). apply insert_at_inb; [rewrite remove_at_length by exact Hax; lia|exact Ho|lia].
Qed.

(** C21: sum, count and mean of any tree over any axis. *)
Theorem C21_tree_sum a axis d : laws O -> optree false sh a -> data_ok false a -> axis < length sh ->
  exists r, realise false (AAgg GSum a axis d) = Ok r /\ nshape r = remove_at axis sh
    /\ forall o, inb (remove_at axis sh) o -> nget r o = Some (fold_right (vadd O) (v0 O) (map (plain_val O) (col false a axis o))).
Proof. intros L HT HD Hax. exact (tree_agg_claim false (exact O) GSum a axis d (exact_right O false) HT HD Hax L I). Qed.
Theorem C21_tree_count a axis d : optree false sh a -> data_ok false a -> axis < length sh ->
  exists r, realise false (AAgg GCount a axis d) = Ok r /\ nshape r = remove_at axis sh
    /\ forall o, inb (remove_at axis sh) o -> nget r o = Some (vofn O (nth axis sh 0)).
Proof.
  intros HT HD Hax. destruct (tree_agg_claim false (exact O) GCount a axis d (exact_right O false) HT HD Hax I I) as (r & E1 & E2 & E3).
  exists r. split; [exact E1|]. split; [exact E2|]. intros o Ho. rewrite E3 by exact Ho. cbn [agg_spec]. unfold col. rewrite !map_length, seq_length. auto.
Qed.
Theorem C21_tree_mean a axis d mdtol : laws O -> optree false sh a -> data_ok false a -> axis < length sh ->
  exists r, realise false (AAgg (GMean mdtol) a axis d) = Ok r /\ nshape r = remove_at axis sh
    /\ forall o, inb (remove_at axis sh) o ->
         nget r o = Some (vdiv O (fold_right (vadd O) (v0 O) (map (plain_val O) (col false a axis o))) (vofn O (nth axis sh 0))).
Proof.
  intros L HT HD Hax. destruct (tree_agg_claim false (exact O) (GMean mdtol) a axis d (exact_right O false) HT HD Hax L I) as (r & E1 & E2 & E3).
  exists r. split; [exact E1|]. split; [exact E2|]. intros o Ho. rewrite E3 by exact Ho. cbn [agg_spec]. unfold mean_of, total, col. rewrite !map_length, seq_length. auto.
Qed.

(** C22: minimum and maximum of any tree, when the engine gets the axis in one
    piece: one item, or all items together within the chunk limit. *)
Theorem C22_tree_min_partial m a axis d : orders O -> optree m sh a -> data_ok m a -> axis < length sh ->
  nth axis sh 0 = 1 \/ nth axis sh 0 * prodn (skipn (S axis) sh) <= maxc ->
  exists r, realise m (AAgg GMin a axis d) = Ok r /\ nshape r = remove_at axis sh
    /\ forall o, inb (remove_at axis sh) o ->
         nget r o = best (vmin O) (if m then obs (col m a axis o) else map (plain_val O) (col m a axis o)).
Proof.
  intros L HT HD Hax HP. destruct (tree_agg_claim m (exact O) GMin a axis d (exact_right O m) HT HD Hax L) as (r & E1 & E2 & E3).
  - cbn [piecewise]. destruct HP as [H|H]; auto. right. split; auto. rewrite Forall_forall in Hsh. apply Hsh. apply nth_In; auto.
  - exists r. split; [exact E1|]. split; [exact E2|]. intros o Ho. rewrite E3 by exact Ho. destruct m; auto.
Qed.
Theorem C22_tree_max_partial m a axis d : orders O -> optree m sh a -> data_ok m a -> axis < length sh ->
  nth axis sh 0 = 1 \/ nth axis sh 0 * prodn (skipn (S axis) sh) <= maxc ->
  exists r, realise m (AAgg GMax a axis d) = Ok r /\ nshape r = remove_at axis sh
    /\ forall o, inb (remove_at axis sh) o ->
         nget r o = best (vmax O) (if m then obs (col m a axis o) else map (plain_val O) (col m a axis o)).
Proof.
  intros L HT HD Hax HP. destruct (tree_agg_claim m (exact O) GMax a axis d (exact_right O m) HT HD Hax L) as (r & E1 & E2 & E3).
  - cbn [piecewise]. destruct HP as [H|H]; auto. right. split; auto. rewrite Forall_forall in Hsh. apply Hsh. apply nth_In; auto.
  - exists r. split; [exact E1|]. split; [exact E2|]. intros o Ho. rewrite E3 by exact Ho. destruct m; auto.
Qed.

(** C25: masked mean of any tree. *)
Theorem C25_tree a axis d mdtol : laws O -> optree true sh a -> data_ok true a -> axis < length sh ->
  exists r, realise true (AAgg (GMean mdtol) a axis d) = Ok r /\ nshape r = remove_at axis sh
    /\ forall o, inb (remove_at axis sh) o ->
         let xs := obs (col true a axis o) in let n := nth axis sh 0 in
         let hidden := xs = [] \/ (vltb O mdtol (vofn O 1) = true
                                    /\ vltb O mdtol (vdiv O (vofn O (n - length xs)) (vofn O n)) = true) in
         (hidden -> nget r o = None)
         /\ (~ hidden -> nget r o = Some (vdiv O (fold_right (vadd O) (v0 O) xs) (vofn O (length xs)))).
Proof.
  intros L HT HD Hax. destruct (tree_agg_claim true (exact O) (GMean mdtol) a axis d (exact_right O true) HT HD Hax L I) as (r & E1 & E2 & E3).
  exists r. split; [exact E1|]. split; [exact E2|]. intros o Ho. rewrite E3 by exact Ho. cbn [agg_spec].
  assert (HL : length (col true a axis o) = nth axis sh 0) by (unfold col; rewrite map_length, seq_length; auto).
  unfold frac_masked, mean_of, total. rewrite HL. cbv zeta. set (xs := obs (col true a axis o)).
  destruct (Nat.eqb_spec (length xs) 0) as [E|E]; cbn [orb].
  - apply length_zero_iff_nil in E. split; auto. intros H; exfalso; apply H; auto.
  - assert (xs <> []) by (intros ->; apply E; reflexivity). split.
    + intros [H'|[-> ->]]; [congruence|]. reflexivity.
    + intros H'. destruct (vltb O mdtol (vofn O 1)) eqn:L1, (vltb O mdtol (vdiv O (vofn O (nth axis sh 0 - length xs)) (vofn O (nth axis sh 0)))) eqn:L2;
        try reflexivity. exfalso. apply H'. auto.
Qed.

(** C26: masked sum and count of any tree. *)
Theorem C26_tree_sum a axis d : laws O -> optree true sh a -> data_ok true a -> axis < length sh ->
  exists r, realise true (AAgg GSum a axis d) = Ok r /\ nshape r = remove_at axis sh
    /\ forall o, inb (remove_at axis sh) o ->
         nget r o = match obs (col true a axis o) with [] => None | xs => Some (fold_right (vadd O) (v0 O) xs) end.
Proof.
  intros L HT HD Hax. destruct (tree_agg_claim true (exact O) GSum a axis d (exact_right O true) HT HD Hax L I) as (r & E1 & E2 & E3).
  exists r. split; [exact E1|]. split; [exact E2|]. intros o Ho. rewrite E3 by exact Ho. cbn [agg_spec]. destruct (obs _); auto.
Qed.
Theorem C26_tree_count a axis d : optree true sh a -> data_ok true a -> axis < length sh ->
  exists r, realise true (AAgg GCount a axis d) = Ok r /\ nshape r = remove_at axis sh
    /\ forall o, inb (remove_at axis sh) o -> nget r o = Some (vofn O (length (obs (col true a axis o)))).
Proof. intros HT HD Hax. exact (tree_agg_claim true (exact O) GCount a axis d (exact_right O true) HT HD Hax I I). Qed.
End Trees.

Section Reals.
Variables (cast : nat -> R -> R) (dfill : nat -> R) (dtf : nat -> nat) (dti : nat).
Notation O := (real_ops cast dfill dtf dti).
Variable maxc : nat.
Variable garbage : list nat -> option R.
Variable fuel : nat.
Hypothesis Hfuel : 2 <= fuel.
Variable sh : list nat.
Hypothesis Hsh : Forall (fun n => 1 <= n) sh.
Notation realise := (realise O maxc garbage fuel).
Notation col := (col O sh).

(** C23: variance and standard deviation of any tree, when chunks hold at least
    two items of the axis (or the axis has only one). *)
Definition two_fit (axis : nat) : Prop :=
  let n := nth axis sh 0 in let r := prodn (skipn (S axis) sh) in n = 1 \/ n * r <= maxc \/ 2 * r <= maxc.
Lemma two_fit_piecewise axis (g : @agg R) : axis < length sh -> two_fit axis ->
  match g with GStd _ | GVar _ => True | _ => False end -> piecewise maxc false g (nth axis sh 0) (prodn (skipn (S axis) sh)).
Proof.
  intros Hax [H|H] Hg; destruct g; try contradiction; cbn [piecewise]; auto; right; right; split; auto;
    rewrite Forall_forall in Hsh; apply Hsh; apply nth_In; auto.
Qed.
Theorem C23_tree_var_partial ddof a axis d : optree false sh a -> data_ok false a -> axis < length sh ->
  (ddof < INR (nth axis sh 0%nat))%R -> two_fit axis ->
  exists r, realise false (AAgg (GVar ddof) a axis d) = Ok r /\ nshape r = remove_at axis sh
    /\ forall o, inb (remove_at axis sh) o -> nget r o = Some (rvar ddof (map (plain_val O) (col false a axis o))).
Proof.
  intros HT HD Hax Hd H2. apply (tree_agg_claim O maxc garbage fuel Hfuel sh Hsh false (ddof_ok false) (GVar ddof) a axis d (right_real cast dfill dtf dti false) HT HD Hax); [right; exact Hd|].
  apply two_fit_piecewise; auto.
Qed.
Theorem C23_tree_std_partial ddof a axis d : optree false sh a -> data_ok false a -> axis < length sh ->
  (ddof < INR (nth axis sh 0%nat))%R -> two_fit axis ->
  exists r, realise false (AAgg (GStd ddof) a axis d) = Ok r /\ nshape r = remove_at axis sh
    /\ forall o, inb (remove_at axis sh) o -> nget r o = Some (sqrt (rvar ddof (map (plain_val O) (col false a axis o)))).
Proof.
  intros HT HD Hax Hd H2. apply (tree_agg_claim O maxc garbage fuel Hfuel sh Hsh false (ddof_ok false) (GStd ddof) a axis d (right_real cast dfill dtf dti false) HT HD Hax); [right; exact Hd|].
  apply two_fit_piecewise; auto.
Qed.

(** C24: the masked ones, whatever the chunk limit. *)
Theorem C24_tree_var ddof a axis d : optree true sh a -> data_ok true a -> axis < length sh ->
  exists r, realise true (AAgg (GVar ddof) a axis d) = Ok r /\ nshape r = remove_at axis sh
    /\ forall o, inb (remove_at axis sh) o -> let xs := obs (col true a axis o) in
         (xs = [] \/ INR (length xs) = ddof \/ (rvar ddof xs < 0)%R -> nget r o = None)
         /\ (xs <> [] -> INR (length xs) <> ddof -> (0 <= rvar ddof xs)%R -> nget r o = Some (rvar ddof xs)).
Proof.
  intros HT HD Hax. destruct (tree_agg_claim O maxc garbage fuel Hfuel sh Hsh true (ddof_ok true) (GVar ddof) a axis d (right_real cast dfill dtf dti true) HT HD Hax (or_introl eq_refl) (or_introl eq_refl)) as (r & E1 & E2 & E3).
  exists r. split; [exact E1|]. split; [exact E2|]. intros o Ho. rewrite E3 by exact Ho. apply masked_var_spec.
Qed.
Theorem C24_tree_std ddof a axis d : optree true sh a -> data_ok true a -> axis < length sh ->
  exists r, realise true (AAgg (GStd ddof) a axis d) = Ok r /\ nshape r = remove_at axis sh
    /\ forall o, inb (remove_at axis sh) o -> let xs := obs (col true a axis o) in
         (xs = [] \/ INR (length xs) = ddof \/ (rvar ddof xs < 0)%R -> nget r o = None)
         /\ (xs <> [] -> INR (length xs) <> ddof -> (0 <= rvar ddof xs)%R -> nget r o = Some (sqrt (rvar ddof xs))).
Proof.
  intros HT HD Hax. destruct (tree_agg_claim O maxc garbage fuel Hfuel sh Hsh true (ddof_ok true) (GStd ddof) a axis d (right_real cast dfill dtf dti true) HT HD Hax (or_introl eq_refl) (or_introl eq_refl)) as (r & E1 & E2 & E3).
  exists r. split; [exact E1|]. split; [exact E2|]. intros o Ho. rewrite E3 by exact Ho. cbn [agg_spec]. unfold masked_std.
  destruct (masked_var_spec cast dfill dtf dti ddof (obs (col true a axis o))) as [M1 M2]. split.
  - intros H. rewrite M1; auto.
  - intros Ha Hb Hc. rewrite M2; auto.
Qed.
End Reals.

(** C28: steady arrays evaluated by the threads, under every schedule: the
    evaluation starts, every schedule that can go no further has finished, and
    the results are the arrays' values.  Missing: arrays that are not steady. *)
Theorem C28_steady_partial {V} (O : numops V) maxc garbage fuel m ints arrs (l : list (@barr V)) :
  Forall (fun a => wf a /\ steady maxc m (exact O) ints arrs true fuel a) l ->
  let dag := fst (forest 0 l) in let roots := snd (forest 0 l) in
  exists net, network O maxc garbage (realise O maxc garbage fuel m) m dag roots = Ok net /\
    (exists s, reached net dag roots s /\ over net s) /\
    forall s, reached net dag roots s -> over net s -> joined dag roots s /\
      exists ds, returned O garbage dag roots s = Ok ds /\ Forall2 (fun a d => nd_eq d (den O m a)) l ds.
Proof.
  intros HF. apply (C28_values_partial O maxc garbage fuel m (exact O) l (exact_right O m)).
  eapply Forall_impl; [|exact HF]. intros a [Hw Hs]. split; [exact Hw|]. exact (steady_streamable O maxc m (exact O) ints fuel a arrs Hw Hs).
Qed.
(** The same with shared array objects, each asked for in one iteration order
    (C31_order_refuted shows what happens otherwise); every thread finishes. *)
Theorem C28_steady_shared_partial {V} (O : numops V) maxc garbage fuel m ints arrs (dag : list (@entry V)) roots : dag_ok dag roots -> consistent O dag roots ->
  (forall r, In r roots -> wf (expr O dag r) /\ steady maxc m (exact O) ints arrs true fuel (expr O dag r)) ->
  exists net, network O maxc garbage (realise O maxc garbage fuel m) m dag roots = Ok net /\
    (exists s, reached net dag roots s /\ over net s) /\
    forall s, reached net dag roots s -> over net s -> joined dag roots s /\ Forall finished (fst s) /\
      exists ds, returned O garbage dag roots s = Ok ds /\ Forall2 (fun r d => nd_eq d (den O m (expr O dag r))) roots ds.
Proof.
  intros D CS HF. apply (C28_shared_values_partial O maxc garbage fuel m (exact O) dag roots (exact_right O m) D CS).
  intros r Hr. destruct (HF r Hr) as [Hw Hs]. split; [exact Hw|]. exact (steady_streamable O maxc m (exact O) ints fuel _ arrs Hw Hs).
Qed.

Print Assumptions C14_steady_sequence_partial.
Print Assumptions C20_steady.
Print Assumptions C27_tree_partial.
Print Assumptions C21_tree_sum.
Print Assumptions C21_tree_count.
Print Assumptions C21_tree_mean.
Print Assumptions C22_tree_min_partial.
Print Assumptions C22_tree_max_partial.
Print Assumptions C25_tree.
Print Assumptions C26_tree_sum.
Print Assumptions C26_tree_count.
Print Assumptions C23_tree_var_partial.
Print Assumptions C23_tree_std_partial.
Print Assumptions C24_tree_var.
Print Assumptions C24_tree_std.
Print Assumptions C28_steady_partial.
Print Assumptions C28_steady_shared_partial.

(** ** The hypotheses are met *)
Definition zsub2 : @op2 Z :=
  mkOp2 Z.sub (Some (fun a b => match a, b with Some x, Some y => Some (x - y)%Z | _, _ => None end)) (fun a _ => a) (fun a _ => a).
Ltac sts := repeat first [progress cbn [steady fold_right nolead leafy] | apply conj | apply Forall_cons | apply Forall_nil
  | reflexivity | exact I | discriminate | exact z_laws | exact (laws_orders _ z_laws) | (right; discriminate) | (intros; discriminate) | (vm_compute; lia)
  | (left; reflexivity) | (left; discriminate) | (right; left; apply conj; [reflexivity|right; left; reflexivity])
  | (right; left; apply conj; [reflexivity|right; right; vm_compute; lia])
  | (right; left; intros; discriminate) | (right; left; apply conj; [reflexivity|left; reflexivity]) | (intros _; right; exact I)].
(** What the user writes as [x - x.sum(axis=0)], [x] of shape (4, 5). *)
Definition anomaly : @barr Z := AEl2 zsub2 (arr [4; 5]) (ABcast (AAgg GSum (arr [4; 5]) 0 0) [] [4]) 0.
Example anomaly_written : mk_el2 zsub2 (arr [4; 5]) (AAgg GSum (arr [4; 5]) 0 0) None = Ok anomaly.
Proof. reflexivity. Qed.
Example anomaly_wf : wf anomaly.
Proof. unfold anomaly, arr. wfs. Qed.
Example anomaly_steady : steady 7 false (exact z_ops) true false false 3 anomaly /\ steady 7 false (exact z_ops) true false true 2 anomaly.
Proof. unfold anomaly, arr. sts. Qed.
(** C14 applies: rows from the end, then every other column; MAX_CHUNK_SIZE is 7. *)
Example C14_steady_case garbage : exists da b db, realise z_ops 7 garbage 3 false anomaly = Ok da
  /\ getitems anomaly [[KSlice (mkS (Some (-3)%Z) None None)]; [KInt 1; KEll; S3 0 5 2]] = Ok b
  /\ realise z_ops 7 garbage 3 false b = Ok db
  /\ nd_eq db (oindexes da [[KSlice (mkS (Some (-3)%Z) None None)]; [KInt 1; KEll; S3 0 5 2]]).
Proof.
  destruct (C14_steady_sequence_partial z_ops 7 garbage false 3 true false anomaly [[KSlice (mkS (Some (-3)%Z) None None)]; [KInt 1; KEll; S3 0 5 2]] anomaly_wf (proj1 anomaly_steady)) as (da & E & Hsh & H).
  destruct H as (b & db & H); [|exists da, b, db; tauto]. cbn [cutting_seq]. change (shape anomaly) with [4; 5] in Hsh. unfold oindex. rewrite Hsh.
  match goal with |- context [oselect ?k ?s] => let x := eval vm_compute in (oselect k s) in change (oselect k s) with x end. cbn [nshape nd_sel].
  split; [|split; [|exact I]].
  - exists [KSlice (mkS (Some (-3)%Z) None None); KFull]. split; [reflexivity|]. constructor; [|constructor; [left; reflexivity|constructor]].
    right. split; [exact I|]. eexists. split; [vm_compute; reflexivity|discriminate].
  - exists [KInt 1; S3 0 5 2]. split; [reflexivity|]. constructor; [|constructor; [|constructor]].
    + split; [reflexivity|vm_compute; split; [discriminate|reflexivity]].
    + right. split; [reflexivity|]. eexists. split; [vm_compute; reflexivity|discriminate].
Qed.
(** C20 applies to a stack of mosaics, MAX_CHUNK_SIZE 3. *)
Definition quilt : @barr Z := AStack [2] [AMosaic [arr [3; 4]; arr [2; 4]] 0; AMosaic [oarr [1; 4]; arr [4; 4]] 0].
Example quilt_wf : wf quilt.
Proof. unfold quilt, arr, oarr. wfs. Qed.
Example quilt_steady : steady 3 false (exact z_ops) true false false 1 quilt.
Proof. unfold quilt, arr, oarr. sts. Qed.
Example C20_steady_case garbage g := C20_steady z_ops 3 garbage false 1 false quilt g quilt_wf quilt_steady.
(** C28: both in one threaded evaluation. *)
Example C28_steady_hyp : Forall (fun a => wf a /\ steady 7 false (exact z_ops) true false true 2 a) [anomaly; AAgg GSum anomaly 1 0].
Proof.
  apply Forall_cons; [exact (conj anomaly_wf (proj2 anomaly_steady))|]. apply Forall_cons; [|apply Forall_nil].
  split; [split; [exact anomaly_wf|vm_compute; lia]|]. split; [exact (proj2 anomaly_steady)|]. split; [exact z_laws|exact I].
Qed.
Example C28_steady_case garbage := C28_steady_partial z_ops 7 garbage 2 false true false _ C28_steady_hyp.
(** [x - x.sum(axis=0)], its sum over the other axis, and [x] itself again: one
    object [x], one object for the difference. *)
Definition anomalies : list (@entry Z) :=
  [EArr (arr [4; 5]); EArr (ABcast (AAgg GSum (arr [4; 5]) 0 0) [] [4]); EEl2 zsub2 0 1 0; EAgg GSum 2 1 0].
Example C28_steady_shared_hyp : dag_ok anomalies [3; 2; 0] /\ consistent z_ops anomalies [3; 2; 0] /\
  (forall r, In r [3; 2; 0] -> wf (expr z_ops anomalies r) /\ steady 7 false (exact z_ops) true false true 2 (expr z_ops anomalies r)).
Proof.
  split; [apply dag_check; vm_compute; reflexivity|].
  split; [apply (consistent_check z_ops anomalies [3; 2; 0] [(3, [0]); (2, [0; 1]); (0, [0; 1]); (1, [0; 1])]); vm_compute; reflexivity|].
  intros r Hr. pose proof C28_steady_hyp as H. rewrite Forall_forall in H. destruct Hr as [<-|[<-|[<-|[]]]].
  - apply H. right. left. reflexivity.
  - apply H. left. reflexivity.
  - cbn. unfold arr. split; [wfs|sts].
Qed.
Example C28_steady_shared_case garbage := C28_steady_shared_partial z_ops 7 garbage 2 false true false _ _ (proj1 C28_steady_shared_hyp) (proj1 (proj2 C28_steady_shared_hyp)) (proj2 (proj2 C28_steady_shared_hyp)).
(** Trees: [-x + y] and, masked, [z + 1]. *)
Definition ztree : @barr Z := AEl2 zadd2 (AEl1 zneg1 (arr [4; 5]) 0) (oarr [4; 5]) 0.
Definition mtree : @barr Z := AEl2 zadd2 (marr [4; 5]) (AConst [4; 5] 1%Z 0) 0.
Example ztree_ok : optree false [4; 5] ztree /\ data_ok false ztree.
Proof. unfold ztree, arr, oarr. cbn [optree data_ok]. repeat split; try discriminate; right; left; discriminate. Qed.
Example mtree_ok : optree true [4; 5] mtree /\ data_ok true mtree.
Proof. unfold mtree, marr. cbn [optree data_ok]. repeat split; try discriminate; left; reflexivity. Qed.
Lemma pos45 : Forall (fun n => 1 <= n) [4; 5].
Proof. repeat constructor. Qed.
Example C21_tree_case maxc garbage := C21_tree_sum z_ops maxc garbage 2 (le_n 2) [4; 5] pos45 ztree 0 0 z_laws (proj1 ztree_ok) (proj2 ztree_ok) ltac:(simpl; lia).
Example C25_tree_case maxc garbage := C25_tree z_ops maxc garbage 2 (le_n 2) [4; 5] pos45 mtree 1 0 1%Z z_laws (proj1 mtree_ok) (proj2 mtree_ok) ltac:(simpl; lia).
Example C22_tree_case garbage := C22_tree_min_partial z_ops 20 garbage 2 (le_n 2) [4; 5] pos45 true mtree 0 0 (laws_orders _ z_laws) (proj1 mtree_ok) (proj2 mtree_ok) ltac:(simpl; lia) (or_intror (le_n 20)).
Example C23_tree_case cast dfill dtf dti garbage : exists r, realise (real_ops cast dfill dtf dti) 2 garbage 2 false (AAgg (GVar 1%R) multiples 0 0) = Ok r /\ nshape r = []
  /\ nget r [] = Some (rvar 1 [(6 * 0)%R; (6 * 1)%R; (6 * (1 + 1))%R]).
Proof.
  destruct (C23_tree_var_partial cast dfill dtf dti 2 garbage 2 (le_n 2) [3] (Forall_cons _ (le_S _ _ (le_S _ _ (le_n 1))) (Forall_nil _)) 1%R multiples 0 0) as (r & E1 & E2 & E3).
  - reflexivity.
  - right. left. discriminate.
  - simpl. lia.
  - simpl. apply Rplus_lt_reg_r with (-1)%R. ring_simplify. apply Rlt_0_2 || (apply Rlt_0_1 || idtac).
  - right. right. vm_compute. lia.
  - exists r. split; [exact E1|]. split; [exact E2|]. rewrite E3 by constructor. reflexivity.
Qed.
