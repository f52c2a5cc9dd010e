(** Properties C21 - C27, C33, C34: aggregations and elementwise operations.
    See the reading guide of PropIndex.v; [column d axis o] is the list of the
    cells of [d] along [axis] at the position [o] of the other dimensions,
    [obs] its unmasked values, [plain_val] the value of a cell of an unmasked
    array. *)
From Verif Require Import Base PySlice Keys NDArray Arrays Chunks Handlers Realise Spec Supported HandlerLemmas RealOps Realisable ClassClaims BroadcastClaims Lib KeyLemmas GetItem Samples.
From Coq Require Import Reals.

Section Agg.
Context {V : Type} (O : numops V).
Variable maxc : nat.
Variable garbage : list nat -> option V.
Variable fuel : nat.
Notation usable m := (usable maxc m (exact O) fuel).
Notation reads m := (reads O maxc garbage m fuel).

(** C21: sum, count and mean over the whole axis, whatever [maxc]. *)
Theorem C21_sum_usable a axis d : usable false a -> usable false (AAgg GSum a axis d) ->
  exists da r, reads false a da /\ reads false (AAgg GSum a axis d) r /\ nshape r = remove_at axis (nshape da)
    /\ forall o, inb (nshape r) o -> nget r o = Some (fold_right (vadd O) (v0 O) (map (plain_val O) (column da axis o))).
Proof. exact (agg_claim O maxc garbage false (exact O) fuel (exact_right O false) GSum a axis d). Qed.
Theorem C21_count_usable a axis d : usable false a -> usable false (AAgg GCount a axis d) ->
  exists da r, reads false a da /\ reads false (AAgg GCount a axis d) r /\ nshape r = remove_at axis (nshape da)
    /\ forall o, inb (nshape r) o -> nget r o = Some (vofn O (nth axis (nshape da) 0)).
Proof.
  intros H1 H2. destruct (agg_claim O maxc garbage false (exact O) fuel (exact_right O false) GCount a axis d H1 H2) as (da & r & E1 & E2 & E3 & E4).
  exists da, r. split; auto. split; auto. split; auto. intros o Ho. rewrite E4 by auto. cbn [agg_spec]. unfold column.
  rewrite !map_length, seq_length. auto.
Qed.
Theorem C21_mean_usable a axis d mdtol : usable false a -> usable false (AAgg (GMean mdtol) a axis d) ->
  exists da r, reads false a da /\ reads false (AAgg (GMean mdtol) a axis d) r /\ nshape r = remove_at axis (nshape da)
    /\ forall o, inb (nshape r) o ->
         nget r o = Some (vdiv O (fold_right (vadd O) (v0 O) (map (plain_val O) (column da axis o))) (vofn O (nth axis (nshape da) 0))).
Proof.
  intros H1 H2. destruct (agg_claim O maxc garbage false (exact O) fuel (exact_right O false) (GMean mdtol) a axis d H1 H2) as (da & r & E1 & E2 & E3 & E4).
  exists da, r. split; auto. split; auto. split; auto. intros o Ho. rewrite E4 by auto. cbn [agg_spec]. unfold mean_of, total, column.
  rewrite !map_length, seq_length. auto.
Qed.

(** C22: minimum and maximum, unmasked and masked (masked when no value is
    left).  Missing: the axis must arrive in one piece (part of [usable]); see
    C22_min_refuted, C22_max_refuted. *)
Theorem C22_min_partial m a axis d : usable m a -> usable m (AAgg GMin a axis d) ->
  exists da r, reads m a da /\ reads m (AAgg GMin a axis d) r /\ nshape r = remove_at axis (nshape da)
    /\ forall o, inb (nshape r) o ->
         nget r o = best (vmin O) (if m then obs (column da axis o) else map (plain_val O) (column da axis o)).
Proof.
  intros H1 H2. destruct (agg_claim O maxc garbage m (exact O) fuel (exact_right O m) GMin a axis d H1 H2) as (da & r & E1 & E2 & E3 & E4).
  exists da, r. split; auto. split; auto. split; auto. intros o Ho. rewrite E4 by auto. destruct m; auto.
Qed.
Theorem C22_max_partial m a axis d : usable m a -> usable m (AAgg GMax a axis d) ->
  exists da r, reads m a da /\ reads m (AAgg GMax a axis d) r /\ nshape r = remove_at axis (nshape da)
    /\ forall o, inb (nshape r) o ->
         nget r o = best (vmax O) (if m then obs (column da axis o) else map (plain_val O) (column da axis o)).
Proof.
  intros H1 H2. destruct (agg_claim O maxc garbage m (exact O) fuel (exact_right O m) GMax a axis d H1 H2) as (da & r & E1 & E2 & E3 & E4).
  exists da, r. split; auto. split; auto. split; auto. intros o Ho. rewrite E4 by auto. destruct m; auto.
Qed.

(** C25: the masked mean is that of the unmasked values; it is masked exactly when
    there are none or when mdtol < 1 and the masked fraction exceeds mdtol. *)
Theorem C25_masked_mean_usable a axis d mdtol : usable true a -> usable true (AAgg (GMean mdtol) a axis d) ->
  exists da r, reads true a da /\ reads true (AAgg (GMean mdtol) a axis d) r /\ nshape r = remove_at axis (nshape da)
    /\ forall o, inb (nshape r) o ->
         let col := column da axis o in let xs := obs col in let n := nth axis (nshape da) 0 in
         let hidden := xs = [] \/ (vltb O mdtol (vofn O 1) = true
                                    /\ vltb O mdtol (vdiv O (vofn O (n - length xs)) (vofn O n)) = true) in
         (hidden -> nget r o = None)
         /\ (~ hidden -> nget r o = Some (vdiv O (fold_right (vadd O) (v0 O) xs) (vofn O (length xs)))).
Proof.
  intros H1 H2. destruct (agg_claim O maxc garbage true (exact O) fuel (exact_right O true) (GMean mdtol) a axis d H1 H2) as (da & r & E1 & E2 & E3 & E4).
  exists da, r. split; auto. split; auto. split; auto. intros o Ho. rewrite E4 by auto. cbn [agg_spec].
  assert (HL : length (column da axis o) = nth axis (nshape da) 0) by (unfold column; rewrite map_length, seq_length; auto).
  unfold frac_masked, mean_of, total. rewrite HL. cbv zeta. set (xs := obs (column da axis o)).
  destruct (Nat.eqb_spec (length xs) 0) as [E|E]; cbn [orb].
  - apply length_zero_iff_nil in E. split; auto. intros H; exfalso; apply H; auto.
  - assert (xs <> []) by (intros ->; apply E; reflexivity). split.
    + intros [H'|[-> ->]]; [congruence|]. reflexivity.
    + intros H'. destruct (vltb O mdtol (vofn O 1)) eqn:L1, (vltb O mdtol (vdiv O (vofn O (nth axis (nshape da) 0 - length xs)) (vofn O (nth axis (nshape da) 0)))) eqn:L2;
        try reflexivity. exfalso. apply H'. auto.
Qed.

(** C26: masked sum and count. *)
Theorem C26_masked_sum_usable a axis d : usable true a -> usable true (AAgg GSum a axis d) ->
  exists da r, reads true a da /\ reads true (AAgg GSum a axis d) r /\ nshape r = remove_at axis (nshape da)
    /\ forall o, inb (nshape r) o ->
         nget r o = match obs (column da axis o) with [] => None | xs => Some (fold_right (vadd O) (v0 O) xs) end.
Proof.
  intros H1 H2. destruct (agg_claim O maxc garbage true (exact O) fuel (exact_right O true) GSum a axis d H1 H2) as (da & r & E1 & E2 & E3 & E4).
  exists da, r. split; auto. split; auto. split; auto. intros o Ho. rewrite E4 by auto. cbn [agg_spec]. destruct (obs _); auto.
Qed.
Theorem C26_masked_count_usable a axis d : usable true a -> usable true (AAgg GCount a axis d) ->
  exists da r, reads true a da /\ reads true (AAgg GCount a axis d) r /\ nshape r = remove_at axis (nshape da)
    /\ forall o, inb (nshape r) o -> nget r o = Some (vofn O (length (obs (column da axis o)))).
Proof. exact (agg_claim O maxc garbage true (exact O) fuel (exact_right O true) GCount a axis d). Qed.

(** C27: a streamed elementwise operation combines the elements at the same
    position.  Missing: operands whose streams are cut differently or chunks the
    operands do not support (both part of [usable]); see C27_misaligned_refuted. *)
Theorem C27_unary_partial m o a d : usable m a -> usable m (AEl1 o a d) ->
  exists da r, reads m a da /\ reads m (AEl1 o a d) r /\ nshape r = nshape da
    /\ forall i, inb (nshape da) i -> nget r i = op1_sem m o (nget da i).
Proof. exact (el1_claim O maxc garbage m (exact O) fuel (exact_right O m) o a d). Qed.
Theorem C27_binary_partial m o a b d : usable m a -> usable m b -> usable m (AEl2 o a b d) ->
  exists da db r, reads m a da /\ reads m b db /\ reads m (AEl2 o a b d) r /\ nshape r = nshape da /\ nshape r = nshape db
    /\ forall i, inb (nshape r) i -> nget r i = op2_sem m o (nget da i) (nget db i).
Proof. exact (el2_claim O maxc garbage m (exact O) fuel (exact_right O m) o a b d). Qed.
End Agg.

(** C23: standard deviation and variance of unmasked real data. *)
Section Reals.
Variables (cast : nat -> R -> R) (dfill : nat -> R) (dtf : nat -> nat) (dti : nat).
Notation O := (real_ops cast dfill dtf dti).
Variable maxc : nat.
Variable garbage : list nat -> option R.
Variable fuel : nat.
Notation usable m := (usable maxc m (ddof_ok m) fuel).
Notation reads m := (reads O maxc garbage m fuel).

Definition rsum (l : list R) : R := fold_right Rplus 0%R l.
Definition rmean (l : list R) : R := (rsum l / INR (length l))%R.
(** The textbook variance with [ddof]. *)
Definition rvar (ddof : R) (l : list R) : R := (rsum (map (fun x => (x - rmean l) * (x - rmean l)) l) / (INR (length l) - ddof))%R.

Theorem C23_var_partial ddof a axis d : usable false a -> usable false (AAgg (GVar ddof) a axis d) ->
  exists da r, reads false a da /\ reads false (AAgg (GVar ddof) a axis d) r /\ nshape r = remove_at axis (nshape da)
    /\ forall o, inb (nshape r) o -> nget r o = Some (rvar ddof (map (plain_val O) (column da axis o))).
Proof. exact (agg_claim O maxc garbage false (ddof_ok false) fuel (right_real cast dfill dtf dti false) (GVar ddof) a axis d). Qed.
Theorem C23_std_partial ddof a axis d : usable false a -> usable false (AAgg (GStd ddof) a axis d) ->
  exists da r, reads false a da /\ reads false (AAgg (GStd ddof) a axis d) r /\ nshape r = remove_at axis (nshape da)
    /\ forall o, inb (nshape r) o -> nget r o = Some (sqrt (rvar ddof (map (plain_val O) (column da axis o)))).
Proof. exact (agg_claim O maxc garbage false (ddof_ok false) fuel (right_real cast dfill dtf dti false) (GStd ddof) a axis d). Qed.

(** C24: masked standard deviation and variance: those of the unmasked
    observations; masked when there are none, when their number equals [ddof], or
    when it is smaller and the quotient negative. *)
Lemma masked_var_spec ddof (xs : list R) :
  (xs = [] \/ INR (length xs) = ddof \/ (rvar ddof xs < 0)%R -> masked_var O ddof xs = None)
  /\ (xs <> [] -> INR (length xs) <> ddof -> (0 <= rvar ddof xs)%R -> masked_var O ddof xs = Some (rvar ddof xs)).
Proof.
  unfold masked_var. cbv zeta. change (var_of O ddof xs) with (rvar ddof xs).
  cbn [vsub vofn veqb vltb v0 real_ops].
  destruct (Nat.eqb_spec (length xs) 0) as [E|E]; cbn [orb].
  { apply length_zero_iff_nil in E. split; auto. intros; congruence. }
  destruct (Req_EM_T (INR (length xs) - ddof) 0) as [E1|E1]; cbn [orb].
  { split; auto. intros _ H. exfalso. apply H. apply Rminus_diag_uniq; auto. }
  destruct (Rlt_dec (rvar ddof xs) 0) as [E2|E2].
  { split; auto. intros _ _ H. exfalso. apply (Rlt_not_le _ _ E2 H). }
  split; auto. intros [->|[H|H]]; [exfalso; apply E; reflexivity| |contradiction]. exfalso. apply E1. rewrite H. apply Rminus_diag_eq; auto.
Qed.
Theorem C24_masked_var_usable ddof a axis d : usable true a -> usable true (AAgg (GVar ddof) a axis d) ->
  exists da r, reads true a da /\ reads true (AAgg (GVar ddof) a axis d) r /\ nshape r = remove_at axis (nshape da)
    /\ forall o, inb (nshape r) o -> let xs := obs (column da axis o) in
         (xs = [] \/ INR (length xs) = ddof \/ (rvar ddof xs < 0)%R -> nget r o = None)
         /\ (xs <> [] -> INR (length xs) <> ddof -> (0 <= rvar ddof xs)%R -> nget r o = Some (rvar ddof xs)).
Proof.
  intros H1 H2. destruct (agg_claim O maxc garbage true (ddof_ok true) fuel (right_real cast dfill dtf dti true) (GVar ddof) a axis d H1 H2) as (da & r & E1 & E2 & E3 & E4).
  exists da, r. split; auto. split; auto. split; auto. intros o Ho. rewrite E4 by auto. apply masked_var_spec.
Qed.
Theorem C24_masked_std_usable ddof a axis d : usable true a -> usable true (AAgg (GStd ddof) a axis d) ->
  exists da r, reads true a da /\ reads true (AAgg (GStd ddof) a axis d) r /\ nshape r = remove_at axis (nshape da)
    /\ forall o, inb (nshape r) o -> let xs := obs (column da axis o) in
         (xs = [] \/ INR (length xs) = ddof \/ (rvar ddof xs < 0)%R -> nget r o = None)
         /\ (xs <> [] -> INR (length xs) <> ddof -> (0 <= rvar ddof xs)%R -> nget r o = Some (sqrt (rvar ddof xs))).
Proof.
  intros H1 H2. destruct (agg_claim O maxc garbage true (ddof_ok true) fuel (right_real cast dfill dtf dti true) (GStd ddof) a axis d H1 H2) as (da & r & E1 & E2 & E3 & E4).
  exists da, r. split; auto. split; auto. split; auto. intros o Ho. rewrite E4 by auto. cbn [agg_spec]. unfold masked_std.
  destruct (masked_var_spec ddof (obs (column da axis o))) as [M1 M2]. split.
  - intros H. rewrite M1; auto.
  - intros Ha Hb Hc. rewrite M2; auto.
Qed.
End Reals.

Lemma no_new_count ks : existsb is_new ks = false -> existsb is_ell ks = false -> length ks = n_real ks.
Proof.
  unfold n_real, count_if. induction ks as [|k ks IH]; simpl; auto. intros H H'. apply Bool.orb_false_iff in H as [-> H].
  apply Bool.orb_false_iff in H' as [-> H']. simpl. auto.
Qed.

(** C33: indexing an aggregation is aggregating the indexed source, with a full
    slice put in at the aggregated axis, over the axis shifted by the integer
    keys before it.  Every array and every key tuple without newaxis ([ks]: the
    keys with Ellipsis expanded); both sides fail alike.  With newaxis keys see
    C14. *)
Theorem C33_agg_index {V} g (a : @barr V) axis d keys ks : axis < ndim a ->
  np_expand keys (ndim a - 1) = Ok ks -> existsb is_new ks = false ->
  getitem (AAgg g a axis d) keys
  = (c <- getitem a (firstn axis ks ++ KFull :: skipn axis ks) ;;
     Ok (AAgg g c (axis - length (filter is_scalar (firstn axis ks))) d)).
Proof.
  intros Hax E Hn.
  assert (HN : ndim (AAgg g a axis d) = ndim a - 1) by (unfold ndim in *; cbn [shape]; rewrite remove_at_length by exact Hax; lia).
  cbn [getitem]. unfold base_getitem. rewrite HN.
  rewrite full_keys_np by (eapply np_expand_count; eauto). rewrite E. cbn [bind]. rewrite Hn.
  unfold insert_at. destruct (getitem a (firstn axis ks ++ KFull :: skipn axis ks)) as [c|e]; cbn [bind]; auto. do 3 f_equal.
  assert (HL : length ks = ndim a - 1).
  { apply np_expand_full in E as [F E]. rewrite <- E. exact (no_new_count ks Hn F). }
  replace (firstn axis (firstn axis ks ++ KFull :: skipn axis ks)) with (firstn axis ks).
  2:{ rewrite firstn_app, firstn_firstn, Nat.min_id, firstn_length. replace (axis - Nat.min axis (length ks)) with 0 by lia.
      cbn [firstn]. rewrite app_nil_r. reflexivity. }
  reflexivity.
Qed.

(** C34: indexing an elementwise expression applies the operation to the indexed
    operands.  Every array and every key tuple without newaxis. *)
Theorem C34_unary_index {V} o (a : @barr V) d keys ks : np_expand keys (ndim a) = Ok ks -> existsb is_new ks = false ->
  getitem (AEl1 o a d) keys = (c <- getitem a ks ;; Ok (mk_el1 o c)).
Proof.
  intros E Hn. cbn [getitem]. unfold base_getitem. rewrite full_keys_np by (eapply np_expand_count; eauto).
  change (ndim (AEl1 o a d)) with (ndim a). rewrite E. cbn [bind]. rewrite Hn. reflexivity.
Qed.
Theorem C34_binary_index {V} o (a b : @barr V) d keys ks : np_expand keys (ndim a) = Ok ks -> existsb is_new ks = false ->
  getitem (AEl2 o a b d) keys = (c1 <- getitem a ks ;; c2 <- getitem b ks ;; mk_el2 o c1 c2 None).
Proof.
  intros E Hn. cbn [getitem]. unfold base_getitem. rewrite full_keys_np by (eapply np_expand_count; eauto).
  change (ndim (AEl2 o a b d)) with (ndim a). rewrite E. cbn [bind]. rewrite Hn. reflexivity.
Qed.

(** Counterexamples (integer data; no garbage). *)
Definition down5 : @barr Z := AAdapt false (mkC [5] (fun i => Some (Z.of_nat (9 - nth 0 i 0))) None 0) [].
(** C22: the minimum of 0..4 with MAX_CHUNK_SIZE = 4 is reported as 4, the maximum
    of 9, 8, 7, 6, 5 as 5: each chunk overwrites the result of the one before. *)
Theorem C22_min_refuted : wf (AAgg GMin (arr [5]) 0 0) /\ agg_spec z_ops false GMin (column (den z_ops false (arr [5])) 0 []) = Some 0%Z
  /\ flat (realise z_ops 4 (fun _ => None) 3 false (AAgg GMin (arr [5]) 0 0)) = Ok ([], [Some 4%Z])
  /\ flat (realise z_ops 4 (fun _ => None) 3 true (AAgg GMin (arr [5]) 0 0)) = Ok ([], [Some 4%Z]).
Proof. split; [repeat split; try constructor; vm_compute; discriminate|]. repeat split; vm_compute; reflexivity. Qed.
Theorem C22_max_refuted : wf (AAgg GMax down5 0 0) /\ agg_spec z_ops false GMax (column (den z_ops false down5) 0 []) = Some 9%Z
  /\ flat (realise z_ops 4 (fun _ => None) 3 false (AAgg GMax down5 0 0)) = Ok ([], [Some 5%Z])
  /\ flat (realise z_ops 4 (fun _ => None) 3 true (AAgg GMax down5 0 0)) = Ok ([], [Some 5%Z]).
Proof. split; [repeat split; try constructor; vm_compute; discriminate|]. repeat split; vm_compute; reflexivity. Qed.

(** C23: with chunks of length one (MAX_CHUNK_SIZE = 1) the variance of 0, 6, 12
    is reported as 0: the running deviation restarts with every chunk. *)
Definition multiples : @barr R := AAdapt false (mkC [3] (fun i => Some (6 * INR (nth 0%nat i 0%nat))%R) None 0) [].
Theorem C23_var_refuted cast dfill dtf dti garbage :
  let O := real_ops cast dfill dtf dti in
  wf (AAgg (GVar 0%R) multiples 0 0)
  /\ rvar 0 (map (plain_val O) (column (den O false multiples) 0 [])) = 24%R
  /\ exists r, realise O 1 garbage 3 false (AAgg (GVar 0%R) multiples 0 0) = Ok r /\ nget r [] = Some 0%R.
Proof.
  cbv zeta. split; [repeat split; try constructor; vm_compute; discriminate|]. split.
  - match goal with |- rvar 0 ?l = _ => let l' := eval cbv -[INR Rmult IZR] in l in change l with l' end.
    unfold rvar, rmean, rsum. cbn [map fold_right length]. cbn [INR]. field.
  - eexists. split; [reflexivity|].
    match goal with |- ?x = _ => let x' := eval cbv -[Rplus Rminus Rmult Rdiv INR sqrt IZR] in x in change x with x' end.
    f_equal. cbn [INR]. replace (0 / (1 - 0))%R with 0%R by field. rewrite sqrt_0. apply Rmult_0_l.
Qed.

(** C27: the operand arr(0..5) is streamed as 0..3, 4..5, the operand sum over
    axis 1 in pieces of one: the streams are combined piece by piece, and the sum of
    the result is 51 instead of 168. *)
Definition uneven : @barr Z := AEl2 zadd2 (arr [6]) (AAgg GSum (arr [6;3]) 1 0) 0.
Theorem C27_misaligned_refuted : wf (AAgg GSum uneven 0 0)
  /\ agg_spec z_ops false GSum (column (den z_ops false uneven) 0 []) = Some 168%Z
  /\ flat (realise z_ops 4 (fun _ => None) 3 false (AAgg GSum uneven 0 0)) = Ok ([], [Some 51%Z]).
Proof. split; [repeat split; try constructor; vm_compute; try discriminate; repeat constructor|]. split; vm_compute; reflexivity. Qed.

Print Assumptions C21_sum_usable.
Print Assumptions C21_count_usable.
Print Assumptions C21_mean_usable.
Print Assumptions C22_min_partial.
Print Assumptions C22_max_partial.
Print Assumptions C25_masked_mean_usable.
Print Assumptions C26_masked_sum_usable.
Print Assumptions C26_masked_count_usable.
Print Assumptions C27_unary_partial.
Print Assumptions C27_binary_partial.
Print Assumptions C23_var_partial.
Print Assumptions C23_std_partial.
Print Assumptions C24_masked_var_usable.
Print Assumptions C24_masked_std_usable.
Print Assumptions C33_agg_index.
Print Assumptions C34_unary_index.
Print Assumptions C34_binary_index.
Print Assumptions C22_min_refuted.
Print Assumptions C22_max_refuted.
Print Assumptions C23_var_refuted.
Print Assumptions C27_misaligned_refuted.
