(** Property C60: the two forms of an array, [ndarray()] and [masked_array()],
    agree: they are equal when nothing is masked, and the first is the second with
    its masked elements filled when the array only rearranges source data. *)
From Verif Require Import Base PySlice Keys NDArray Arrays Chunks Handlers Realise Spec Supported Lib SelLemmas HandlerLemmas RealOps Realisable RealiseOK ClassClaims GetBase GetItem Samples SmallClaims Small Built BuiltClaims PropBounds Steady SteadyReal PropSteady PropRefuted MaskSpec MaskAgree.
From Coq Require Import Reals Lra.

Section C60.
Context {V : Type} (O : numops V).
Implicit Types a : @barr V.
Variable maxc : nat.
Variable garbage : list nat -> option V.

Lemma both_realised (HG : @agg V -> nat -> Prop) R fuel a : (forall m g, handler_right O m g (HG g)) -> wf a -> both O R a ->
  realisable maxc false HG fuel a -> realisable maxc true HG fuel a ->
  exists d e, realise O maxc garbage fuel false a = Ok d /\ realise O maxc garbage fuel true a = Ok e
    /\ nshape d = shape a /\ nshape e = shape a /\ forall i, inb (shape a) i -> R (nget e i) (nget d i).
Proof.
  intros HR Hw HB R1 R2. destruct (realise_ok O maxc garbage false HG (HR false) fuel a Hw R1) as (d & Ed & D1 & D2).
  destruct (realise_ok O maxc garbage true HG (HR true) fuel a Hw R2) as (e & Ee & E1 & E2). destruct HB as [_ HB].
  rewrite den_shape in * by auto. exists d, e. split; auto. split; auto. split; auto. split; auto. intros i Hi.
  rewrite E2, D2 by congruence. auto.
Qed.

(** Nothing masked: the masked form has no masked element, and the two are equal.
    [never_masked] (MaskSpec.v): no source has a masked element and no operation
    introduces one.  Missing: arrays outside [realisable]. *)
Theorem C60_unmasked_partial fuel a : wf a -> never_masked O a ->
  realisable maxc false (exact O) fuel a -> realisable maxc true (exact O) fuel a ->
  exists d e, realise O maxc garbage fuel false a = Ok d /\ realise O maxc garbage fuel true a = Ok e
    /\ nd_eq d e /\ nshape e = shape a /\ forall i, inb (shape a) i -> nget e i <> None.
Proof.
  intros Hw Hn R1 R2. destruct (both_realised (exact O) (same (V:=V)) fuel a (exact_right O) Hw (never_masked_same O a Hw Hn) R1 R2) as (d & e & H1 & H2 & H3 & H4 & H5).
  exists d, e. split; auto. split; auto. split; [|split; auto].
  - split; [congruence|]. intros i Hi. rewrite H3 in Hi. symmetry. apply H5; auto.
  - intros i Hi. apply H5; auto.
Qed.
(** Rearranged data: what [ndarray()] returns is [masked_array().filled(f)], [f] the
    sources' fill value. *)
Theorem C60_filled_partial f fuel a : wf a -> rearranged O f a ->
  realisable maxc false (exact O) fuel a -> realisable maxc true (exact O) fuel a ->
  exists d e, realise O maxc garbage fuel false a = Ok d /\ realise O maxc garbage fuel true a = Ok e /\ nd_eq d (filled f e).
Proof.
  intros Hw Hn R1 R2. destruct (both_realised (exact O) (fills f) fuel a (exact_right O) Hw (rearranged_fills O f a Hw Hn) R1 R2) as (d & e & H1 & H2 & H3 & H4 & H5).
  exists d, e. split; auto. split; auto. split; [cbn; congruence|]. intros i Hi. rewrite H3 in Hi. apply H5; auto.
Qed.

(** Sources, and stacks and mosaics of sources, of stacks, ... *)
Fixpoint only_joined a : Prop :=
  match a with
  | AAdapt _ _ _ => True
  | AStack _ items => fold_right (fun it P => only_joined it /\ P) True items
  | AMosaic tiles _ => fold_right (fun t P => only_joined t /\ P) True tiles
  | _ => False
  end.
(** For these, the fill value is the [fill_value] the array reports. *)
Lemma joined_fill f a : veqb O f f = true -> wf a -> only_joined a -> rearranged O f a -> fillv O a = f.
Proof.
  intros Hf. assert (HC : forall d l, (forall x, In x l -> x = f) -> common_fill O d f l = f).
  { intros d l Hl. unfold common_fill, fill_loop. replace (fold_left _ l (Some f)) with (Some f); auto.
    induction l as [|x l IH]; cbn [fold_left]; auto. rewrite (Hl x (or_introl eq_refl)), Hf. apply IH. intros y Hy. apply Hl. right; auto. }
  induction a as [sh v d|o c ks|a na IH|a dict lead IH|a d IH|a v IH|a axes IH|ssh items IH|tiles axis IH|g a axis d IH|o a d IH|o a b d IH1 IH2] using barr_ind2;
    intros Hw Hj Hr; try contradiction; auto.
  - cbn [only_joined rearranged] in *. pose proof (proj1 (wf_items _) (proj1 (proj2 (proj2 Hw)))) as Hi. apply (fold_right_and_Forall only_joined) in Hj.
    apply (fold_right_and_Forall (rearranged O f)) in Hr. assert (HE : forall x, In x items -> fillv O x = f).
    { rewrite Forall_forall in *. intros x Hx. apply IH; auto. apply Hi; auto. }
    destruct items as [|it items]; [destruct (proj1 Hw); auto|]. cbn [fillv]. rewrite (HE it (or_introl eq_refl)). apply HC.
    intros x Hx. apply in_map_iff in Hx as (y & <- & Hy). auto.
  - cbn [only_joined rearranged] in *. pose proof (proj1 (wf_items _) (proj1 (proj2 Hw))) as Hi. apply (fold_right_and_Forall only_joined) in Hj.
    apply (fold_right_and_Forall (rearranged O f)) in Hr. assert (HE : forall x, In x tiles -> fillv O x = f).
    { rewrite Forall_forall in *. intros x Hx. apply IH; auto. apply Hi; auto. }
    destruct tiles as [|it tiles]; [destruct (proj1 Hw); auto|]. cbn [fillv]. rewrite (HE it (or_introl eq_refl)). apply HC.
    intros x Hx. apply in_map_iff in Hx as (y & <- & Hy). apply HE. right; auto.
Qed.
Theorem C60_fill_value_partial f fuel a : veqb O f f = true -> wf a -> only_joined a -> rearranged O f a ->
  realisable maxc false (exact O) fuel a -> realisable maxc true (exact O) fuel a ->
  exists d e, realise O maxc garbage fuel false a = Ok d /\ realise O maxc garbage fuel true a = Ok e /\ nd_eq d (filled (fillv O a) e).
Proof. intros Hf Hw Hj Hr. rewrite (joined_fill f a); auto. apply C60_filled_partial; auto. Qed.

(** When do aggregations keep unmasked data unmasked? *)
Lemma obs_all (xs : list V) : obs (map Some xs) = xs.
Proof. induction xs; cbn; congruence. Qed.
Lemma plain_all (xs : list V) : map (plain_val O) (map Some xs) = xs.
Proof. induction xs; cbn; congruence. Qed.
Theorem C60_count n : keeps_agg O GCount n.
Proof. intros xs _. cbn [agg_spec]. rewrite obs_all, plain_all. eauto. Qed.
Theorem C60_sum n : 1 <= n -> keeps_agg O GSum n.
Proof. intros Hn xs HL. cbn [agg_spec]. rewrite obs_all, plain_all. destruct xs; [cbn in HL; lia|]. cbn [length Nat.eqb]. eauto. Qed.
Lemma best_some pick (xs : list V) : xs <> [] -> exists v, best pick xs = Some v.
Proof. destruct xs; [congruence|]. intros _. cbn [best]. destruct (best pick xs); eauto. Qed.
Theorem C60_min n : 1 <= n -> keeps_agg O GMin n.
Proof.
  intros Hn xs HL. cbn [agg_spec]. rewrite obs_all, plain_all. destruct (best_some (vmin O) xs) as (v & ->); eauto. destruct xs; [cbn in HL; lia|discriminate].
Qed.
Theorem C60_max n : 1 <= n -> keeps_agg O GMax n.
Proof.
  intros Hn xs HL. cbn [agg_spec]. rewrite obs_all, plain_all. destruct (best_some (vmax O) xs) as (v & ->); eauto. destruct xs; [cbn in HL; lia|discriminate].
Qed.
Theorem C60_mean n mdtol : 1 <= n -> vltb O mdtol (vdiv O (vofn O 0) (vofn O n)) = false -> keeps_agg O (GMean mdtol) n.
Proof.
  intros Hn Hm xs HL. cbn [agg_spec]. unfold frac_masked. rewrite obs_all, plain_all, map_length, Nat.sub_diag, HL, Hm, andb_false_r.
  destruct n; [lia|]. cbn. eauto.
Qed.
End C60.

(** With real numbers: every aggregation over an axis that is not empty, [mdtol] not
    negative and [ddof] less than the length of the axis. *)
Theorem C60_keeps_reals cast dfill dtf dti g n : let O := real_ops cast dfill dtf dti in
  1 <= n -> match g with GMean mdtol => (0 <= mdtol)%R | GStd ddof | GVar ddof => (ddof < INR n)%R | _ => True end ->
  keeps_agg O g n.
Proof.
  intros O Hn Hg. destruct g as [| | | |mdtol|ddof|ddof].
  - apply C60_count.
  - apply C60_min; auto.
  - apply C60_max; auto.
  - apply C60_sum; auto.
  - apply C60_mean; auto. cbn. destruct (Rlt_dec _ _) as [H|H]; auto. exfalso. unfold Rdiv in H. rewrite Rmult_0_l in H. lra.
  - intros xs HL. cbn [agg_spec]. rewrite obs_all, plain_all. unfold masked_std, masked_var.
    assert (HP : (0 <= var_of O ddof xs)%R).
    { unfold var_of. cbn. apply Rmult_le_pos; [apply sumsq_nonneg|]. apply Rlt_le, Rinv_0_lt_compat. rewrite HL. lra. }
    destruct (Nat.eqb_spec (length xs) 0); [lia|]. cbn [orb].
    destruct (veqb O (vsub O (vofn O (length xs)) ddof) (v0 O)) eqn:E1. { exfalso. cbn in E1. destruct (Req_EM_T _ _) as [E|E]; [|discriminate]. rewrite HL in E. lra. }
    destruct (vltb O (var_of O ddof xs) (v0 O)) eqn:E2. { exfalso. cbn [vltb O real_ops v0] in E2. destruct (Rlt_dec _ _) as [E|E]; [|discriminate]. lra. }
    cbn [orb]. eauto.
  - intros xs HL. cbn [agg_spec]. rewrite obs_all, plain_all. unfold masked_std, masked_var.
    assert (HP : (0 <= var_of O ddof xs)%R).
    { unfold var_of. cbn. apply Rmult_le_pos; [apply sumsq_nonneg|]. apply Rlt_le, Rinv_0_lt_compat. rewrite HL. lra. }
    destruct (Nat.eqb_spec (length xs) 0); [lia|]. cbn [orb].
    destruct (veqb O (vsub O (vofn O (length xs)) ddof) (v0 O)) eqn:E1. { exfalso. cbn in E1. destruct (Req_EM_T _ _) as [E|E]; [|discriminate]. rewrite HL in E. lra. }
    destruct (vltb O (var_of O ddof xs) (v0 O)) eqn:E2. { exfalso. cbn [vltb O real_ops v0] in E2. destruct (Rlt_dec _ _) as [E|E]; [|discriminate]. lra. }
    cbn [orb]. eauto.
Qed.
Theorem C60_unmasked_reals_partial cast dfill dtf dti maxc garbage fuel a : let O := real_ops cast dfill dtf dti in
  wf a -> never_masked O a -> realisable maxc false (ddof_ok false) fuel a -> realisable maxc true (ddof_ok false) fuel a ->
  exists d e, realise O maxc garbage fuel false a = Ok d /\ realise O maxc garbage fuel true a = Ok e
    /\ nd_eq d e /\ nshape e = shape a /\ forall i, inb (shape a) i -> nget e i <> None.
Proof.
  intros O Hw Hn R1 R2.
  assert (HR : forall m g, handler_right O m g (ddof_ok false g)).
  { intros [|] g ps H1 H2; [|apply (right_real cast dfill dtf dti false); auto]. apply (right_real cast dfill dtf dti true); auto. destruct g; cbn in *; auto. }
  destruct (both_realised O maxc garbage (ddof_ok false) (same (V:=R)) fuel a HR Hw (never_masked_same O a Hw Hn) R1 R2) as (d & e & H1 & H2 & H3 & H4 & H5).
  exists d, e. split; auto. split; auto. split; [|split; auto].
  - split; [congruence|]. intros i Hi. rewrite H3 in Hi. symmetry. apply H5; auto.
  - intros i Hi. apply H5; auto.
Qed.

(** Not true of every rearrangement: a transposed array reports the fill value of
    its dtype, [ndarray()] uses the source's. *)
Definition zg : list nat -> option Z := fun _ => Some 0%Z.
Theorem C60_fill_value_refuted : exists a d e, mk_trans (marr [2;3]) None = Ok a
  /\ realise z_ops 100 zg 3 false a = Ok d /\ realise z_ops 100 zg 3 true a = Ok e /\ ~ nd_eq d (filled (fillv z_ops a) e).
Proof.
  eexists _, _, _. split; [reflexivity|]. split; [reflexivity|]. split; [reflexivity|]. intros [_ H]. specialize (H [0;0]).
  assert (Hi : inb [3;2] [0;0]) by (repeat constructor). specialize (H Hi). vm_compute in H. discriminate.
Qed.
(** Tiles with different fill values are filled differently. *)
Definition other : @concrete Z := mkC [2] (fun _ => None) (Some (-2)%Z) 0.
Theorem C60_mixed_refuted : exists a d e, mk_mosaic [marr [2]; AAdapt false other []] 0 = Ok a
  /\ realise z_ops 100 zg 3 false a = Ok d /\ realise z_ops 100 zg 3 true a = Ok e /\ forall f, ~ nd_eq d (filled f e).
Proof.
  eexists _, _, _. split; [reflexivity|]. split; [reflexivity|]. split; [reflexivity|]. intros f [_ H].
  pose proof (H [0]) as H0. pose proof (H [2]) as H2. assert (I0 : inb [4] [0]) by (repeat constructor). assert (I2 : inb [4] [2]) by (repeat constructor).
  specialize (H0 I0). specialize (H2 I2). vm_compute in H0, H2. congruence.
Qed.
(** Computed arrays: the sum as an ndarray includes the fill values, the masked sum
    leaves the masked elements out; no filling relates them. *)
Theorem C60_computed_refuted : exists a d e, aggregate z_ops GSum (marr [2;3]) (AxInt 1) = Ok a
  /\ realise z_ops 100 zg 3 false a = Ok d /\ realise z_ops 100 zg 3 true a = Ok e /\ forall f, ~ nd_eq d (filled f e).
Proof.
  eexists _, _, _. split; [reflexivity|]. split; [reflexivity|]. split; [reflexivity|]. intros f [_ H].
  pose proof (H [0]) as H0. assert (I0 : inb [2] [0]) by (repeat constructor). specialize (H0 I0). vm_compute in H0. discriminate.
Qed.

(** The mean over axis 1 of [x + y[::-1]] for unmasked [x], [y], and a mosaic of two
    masked sources. *)
Definition avg : @barr Z := AAgg (GMean 0%Z) (AEl2 zadd2 (arr [4;3]) (AAdapt false (numbered [4;3]) [S3 3 (-5) (-1); KFull]) 0) 1 1.
Example C60_case : wf avg /\ never_masked z_ops avg /\ realisable 100 false (exact z_ops) 3 avg /\ realisable 100 true (exact z_ops) 3 avg
  /\ flat (realise z_ops 100 zg 3 false avg) = Ok ([4], [Some 11; Some 11; Some 11; Some 11]%Z).
Proof.
  assert (W : wf avg) by (unfold avg, arr; wfs). split; auto. split; [|split; [|split]].
  - cbn. split; [split; [|split]|].
    + intros i _. discriminate.
    + intros i _. discriminate.
    + eexists. split; [reflexivity|]. reflexivity.
    + apply C60_mean; [vm_compute; lia|reflexivity].
  - apply (steady_realisable z_ops 100 false (exact z_ops) false 3 avg false); auto. unfold avg, arr. sts.
  - apply (steady_realisable z_ops 100 true (exact z_ops) false 3 avg false); auto. unfold avg, arr. sts.
  - vm_compute. reflexivity.
Qed.
Definition rows : @barr Z := AMosaic [marr [2;2]; AAdapt false (thirds [1;2]) []] 0.
Example C60_filled_case : wf rows /\ only_joined rows /\ rearranged z_ops (-1)%Z rows
  /\ realisable 100 false (exact z_ops) 3 rows /\ realisable 100 true (exact z_ops) 3 rows
  /\ flat (realise z_ops 100 zg 3 true rows) = Ok ([3;2], [None; Some 1; Some 2; None; None; Some 1]%Z)
  /\ flat (realise z_ops 100 zg 3 false rows) = Ok ([3;2], [Some (-1); Some 1; Some 2; Some (-1); Some (-1); Some 1]%Z).
Proof.
  assert (W : wf rows) by (unfold rows, marr; wfs). split; auto. split; [repeat split|]. split; [repeat split|]. split; [|split; [|split; vm_compute; reflexivity]].
  - apply (steady_realisable z_ops 100 false (exact z_ops) false 3 rows false); auto. unfold rows, marr. sts; right; right; (split; [reflexivity|vm_compute; discriminate]).
  - apply (steady_realisable z_ops 100 true (exact z_ops) false 3 rows false); auto. unfold rows, marr. sts.
Qed.
Print Assumptions C60_unmasked_partial.
Print Assumptions C60_filled_partial.
Print Assumptions C60_fill_value_partial.
Print Assumptions C60_count.
Print Assumptions C60_sum.
Print Assumptions C60_min.
Print Assumptions C60_max.
Print Assumptions C60_mean.
Print Assumptions C60_keeps_reals.
Print Assumptions C60_unmasked_reals_partial.
Print Assumptions C60_fill_value_refuted.
Print Assumptions C60_mixed_refuted.
Print Assumptions C60_computed_refuted.
