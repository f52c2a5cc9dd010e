(** Property C69: [a.masked_array().filled()] is [a.ndarray()]: the masked elements
    are filled with the same values whichever way the data are asked for. *)
From Verif Require Import Base PySlice Keys NDArray Arrays Chunks Handlers Realise Spec Supported Lib SelLemmas HandlerLemmas RealOps Realisable RealOK RealiseOK ClassClaims GetBase GetStack GetItem Samples SmallClaims Small PropBounds Steady SteadyReal PropSteady PropRefuted MaskSpec MaskAgree PropMask ResultFill FillSpec.

Section C69.
Context {V : Type} (O : numops V).
Implicit Types a c : @barr V.
Notation result_fill := (result_fill O).
Notation faithful := (faithful O).
Notation nothing_masked := (nothing_masked O).
Notation both := (both O).

Lemma clear_fills f g a : wf a -> nothing_masked a -> both (fills f) a -> both (fills g) a.
Proof.
  intros Hw Hn [H1 H2]. split; auto. intros i Hi. specialize (H2 i Hi). rewrite den_shape in Hi by auto. specialize (Hn i Hi).
  unfold fills in *. destruct (nget (den O true a) i); congruence.
Qed.
Lemma same_fills f a : both (same (V:=V)) a -> both (fills f) a.
Proof.
  intros [H1 H2]. split; auto. intros i Hi. destruct (H2 i Hi) as [E1 E2]. unfold fills. rewrite <- E1. destruct (nget (den O true a) i); congruence.
Qed.
Lemma part_fills f a : wf a -> both (fills (result_fill a)) a -> nothing_masked a \/ result_fill a = f -> both (fills f) a.
Proof. intros Hw H [Hn|<-]; auto. eapply clear_fills; eauto. Qed.
Lemma masked_dec a : nothing_masked a \/ exists i, inb (shape a) i /\ nget (den O true a) i = None.
Proof.
  destruct (existsb (fun i => match nget (den O true a) i with None => true | _ => false end) (ndindex (shape a))) eqn:E.
  - right. apply existsb_exists in E as (i & Hi & E). exists i. split; [apply ndindex_In; auto|]. destruct (nget (den O true a) i); congruence.
  - left. intros i Hi Hn. assert (E' : existsb (fun i => match nget (den O true a) i with None => true | _ => false end) (ndindex (shape a)) = true); [|congruence].
    apply existsb_exists. exists i. split; [apply ndindex_In; auto|]. rewrite Hn. auto.
Qed.
Lemma fills_exact f g a : wf a -> both (fills g) a -> (both (fills f) a <-> nothing_masked a \/ g = f).
Proof.
  intros Hw H. split.
  - intros H'. destruct (masked_dec a) as [Hn|(i & Hi & En)]; auto. right. destruct H as [_ H], H' as [_ H']. rewrite den_shape in * by auto.
    specialize (H i Hi). specialize (H' i Hi). unfold fills in *. rewrite En in *. congruence.
  - intros [Hn| <-]; auto. eapply clear_fills; eauto.
Qed.

Lemma faithful_fills a : wf a -> faithful a -> both (fills (result_fill a)) a.
Proof.
  induction a as [sh v d|o c ks|a na IH|a dict lead IH|a d IH|a v IH|a axes IH|ssh items IH|tiles axis IH|g a axis d IH|o a d IH|o a b d IH1 IH2] using barr_ind2;
    intros Hw Hf.
  - split; auto. intros i Hi. reflexivity.
  - unfold MaskAgree.both. cbn [den]. split; auto. cbn [nd_map nget]. intros i _. unfold ResultFill.result_fill. cbn [rfill]. destruct (nget _ i); reflexivity.
  - change (result_fill (ANewAx a na)) with (result_fill a). apply both_newax; auto. apply IH; auto. apply Hw.
  - destruct Hf as [Hf Hc]. assert (HB : both (fills (result_fill a)) (ABcast a dict lead)) by (apply both_bcast; auto; apply IH; auto; apply Hw).
    destruct Hc as [Hc|Hc]; [eapply clear_fills; eauto|]. unfold ResultFill.result_fill at 1. cbn [rfill dtype]. rewrite <- Hc. auto.
  - destruct Hf as [Hf Hc]. specialize (IH Hw Hf).
    assert (HB : both (fills (vcast O d (result_fill a))) (AAsTy a d)).
    { destruct IH as [E1 E2]. split; auto. cbn [den nd_map nshape nget]. intros i Hi. specialize (E2 i Hi). unfold fills in *. rewrite E2. destruct (nget (den O true a) i); reflexivity. }
    destruct Hc as [Hc|Hc]; [eapply clear_fills; eauto|].
    assert (E : result_fill (AAsTy a d) = vcast O d (result_fill a)); [|rewrite E; auto].
    unfold ResultFill.result_fill. cbn [rfill dtype]. destruct (rfill O a); auto. cbn [option_map]. destruct Hc as [Hc|Hc]; congruence.
  - destruct Hf as (Hf & Hc & Hv). change (result_fill (AMaskV a v)) with (vcast O (dtype a) v). specialize (IH Hw Hf). apply (part_fills (vcast O (dtype a) v)) in IH; auto.
    destruct IH as [E1 E2]. split; auto. cbn [den nd_map nshape nget]. intros i Hi. specialize (E2 i Hi). rewrite den_shape in Hi by auto. specialize (Hv i).
    unfold fills in *. rewrite E2. destruct (nget (den O true a) i) as [x|]; unfold eq_mask.
    + destruct (veqb O x v) eqn:Ex; auto. rewrite (Hv x Hi eq_refl Ex). reflexivity.
    + reflexivity.
  - change (result_fill (ATrans a axes)) with (result_fill a). apply both_trans; auto. apply IH; auto. apply Hw.
  - change (result_fill (AStack ssh items)) with (fillv O (AStack ssh items)). apply both_stack; auto.
    cbn [FillSpec.faithful] in Hf. apply (fold_right_and_Forall (fun it => faithful it /\ (nothing_masked it \/ result_fill it = fillv O (AStack ssh items)))) in Hf.
    pose proof (proj1 (wf_items _) (proj1 (proj2 (proj2 Hw)))) as Hi. rewrite Forall_forall in *. intros x Hx. destruct (Hf x Hx). apply part_fills; [apply Hi|apply IH; [|apply Hi|]|]; auto.
  - change (result_fill (AMosaic tiles axis)) with (fillv O (AMosaic tiles axis)). apply both_mosaic; auto.
    cbn [FillSpec.faithful] in Hf. apply (fold_right_and_Forall (fun it => faithful it /\ (nothing_masked it \/ result_fill it = fillv O (AMosaic tiles axis)))) in Hf.
    pose proof (proj1 (wf_items _) (proj1 (proj2 Hw))) as Hi. rewrite Forall_forall in *. intros x Hx. destruct (Hf x Hx). apply part_fills; [apply Hi|apply IH; [|apply Hi|]|]; auto.
  - apply same_fills, never_masked_same; auto.
  - apply same_fills, never_masked_same; auto.
  - apply same_fills, never_masked_same; auto.
Qed.

Variable maxc : nat.
Variable garbage : list nat -> option V.

(** Every array in which no masked element meets another fill value than its own
    ([faithful], FillSpec.v).  Missing: arrays outside [realisable]. *)
Theorem C69_filled_partial fuel a : wf a -> faithful a -> realisable maxc false (exact O) fuel a -> realisable maxc true (exact O) fuel a ->
  exists d e f, realise O maxc garbage fuel false a = Ok d /\ masked_result O maxc garbage fuel a = Ok (e, f) /\ nd_eq d (filled f e).
Proof.
  intros Hw Hf R1 R2. destruct (both_realised O maxc garbage (exact O) _ fuel a (exact_right O) Hw (faithful_fills a Hw Hf) R1 R2) as (d & e & H1 & H2 & H3 & H4 & H5).
  exists d, e, (result_fill a). split; auto. split; [unfold masked_result; rewrite H2; auto|]. split; [cbn; congruence|]. intros i Hi. rewrite H3 in Hi. apply H5; auto.
Qed.

Lemma filled_exact f g a d e : wf a -> nd_eq d (den O false a) -> nd_eq e (den O true a) -> both (fills g) a ->
  (nd_eq d (filled f e) <-> (forall i, inb (shape a) i -> nget e i <> None) \/ g = f).
Proof.
  intros Hw [D1 D2] [E1 E2] H. rewrite den_shape in * by auto.
  assert (HN : (forall i, inb (shape a) i -> nget e i <> None) <-> nothing_masked a).
  { split; intros Hn i Hi; specialize (Hn i Hi); rewrite E2 in * by congruence; auto. }
  rewrite HN. rewrite <- (fills_exact f g a Hw H). split.
  - intros [G1 G2]. split; [rewrite !den_shape; auto|]. rewrite den_shape by auto. intros i Hi. assert (Hd : inb (nshape d) i) by congruence.
    specialize (G2 i Hd). unfold filled in G2. cbn [nd_map nget] in G2. unfold fills. rewrite <- E2, <- D2 by congruence. exact G2.
  - intros [G1 G2]. split; [cbn; congruence|]. intros i Hi. rewrite D2 by auto. unfold filled. cbn [nd_map nget]. rewrite E2 by congruence. apply G2. rewrite den_shape by auto. congruence.
Qed.

(** A broadcast drops the fill value: [filled] gives the data of [ndarray()] exactly
    when no element of the result is masked or the lost fill value was the default
    of the dtype. *)
Theorem C69_broadcast_partial fuel c dict lead : let a := ABcast c dict lead in
  wf a -> faithful c -> realisable maxc false (exact O) fuel a -> realisable maxc true (exact O) fuel a ->
  exists d e f, realise O maxc garbage fuel false a = Ok d /\ masked_result O maxc garbage fuel a = Ok (e, f)
    /\ (nd_eq d (filled f e) <-> (forall i, inb (shape a) i -> nget e i <> None) \/ result_fill c = vdfill O (dtype c)).
Proof.
  intros a Hw Hf R1 R2. destruct (realise_ok O maxc garbage false (exact O) (exact_right O false) fuel a Hw R1) as (d & Ed & D).
  destruct (realise_ok O maxc garbage true (exact O) (exact_right O true) fuel a Hw R2) as (e & Ee & E).
  exists d, e, (result_fill a). split; auto. split; [unfold masked_result; rewrite Ee; auto|].
  apply (filled_exact _ _ a d e); auto. apply both_bcast; auto. apply faithful_fills; auto. apply Hw.
Qed.

(** [biggus.ndarrays] and [biggus.masked_arrays]: the results never keep a fill
    value, so they agree exactly when no element is masked or the array's was the
    default anyway. *)
Theorem C69_group_partial fuel a : wf a -> faithful a ->
  streamable maxc false (exact O) (realisable maxc false (exact O) fuel) a -> streamable maxc true (exact O) (realisable maxc true (exact O) fuel) a ->
  exists d e f, ndarrays O maxc garbage fuel false [a] = Ok [d] /\ group_result O maxc garbage fuel a = Ok (e, f)
    /\ (nd_eq d (filled f e) <-> (forall i, inb (shape a) i -> nget e i <> None) \/ result_fill a = vdfill O (dtype a)).
Proof.
  intros Hw Hf S1 S2.
  destruct (engine_ok O maxc garbage false (exact O) (exact_right O false) (realisable maxc false (exact O) fuel) (realise O maxc garbage fuel false)
    (realise_ok O maxc garbage false (exact O) (exact_right O false) fuel) a Hw S1) as (d & Ed & D).
  destruct (engine_ok O maxc garbage true (exact O) (exact_right O true) (realisable maxc true (exact O) fuel) (realise O maxc garbage fuel true)
    (realise_ok O maxc garbage true (exact O) (exact_right O true) fuel) a Hw S2) as (e & Ee & E).
  exists d, e, (vdfill O (dtype a)). split; [unfold ndarrays; cbn [mapM]; rewrite Ed; auto|]. split; [unfold group_result; rewrite Ee; auto|].
  apply (filled_exact _ _ a d e); auto. apply faithful_fills; auto.
Qed.
End C69.

(** A masked source with fill value -1, broadcast along a leading dimension:
    [ndarray()] has -1, [masked_array().filled()] the default 999999. *)
Definition spread : @barr Z := ABcast (marr [2;3]) [] [2].
Theorem C69_broadcast_refuted : exists d e f, mk_bcast (marr [2;3]) [] [2] = Ok spread
  /\ realise z_ops 100 zg 3 false spread = Ok d /\ masked_result z_ops 100 zg 3 spread = Ok (e, f)
  /\ ~ nd_eq d (filled f e) /\ nget d [1;0;0] = Some (-1)%Z /\ nget (filled f e) [1;0;0] = Some 999999%Z.
Proof.
  eexists _, _, _. split; [reflexivity|]. split; [reflexivity|]. split; [reflexivity|]. split; [|split; vm_compute; reflexivity].
  intros [_ H]. assert (Hi : inb [2;2;3] [1;0;0]) by (repeat constructor). specialize (H _ Hi). vm_compute in H. discriminate.
Qed.
(** [biggus.masked_arrays] of the source itself. *)
Theorem C69_group_refuted : exists d e f, ndarrays z_ops 100 zg 3 false [marr [2;3]] = Ok [d] /\ group_result z_ops 100 zg 3 (marr [2;3]) = Ok (e, f)
  /\ ~ nd_eq d (filled f e) /\ nget d [0;0] = Some (-1)%Z /\ nget (filled f e) [0;0] = Some 999999%Z.
Proof.
  eexists _, _, _. split; [reflexivity|]. split; [reflexivity|]. split; [|split; vm_compute; reflexivity].
  intros [_ H]. assert (Hi : inb [2;3] [0;0]) by (repeat constructor). specialize (H _ Hi). vm_compute in H. discriminate.
Qed.
(** A stack of transposed sources: the parts' results carry -1, but the stack goes by
    their [fill_value] properties, which are the default. *)
Definition tilted : @barr Z := AStack [2] [ATrans (marr [2;3]) [1;0]; ATrans (marr [2;3]) [1;0]].
Theorem C69_stack_refuted : exists d e f, mk_stack [2] [ATrans (marr [2;3]) [1;0]; ATrans (marr [2;3]) [1;0]] = Ok tilted
  /\ realise z_ops 100 zg 3 false tilted = Ok d /\ masked_result z_ops 100 zg 3 tilted = Ok (e, f)
  /\ ~ nd_eq d (filled f e) /\ result_fill z_ops (ATrans (marr [2;3]) [1;0]) = (-1)%Z.
Proof.
  eexists _, _, _. split; [reflexivity|]. split; [reflexivity|]. split; [reflexivity|]. split; [|vm_compute; reflexivity].
  intros [_ H]. assert (Hi : inb [2;3;2] [0;0;0]) by (repeat constructor). specialize (H _ Hi). vm_compute in H. discriminate.
Qed.
(** Masking a value of data already masked: the elements masked before are filled
    with that value too. *)
Theorem C69_masked_equal_refuted : exists d e f, realise z_ops 100 zg 3 false (AMaskV (marr [2;3]) 1%Z) = Ok d
  /\ masked_result z_ops 100 zg 3 (AMaskV (marr [2;3]) 1%Z) = Ok (e, f) /\ ~ nd_eq d (filled f e)
  /\ nget d [0;0] = Some (-1)%Z /\ nget (filled f e) [0;0] = Some 1%Z.
Proof.
  eexists _, _, _. split; [reflexivity|]. split; [reflexivity|]. split; [|split; vm_compute; reflexivity].
  intros [_ H]. assert (Hi : inb [2;3] [0;0]) by (repeat constructor). specialize (H _ Hi). vm_compute in H. discriminate.
Qed.

(** A mosaic of a masked source and one without masked elements: their fill values
    differ, so the mosaic's result gets the default. *)
Theorem C69_mixed_refuted : exists d e f, mk_mosaic [marr [2]; arr [2]] 0 = Ok (AMosaic [marr [2]; arr [2]] 0)
  /\ realise z_ops 100 zg 3 false (AMosaic [marr [2]; arr [2]] 0) = Ok d /\ masked_result z_ops 100 zg 3 (AMosaic [marr [2]; arr [2]] 0) = Ok (e, f)
  /\ ~ nd_eq d (filled f e) /\ nget d [0] = Some (-1)%Z /\ nget (filled f e) [0] = Some 999999%Z.
Proof.
  eexists _, _, _. split; [reflexivity|]. split; [reflexivity|]. split; [reflexivity|]. split; [|split; vm_compute; reflexivity].
  intros [_ H]. assert (Hi : inb [4] [0]) by (repeat constructor). specialize (H _ Hi). vm_compute in H. discriminate.
Qed.

(** The transpose of a cast of [x[newaxis]], [x] a mosaic of two masked sources. *)
Definition turned : @barr Z := ATrans (AAsTy (ANewAx rows [1;0;0]) 0) [2;1;0].
Example C69_case : wf turned /\ faithful z_ops turned /\ realisable 100 false (exact z_ops) 3 turned /\ realisable 100 true (exact z_ops) 3 turned
  /\ result_fill z_ops turned = (-1)%Z /\ fillv z_ops turned = 999999%Z
  /\ flat (realise z_ops 100 zg 3 true turned) = Ok ([2;3;1], [None; Some 2; None; Some 1; None; Some 1]%Z)
  /\ flat (realise z_ops 100 zg 3 false turned) = Ok ([2;3;1], [Some (-1); Some 2; Some (-1); Some 1; Some (-1); Some 1]%Z).
Proof.
  assert (W : wf turned) by (unfold turned, rows, marr; wfs). split; auto.
  split. { cbn. repeat split; auto; right; left; discriminate. }
  split; [|split; [|repeat split; vm_compute; reflexivity]].
  - apply (steady_realisable z_ops 100 false (exact z_ops) false 3 turned false); auto. unfold turned, rows, marr. sts; right; right; (split; [reflexivity|vm_compute; discriminate]).
  - apply (steady_realisable z_ops 100 true (exact z_ops) false 3 turned false); auto. unfold turned, rows, marr. sts.
Qed.
(** Masking the value 3 in data without masked elements; broadcasts of such data. *)
Definition hidden : @barr Z := AMaskV (ABcast (arr [2;3]) [] [2]) 3%Z.
Example C69_masked_case : wf hidden /\ faithful z_ops hidden /\ realisable 100 false (exact z_ops) 3 hidden /\ realisable 100 true (exact z_ops) 3 hidden
  /\ flat (realise z_ops 100 zg 3 true hidden) = Ok ([2;2;3], [Some 0; Some 1; Some 2; None; Some 4; Some 5; Some 0; Some 1; Some 2; None; Some 4; Some 5]%Z).
Proof.
  assert (W : wf hidden) by (unfold hidden, arr; wfs). split; auto.
  assert (N : nothing_masked z_ops (ABcast (arr [2;3]) [] [2])) by (intros i _; discriminate).
  split; [|split; [|split; [|vm_compute; reflexivity]]].
  - split; [split; [exact I|left; exact N]|]. split; [left; exact N|]. intros i x _ _ Hx. apply Z.eqb_eq in Hx. exact Hx.
  - apply (steady_realisable z_ops 100 false (exact z_ops) false 3 hidden false); auto. unfold hidden, arr. sts.
  - apply (steady_realisable z_ops 100 true (exact z_ops) false 3 hidden false); auto. unfold hidden, arr. sts.
Qed.
(** The hypotheses of C69_broadcast_partial and C69_group_partial for [spread] and
    its source. *)
Example C69_group_case : wf spread /\ faithful z_ops (marr [2;3]) /\ realisable 100 false (exact z_ops) 3 spread /\ realisable 100 true (exact z_ops) 3 spread
  /\ wf (marr [2;3]) /\ streamable 100 false (exact z_ops) (realisable 100 false (exact z_ops) 3) (marr [2;3])
  /\ streamable 100 true (exact z_ops) (realisable 100 true (exact z_ops) 3) (marr [2;3]).
Proof.
  assert (W : wf spread) by (unfold spread, marr; wfs). assert (W' : wf (marr [2;3])) by (unfold marr; wfs).
  split; auto. split; [exact I|]. split; [|split; [|split; [|split]]]; auto.
  - apply (steady_realisable z_ops 100 false (exact z_ops) false 3 spread false); auto. unfold spread, marr. sts; right; right; (split; [reflexivity|vm_compute; discriminate]).
  - apply (steady_realisable z_ops 100 true (exact z_ops) false 3 spread false); auto. unfold spread, marr. sts.
  - apply (steady_streamable z_ops 100 false (exact z_ops) false 3 (marr [2;3]) false); auto. unfold marr. sts; right; right; (split; [reflexivity|vm_compute; discriminate]).
  - apply (steady_streamable z_ops 100 true (exact z_ops) false 3 (marr [2;3]) false); auto. unfold marr. sts.
Qed.
Print Assumptions C69_filled_partial.
Print Assumptions C69_broadcast_partial.
Print Assumptions C69_group_partial.
Print Assumptions C69_broadcast_refuted.
Print Assumptions C69_group_refuted.
Print Assumptions C69_stack_refuted.
Print Assumptions C69_masked_equal_refuted.
Print Assumptions C69_mixed_refuted.
