(** Property C58: an indexing that returns, returns the right data.

    Unlike C14 nothing is assumed about which keys the classes implement: the
    call is only known to return an array.  [safe_keys] (Supported.v) excludes the
    calls that return a wrong array silently; each exclusion has a counterexample
    below. *)
From Verif Require Import Base PySlice Keys NDArray Arrays Chunks Handlers Realise Spec Supported Lib HandlerLemmas RealOps Realisable RealiseOK IndexClaims ClassClaims IndexClaims SelLemmas  GetBase GetItem Samples PropRefuted Sound.
From Coq Require Import Reals.

Section C58.
Context {V : Type} (O : numops V).
Implicit Types a b : @barr V.

(** Whatever the keys: if indexing returns [b] then [b] stands for the orthogonal
    selection, in both forms, and its shape is the selection's.  Missing: the calls
    outside [safe_keys]. *)
Theorem C58_meaning_partial a keys b : wf a -> valid_keys keys (shape a) -> safe_keys a keys -> getitem a keys = Ok b ->
  wf b /\ (forall m, nd_eq (den O m b) (oindex (den O m a) keys)) /\ shape b = nshape (oindex (den O true a) keys).
Proof.
  intros Hw Hv Hk Hg. destruct (getitem_sound O a b keys Hw Hv Hk Hg) as (A & B & _). split; auto. split; auto.
  destruct (B true) as [E _]. rewrite <- E. symmetry. apply den_shape. auto.
Qed.

(** The same of the arrays realised. *)
Theorem C58_realise_partial maxc garbage m fuel a keys b : wf a -> valid_keys keys (shape a) -> safe_keys a keys -> getitem a keys = Ok b ->
  realisable maxc m (exact O) fuel a -> realisable maxc m (exact O) fuel b ->
  exists da db, realise O maxc garbage fuel m a = Ok da /\ realise O maxc garbage fuel m b = Ok db /\ nd_eq db (oindex da keys).
Proof.
  intros Hw Hv Hk Hg HA HB. destruct (getitem_sound O a b keys Hw Hv Hk Hg) as (Wb & Db & _).
  destruct (realise_ok O maxc garbage m (exact O) (exact_right O m) fuel a Hw HA) as (da & Ea & Da).
  destruct (realise_ok O maxc garbage m (exact O) (exact_right O m) fuel b Wb HB) as (db & Edb & Ddb).
  exists da, db. split; auto. split; auto. eapply nd_eq_trans; [exact Ddb|]. eapply nd_eq_trans; [apply Db|]. apply oindex_eq.
  - apply nd_eq_sym; auto.
  - rewrite den_shape; auto.
Qed.

(** Keys that are [supported] are [safe_keys]: C58 covers all that C14 does. *)
Lemma nx_ok_safe ks : forall seen fl, nx_ok seen ks fl -> nx_safe seen ks fl.
Proof.
  induction ks as [|k ks IH]; intros seen fl H; [exact I|]. destruct k; destruct fl as [|[] fl]; cbn [nx_ok nx_safe] in *; auto; try tauto;
    repeat (destruct H as [? H]); auto.
Qed.
Lemma each_weaken {A} (P Q : A -> Prop) l : (forall x, In x l -> P x -> Q x) ->
  fold_right (fun x R => P x /\ R) True l -> fold_right (fun x R => Q x /\ R) True l.
Proof. induction l as [|x l IH]; cbn; intros H1 H2; auto. destruct H2. split; auto. Qed.
Lemma okk_safe a : forall ks, okk a ks -> safe a ks.
Proof.
  induction a as [sh v d|o c ks0|a na IH|a dict lead IH|a d IH|a v IH|a axes IH|ssh items IH|tiles axis IH|g a axis d IH|o a d IH|o a b d IH1 IH2] using barr_ind2;
    intros ks H; cbn [okk safe] in *; auto.
  - destruct H. split; auto. apply nx_ok_safe; auto.
  - destruct H as (_ & _ & _ & H1 & H2). auto.
  - destruct H as (_ & _ & H1 & H2). split; [intros Hc; destruct H1 as [H1|[_ H1]]; [congruence|auto]|].
    rewrite Forall_forall in IH. revert H2. apply each_weaken. auto.
  - rewrite Forall_forall in IH. destruct H as [[H1 H2]|[H1 H2]].
    + left. split; auto. revert H2. apply each_weaken. auto.
    + right. split; auto. destruct (nth axis (drop_new ks) KBad); auto.
      * destruct H2 as [H2 H3]. split; auto. revert H3. apply each_weaken. auto.
      * destruct H2 as (_ & H2 & H3). split; [destruct (s_step s); auto; lia|]. revert H3. apply each_weaken. auto.
      * destruct H2 as (_ & H2 & H3). split; auto. revert H3. apply each_weaken. auto.
      * destruct H2 as (_ & H2 & H3). split; auto. revert H3. apply each_weaken. auto.
      * destruct H2 as (_ & H2 & H3). split; auto. revert H3. apply each_weaken. auto.
  - destruct H. split; auto.
Qed.
Theorem C58_supported a keys : supported a keys -> safe_keys a keys.
Proof. intros H ks E. apply okk_safe. auto. Qed.
End C58.
Print Assumptions C58_meaning_partial.
Print Assumptions C58_realise_partial.
Print Assumptions C58_supported.

(** A call that returns an array whose realised data are [got], though the
    selection of the realised data is [due]. *)
Definition silent (a : @barr Z) (keys : list key) (got due : list nat * list (option Z)) : Prop :=
  wf a /\ valid_keys keys (shape a) /\ before true a keys = Ok got /\ after true a keys = Ok due /\ got <> due.

(** A new axis, after an integer key, with a key that changes the length: the
    repetition is applied to the wrong dimension. *)
Theorem C58_after_integer_refuted : exists a keys got due, silent a keys got due /\ fst got = [1;2] /\ fst due = [2;1].
Proof.
  exists (ANewAx (arr [2;1]) [0;1;0]), [KInt 0; KTuple [0;0]%Z; KFull]. eexists _, _.
  split; [|split; [|]]; [split; [repeat split; try constructor; valid|]; split; [valid|]; split; [vm_compute; reflexivity|]; split; [vm_compute; reflexivity|discriminate]| |]; reflexivity.
Qed.
(** On a stack, an integer and a sequence separated by a slice: the dimensions come
    out swapped. *)
Theorem C58_stack_refuted : exists a keys got due, silent a keys got due /\ fst got = fst due.
Proof.
  exists (AStack [2;2;2] [arr [1]; arr [1]; arr [1]; arr [1]; arr [1]; AConst [1] 9%Z 0; arr [1]; arr [1]]), [KInt 1; KFull; KTuple [0;1]%Z]. eexists _, _.
  split; [split; [|split; [valid|]]; [|split; [vm_compute; reflexivity|]; split; [vm_compute; reflexivity|discriminate]]|reflexivity].
  repeat split; try (repeat constructor; fail); try valid.
Qed.
(** A boolean mask stored in an adapter and indexed again; on a mosaic axis,
    negative positions in a sequence and negative steps. *)
Theorem C58_mask_refuted : exists a keys got due, silent a keys got due /\ snd got = [Some 0; Some 1; Some 2]%Z /\ snd due = [Some 3; Some 2; Some 1]%Z.
Proof.
  exists (AAdapt false (numbered [4]) [KMask [false;true;true;true]]), [KSlice (mkS None None (Some (-1)%Z))]. eexists _, _.
  split; [split; [|split; [valid|]; split; [vm_compute; reflexivity|]; split; [vm_compute; reflexivity|discriminate]]|split; reflexivity].
  split; [repeat constructor|valid].
Qed.
Theorem C58_mosaic_refuted : exists a k1 k2 g1 d1 g2 d2, silent a k1 g1 d1 /\ silent a k2 g2 d2.
Proof.
  exists mos, [KTuple [-1;0]%Z], [KSlice (mkS None None (Some (-1)%Z))]. eexists _, _, _, _.
  split; (split; [exact mos_wf|]; split; [valid|]; split; [vm_compute; reflexivity|]; split; [vm_compute; reflexivity|discriminate]).
Qed.
(** A stack, one of whose items has broadcast leading dimensions, stretched along
    those: picking the item applies the stretching to the wrong dimension.  The
    array is built by the constructors. *)
Theorem C58_rebroadcast_refuted : exists x st a keys got due,
  mk_bcast (arr [1]) [] [1] = Ok x /\ mk_stack [1] [x] = Ok st /\ mk_bcast st [(1,3)] [] = Ok a /\ keys = [KInt 0]
  /\ silent a keys got due /\ fst got = [1;3] /\ fst due = [3;1].
Proof.
  exists (ABcast (arr [1]) [] [1]), (AStack [1] [ABcast (arr [1]) [] [1]]), (ABcast (AStack [1] [ABcast (arr [1]) [] [1]]) [(1,3)] []), [KInt 0]. eexists _, _.
  split; [reflexivity|]. split; [reflexivity|]. split; [reflexivity|]. split; [reflexivity|].
  split; [split; [|split; [valid|]; split; [vm_compute; reflexivity|]; split; [vm_compute; reflexivity|discriminate]]|split; reflexivity].
  repeat split; try constructor; try constructor; cbn; try valid; intuition.
Qed.

(** C58 applies where C14 does not: an index array of two positions on a
    dimension that is not stretched, beside one that is, is refused by [supported]
    (it raises when the stretched dimension keeps its slice(None)). *)
Definition stretched : @barr Z := ABcast (arr [1;4]) [(0,3)] [].
Example C58_case : wf stretched /\ valid_keys [KInt 1; KArr [3;0]%Z] (shape stretched) /\ safe_keys stretched [KInt 1; KArr [3;0]%Z]
  /\ ~ supported stretched [KInt 1; KArr [3;0]%Z] /\ before true stretched [KInt 1; KArr [3;0]%Z] = Ok ([2], [Some 3; Some 0]%Z).
Proof.
  split; [repeat split; try constructor; try constructor; cbn; try valid; intuition|]. split; [valid|].
  split; [intros ks E; vm_compute in E; injection E as <-; repeat split; repeat constructor|].
  split; [|reflexivity]. intros H. specialize (H _ eq_refl). cbn in H. lia.
Qed.

Print Assumptions C58_after_integer_refuted.
Print Assumptions C58_stack_refuted.
Print Assumptions C58_mask_refuted.
Print Assumptions C58_mosaic_refuted.
Print Assumptions C58_rebroadcast_refuted.
