(** SteadyClaims: the claims about indexing, saving and expression trees without
    conditions on intermediate results.  Nothing here models /repo. *)
From Verif Require Import Base PySlice Keys NDArray Arrays Chunks Handlers Realise Spec Supported Lib SelLemmas KeyLemmas GetBase GetItem ChunkLemmas HandlerLemmas Realisable StreamLemmas RealiseOK IndexClaims ClassClaims ChunkClaims SaveClaims BoundClaims Steady SteadyReal.
From Coq Require Import ZifyBool ZifyNat Permutation.

(** [keys], as the user writes them, are acceptable on shape [sh]. *)
Definition cutting (ints arrs : bool) (keys : list key) (sh : list nat) : Prop :=
  exists ks, np_expand keys (length sh) = Ok ks /\ Forall2 (keyok ints arrs) ks sh.
(** Key tuples one after the other, each acceptable on what the one before leaves. *)
Fixpoint cutting_seq {W} (ints arrs : bool) (d : nd W) (kss : list (list key)) : Prop :=
  match kss with [] => True | keys :: kss' => cutting ints arrs keys (nshape d) /\ cutting_seq ints arrs (oindex d keys) kss' end.

Lemma keyok_full_slices ints arrs ks sh : Forall2 (keyok ints arrs) ks sh -> full_keys ks (length sh) = Ok ks.
Proof. apply keysok_full. Qed.

Section Claims.
Context {V : Type} (O : numops V).
Notation cell := (option V).
Notation barr := (@barr V).
Variable maxc : nat.
Variable garbage : list nat -> cell.
Variable m : bool.
Variable HG : @agg V -> nat -> Prop.
Hypothesis HR : forall g, handler_right O m g (HG g).
Variable ints : bool.
Variable arrs : bool.
Variable fuel : nat.
Notation steady := (steady maxc m HG ints arrs).
Notation usable := (usable maxc m HG fuel).
Notation reads := (reads O maxc garbage m fuel).

Lemma steady_usable (a : barr) : wf a -> steady false fuel a -> usable a.
Proof. intros Hw Hs. split; auto. eapply steady_realisable; eauto. Qed.

Lemma cutting_ok (a : barr) keys : wf a -> steady false fuel a -> cutting ints arrs keys (shape a) ->
  valid_keys keys (shape a) /\ supported a keys /\
  forall b, getitem a keys = Ok b -> wf b /\ steady false fuel b.
Proof.
  intros Hw Hs (ks & E & HF).
  assert (HV : valid_keys keys (shape a)).
  { unfold valid_keys, oselect. rewrite E. destruct (keysok_sel HG _ _ _ _ HF) as (s & ->). discriminate. }
  destruct (steady_get O maxc m HG ints a arrs false fuel ks Hw Hs HF) as [K1 K2].
  assert (HS : supported a keys) by (intros ks' E'; unfold ndim in E'; congruence).
  split; auto. split; auto. intros b Hb.
  assert (Hn : getitem a ks = Ok b).
  { rewrite <- Hb. symmetry. apply getitem_norm; auto.
    - rewrite full_keys_np by (eapply np_expand_count; eauto). exact E.
    - eapply keysok_full; eauto. }
  destruct (got O HG ints arrs a ks b Hw K1 HF Hn) as (s & _ & Wb & _). split; auto. apply (K2 b Hn).
Qed.

Lemma steady_index (a : barr) keys : wf a -> steady false fuel a -> cutting ints arrs keys (shape a) ->
  exists b da db, getitem a keys = Ok b /\ reads a da /\ reads b db /\ nd_eq db (oindex da keys)
    /\ wf b /\ steady false fuel b.
Proof.
  intros Hw Hs HC. destruct (cutting_ok a keys Hw Hs HC) as (H1 & H2 & H3).
  destruct (index_commutes O maxc garbage m HG HR fuel a keys Hw H1 H2) as (b & da & db & E1 & E2 & E3 & E4).
  - eapply steady_realisable; eauto.
  - intros b Hb. destruct (H3 b Hb). eapply steady_realisable; eauto.
  - exists b, da, db. destruct (H3 b E1). auto 8.
Qed.

Lemma cutting_seq_eq {W} kss : forall x y : nd W, nshape x = nshape y -> cutting_seq ints arrs x kss -> cutting_seq ints arrs y kss.
Proof.
  induction kss as [|ks kss IH]; intros x y E; simpl; auto. intros [H1 H2]. rewrite E in H1. split; auto.
  eapply IH; [|exact H2]. unfold oindex. rewrite E. destruct (oselect ks (nshape y)); auto.
Qed.
Lemma cutting_valid {W} keys (d : nd W) : cutting ints arrs keys (nshape d) -> valid_keys keys (nshape d).
Proof. intros (ks & E & HF). unfold valid_keys, oselect. rewrite E. destruct (keysok_sel HG _ _ _ _ HF) as (s & ->). discriminate. Qed.
Lemma cutting_seq_valid {W} kss : forall d : nd W, cutting_seq ints arrs d kss -> valid_seq d kss.
Proof. induction kss as [|ks kss IH]; intros d; simpl; auto. intros [H1 H2]. split; auto. eapply cutting_valid; eauto. Qed.

Lemma steady_sequence kss : forall (a : barr) da, wf a -> steady false fuel a -> reads a da -> cutting_seq ints arrs da kss ->
  exists b db, getitems a kss = Ok b /\ reads b db /\ nd_eq db (oindexes da kss) /\ wf b /\ steady false fuel b.
Proof.
  induction kss as [|ks kss IH]; intros a da Hw Hs Ha HC.
  - exists a, da. split; auto. split; auto. split; auto. apply nd_eq_refl.
  - destruct HC as [C1 C2]. pose proof (reads_shape O maxc garbage m HG fuel HR a da (steady_usable a Hw Hs) Ha) as Hsh. rewrite Hsh in C1.
    destruct (steady_index a ks Hw Hs C1) as (b & da' & db & E1 & E2 & E3 & E4 & Wb & Sb).
    assert (da' = da) by (unfold ClassClaims.reads in *; congruence). subst da'.
    destruct (IH b db Wb Sb E3) as (c & dc & F1 & F2 & F3 & F4 & F5). { eapply cutting_seq_eq; [|exact C2]. symmetry. apply E4. }
    exists c, dc. cbn [getitems]. rewrite E1. cbn [bind]. split; auto. split; auto. split; auto.
    eapply nd_eq_trans; [exact F3|]. change (oindexes da (ks :: kss)) with (oindexes (oindex da ks) kss).
    apply oindexes_eq; auto. apply cutting_seq_valid. eapply cutting_seq_eq; [|exact C2]. symmetry. apply E4.
Qed.

End Claims.

(** *** Saving *)
Lemma save_cutting maxc arrs sh k : In k (save_keys maxc sh) -> Forall2 (keyok true arrs) k sh.
Proof.
  intros Hk. rewrite save_keys_gen in Hk.
  assert (HP : perm (seq 0 (length sh)) (length (all_slices maxc false sh))) by (rewrite all_slices_length; apply perm_seq).
  destruct (gen_keys_In _ _ _ HP Hk) as [HL HI]. rewrite all_slices_length in *.
  apply (@F2_of_nth unit 0 (fun _ _ => True) _ _ _ _ _ KBad 0); auto. intros i Hi. specialize (HI i ltac:(lia)). rewrite all_slices_nth in HI by lia.
  set (n := nth i sh 0) in *. set (r := prodn (skipn (S i) sh)) in *. pose proof (dim_slices_chunk maxc r n) as HF. rewrite Forall_forall in HF.
  unfold dim_slices in *. destruct (n * r <=? maxc); [apply (@chunk_keyok unit (fun _ _ => True) true arrs); auto|]. destruct (maxc <? r); [|apply (@chunk_keyok unit (fun _ _ => True) true arrs); auto].
  apply in_map_iff in HI as (j & <- & Hj). apply in_seq in Hj. simpl. split; auto. lia.
Qed.

Section Save.
Context {V : Type} (O : numops V).
Variable maxc : nat.
Variable garbage : list nat -> option V.
Variable m : bool.
Variable HG : @agg V -> nat -> Prop.
Hypothesis HR : forall g, handler_right O m g (HG g).
Lemma steady_save fuel arrs (a : barr) g : wf a -> steady maxc m HG true arrs false fuel a ->
  exists ws r d, save_writes O maxc garbage fuel m a = Ok ws /\ save O maxc garbage fuel m a (mkND (shape a) g) = Ok r
    /\ realise O maxc garbage fuel m a = Ok d /\ nd_eq r d
    /\ Permutation (flat_map (fun w => positions (shape a) (fst w)) ws) (ndindex (shape a)).
Proof.
  intros Hw Hs. apply (save_realised O maxc garbage m HG HR fuel a g Hw); [eapply steady_realisable; eauto|].
  intros k Hk. apply (save_cutting maxc arrs) in Hk.
  assert (HC : cutting true arrs k (shape a)). { exists k. split; auto. eapply keysok_expand; eauto. }
  destruct (cutting_ok O maxc m HG true arrs fuel a k Hw Hs HC) as (_ & H2 & H3). split; auto.
  intros b Hb. destruct (H3 b Hb). eapply steady_realisable; eauto.
Qed.
End Save.

(** *** Expression trees *)
Section Trees.
Context {V : Type} (O : numops V).
Notation cell := (option V).
Notation barr := (@barr V).
Variable maxc : nat.
Variable m : bool.
Variable HG : @agg V -> nat -> Prop.

(** Operations of any depth on new adapters and constants of one shape.  With
    masked_array() the operations must be defined on masked arrays. *)
Fixpoint optree (sh : list nat) (a : barr) : Prop :=
  match a with
  | AConst sh' _ _ => sh' = sh
  | AAdapt _ c [] => c_shape c = sh
  | AEl1 o a _ => (m = true -> o1_ma o <> None) /\ optree sh a
  | AEl2 o a b _ => (m = true -> o2_ma o <> None) /\ optree sh a /\ optree sh b
  | _ => False
  end.
(** Its elements. *)
Fixpoint optree_at (a : barr) (i : list nat) : cell :=
  match a with
  | AConst _ v _ => Some v
  | AAdapt _ c _ => match c_cell c i with
                    | Some v => Some v
                    | None => if m then None else Some (match c_fill c with Some f => f | None => vdfill O (c_dtype c) end)
                    end
  | AEl1 o a _ => op1_sem m o (optree_at a i)
  | AEl2 o a b _ => op2_sem m o (optree_at a i) (optree_at b i)
  | _ => None
  end.

Lemma den_fresh o c : nd_eq (den O m (AAdapt o c [])) (mkND (c_shape c) (optree_at (AAdapt o c []))).
Proof.
  cbn [den]. unfold oindex, oselect, np_expand. cbn. rewrite Nat.sub_0_r, sel_keys_full.
  pose proof (nd_sel_full (mkND (c_shape c) (c_cell c))) as [H1 H2]. cbn [nshape] in H1, H2. split.
  - cbn [nd_map nshape]. exact H1.
  - intros i Hi. cbn [nd_map nget nshape] in *. rewrite H2 by exact Hi. cbn [nget]. unfold fill_cell. destruct (c_cell c i); auto.
Qed.
Lemma shape_fresh o (c : @concrete V) : wf (AAdapt o c []) /\ shape (AAdapt o c []) = c_shape c.
Proof.
  assert (Hw : wf (AAdapt o c [])).
  { split; auto. unfold valid_keys, oselect, np_expand. cbn. rewrite Nat.sub_0_r, sel_keys_full. discriminate. }
  split; auto. rewrite <- (den_shape O m) by auto. exact (proj1 (den_fresh o c)).
Qed.

Lemma tree_ok sh (a : barr) : optree sh a -> wf a /\ shape a = sh /\ cs a = CL sh
  /\ nd_eq (den O m a) (mkND sh (optree_at a)).
Proof.
  induction a as [sh' v d|o c ks|a na IH|a dict lead IH|a d IH|a v IH|a axes IH|ssh items IH|tiles axis IH
    |g a axis d IH|o a d IH|o a b d IH1 IH2] using barr_ind2; cbn [optree]; intros H; try contradiction.
  - subst sh'. cbn. split; auto. split; auto. split; auto. apply nd_eq_refl.
  - destruct ks; [|contradiction]. destruct (shape_fresh o c) as [H1 H2]. subst sh. split; auto. split; auto. split; [cbn [cs]; rewrite H2; auto|]. apply den_fresh.
  - destruct H as [H1 H2]. destruct (IH H2) as (W & S & C & D). split; [exact W|]. split; [exact S|]. split; [exact C|].
    destruct D as [D1 D2]. split; [exact D1|]. intros i Hi. cbn [den nd_map nget optree_at nshape] in *. rewrite D2 by auto. auto.
  - destruct H as (H0 & H1 & H2). destruct (IH1 H1) as (W1 & S1 & C1 & D1). destruct (IH2 H2) as (W2 & S2 & C2 & D2).
    split; [split; [exact W1|split; [exact W2|congruence]]|]. split; [exact S1|]. split; [exact C1|]. destruct D1 as [D11 D12], D2 as [D21 D22].
    split; [exact D11|]. intros i Hi. cbn [den nget optree_at nshape] in *. rewrite D12, D22 by (rewrite ?D21, <- ?D11; auto). auto.
Qed.

(** The data a tree may have: non-empty dimensions; with ndarray(), not a single
    masked element. *)
Fixpoint data_ok (a : barr) : Prop :=
  match a with
  | AAdapt _ c _ => m = true \/ c_shape c <> [] \/ forall i, c_cell c i <> None
  | AEl1 _ a _ => data_ok a
  | AEl2 _ a b _ => data_ok a /\ data_ok b
  | _ => True
  end.
Lemma tree_steady sh (a : barr) h : optree sh a -> data_ok a -> Forall (fun n => 1 <= n) sh -> 1 <= h ->
  steady maxc m HG false false true h a.
Proof.
  intros HT HD HP Hh. revert HT HD. 
  induction a as [sh' v d|o c ks|a na IH|a dict lead IH|a d IH|a v IH|a axes IH|ssh items IH|tiles axis IH
    |g a axis d IH|o a d IH|o a b d IH1 IH2] using barr_ind2; cbn [optree data_ok]; intros HT HD; try contradiction.
  - exact Hh.
  - destruct ks; [|contradiction]. destruct (shape_fresh o c) as [_ H2]. cbn [steady]. rewrite H2, HT. split; [exact Hh|]. split; [exact HP|]. split; [constructor|].
    split; [right; left; auto|]. rewrite HT in HD. destruct HD as [H|[H|H]]; auto.
  - destruct HT as [H1 H2]. split; auto.
  - destruct HT as (H0 & H1 & H2). destruct HD as [D1 D2]. split; auto. split; auto. split; auto.
    destruct (tree_ok sh a H1) as (_ & _ & -> & _). destruct (tree_ok sh b H2) as (_ & _ & -> & _). auto.
Qed.
Lemma tree_top sh (a : barr) h : optree sh a -> data_ok a -> Forall (fun n => 1 <= n) sh -> 2 <= h ->
  steady maxc m HG false false false h a.
Proof.
  intros HT HD HP Hh. destruct h as [|h]; [lia|]. destruct a as [sh' v d|o c ks| | | | | | | | |o a d|o a b d]; try contradiction.
  - cbn. lia.
  - exact (tree_steady sh (AAdapt o c ks) (S h) HT HD HP ltac:(lia)).
  - destruct HT as [H1 H2]. split; auto. apply (tree_steady sh); auto; lia.
  - destruct HT as (H0 & H1 & H2). destruct HD as [D1 D2]. split; auto. split; apply (tree_steady sh); auto; lia.
Qed.
Lemma tree_agg sh (a : barr) h g axis d : optree sh a -> data_ok a -> Forall (fun n => 1 <= n) sh -> 2 <= h ->
  HG g (nth axis sh 0) -> piecewise maxc m g (nth axis sh 0) (prodn (skipn (S axis) sh)) ->
  steady maxc m HG false false false h (AAgg g a axis d).
Proof.
  intros HT HD HP Hh H1 H2. destruct (tree_ok sh a HT) as (_ & S & C & _). destruct h as [|h]; [lia|]. cbn [steady]. rewrite S, C. split; [|split; auto].
  apply (tree_steady sh); auto; lia.
Qed.
End Trees.
