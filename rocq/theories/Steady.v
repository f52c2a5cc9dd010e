(** Steady: a structural condition under which an array is right however it is
    cut up, so that the conditions of Realisable.v hold.  Nothing here models
    /repo. *)
From Verif Require Import Base PySlice Keys NDArray Arrays Chunks Spec Supported Lib SelLemmas KeyLemmas NewAxLemmas GetBase GetSimple GetBcast GetTrans GetStack GetMosaic GetItem ChunkLemmas HandlerLemmas Realisable StreamLemmas BoundClaims.
From Coq Require Import ZifyBool ZifyNat.

(** ** Keys *)
Definition steps_up (s : pslice) : Prop := match s_step s with Some st => (0 < st)%Z | None => True end.
(** The keys an array may be cut with on a dimension of length [n]: the whole
    dimension, a non-empty slice with a positive step, an integer ([ints]), or at
    least two increasing positions ([arrs]; what a mosaic hands to its tiles). *)
Definition keyok (ints arrs : bool) (k : key) (n : nat) : Prop :=
  match k with
  | KInt i => ints = true /\ (0 <= i < Z.of_nat n)%Z
  | KSlice s => s = full_slice \/ (steps_up s /\ exists l, slice_idx s n = Ok l /\ l <> [])
  | KArr l => arrs = true /\ 2 <= length l /\ Forall (fun i => 0 <= i < Z.of_nat n)%Z l /\ incb l = true
  | _ => False
  end.

(** ** The shape of a stream *)
Inductive cst := CL (sh : list nat) | CA (axis : nat) (c : cst).

Section Steady.
Context {V : Type} (O : numops V).
Notation barr := (@barr V).
Variable maxc : nat.
Variable m : bool.
Variable HG : @agg V -> nat -> Prop.
Variable ints : bool.

(** What determines the chunk boundaries of an expression. *)
Fixpoint cs (a : barr) : cst :=
  match a with
  | AAgg _ c axis _ => CA axis (cs c)
  | AEl1 _ c _ | AEl2 _ c _ _ => cs c
  | a => CL (shape a)
  end.
(** The number of elements of the leaf in one item of dimension [axis]. *)
Fixpoint crest (t : cst) (axis : nat) : nat :=
  match t with
  | CL sh => prodn (skipn (S axis) sh)
  | CA ax t => crest t (if axis <? ax then axis else S axis)
  end.

(** An aggregation over [n] items of [r] elements gets the axis in acceptable
    pieces. *)
Definition piecewise (g : @agg V) (n r : nat) : Prop :=
  match g with
  | GCount | GSum | GMean _ => True
  | GMin | GMax => n = 1 \/ (1 <= n /\ n * r <= maxc)
  | GStd _ | GVar _ => m = true \/ n = 1 \/ (1 <= n /\ (n * r <= maxc \/ 2 * r <= maxc))
  end.

(** No part of a stack or mosaic is a computation. *)
Fixpoint leafy (a : barr) : Prop :=
  match a with
  | AStack _ items => fold_right (fun it P => leafy it /\ P) True items
  | AMosaic tiles _ => fold_right (fun t P => leafy t /\ P) True tiles
  | AAgg _ _ _ _ | AEl1 _ _ _ | AEl2 _ _ _ _ => False
  | _ => True
  end.

Definition nomask (k : key) : Prop := match k with KMask _ => False | _ => True end.

(** [arrs]: may be cut with index arrays; [str]: inside a stream; [h]: bound on
    evaluations inside evaluations. *)
Fixpoint steady (arrs str : bool) (h : nat) (a : barr) {struct a} : Prop :=
  match a with
  | AConst _ _ _ => 1 <= h
  | AAdapt o c ks =>
      1 <= h /\ Forall (fun n => 1 <= n) (shape a) /\ Forall nomask ks
      /\ (o = true \/ (ks = [] /\ (ints = false \/ arrs = false \/ length (c_shape c) <= 2))
          \/ (length ks = length (c_shape c) /\ numpy_ok ks))
      /\ (m = true \/ (forall i, c_cell c i <> None) \/ (ints = false /\ shape a <> []))
  | ANewAx c _ | AAsTy c _ | AMaskV c _ | ATrans c _ => steady arrs false h c
  | ABcast c _ _ => nolead c /\ (arrs = false \/ ndim c = 0) /\ steady arrs false h c
  | AStack ssh items =>
      (arrs = false \/ length ssh <= 1) /\ (str = true -> (ints = false /\ ssh <> []) \/ leafy a)
      /\ fold_right (fun it P => steady arrs false h it /\ P) True items
  | AMosaic tiles axis =>
      1 <= nth axis (shape a) 0 /\ (str = true -> ints = false \/ leafy a)
      /\ fold_right (fun t P => steady true false h t /\ P) True tiles
  | AAgg g c axis _ =>
      (if str then steady arrs true h c else match h with 0 => False | S h' => steady arrs true h' c end)
      /\ HG g (nth axis (shape c) 0) /\ piecewise g (nth axis (shape c) 0) (crest (cs c) axis)
  | AEl1 o c _ =>
      (if str then steady arrs true h c else match h with 0 => False | S h' => steady arrs true h' c end)
      /\ has_op1 m o
  | AEl2 o c1 c2 _ =>
      (if str then steady arrs true h c1 /\ steady arrs true h c2 /\ cs c1 = cs c2
       else match h with 0 => False | S h' => steady arrs true h' c1 /\ steady arrs true h' c2 end)
      /\ has_op2 m o
  end.

(** ** Facts about keys *)
Lemma keyok_plain arrs k n : keyok ints arrs k n -> is_new k = false /\ is_ell k = false /\ is_list k = false.
Proof. destruct k; simpl; try contradiction; auto. Qed.
Lemma keyok_arr k n arrs : keyok ints arrs k n -> keyok ints true k n.
Proof. destruct k; simpl; auto. intros (_ & H). auto. Qed.
Lemma incb_strict l : incb l = true -> forall i j, i < j -> j < length l -> (nth i l 0 < nth j l 0)%Z.
Proof.
  intros H i j Hij Hj. pose proof (proj1 (incb_nth l) H) as HN.
  induction j as [|j IH]; [lia|]. destruct (Nat.eq_dec i j) as [->|]; [apply HN; lia|]. specialize (IH ltac:(lia) ltac:(lia)). specialize (HN j ltac:(lia)). lia.
Qed.
Lemma incb_length l n : incb l = true -> Forall (fun i => 0 <= i < Z.of_nat n)%Z l -> length l <= n.
Proof.
  intros HI HF. assert (HS : forall i, i < length l -> (Z.of_nat i <= nth i l 0)%Z).
  { pose proof (proj1 (incb_nth l) HI) as HN. induction i as [|i IH]; intros Hi.
    - rewrite Forall_forall in HF. specialize (HF (nth 0 l 0%Z) (nth_In _ _ Hi)). lia.
    - specialize (IH ltac:(lia)). specialize (HN i Hi). lia. }
  destruct (Nat.eq_dec (length l) 0) as [->|]; [lia|]. specialize (HS (length l - 1) ltac:(lia)).
  assert (HL : length l - 1 < length l) by lia. rewrite Forall_forall in HF. specialize (HF (nth (length l - 1) l 0%Z) (nth_In _ _ HL)). cbv beta in HF. lia.
Qed.
Lemma norm_range l n : Forall (fun i => 0 <= i < Z.of_nat n)%Z l -> exists r, norm_ints l n = Some r /\ length r = length l.
Proof.
  intros H. destruct (norm_ints l n) as [r|] eqn:E; [exists r; split; auto; eapply norm_ints_length; eauto|].
  apply norms_out in E. apply existsb_exists in E as (i & Hi & E). rewrite Forall_forall in H. specialize (H i Hi). lia.
Qed.
Lemma keyok_sel arrs k n : keyok ints arrs k n -> exists d, sel_key k n = Some d
  /\ match d with DPt _ => ints = true /\ is_scalar k = true /\ 1 <= n
                | DLs l => is_scalar k = false /\ length l <= n /\ (1 <= n -> 1 <= length l) | DNew => False end.
Proof.
  destruct k; simpl; try contradiction.
  - intros [H1 H2]. replace (norm_int i n) with (Some (Z.to_nat i)) by (symmetry; rewrite <- (norm_int_nat (Z.to_nat i) n) by lia; rewrite Z2Nat.id by lia; reflexivity). eexists; split; [reflexivity|]. simpl. repeat split; auto; lia.
  - intros [->|[H1 (l & E & Hl)]].
    + rewrite slice_idx_full. eexists; split; [reflexivity|]. simpl. rewrite !map_length, seq_length. split; auto.
    + rewrite E. eexists; split; [reflexivity|]. simpl. rewrite map_length. split; auto. split.
      * apply incb_length; [eapply slice_idx_inc; eauto|]. eapply slice_idx_bounds; eauto.
      * intros _. destruct l; simpl; [congruence|lia].
  - intros (H0 & H1 & H2 & H3). destruct (norm_range l n H2) as (r & E & EL). rewrite E. eexists; split; [reflexivity|]. simpl. rewrite EL.
    split; auto. split; [apply incb_length; auto|lia].
Qed.
Lemma keysok_nonew arrs ks sh : Forall2 (keyok ints arrs) ks sh -> nonew ks /\ existsb is_ell ks = false /\ existsb is_list ks = false.
Proof.
  unfold nonew. induction 1 as [|k n ks sh Hk H (I1 & I2 & I3)]; simpl; auto. destruct (keyok_plain _ _ _ Hk) as (-> & -> & ->). auto.
Qed.
Lemma keysok_full arrs ks sh : Forall2 (keyok ints arrs) ks sh -> full_keys ks (length sh) = Ok ks.
Proof.
  intros H. destruct (keysok_nonew _ _ _ H) as (H1 & H2 & _). apply full_keys_id. split; auto. rewrite nonew_nreal; auto.
  eapply Forall2_length; eauto.
Qed.
Lemma keysok_expand arrs ks sh : Forall2 (keyok ints arrs) ks sh -> np_expand ks (length sh) = Ok ks.
Proof.
  intros H. destruct (keysok_nonew _ _ _ H) as (H1 & H2 & _). apply np_expand_id. split; auto. rewrite nonew_nreal; auto.
  eapply Forall2_length; eauto.
Qed.
Lemma keysok_sel arrs ks sh : Forall2 (keyok ints arrs) ks sh -> exists s, sel_keys ks sh = Some s.
Proof.
  induction 1 as [|k n ks sh Hk H (s & IH)]; simpl; eauto. destruct (keyok_sel _ _ _ Hk) as (d & E & _).
  destruct (keyok_plain _ _ _ Hk) as (Hn & _). exists (d :: s). destruct k; try discriminate; rewrite E, IH; reflexivity.
Qed.
Lemma keyok_full arrs n : keyok ints arrs KFull n.
Proof. left. reflexivity. Qed.
Lemma base_steady (gfk : list key -> res barr) arrs ks sh nd : Forall2 (keyok ints arrs) ks sh -> nd = length sh -> base_getitem gfk nd ks = gfk ks.
Proof. intros H ->. unfold base_getitem. rewrite (keysok_full _ _ _ H). simpl. destruct (keysok_nonew _ _ _ H) as (HN & _). unfold nonew in HN. rewrite HN. auto. Qed.
Lemma F2_nth {A B} (P : A -> B -> Prop) l r i da db : Forall2 P l r -> i < length l -> P (nth i l da) (nth i r db).
Proof. intros H. revert i. induction H; intros [|i] Hi; simpl in *; auto; try lia. apply IHForall2. lia. Qed.
Lemma F2_of_nth {A B} (P : A -> B -> Prop) l r da db : length l = length r -> (forall i, i < length l -> P (nth i l da) (nth i r db)) -> Forall2 P l r.
Proof.
  revert r. induction l as [|x l IH]; intros [|y r] HL H; simpl in *; try discriminate; constructor.
  - apply (H 0); lia.
  - apply IH; [lia|]. intros i Hi. apply (H (S i)). lia.
Qed.

(** ** Chunk boundaries after indexing *)
Fixpoint csel (ks : list key) (t : cst) : cst :=
  match t with
  | CL sh => CL (sel_shape (match sel_keys ks sh with Some s => s | None => [] end))
  | CA ax t => let k' := insert_at ax KFull ks in CA (ax - count_if is_scalar (firstn ax k')) (csel k' t)
  end.
Fixpoint tshape (t : cst) : list nat := match t with CL sh => sh | CA ax t => remove_at ax (tshape t) end.
Fixpoint twf (t : cst) : Prop := match t with CL _ => True | CA ax t => ax < length (tshape t) /\ twf t end.
Lemma cs_shape a : wf a -> tshape (cs a) = shape a /\ twf (cs a).
Proof.
  induction a as [sh v d|o c ks|a na IH|a dict lead IH|a d IH|a v IH|a axes IH|ssh items IH|tiles axis IH
    |g a axis d IH|o a d IH|o a b d IH1 IH2] using barr_ind2; intros Hw; cbn [cs tshape twf]; auto.
  - destruct Hw as [Hw Hax]. destruct (IH Hw) as [E1 E2]. rewrite E1. auto.
  - destruct Hw as (Hw & _ & _). apply IH1; auto.
Qed.

Lemma cnt_step i j (ks : list key) : i <= j -> count_if is_scalar (firstn j ks) <= count_if is_scalar (firstn i ks) + (j - i).
Proof.
  revert i j. induction ks as [|k ks IH]; intros [|i] [|j] H; cbn [firstn]; try lia; rewrite ?count_if_cons.
  - specialize (IH 0 j ltac:(lia)). cbn [firstn] in IH. change (count_if is_scalar []) with 0 in *. destruct (is_scalar k); lia.
  - specialize (IH i j ltac:(lia)). destruct (is_scalar k); lia.
Qed.
Lemma cnt_le i (ks : list key) : count_if is_scalar (firstn i ks) <= i.
Proof. pose proof (cnt_step 0 i ks ltac:(lia)) as H. cbn [firstn] in H. change (count_if is_scalar []) with 0 in H. lia. Qed.
Lemma cnt_strict i j (ks : list key) : i < j -> i < length ks -> is_scalar (nth i ks KBad) = false ->
  count_if is_scalar (firstn j ks) <= count_if is_scalar (firstn i ks) + (j - i - 1).
Proof.
  revert i j. induction ks as [|k ks IH]; intros [|i] [|j] H HL Hs; cbn [firstn nth length] in *; try lia; rewrite ?count_if_cons.
  - rewrite Hs. pose proof (cnt_le j ks). change (count_if is_scalar []) with 0. lia.
  - specialize (IH i j ltac:(lia) ltac:(lia) Hs). destruct (is_scalar k); lia.
Qed.
Lemma cnt_insert_lt i ax (ks : list key) : i <= ax -> ax <= length ks -> firstn i (insert_at ax KFull ks) = firstn i ks.
Proof. intros H1 H2. unfold insert_at. rewrite firstn_app, firstn_length, Nat.min_l by lia. rewrite firstn_firstn, Nat.min_l by lia. replace (i - ax) with 0 by lia. apply app_nil_r. Qed.
Lemma cnt_insert_ge i ax (ks : list key) : ax <= i -> ax <= length ks ->
  count_if is_scalar (firstn (S i) (insert_at ax KFull ks)) = count_if is_scalar (firstn i ks).
Proof.
  intros H1 H2. unfold insert_at. rewrite firstn_app, firstn_length, Nat.min_l by lia. rewrite firstn_firstn, Nat.min_r by lia.
  replace (S i - ax) with (S (i - ax)) by lia. cbn [firstn]. rewrite count_if_app, count_if_cons. cbn [is_scalar KFull]. change (is_scalar KFull) with false. cbn iota.
  rewrite <- (firstn_skipn ax ks) at 3. rewrite firstn_app, firstn_length, Nat.min_l by lia. rewrite firstn_firstn, Nat.min_r by lia. rewrite count_if_app. lia.
Qed.

Lemma prodn_sel_le arrs ks sh s : Forall2 (keyok ints arrs) ks sh -> sel_keys ks sh = Some s -> prodn (sel_shape s) <= prodn sh.
Proof.
  intros H. revert s. induction H as [|k n ks sh Hk H IH]; intros s Hs.
  - injection Hs as <-. auto.
  - apply sel_keys_cons in Hs as [(-> & _)|(Hn & _ & n' & sh' & d & r & E & -> & Ed & Er)]; [contradiction|]. injection E as <- <-.
    specialize (IH _ Er). destruct (keyok_sel _ _ _ Hk) as (d' & Ed' & Hd). rewrite Ed in Ed'. injection Ed' as <-.
    destruct d as [p|l|]; [| |contradiction]; cbn [sel_shape].
    + change (prodn (n :: sh)) with (n * prodn sh). destruct Hd as (_ & _ & Hn1). nia.
    + change (prodn (length l :: sel_shape r)) with (length l * prodn (sel_shape r)). change (prodn (n :: sh)) with (n * prodn sh). destruct Hd as (_ & Hn1 & _). nia.
Qed.
Lemma skip_sel arrs ks sh : Forall2 (keyok ints arrs) ks sh -> forall s axis, sel_keys ks sh = Some s -> axis < length ks ->
  is_scalar (nth axis ks KBad) = false ->
  prodn (skipn (S (axis - count_if is_scalar (firstn axis ks))) (sel_shape s)) <= prodn (skipn (S axis) sh).
Proof.
  induction 1 as [|k n ks sh Hk H IH]; intros s axis Hs Hax Hsc; cbn [length] in Hax; [lia|].
  apply sel_keys_cons in Hs as [(-> & _)|(Hn & _ & n' & sh' & d & r & E & -> & Ed & Er)]; [contradiction|]. injection E as <- <-.
  destruct (keyok_sel _ _ _ Hk) as (d' & Ed' & Hd). rewrite Ed in Ed'. injection Ed' as <-.
  destruct axis as [|axis]; cbn [nth firstn] in *.
  - destruct d; [destruct Hd; intuition congruence| |contradiction]. change (count_if is_scalar []) with 0. cbn [sel_shape skipn]. eapply prodn_sel_le; eauto.
  - specialize (IH r axis Er ltac:(lia) Hsc). rewrite count_if_cons. pose proof (cnt_le axis ks). destruct d; [| |contradiction].
    + destruct Hd as (_ & -> & _). cbn [sel_shape]. replace (S axis - (1 + count_if is_scalar (firstn axis ks))) with (axis - count_if is_scalar (firstn axis ks)) by lia. auto.
    + destruct Hd as (-> & _). cbn [sel_shape]. replace (S axis - (0 + count_if is_scalar (firstn axis ks))) with (S (axis - count_if is_scalar (firstn axis ks))) by lia. auto.
Qed.
Lemma insert_ok arrs ks sh axis : axis < length sh -> Forall2 (keyok ints arrs) ks (remove_at axis sh) -> Forall2 (keyok ints arrs) (insert_at axis KFull ks) sh.
Proof.
  intros Hax H. pose proof (Forall2_length _ _ _ H) as HL. rewrite remove_at_length in HL by auto.
  apply (F2_of_nth _ _ _ KBad 0); [rewrite insert_at_length; lia|]. rewrite insert_at_length. intros i Hi.
  destruct (lt_eq_lt_dec i axis) as [[L|E]|L].
  - rewrite nth_insert_lt by lia. pose proof (F2_nth _ _ _ i KBad 0 H ltac:(lia)) as HK. rewrite nth_remove_lt in HK by auto. auto.
  - subst i. rewrite nth_insert_at by lia. apply keyok_full.
  - destruct i as [|i]; [lia|]. rewrite nth_insert_gt by lia. pose proof (F2_nth _ _ _ i KBad 0 H ltac:(lia)) as HK. rewrite nth_remove_ge in HK by lia. auto.
Qed.
Lemma crest_mono arrs t : forall ks axis, twf t -> Forall2 (keyok ints arrs) ks (tshape t) -> axis < length ks ->
  is_scalar (nth axis ks KBad) = false ->
  crest (csel ks t) (axis - count_if is_scalar (firstn axis ks)) <= crest t axis.
Proof.
  induction t as [sh|ax t IH]; intros ks axis Hw HK Hax Hsc; cbn [crest csel tshape twf] in *.
  - destruct (keysok_sel _ _ _ HK) as (s & Es). rewrite Es. eapply skip_sel; eauto.
  - destruct Hw as [Hx Hw]. pose proof (Forall2_length _ _ _ HK) as HL. rewrite remove_at_length in HL by auto.
    pose proof (insert_ok _ _ _ _ Hx HK) as HK'. cbn zeta. cbn [crest]. set (k' := insert_at ax KFull ks) in *.
    assert (E1 : firstn ax k' = firstn ax ks) by (apply cnt_insert_lt; lia). rewrite E1. clear E1.
    assert (HLk : length k' = S (length ks)) by apply insert_at_length.
    destruct (Nat.ltb_spec axis ax) as [L|L].
    + pose proof (cnt_strict axis ax ks L ltac:(lia) Hsc) as HS. pose proof (cnt_le axis ks).
      replace (axis - count_if is_scalar (firstn axis ks) <? ax - count_if is_scalar (firstn ax ks)) with true by (symmetry; apply Nat.ltb_lt; lia).
      rewrite <- (cnt_insert_lt axis ax ks) by lia. assert (HI : axis < length k') by lia. apply IH; [exact Hw|exact HK'|exact HI|]. unfold k'. rewrite nth_insert_lt by lia. exact Hsc.
    + pose proof (cnt_step ax axis ks L) as HS. pose proof (cnt_le axis ks). pose proof (cnt_le ax ks).
      replace (axis - count_if is_scalar (firstn axis ks) <? ax - count_if is_scalar (firstn ax ks)) with false by (symmetry; apply Nat.ltb_ge; lia).
      replace (S (axis - count_if is_scalar (firstn axis ks))) with (S axis - count_if is_scalar (firstn (S axis) k')) by (unfold k'; rewrite cnt_insert_ge by lia; lia).
      assert (HI : S axis < length k') by lia. apply IH; [exact Hw|exact HK'|exact HI|]. unfold k'. rewrite nth_insert_gt by lia. exact Hsc.
Qed.

(** ** Adapters *)
Definition point_key (k : key) : Prop := match k with KInt _ | KTuple _ => True | _ => False end.
Lemma remap_point src : forall sh new ks', Forall stored_key src -> Forall nomask src -> length src = length sh ->
  length new = count_if (fun k => negb (is_scalar k)) src ->
  (forall k, In k new -> match k with KInt _ | KSlice _ | KArr _ => True | _ => False end) ->
  remap_keys sh src new = Ok ks' -> length ks' = length sh /\ Forall point_key ks'.
Proof.
  induction src as [|k0 src IH]; intros sh new ks' HS HM HL HC HK H.
  - destruct sh; [|discriminate]. destruct new; [|discriminate]. cbn in H. injection H as <-. auto.
  - destruct sh as [|n sh]; [discriminate|]. inversion HS as [|x l Hs HS']; subst. inversion HM as [|x l Hm HM']; subst. rewrite count_if_cons in HC.
    cbn [length] in HL. destruct new as [|k new].
    + cbn in H. injection H as <-. split; [cbn [length]; lia|]. constructor.
      * destruct k0; cbn in HC, Hs; try lia; simpl; auto.
      * assert (HC' : count_if (fun k => negb (is_scalar k)) src = 0) by (destruct (negb (is_scalar k0)); cbn [length] in HC; lia).
        apply count_if_0 in HC'. apply existsb_false_Forall in HC'. eapply Forall_impl; [|exact HC']. intros [] Hq; simpl in *; auto; discriminate.
    + assert (HK' : forall k1, In k1 new -> match k1 with KInt _ | KSlice _ | KArr _ => True | _ => False end) by (intros; apply HK; simpl; auto).
      assert (Hrk : forall ind k1, remap_key ind k = Ok k1 -> point_key k1).
      { intros ind k1. specialize (HK k (or_introl eq_refl)). destruct k; simpl; try contradiction.
        - destruct ((Z.of_nat (length ind) <=? i) || (i <? - Z.of_nat (length ind)))%Z; intros E; inversion E; simpl; auto.
        - destruct (slice_idx s (length ind)); simpl; intros E; inversion E; simpl; auto.
        - destruct (existsb _ l); intros E; inversion E; simpl; auto. }
      destruct k0; cbn [stored_key nomask] in Hs, Hm; try contradiction; cbn [remap_keys is_scalar negb] in H, HC.
      * destruct (remap_keys sh src (k :: new)) as [r|] eqn:E; [|discriminate]. injection H as <-.
        destruct (IH sh (k :: new) r HS' HM' ltac:(lia) ltac:(lia) HK E) as [I1 I2]. split; [cbn [length]; lia|]. constructor; simpl; auto.
      * destruct (slice_idx s n) as [ind|]; [|discriminate]. cbn [bind] in H. destruct (remap_key ind k) as [k1|] eqn:E1; [|discriminate]. cbn [bind] in H.
        destruct (remap_keys sh src new) as [r|] eqn:E; [|discriminate]. injection H as <-.
        destruct (IH sh new r HS' HM' ltac:(lia) ltac:(cbn [length] in HC; lia) HK' E) as [I1 I2]. split; [cbn [length]; lia|]. constructor; eauto.
      * destruct (remap_key l k) as [k1|] eqn:E1; [|discriminate]. cbn [bind] in H.
        destruct (remap_keys sh src new) as [r|] eqn:E; [|discriminate]. injection H as <-.
        destruct (IH sh new r HS' HM' ltac:(lia) ltac:(cbn [length] in HC; lia) HK' E) as [I1 I2]. split; [cbn [length]; lia|]. constructor; eauto.
Qed.
Lemma remap_nomask src : forall sh new ks', Forall nomask src ->
  (forall k, In k new -> match k with KInt _ | KSlice _ | KArr _ => True | _ => False end) ->
  remap_keys sh src new = Ok ks' -> Forall nomask ks'.
Proof.
  induction src as [|k0 src IH]; intros sh new ks' HM HK H.
  - cbn [remap_keys] in H. revert sh ks' H. induction new as [|k new IHn]; intros [|n sh] ks' H; cbn in H; try (injection H as <-; constructor).
    destruct (cleanup_key k n) as [k1|] eqn:E1; [|discriminate]. cbn [bind] in H.
    destruct (mapM (fun kn => cleanup_key (fst kn) (snd kn)) (combine new sh)) as [r|] eqn:E2; [|discriminate]. injection H as <-.
    constructor; [|apply (IHn (fun k Hk => HK k (or_intror Hk)) sh r E2)]. specialize (HK k (or_introl eq_refl)). destruct k; cbn in *; try contradiction.
    + destruct ((Z.of_nat n <=? i) || (i <? - Z.of_nat n))%Z; inversion E1; simpl; auto.
    + inversion E1; simpl; auto.
    + destruct (existsb (fun i => (Z.of_nat n <=? i) || (i <? - Z.of_nat n))%Z l); inversion E1; simpl; auto.
  - inversion HM as [|x l Hm HM']; subst. destruct new as [|k new]; [cbn in H; injection H as <-; auto|].
    destruct sh as [|n sh]; [discriminate|].
    assert (HK' : forall k1, In k1 new -> match k1 with KInt _ | KSlice _ | KArr _ => True | _ => False end) by (intros; apply HK; simpl; auto).
    assert (Hrk : forall ind k1, remap_key ind k = Ok k1 -> nomask k1).
    { intros ind k1. specialize (HK k (or_introl eq_refl)). destruct k; simpl; try contradiction.
      - destruct ((Z.of_nat (length ind) <=? i) || (i <? - Z.of_nat (length ind)))%Z; intros E; inversion E; simpl; auto.
      - destruct (slice_idx s (length ind)); simpl; intros E; inversion E; simpl; auto.
      - destruct (existsb _ l); intros E; inversion E; simpl; auto. }
    destruct k0; cbn [nomask] in Hm; try contradiction; cbn [remap_keys] in H; try discriminate.
    + destruct (remap_keys sh src (k :: new)) as [r|] eqn:E; [|discriminate]. injection H as <-. constructor; simpl; eauto.
    + destruct (slice_idx s n) as [ind|]; [|discriminate]. cbn [bind] in H. destruct (remap_key ind k) as [k1|] eqn:E1; [|discriminate]. cbn [bind] in H.
      destruct (remap_keys sh src new) as [r|] eqn:E; [|discriminate]. injection H as <-. constructor; eauto.
    + destruct (remap_key l k) as [k1|] eqn:E1; [|discriminate]. cbn [bind] in H.
      destruct (remap_keys sh src new) as [r|] eqn:E; [|discriminate]. injection H as <-. constructor; eauto.
    + destruct (remap_key l k) as [k1|] eqn:E1; [|discriminate]. cbn [bind] in H.
      destruct (remap_keys sh src new) as [r|] eqn:E; [|discriminate]. injection H as <-. constructor; eauto.
    + destruct (remap_key l k) as [k1|] eqn:E1; [|discriminate]. cbn [bind] in H.
      destruct (remap_keys sh src new) as [r|] eqn:E; [|discriminate]. injection H as <-. constructor; eauto.
Qed.
Lemma sel_count ks : forall sh s, Forall stored_key ks -> sel_keys ks sh = Some s -> length (sel_shape s) = count_if (fun k => negb (is_scalar k)) ks.
Proof.
  induction ks as [|k ks IH]; intros sh s HS H.
  - destruct sh; [|discriminate]. injection H as <-. reflexivity.
  - inversion HS; subst. apply sel_keys_cons in H as [(-> & _)|(Hn & _ & n & sh' & d & r & -> & -> & Ed & Er)]; [contradiction|].
    rewrite count_if_cons. specialize (IH _ _ H3 Er). apply sel_key_kind in Ed as [(E5 & i & ->)|(E5 & l & ->)]; rewrite E5; cbn [sel_shape length negb]; lia.
Qed.
Lemma sel_tuple ks : forall sh s l, sel_keys ks sh = Some s -> In (KTuple l) ks -> In (length l) (sel_shape s).
Proof.
  induction ks as [|k ks IH]; intros sh s l H Hin; [contradiction|].
  apply sel_keys_cons in H as [(-> & r & -> & Er)|(Hn & _ & n & sh' & d & r & -> & -> & Ed & Er)].
  - destruct Hin as [E|Hin]; [discriminate|]. simpl. right. eauto.
  - destruct Hin as [->|Hin].
    + simpl in Ed. destruct (norm_ints l n) as [q|] eqn:E; [|discriminate]. injection Ed as <-. simpl. left. apply norm_ints_length in E. auto.
    + specialize (IH _ _ _ Er Hin). destruct d; simpl; auto.
Qed.
Lemma drop_all {A} (p : A -> bool) l : forallb p l = true -> drop_while p l = [].
Proof. induction l as [|x l IH]; simpl; auto. intros H. apply andb_true_iff in H as [-> H]. auto. Qed.
Lemma one_block_points ks : forallb is_point ks = true -> one_block ks = true.
Proof.
  intros H. unfold one_block. replace (drop_while (fun k => negb (is_point k)) ks) with ks; [rewrite drop_all; auto|].
  destruct ks as [|k ks]; auto. simpl in H. apply andb_true_iff in H as [H _]. simpl. rewrite H. reflexivity.
Qed.
Lemma drop_nopoint ks : existsb is_point ks = false -> existsb is_point (drop_while is_point ks) = false.
Proof. destruct ks as [|k ks]; simpl; auto. intros H. apply orb_false_iff in H as [H1 H2]. rewrite H1. simpl. rewrite H1, H2. auto. Qed.
Lemma one_block_one ks : count_if is_point ks <= 1 -> one_block ks = true.
Proof.
  unfold one_block. induction ks as [|k ks IH]; auto. rewrite count_if_cons. intros H. cbn [drop_while].
  destruct (is_point k) eqn:E; cbn [negb]; [|apply IH; lia]. cbn [drop_while]. rewrite E.
  assert (H0 : count_if is_point ks = 0) by lia. apply count_if_0 in H0. rewrite (drop_nopoint _ H0). reflexivity.
Qed.
Definition free_key (k : key) : Prop := match k with KInt _ | KTuple _ | KSlice _ => True | _ => False end.
Lemma tup_seq ks : Forall free_key ks -> count_if is_seq ks = count_if is_tup ks.
Proof. induction 1 as [|k ks Hk H IH]; auto. rewrite !count_if_cons, IH. destruct k; simpl in *; auto; contradiction. Qed.
Lemma numpy_free ks : Forall free_key ks -> (forall l, In (KTuple l) ks -> l <> []) ->
  (2 <= count_if is_tup ks \/ count_if is_tup ks = 0 \/ one_block ks = true) -> numpy_ok ks.
Proof.
  intros HF HN H. unfold numpy_ok. destruct (Nat.leb_spec 2 (count_if is_tup ks)) as [L|L].
  - split; auto. left. clear - HF. induction HF as [|k ks Hk H IH]; auto. cbn [map]. rewrite count_if_cons, IH. destruct k; simpl in *; auto; contradiction.
  - unfold one_seq. rewrite (tup_seq _ HF). destruct H as [H|[H|H]]; [lia|left; auto|]. destruct (count_if is_tup ks) as [|[|]]; auto; lia.
Qed.
Lemma numpy_points ks : Forall point_key ks -> (forall l, In (KTuple l) ks -> l <> []) -> numpy_ok ks.
Proof.
  intros HF HN. apply numpy_free; auto.
  - eapply Forall_impl; [|exact HF]. intros []; simpl; auto.
  - right. right. apply one_block_points. apply forallb_forall. rewrite Forall_forall in HF. intros k Hk. specialize (HF k Hk). destruct k; simpl in *; auto; contradiction.
Qed.

(** ** Closure under indexing *)
Definition Pst (a : barr) : Prop := forall arrs str h ks, wf a -> steady arrs str h a -> Forall2 (keyok ints arrs) ks (shape a) ->
  okk a ks /\ forall b, getitem a ks = Ok b -> steady arrs str h b /\ (str = true -> cs b = csel ks (cs a)).

Lemma got arrs (a : barr) ks b : wf a -> okk a ks -> Forall2 (keyok ints arrs) ks (shape a) -> getitem a ks = Ok b ->
  exists s, sel_keys ks (shape a) = Some s /\ wf b /\ shape b = sel_shape s /\ (nolead a -> nolead b).
Proof.
  intros Hw Hk HF Hg. destruct (keysok_sel _ _ _ HF) as (s & Es). exists s. split; auto.
  destruct (getitem_all O a ks ks s Hw (keysok_expand _ _ _ HF) Es Hk) as (b' & Eb & Gb). replace b with b' in * by congruence.
  split; [apply Gb|]. split; [eapply good_shape; eauto|apply Gb].
Qed.
Lemma pos_dims arrs ks sh s : Forall2 (keyok ints arrs) ks sh -> sel_keys ks sh = Some s -> Forall (fun n => 1 <= n) sh -> Forall (fun n => 1 <= n) (sel_shape s).
Proof.
  intros H. revert s. induction H as [|k n ks sh Hk H IH]; intros s Hs HF.
  - injection Hs as <-. constructor.
  - inversion HF; subst. apply sel_keys_cons in Hs as [(-> & _)|(Hn & _ & n' & sh' & d & r & E & -> & Ed & Er)]; [contradiction|]. injection E as <- <-.
    destruct (keyok_sel _ _ _ Hk) as (d' & Ed' & Hd). rewrite Ed in Ed'. injection Ed' as <-. specialize (IH _ Er H3).
    destruct d as [p|l|]; cbn [sel_shape] in *; [exact IH| |contradiction]. constructor; [tauto|exact IH].
Qed.
Lemma keep_dims arrs ks sh s : ints = false -> Forall2 (keyok ints arrs) ks sh -> sel_keys ks sh = Some s -> length (sel_shape s) = length sh.
Proof.
  intros Hi H. revert s. induction H as [|k n ks sh Hk H IH]; intros s Hs.
  - injection Hs as <-. auto.
  - apply sel_keys_cons in Hs as [(-> & _)|(Hn & _ & n' & sh' & d & r & E & -> & Ed & Er)]; [contradiction|]. injection E as <- <-.
    destruct (keyok_sel _ _ _ Hk) as (d' & Ed' & Hd). rewrite Ed in Ed'. injection Ed' as <-. specialize (IH _ Er).
    destruct d as [p|l|]; cbn [sel_shape length] in *; [destruct Hd; congruence|lia|contradiction].
Qed.
Definition isleaf (a : barr) : Prop := match a with AAgg _ _ _ _ | AEl1 _ _ _ | AEl2 _ _ _ _ => False | _ => True end.
Lemma leaf_cs (a : barr) : isleaf a -> cs a = CL (shape a).
Proof. destruct a; simpl; auto; contradiction. Qed.
Lemma leaf_case arrs (a : barr) ks b : wf a -> okk a ks -> Forall2 (keyok ints arrs) ks (shape a) -> getitem a ks = Ok b -> isleaf a -> isleaf b ->
  cs b = csel ks (cs a).
Proof. intros Hw Hk HF Hg H1 H2. rewrite (leaf_cs _ H1), (leaf_cs _ H2). cbn [csel]. destruct (got _ _ _ _ Hw Hk HF Hg) as (s & -> & _ & -> & _). auto. Qed.

Lemma st_const sh v d : Pst (AConst sh v d).
Proof.
  intros arrs str h ks Hw Hs HF. assert (Hk : okk (AConst sh v d) ks) by (cbn [okk]; apply (keysok_nonew _ _ _ HF)). split; auto.
  intros b Hb. pose proof Hb as Hb'. cbn [getitem] in Hb. destruct (sliced_shape sh ks); [|discriminate]. cbn [bind] in Hb. injection Hb as <-.
  split; auto. intros _. eapply leaf_case; eauto; exact I.
Qed.

Lemma st_adapt o c src : Pst (AAdapt o c src).
Proof.
  intros arrs str h ks Hw (Hh & Hpos & HM & Hkind & Hcell) HF.
  assert (Hk : okk (AAdapt o c src) ks) by exact HM. split; auto. intros b Hb. pose proof (got _ _ _ _ Hw Hk HF Hb) as (s & Es & Wb & Sb & _).
  pose proof Hb as Hb'. cbn [getitem] in Hb. rewrite (base_steady _ _ _ _ _ HF eq_refl) in Hb.
  destruct (remap_keys (c_shape c) src ks) as [ks'|] eqn:Er; [|discriminate]. cbn [bind] in Hb. unfold mk_adapter in Hb.
  destruct (length (c_shape c) <? length ks'); [discriminate|].
  destruct (mapM (fun kn => cleanup_key (fst kn) (snd kn)) (combine ks' (c_shape c))); [|discriminate]. cbn [bind] in Hb. injection Hb as <-.
  assert (Hleaf : str = true -> cs (AAdapt o c ks') = csel ks (cs (AAdapt o c src))) by (intros _; eapply leaf_case; eauto; exact I).
  split; [|exact Hleaf]. clear Hleaf. pose proof (pos_dims _ _ _ _ HF Es Hpos) as Hpos'. rewrite <- Sb in Hpos'.
  pose proof Hw as [HSt HV]. unfold valid_keys in HV. destruct (oselect src (c_shape c)) as [ssrc|] eqn:Esrc; [|congruence].
  pose proof (sliced_shape_ok _ _ _ Esrc (sel_key_stored_list _ HSt)) as Hsh. cbn [shape] in HF. rewrite Hsh in HF. cbn [get_ok] in HF.
  apply oselect_stored in Esrc as [HLs Esrc]; auto.
  pose proof Wb as [HSt' HV']. unfold valid_keys in HV'. destruct (oselect ks' (c_shape c)) as [s'|] eqn:Es'; [|congruence].
  pose proof (sliced_shape_ok _ _ _ Es' (sel_key_stored_list _ HSt')) as Hsh'.
  assert (Hkinds : forall k, In k ks -> match k with KInt _ => ints = true | KSlice _ => True | KArr l => arrs = true /\ l <> [] | _ => False end).
  { intros k Hin. apply (In_nth _ _ KBad) in Hin as (i & Hi & <-). pose proof (F2_nth _ _ _ i KBad 0 HF Hi) as HK.
    destruct (nth i ks KBad); simpl in HK; try contradiction; auto; try tauto. destruct HK as (? & HL2 & _). split; auto. destruct l; simpl in HL2; [lia|discriminate]. }
  assert (Htup : forall l, In (KTuple l) ks' -> l <> []).
  { intros l Hin E. subst l. cbn [shape] in Hpos'. rewrite Hsh' in Hpos'. cbn [get_ok] in Hpos'. rewrite Forall_forall in Hpos'.
    apply oselect_stored in Es' as [_ Es']; auto.
    assert (Hin' : In (length (@nil Z)) (sel_shape s')) by (eapply sel_tuple; [exact Es'|apply in_app_iff; left; exact Hin]).
    apply Hpos' in Hin'. cbn [length] in Hin'. lia. }
  assert (Hfresh : src = [] -> length ks' = length (c_shape c) /\ Forall2 (fun k k' => match k with KArr l => k' = KTuple l | _ => k' = k end) ks ks').
  { intros ->. cbn [remap_keys] in Er. cbn [length app] in Esrc. cbn [sel_shape] in *.
    assert (Essrc : ssrc = full_sels (c_shape c)) by (apply (sel_keys_stored_app [] (c_shape c) ssrc); auto). subst ssrc. rewrite sel_shape_full in HF.
    clear - HF Er Hkinds. assert (HK : forall k, In k ks -> match k with KInt _ | KSlice _ | KArr _ => True | _ => False end) by (intros k Hk; specialize (Hkinds k Hk); destruct k; auto).
    clear Hkinds. revert ks' Er. induction HF as [|k n ks sh Hk HF IH]; intros ks' Er; cbn in Er.
    - injection Er as <-. auto.
    - destruct (cleanup_key k n) as [k1|] eqn:E1; [|discriminate]. cbn [bind] in Er.
      destruct (mapM (fun kn => cleanup_key (fst kn) (snd kn)) (combine ks sh)) as [r|] eqn:E2; [|discriminate]. injection Er as <-.
      destruct (IH (fun k Hk => HK k (or_intror Hk)) r eq_refl) as [I1 I2]. split; [cbn [length]; lia|]. constructor; auto.
      specialize (HK k (or_introl eq_refl)). destruct k; cbn in *; try contradiction.
      + destruct ((Z.of_nat n <=? i) || (i <? - Z.of_nat n))%Z; congruence.
      + congruence.
      + destruct (existsb (fun i => (Z.of_nat n <=? i) || (i <? - Z.of_nat n))%Z l); congruence. }
  assert (Hfull : length src = length (c_shape c) -> length ks' = length (c_shape c) /\ Forall point_key ks').
  { intros E. rewrite E, Nat.sub_diag in Esrc. cbn [repeat] in Esrc. rewrite app_nil_r in Esrc.
    apply (remap_point src (c_shape c) ks); auto.
    - rewrite <- (sel_count _ _ _ HSt Esrc). eapply Forall2_length; eauto.
    - intros k Hin. specialize (Hkinds k Hin). destruct k; auto. }
  cbn [steady]. split; [auto|]. split; [exact Hpos'|]. split.
  - eapply remap_nomask; [exact HM| |exact Er]. intros k Hin. specialize (Hkinds k Hin). destruct k; auto.
  - split.
    + destruct Hkind as [H|[[E H]|[E H]]]; [left; auto| |].
      * right. right. destruct (Hfresh E) as [EL F2]. split; auto.
        assert (HFk : Forall free_key ks').
        { apply Forall_forall. intros k' Hin. apply (In_nth _ _ KBad) in Hin as (i & Hi & <-). pose proof (Forall2_length _ _ _ F2) as HL2.
          assert (Hi' : i < length ks) by lia. pose proof (F2_nth _ _ _ i KBad KBad F2 Hi') as HK. specialize (Hkinds (nth i ks KBad) (nth_In _ _ Hi')).
          destruct (nth i ks KBad); try contradiction; rewrite HK; simpl; auto. }
        apply numpy_free; auto. destruct H as [H|[H|H]].
        -- destruct (Nat.le_gt_cases 2 (count_if is_tup ks')) as [L|L]; auto. right. right. apply one_block_one.
           replace (count_if is_point ks') with (count_if is_tup ks'); [lia|]. symmetry. clear - F2 Hkinds H. induction F2 as [|k k' ks ks' Hk F2 IH]; auto.
           rewrite !count_if_cons, IH by (intros; apply Hkinds; simpl; auto). specialize (Hkinds k (or_introl eq_refl)).
           destruct k; try contradiction; subst k'; simpl; auto. congruence.
        -- right. left. clear - F2 Hkinds H. induction F2 as [|k k' ks ks' Hk F2 IH]; auto.
           rewrite count_if_cons, IH by (intros; apply Hkinds; simpl; auto). specialize (Hkinds k (or_introl eq_refl)).
           destruct k; try contradiction; subst k'; simpl; auto. destruct Hkinds; congruence.
        -- right. rewrite <- EL in H. destruct ks' as [|k1 [|k2 [|k3 ks']]]; cbn [length] in H; try lia; auto.
           ++ right. apply one_block_one. rewrite count_if_cons. change (count_if is_point []) with 0. destruct (is_point k1); lia.
           ++ inversion HFk as [|? ? F1 HF1]; subst. inversion HF1 as [|? ? F3 _]; subst. clear - F1 F3.
              destruct k1; simpl in F1; try contradiction; destruct k2; simpl in F3; try contradiction; auto.
      * right. right. destruct (Hfull E) as [EL HP]. split; auto. apply numpy_points; auto.
    + destruct Hcell as [H|[H|[H1 H2]]]; auto. right. right. split; auto. intros E.
      rewrite Sb in E. cbn [shape] in Es, H2. rewrite Hsh in Es, H2. cbn [get_ok] in Es, H2.
      pose proof (keep_dims arrs ks _ s H1 HF Es) as HK. rewrite E in HK. destruct (sel_shape ssrc); [congruence|discriminate].
Qed.


(** New axes. *)
Lemma keyok_one arrs k : keyok ints arrs k 1 -> match k with KInt _ => True | KSlice s => exists p, slice_idx s 1 = Ok [p] | _ => False end.
Proof.
  intros H. destruct (keyok_sel _ _ _ H) as (d & Ed & Hd). destruct k; simpl in H; try contradiction; auto.
  - destruct H as [->|[_ (l & E & Hl)]]; [exists 0%Z; reflexivity|]. simpl in Ed. rewrite E in Ed. injection Ed as <-.
    destruct Hd as (_ & HL & _). rewrite map_length in HL. destruct l as [|p [|q l]]; [congruence|eauto|cbn [length] in HL; lia].
  - destruct H as (_ & H1 & H2 & H3). pose proof (incb_length _ 1 H3 H2). lia.
Qed.
Lemma nx_all arrs fl : forall sh ks seen ki, nK (mkf fl) = length sh -> Forall2 (keyok ints arrs) ks (laymk 1 (mkf fl) sh) ->
  nx_ok seen ks fl /\ nx_bd ki ks fl = [] /\ Forall2 (keyok ints arrs) (nx_ck ks fl) sh.
Proof.
  induction fl as [|b fl IH]; intros sh ks seen ki HK HF.
  - destruct sh; [|discriminate]. inversion HF; subst. simpl. auto.
  - destruct b.
    + cbn in HK. change (laymk 1 (mkf (true :: fl)) sh) with (1 :: laymk 1 (mkf fl) sh) in HF. inversion HF as [|k n ks' sh' Hk HF']; subst.
      pose proof (keyok_one _ _ Hk) as H1. destruct k; try contradiction; cbn [nx_ok nx_bd nx_ck].
      * destruct (IH sh ks' true (S ki) HK HF') as (I1 & I2 & I3). auto.
      * destruct (IH sh ks' seen (S ki) HK HF') as (I1 & I2 & I3). destruct H1 as [p Hp]. rewrite Hp, I2. cbn. repeat split; eauto.
    + destruct sh as [|n sh]; [discriminate|]. cbn in HK. injection HK as HK.
      change (laymk 1 (mkf (false :: fl)) (n :: sh)) with (n :: laymk 1 (mkf fl) sh) in HF. inversion HF as [|k n0 ks' sh' Hk HF']; subst.
      destruct (IH sh ks' (seen || is_scalar k) (S ki) HK HF') as (I1 & I2 & I3). destruct (keyok_plain _ _ _ Hk) as (Hn & _).
      destruct k; try discriminate; cbn [nx_ok nx_bd nx_ck]; auto.
Qed.
Lemma st_newax a na : Pst a -> Pst (ANewAx a na).
Proof.
  intros IH arrs str h ks Hw Hs HF. pose proof Hw as (Hwa & HL). cbn [steady] in Hs.
  set (fl := flags (ndim a) na) in *. assert (HK : nK (mkf fl) = length (shape a)) by (apply nK_flags; auto).
  assert (HF' : Forall2 (keyok ints arrs) ks (laymk 1 (mkf fl) (shape a))).
  { pose proof HF as HF2. cbn [shape] in HF2. rewrite layout_flags in HF2 by auto. exact HF2. }
  destruct (nx_all arrs fl (shape a) ks false 0 HK HF') as (N1 & N2 & N3).
  destruct (IH arrs false h _ Hwa Hs N3) as [K1 K2].
  assert (Hk : okk (ANewAx a na) ks) by (cbn [okk]; split; auto). split; auto. intros b Hb. pose proof Hb as Hb'.
  cbn [getitem] in Hb. unfold newax_getitem in Hb.
  assert (HLfl : length fl = ndim a + fold_right Nat.add 0 na) by (apply flags_length; auto).
  rewrite <- HLfl in Hb. rewrite <- (laymk_length 1 fl (shape a) HK) in Hb. rewrite (keysok_full _ _ _ HF') in Hb. cbn [bind] in Hb.
  destruct (keysok_sel _ _ _ HF') as (s & Es).
  pose proof (nx_loop ks fl (shape a) s 0 false [] [] [] [] HK Es N1 eq_refl) as HLoop. cbn [app nKS] in HLoop.
  unfold fl in HLoop at 1. rewrite cntKS_flags in HLoop by auto.
  change (newax_layout true (repeat false (ndim a)) na) with fl in Hb. rewrite HLoop in Hb. cbn [bind] in Hb. rewrite N2 in Hb. cbn zeta iota in Hb.
  destruct (getitem a (nx_ck ks fl)) as [c'|] eqn:Ec; [|discriminate]. cbn [bind] in Hb. unfold mk_newax in Hb.
  match type of Hb with context [if ?c then _ else _] => destruct c; [|discriminate] end. cbn [bind] in Hb. injection Hb as <-.
  split; [cbn [steady]; apply (K2 _ eq_refl)|]. intros _. eapply leaf_case; eauto; exact I.
Qed.

(** Broadcasts. *)
Lemma bc_all arrs dict ks : forall shc sh' ax, length shc = length sh' ->
  (forall i, i < length sh' -> match dict_find (ax + i) dict with
                               | Some n => nth i sh' 0 = n /\ nth i shc 0 = 1
                               | None => nth i sh' 0 = nth i shc 0 end) ->
  Forall2 (keyok ints arrs) ks sh' -> (arrs = false \/ sh' = []) ->
  bc_ok dict ks ax /\ Forall2 (keyok ints arrs) (bc_ck dict ks ax) shc.
Proof.
  induction ks as [|k ks IH]; intros shc sh' ax HL Hd HF Ha; inversion HF as [|k0 n ks0 sh0 Hk HF']; subst; cbn [bc_ok bc_ck].
  - destruct shc; [|discriminate]. auto.
  - destruct Ha as [->|Ha]; [|discriminate]. destruct shc as [|n' shc]; [discriminate|]. cbn [length] in HL.
    destruct (IH shc sh0 (S ax) ltac:(lia)) as [I1 I2]; auto.
    { intros i Hi. specialize (Hd (S i) ltac:(cbn [length]; lia)). rewrite Nat.add_succ_r in Hd. exact Hd. }
    specialize (Hd 0 ltac:(cbn [length]; lia)). rewrite Nat.add_0_r in Hd. cbn [nth] in Hd.
    destruct (dict_find ax dict) as [q|].
    + destruct Hd as [-> ->]. destruct k; simpl in Hk; try contradiction; try (destruct Hk; discriminate).
      * split; auto. constructor; auto. simpl. split; [tauto|lia].
      * split; auto. constructor; auto. apply keyok_full.
    + subst n'. destruct k; simpl in Hk; try contradiction; try (destruct Hk; discriminate); split; auto.
Qed.
Lemma st_bcast a dict lead : Pst a -> Pst (ABcast a dict lead).
Proof.
  intros IH arrs str h ks Hw (Hnl & Harr & Hst) HF. pose proof Hw as (Hwa & HND & Hok & Hlead).
  destruct (shape_from_dict (shape a) dict) as [sh'|] eqn:Esh; [|discriminate].
  pose proof (proj1 (sfd_char dict (shape a) sh' HND) Esh) as (Hfit & HLsh & Hnth).
  assert (Esha : shape (ABcast a dict lead) = lead ++ sh') by (cbn [shape]; rewrite Esh; reflexivity).
  pose proof HF as HFa. rewrite Esha in HFa. apply Forall2_app_inv_r in HFa as (lk & ck & HF1 & HF2 & Eks).
  assert (HLlk : length lk = length lead) by (eapply Forall2_length; eauto).
  assert (Efn : firstn (length lead) ks = lk) by (rewrite Eks, <- HLlk, firstn_app, firstn_all, Nat.sub_diag; cbn [firstn]; apply app_nil_r).
  assert (Esn : skipn (length lead) ks = ck) by (rewrite Eks, <- HLlk, skipn_app, skipn_all, Nat.sub_diag; auto).
  destruct (bc_all arrs dict ck (shape a) sh' 0) as [B1 B2]; auto.
  { intros i Hi. rewrite HLsh in Hi. specialize (Hnth i Hi). simpl.
    destruct (dict_find i dict) as [q|] eqn:Eq; auto. split; auto.
    apply dict_find_In in Eq. unfold dict_fits in Hfit. rewrite Forall_forall in Hfit. apply Hfit in Eq. tauto. }
  { destruct Harr as [|E]; auto. right. unfold ndim in E. rewrite E in HLsh. destruct sh'; [auto|discriminate]. }
  destruct (IH arrs false h _ Hwa Hst B2) as [K1 K2].
  destruct (keysok_nonew _ _ _ HF) as (HN & _). destruct (keysok_nonew _ _ _ HF1) as (HN1 & HE1 & HL1).
  assert (Edn : drop_new ks = ks) by (apply drop_new_id; auto).
  assert (Hk : okk (ABcast a dict lead) ks).
  { cbn [okk]. cbn zeta. rewrite Edn, Efn, Esn. split; [exact HL1|]. split; [intros s Hs; exact (pos_dims _ _ _ _ HF1 Hs Hlead)|]. split; [exact B1|]. split; [exact Hnl|exact K1]. }
  split; auto. intros b Hb. pose proof Hb as Hb'. cbn [getitem] in Hb. rewrite (base_steady _ _ _ _ _ HF eq_refl) in Hb.
  rewrite Efn, Esn, Esha in Hb. rewrite skipn_app, skipn_all, Nat.sub_diag in Hb. cbn [skipn app] in Hb.
  destruct (sliced_shape lead lk) as [lead'|]; [|discriminate]. cbn [bind] in Hb.
  destruct (bcast_loop dict ck sh' 0 0) as [[ck' d']|] eqn:EL; [|discriminate]. cbn [bind fst snd] in Hb.
  assert (Eck : ck' = bc_ck dict ck 0).
  { destruct (keysok_sel _ _ _ HF2) as (s2 & Es2). destruct (keysok_nonew _ _ _ HF2) as (HN2 & _).
    pose proof (bc_ok_some _ _ _ B1) as B1'.
    destruct (bcast_loop_ok dict ck (shape a) sh' s2 0 0) as (d2 & sc & E1 & _); auto; [|congruence].
    intros i Hi. rewrite HLsh in Hi. specialize (Hnth i Hi). simpl.
    destruct (dict_find i dict) as [q|] eqn:Eq; auto. split; auto.
    apply dict_find_In in Eq. unfold dict_fits in Hfit. rewrite Forall_forall in Hfit. apply Hfit in Eq. tauto. }
  subst ck'. destruct (all_full_ok dict ck 0 B1) as (bb & Eb & HbF). rewrite Eb in Hb. cbn [bind] in Hb.
  destruct (if bb then Ok a else getitem a (bc_ck dict ck 0)) as [sub|] eqn:Esub; [|discriminate]. cbn [bind] in Hb.
  assert (Hsub : steady arrs false h sub /\ nolead sub /\ (arrs = false \/ ndim sub = 0)).
  { destruct bb.
    - injection Esub as <-. auto.
    - destruct (K2 _ Esub) as [S1 _]. destruct (got _ _ _ _ Hwa K1 B2 Esub) as (s & Es & Wb & Sb & Nb). repeat split; auto.
      destruct Harr as [|E]; auto. exfalso. unfold ndim in E. destruct (shape a); [|discriminate]. inversion B2 as [E5|]. rewrite <- E5 in Eb. cbn in Eb. congruence. }
  destruct Hsub as (S1 & S2 & S3).
  assert (Hres : exists a0 d0 l0, b = ABcast a0 d0 l0 /\ nolead a0 /\ (arrs = false \/ ndim a0 = 0) /\ steady arrs false h a0).
  { unfold mk_bcast in Hb. destruct sub; cbn [steady nolead] in S1, S2;
      match type of Hb with context [shape_from_dict ?x ?y] => destruct (shape_from_dict x y); [|discriminate] end; cbn [bind] in Hb;
      match type of Hb with context [if ?c then _ else _] => destruct c; [discriminate|] end; injection Hb as <-; eexists _, _, _; split; try reflexivity; auto. }
  destruct Hres as (a0 & d0 & l0 & -> & R1 & R2 & R3). split; [cbn [steady]; auto|]. intros _. eapply leaf_case; eauto; exact I.
Qed.

Lemma st_asty a d : Pst a -> Pst (AAsTy a d).
Proof.
  intros IH arrs str h ks Hw Hs HF. destruct (IH arrs false h ks Hw Hs HF) as [K1 K2]. split; [exact K1|]. intros b Hb. pose proof Hb as Hb'.
  cbn [getitem] in Hb. destruct (getitem a ks) as [c'|] eqn:E; [|discriminate]. cbn [bind] in Hb. injection Hb as <-.
  split; [cbn [steady]; apply (K2 _ eq_refl)|]. intros _. eapply leaf_case; eauto; exact I.
Qed.
Lemma st_maskv a v : Pst a -> Pst (AMaskV a v).
Proof.
  intros IH arrs str h ks Hw Hs HF. destruct (IH arrs false h ks Hw Hs HF) as [K1 K2]. split; [exact K1|]. intros b Hb. pose proof Hb as Hb'.
  cbn [getitem] in Hb. destruct (getitem a ks) as [c'|] eqn:E; [|discriminate]. cbn [bind] in Hb. injection Hb as <-.
  split; [cbn [steady]; apply (K2 _ eq_refl)|]. intros _. eapply leaf_case; eauto; exact I.
Qed.
Lemma st_trans a axes : Pst a -> Pst (ATrans a axes).
Proof.
  intros IH arrs str h ks Hw Hs HF. pose proof Hw as (Hwa & HL & HND & HFx). assert (HP : perm axes (ndim a)) by (split; [|split]; auto).
  cbn [steady] in Hs. set (rk := apply_inverse KBad axes ks).
  assert (HLk : length ks = length axes).
  { rewrite (Forall2_length _ _ _ HF). cbn [shape]. unfold apply_forward. rewrite scatter_length, repeat_length. auto. }
  assert (HR : Forall2 (keyok ints arrs) rk (shape a)).
  { assert (Erl : length rk = ndim a) by (unfold rk, apply_inverse; rewrite scatter_length, repeat_length; auto).
    apply (F2_of_nth _ _ _ KBad 0); [exact Erl|]. intros i Hi. rewrite Erl in Hi. assert (Hin : In i axes) by (eapply perm_In; eauto).
    apply (In_nth _ _ 0) in Hin as (j & Hj & <-).
    assert (Ern : nth (nth j axes 0) rk KBad = nth j ks KBad).
    { unfold rk, apply_inverse. apply nth_scatter; auto. rewrite repeat_length, HL. auto. }
    rewrite Ern. assert (Hj' : j < length ks) by lia. pose proof (F2_nth _ _ _ j KBad 0 HF Hj') as HK. cbn [shape] in HK.
    rewrite (apply_forward_spec _ _ _ (ndim a)) in HK by auto. rewrite (nth_map _ _ _ _ 0) in HK by auto. exact HK. }
  destruct (IH arrs false h _ Hwa Hs HR) as [K1 K2]. destruct (keysok_nonew _ _ _ HF) as (HN & _).
  assert (Hk : okk (ATrans a axes) ks) by (cbn [okk]; rewrite drop_new_id by auto; exact K1).
  split; auto. intros b Hb. pose proof Hb as Hb'. cbn [getitem] in Hb. rewrite (base_steady _ _ _ _ _ HF eq_refl) in Hb. cbn zeta in Hb. fold rk in Hb.
  destruct (getitem a rk) as [c'|] eqn:E; [|discriminate]. cbn [bind mk_trans] in Hb.
  match type of Hb with context [if ?c then _ else _] => destruct c; [|discriminate] end. injection Hb as <-.
  split; [cbn [steady]; apply (K2 _ eq_refl)|]. intros _. eapply leaf_case; eauto; exact I.
Qed.

(** Computations. *)
Lemma nth_sel arrs ks sh : Forall2 (keyok ints arrs) ks sh -> forall s axis, sel_keys ks sh = Some s -> axis < length ks ->
  nth axis ks KBad = KFull -> nth (axis - count_if is_scalar (firstn axis ks)) (sel_shape s) 0 = nth axis sh 0.
Proof.
  induction 1 as [|k n ks sh Hk H IH]; intros s axis Hs Hax Hsc; cbn [length] in Hax; [lia|].
  apply sel_keys_cons in Hs as [(-> & _)|(Hn & _ & n' & sh' & d & r & E & -> & Ed & Er)]; [contradiction|]. injection E as <- <-.
  destruct (keyok_sel _ _ _ Hk) as (d' & Ed' & Hd). rewrite Ed in Ed'. injection Ed' as <-.
  destruct axis as [|axis]; cbn [nth firstn] in *.
  - subst k. rewrite sel_key_full in Ed. injection Ed as <-. cbn. rewrite seq_length. auto.
  - specialize (IH r axis Er ltac:(lia) Hsc). rewrite count_if_cons. pose proof (cnt_le axis ks). destruct d; [| |contradiction].
    + destruct Hd as (_ & -> & _). cbn [sel_shape]. replace (S axis - (1 + count_if is_scalar (firstn axis ks))) with (axis - count_if is_scalar (firstn axis ks)) by lia. auto.
    + destruct Hd as (-> & _). cbn [sel_shape]. replace (S axis - (0 + count_if is_scalar (firstn axis ks))) with (S (axis - count_if is_scalar (firstn axis ks))) by lia. auto.
Qed.
Lemma piecewise_mono g n r r' : r' <= r -> piecewise g n r -> piecewise g n r'.
Proof. intros H. destruct g; simpl; auto; intros; intuition auto; try nia; right; right; split; auto; try (left; nia); right; nia. Qed.
Lemma st_agg g a axis d : Pst a -> Pst (AAgg g a axis d).
Proof.
  intros IH arrs str h ks Hw (Hs & HGa & Hpc) HF. pose proof Hw as (Hwa & Hax). cbn [shape] in HF.
  assert (HF' : Forall2 (keyok ints arrs) ks (shape (AAgg g a axis d))) by exact HF.
  pose proof (insert_ok _ _ _ _ Hax HF) as HI. destruct (keysok_nonew _ _ _ HF) as (HN & _).
  set (k' := insert_at axis KFull ks) in *.
  assert (Hx : exists h', (if str then steady arrs true h a else match h with 0 => False | S h' => steady arrs true h' a end) = steady arrs true h' a
     /\ forall c, steady arrs true h' c -> if str then steady arrs true h c else match h with 0 => False | S h' => steady arrs true h' c end).
  { destruct str; [exists h; auto|]. destruct h as [|h']; [contradiction|]. exists h'. auto. }
  destruct Hx as (h' & E & Hback). rewrite E in Hs. destruct (IH arrs true h' _ Hwa Hs HI) as [K1 K2].
  split; [cbn [okk]; rewrite drop_new_id by auto; exact K1|]. intros b Hb. pose proof Hb as Hb'. cbn [getitem] in Hb.
  rewrite (base_steady _ _ _ _ _ HF' eq_refl) in Hb. cbn zeta in Hb. fold k' in Hb.
  destruct (getitem a k') as [c'|] eqn:Ec; [|discriminate]. cbn [bind] in Hb. injection Hb as <-.
  destruct (K2 _ eq_refl) as [S1 S2]. destruct (got _ _ _ _ Hwa K1 HI Ec) as (s & Es & Wb & Sb & _).
  pose proof (Forall2_length _ _ _ HI) as HLI. assert (Hax' : axis < length k') by (unfold ndim in Hax; lia).
  assert (Hkx : nth axis k' KBad = KFull).
  { unfold k'. apply nth_insert_at. pose proof (Forall2_length _ _ _ HF) as HL2. rewrite remove_at_length in HL2 by exact Hax. unfold ndim in Hax. lia. }
  assert (En : nth (axis - count_if is_scalar (firstn axis k')) (shape c') 0 = nth axis (shape a) 0) by (rewrite Sb; eapply nth_sel; eauto).
  destruct (cs_shape a Hwa) as [T1 T2].
  split.
  - cbn [steady]. rewrite En. split; [apply Hback; auto|]. split; auto. rewrite (S2 eq_refl). eapply piecewise_mono; [|exact Hpc].
    apply (crest_mono arrs); auto; [rewrite T1; exact HI|rewrite Hkx; reflexivity].
  - intros _. cbn [cs csel]. cbn zeta. fold k'. rewrite (S2 eq_refl). reflexivity.
Qed.
Lemma st_el1 o a d : Pst a -> Pst (AEl1 o a d).
Proof.
  intros IH arrs str h ks Hw (Hs & Ho) HF. cbn [wf] in Hw. cbn [shape] in HF.
  assert (HF' : Forall2 (keyok ints arrs) ks (shape (AEl1 o a d))) by exact HF. destruct (keysok_nonew _ _ _ HF) as (HN & _).
  assert (Hx : exists h', (if str then steady arrs true h a else match h with 0 => False | S h' => steady arrs true h' a end) = steady arrs true h' a
     /\ forall c, steady arrs true h' c -> if str then steady arrs true h c else match h with 0 => False | S h' => steady arrs true h' c end).
  { destruct str; [exists h; auto|]. destruct h as [|h']; [contradiction|]. exists h'. auto. }
  destruct Hx as (h' & E & Hback). rewrite E in Hs. destruct (IH arrs true h' _ Hw Hs HF) as [K1 K2].
  split; [cbn [okk]; rewrite drop_new_id by auto; exact K1|]. intros b Hb. cbn [getitem] in Hb.
  rewrite (base_steady _ _ _ _ _ HF' eq_refl) in Hb.
  destruct (getitem a ks) as [c'|] eqn:Ec; [|discriminate]. cbn [bind] in Hb. unfold mk_el1 in Hb. injection Hb as <-.
  destruct (K2 _ eq_refl) as [S1 S2]. cbn [steady cs]. split; [split; [apply Hback; exact S1|exact Ho]|]. intros _. exact (S2 eq_refl).
Qed.
Lemma st_el2 o a1 a2 d : Pst a1 -> Pst a2 -> Pst (AEl2 o a1 a2 d).
Proof.
  intros IH1 IH2 arrs str h ks Hw (Hs & Ho) HF. pose proof Hw as (Hw1 & Hw2 & Hsh). cbn [shape] in HF.
  assert (HF' : Forall2 (keyok ints arrs) ks (shape (AEl2 o a1 a2 d))) by exact HF. destruct (keysok_nonew _ _ _ HF) as (HN & _).
  assert (HF2 : Forall2 (keyok ints arrs) ks (shape a2)) by (rewrite <- Hsh; exact HF).
  assert (Hx : exists h', steady arrs true h' a1 /\ steady arrs true h' a2 /\ (str = true -> cs a1 = cs a2)
     /\ forall c1 c2, steady arrs true h' c1 -> steady arrs true h' c2 -> (str = true -> cs c1 = cs c2) ->
          if str then steady arrs true h c1 /\ steady arrs true h c2 /\ cs c1 = cs c2
          else match h with 0 => False | S h' => steady arrs true h' c1 /\ steady arrs true h' c2 end).
  { destruct str; [exists h; intuition auto|]. destruct h as [|h']; [contradiction|]. exists h'. intuition auto; discriminate. }
  destruct Hx as (h' & Hs1 & Hs2 & Ecs & Hback). destruct (IH1 arrs true h' _ Hw1 Hs1 HF) as [K1 K2]. destruct (IH2 arrs true h' _ Hw2 Hs2 HF2) as [L1 L2].
  split; [cbn [okk]; rewrite drop_new_id by auto; split; auto|]. intros b Hb. cbn [getitem] in Hb.
  rewrite (base_steady _ _ _ _ _ HF' eq_refl) in Hb.
  destruct (getitem a1 ks) as [c1|] eqn:E1; [|discriminate]. cbn [bind] in Hb. destruct (getitem a2 ks) as [c2|] eqn:E2; [|discriminate]. cbn [bind] in Hb.
  destruct (K2 _ eq_refl) as [S1 S2]. destruct (L2 _ eq_refl) as [T1 T2].
  destruct (got _ _ _ _ Hw1 K1 HF E1) as (s & Es & _ & Sb & _). destruct (got _ _ _ _ Hw2 L1 HF2 E2) as (s2 & Es2 & _ & Sb2 & _).
  unfold mk_el2 in Hb. rewrite broadcast_same in Hb by (rewrite Sb, Sb2; congruence). cbn [bind] in Hb. injection Hb as <-.
  cbn [steady cs]. split; [split; [|exact Ho]|intros Ht; rewrite S2; auto].
  apply Hback; auto. intros Ht. rewrite S2, T2, Ecs by auto. reflexivity.
Qed.


(** Parts of stacks and mosaics. *)
Lemma mk_bcast_leafy (a : barr) d l b : mk_bcast a d l = Ok b -> leafy b.
Proof.
  unfold mk_bcast. destruct a; match goal with |- context [shape_from_dict ?x ?y] => destruct (shape_from_dict x y); [|discriminate] end; cbn [bind];
    match goal with |- context [if ?c then _ else _] => destruct c; [discriminate|] end; intros H; injection H as <-; exact I.
Qed.
Lemma newax_leafy (f : list key -> res barr) nd na ks b : newax_getitem f nd na ks = Ok b -> leafy b.
Proof.
  unfold newax_getitem. destruct (full_keys ks _); [|discriminate]. cbn [bind]. destruct (newax_loop _ _ _ _ _ _ _ _) as [[[[na' comb] ck] bd]|]; [|discriminate].
  cbn [bind]. destruct (f ck) as [c|]; [|discriminate]. cbn [bind]. unfold mk_newax. destruct (_ =? _); [|discriminate]. cbn [bind].
  destruct bd; intros H; [injection H as <-; exact I|]. eapply mk_bcast_leafy; eauto.
Qed.
Lemma base_leafy (gfk : list key -> res barr) nd ks b : (forall fks c, gfk fks = Ok c -> leafy c) -> base_getitem gfk nd ks = Ok b -> leafy b.
Proof.
  intros Hg. unfold base_getitem. destruct (full_keys ks nd) as [fks|]; [|discriminate]. cbn [bind]. destruct (existsb is_new fks); [apply newax_leafy|apply Hg].
Qed.
Lemma nth_gets (items : list barr) n ik b : nth n (map (fun it => getitem it) items) (fun _ => Err IndexError) ik = Ok b ->
  exists it, In it items /\ getitem it ik = Ok b.
Proof.
  revert n. induction items as [|it items IH]; intros [|n]; cbn [map nth]; try discriminate; intros H.
  - exists it. simpl. auto.
  - destruct (IH n H) as (x & Hx & E). exists x. simpl. auto.
Qed.
Lemma leafy_get (a : barr) : forall ks b, leafy a -> getitem a ks = Ok b -> leafy b.
Proof.
  induction a as [sh v d|o c ks0|a na IH|a dict lead IH|a d IH|a v IH|a axes IH|ssh items IH|tiles axis IH
    |g a axis d IH|o a d IH|o a b0 d IH1 IH2] using barr_ind2; intros ks b Hl Hb; try contradiction; cbn [getitem] in Hb.
  - destruct (sliced_shape sh ks); [|discriminate]. injection Hb as <-. exact I.
  - revert Hb. apply base_leafy. intros fks r H. destruct (remap_keys _ _ _); [|discriminate]. cbn [bind] in H. unfold mk_adapter in H.
    destruct (_ <? _); [discriminate|]. destruct (mapM _ _); [|discriminate]. injection H as <-. exact I.
  - revert Hb. apply newax_leafy.
  - revert Hb. apply base_leafy. intros fks r H. destruct (sliced_shape _ _); [|discriminate]. cbn [bind] in H. destruct (bcast_loop _ _ _ _ _); [|discriminate].
    cbn [bind] in H. destruct (all_full _) as [bb|]; [|discriminate]. cbn [bind] in H. destruct (if bb then _ else _); [|discriminate]. eapply mk_bcast_leafy; exact H.
  - destruct (getitem a ks); [|discriminate]. injection Hb as <-. exact I.
  - destruct (getitem a ks); [|discriminate]. injection Hb as <-. exact I.
  - revert Hb. apply base_leafy. intros fks r H. cbn zeta in H. destruct (getitem a _); [|discriminate]. cbn [bind mk_trans] in H. destruct (_ =? _); [|discriminate]. injection H as <-. exact I.
  - cbn [leafy] in Hl. rewrite fold_right_and_Forall in Hl. rewrite Forall_forall in Hl, IH.
    revert Hb. apply base_leafy. intros fks r H. cbn zeta in H. destruct (sliced_shape _ _) as [ssh'|]; [|discriminate]. cbn [bind] in H.
    destruct (np_index _ _) as [st|]; [|discriminate]. cbn [bind] in H. destruct ssh' as [|n1 r1].
    + apply nth_gets in H as (it & Hin & E). eapply IH; eauto.
    + destruct (shape_eqb _ _); [|discriminate]. destruct (mapM _ _) as [its|] eqn:EM; [|discriminate]. cbn [bind] in H. unfold mk_stack in H.
      destruct its as [|i0 its0] eqn:Ei; [discriminate|]. rewrite <- Ei in *. destruct (forallb _ _); [|discriminate]. injection H as <-.
      cbn [leafy]. rewrite fold_right_and_Forall. apply mapM_ok in EM. rewrite Forall_forall. intros x Hx.
      clear - EM Hx IH Hl. induction EM as [|i y l l' Hi EM IHm]; [contradiction|]. destruct Hx as [<-|Hx]; auto.
      apply nth_gets in Hi as (it & Hin & E). eapply IH; eauto.
  - cbn [leafy] in Hl. rewrite fold_right_and_Forall in Hl. rewrite Forall_forall in Hl, IH.
    revert Hb. apply base_leafy. intros fks r H. cbn zeta in H. destruct (mosaic_plan _ _ _) as [p|]; [|discriminate]. cbn [bind] in H.
    assert (Hmk : forall ts ax, (forall x, In x ts -> leafy x) -> mk_mosaic ts ax = Ok r -> leafy r).
    { intros ts ax Ht Hm. unfold mk_mosaic in Hm. destruct ts as [|t ts]; [discriminate|]. destruct (negb _); [discriminate|]. cbn zeta in Hm.
      destruct (mapM _ _); [|discriminate]. cbn [bind] in Hm. injection Hm as <-. cbn [leafy]. rewrite fold_right_and_Forall. apply Forall_forall. exact Ht. }
    destruct p as [ks1 ax|t ks1|parts ax].
    + destruct (mapM _ _) as [ts|] eqn:EM; [|discriminate]. cbn [bind] in H. revert H. apply Hmk. apply mapM_ok in EM.
      intros x Hx. clear - EM Hx IH Hl. remember (map (fun t => getitem t) tiles) as gs eqn:Eg. assert (Hgs : forall g, In g gs -> exists t, In t tiles /\ g = getitem t).
      { intros g Hg. subst. apply in_map_iff in Hg as (t & <- & Ht). eauto. }
      clear Eg. induction EM as [|i y l l' Hi EM IHm]; [contradiction|]. destruct Hx as [<-|Hx]; [|apply IHm; auto; intros g Hg; apply Hgs; simpl; auto].
      destruct (Hgs i (or_introl eq_refl)) as (t & Ht & ->). eapply IH; eauto.
    + apply nth_gets in H as (it & Hin & E). eapply IH; eauto.
    + destruct (mapM _ _) as [ts|] eqn:EM; [|discriminate]. cbn [bind] in H. revert H. apply Hmk. apply mapM_ok in EM.
      intros x Hx. clear - EM Hx IH Hl. induction EM as [|i y l l' Hi EM IHm]; [contradiction|]. destruct Hx as [<-|Hx]; auto.
      apply nth_gets in Hi as (it & Hin & E). eapply IH; eauto.
Qed.
Lemma leafy_isleaf (a : barr) : leafy a -> isleaf a.
Proof. destruct a; simpl; auto. Qed.
Lemma leafy_steady arrs h (a : barr) : leafy a -> steady arrs false h a -> steady arrs true h a.
Proof. destruct a; cbn [steady]; intros Hl Hs; try contradiction; auto; split; try tauto; split; try tauto; intros _; right; exact Hl. Qed.

Lemma prodn_pos sh : 1 <= prodn sh -> Forall (fun n => 1 <= n) sh.
Proof. induction sh as [|n sh IH]; intros H; constructor; change (prodn (n :: sh)) with (n * prodn sh) in H; [nia|apply IH; nia]. Qed.
Lemma sel_shape_le arrs ks sh s : Forall2 (keyok ints arrs) ks sh -> sel_keys ks sh = Some s -> length (sel_shape s) <= length sh.
Proof.
  intros H. revert s. induction H as [|k n ks sh Hk H IH]; intros s Hs.
  - injection Hs as <-. auto.
  - apply sel_keys_cons in Hs as [(-> & _)|(Hn & _ & n' & sh' & d & r & E & -> & Ed & Er)]; [contradiction|]. injection E as <- <-.
    destruct (keyok_sel _ _ _ Hk) as (d' & Ed' & Hd). rewrite Ed in Ed'. injection Ed' as <-. specialize (IH _ Er).
    destruct d as [p|l|]; cbn [sel_shape length] in *; [lia|lia|contradiction].
Qed.
Lemma st_stack ssh items : Forall Pst items -> Pst (AStack ssh items).
Proof.
  intros IH arrs str h ks Hw (Harr & Hstr & Hst) HF. pose proof Hw as (Hne & HLi & Hwi & Hsi).
  rewrite fold_right_and_Forall in Hst. rewrite fold_right_and_Forall in Hwi. rewrite Forall_forall in IH, Hst, Hwi, Hsi.
  destruct items as [|it0 its0] eqn:Eits; [congruence|]. rewrite <- Eits in *.
  assert (Hsh : shape (AStack ssh items) = ssh ++ shape it0) by (rewrite Eits; reflexivity).
  assert (Hsh0 : forall it, In it items -> shape it = shape it0).
  { intros it Hit. apply Hsi in Hit as [Hit _]. rewrite Eits in Hit. exact Hit. }
  pose proof HF as HFa. rewrite Hsh in HFa. apply Forall2_app_inv_r in HFa as (sk & ik & HF1 & HF2 & Eks).
  assert (HLsk : length sk = length ssh) by (eapply Forall2_length; eauto).
  assert (Efn : firstn (length ssh) ks = sk) by (rewrite Eks, <- HLsk, firstn_app, firstn_all, Nat.sub_diag; cbn [firstn]; apply app_nil_r).
  assert (Esn : skipn (length ssh) ks = ik) by (rewrite Eks, <- HLsk, skipn_app, skipn_all, Nat.sub_diag; auto).
  assert (HIt : forall it, In it items -> okk it ik /\ forall b, getitem it ik = Ok b -> steady arrs false h b).
  { intros it Hit. assert (HFi : Forall2 (keyok ints arrs) ik (shape it)) by (rewrite Hsh0; auto).
    destruct (IH it Hit arrs false h ik (proj1 (Hwi _ Hit)) (Hst _ Hit) HFi) as [K1 K2]. split; auto. intros b Hb. apply (K2 b Hb). }
  destruct (keysok_nonew _ _ _ HF) as (HN & _). destruct (keysok_nonew _ _ _ HF1) as (HN1 & HE1 & HL1).
  assert (Edn : drop_new ks = ks) by (apply drop_new_id; auto).
  assert (Hpos : Forall (fun n => 1 <= n) ssh). { apply prodn_pos. rewrite <- HLi, Eits. cbn [length]. lia. }
  assert (Hk : okk (AStack ssh items) ks).
  { cbn [okk]. cbn zeta. rewrite Edn, Efn, Esn. split; [exact HL1|]. split; [intros s Hs; exact (pos_dims _ _ _ _ HF1 Hs Hpos)|]. split.
    - destruct Harr as [->|Hl1].
      + left. clear - HF1. induction HF1 as [|k n ks sh Hk H IH]; auto. rewrite count_if_cons, IH. destruct k; simpl in *; auto; try contradiction. destruct Hk; discriminate.
      + rewrite <- HLsk in Hl1. destruct sk as [|k [|k2 sk]]; cbn [length] in Hl1; try lia; [left; reflexivity|].
        rewrite count_if_cons. change (count_if is_seq []) with 0. destruct (is_seq k); [right|left; lia]. split; [lia|].
        apply one_block_one. rewrite count_if_cons. change (count_if is_point []) with 0. destruct (is_point k); lia.
    - rewrite fold_right_and_Forall. apply Forall_forall. intros it Hit. apply HIt; auto. }
  split; auto. intros b Hb. pose proof Hb as Hb'. cbn [getitem] in Hb. rewrite (base_steady _ _ _ _ _ HF eq_refl) in Hb. cbn zeta in Hb.
  rewrite Efn, Esn in Hb. destruct (keysok_sel _ _ _ HF1) as (s1 & Hs1). rewrite (sliced_shape_ok sk ssh s1) in Hb; auto.
  2:{ rewrite oselect_full; auto. eapply sel_keys_fullk; eauto. }
  cbn [bind] in Hb. destruct (np_index (mkND ssh (ravel ssh)) sk) as [st|]; [|discriminate]. cbn [bind] in Hb.
  destruct (sel_shape s1) as [|n1 r1] eqn:Es1.
  - pose proof Hb as Hb2. apply nth_gets in Hb as (it & Hin & E). destruct (HIt _ Hin) as [_ K2]. specialize (K2 b E).
    destruct str; [|split; [exact K2|discriminate]].
    destruct (Hstr eq_refl) as [[Hi Hss]|Hlf].
    + exfalso. pose proof (keep_dims _ _ _ _ Hi HF1 Hs1) as HK. rewrite Es1 in HK. destruct ssh; [congruence|discriminate].
    + pose proof (leafy_get _ _ _ Hlf Hb') as Lb. split; [apply leafy_steady; auto|]. intros _. eapply leaf_case; eauto; [exact I|apply leafy_isleaf; auto].
  - rewrite <- Es1 in Hb. destruct (shape_eqb (nshape st) (sel_shape s1)); [|discriminate].
    destruct (mapM _ _) as [its|] eqn:EM; [|discriminate]. cbn [bind] in Hb. unfold mk_stack in Hb.
    destruct its as [|i0 its1] eqn:Ei; [discriminate|]. rewrite <- Ei in *. destruct (forallb _ _); [|discriminate]. injection Hb as <-.
    split; [|intros _; eapply leaf_case; eauto; exact I]. cbn [steady]. split; [|split].
    + destruct Harr as [|Hl1]; auto. right. pose proof (sel_shape_le _ _ _ _ HF1 Hs1). lia.
    + intros Ht. destruct (Hstr Ht) as [[Hi Hss]|Hlf]; [left|right; eapply leafy_get; eauto]. split; auto. congruence.
    + rewrite fold_right_and_Forall. apply mapM_ok in EM. apply Forall_forall. intros x Hx. clear - EM Hx HIt.
      induction EM as [|i y l l' Hi EM IHm]; [contradiction|]. destruct Hx as [<-|Hx]; auto.
      apply nth_gets in Hi as (it & Hin & E). destruct (HIt _ Hin) as [_ K]. apply K; auto.
Qed.


(** Mosaics. *)
Lemma getitem_norm (a : barr) : forall keys ks, wf a -> full_keys keys (ndim a) = Ok ks -> full_keys ks (ndim a) = Ok ks ->
  getitem a keys = getitem a ks.
Proof.
  induction a as [sh v d|o c ks0|a na IH|a dict lead IH|a d IH|a v IH|a axes IH|ssh items IH|tiles axis IH
    |g a axis d IH|o a d IH|o a b0 d IH1 IH2] using barr_ind2; intros keys ks Hw H1 H2; cbn [getitem]; try (unfold base_getitem; rewrite H1, H2; reflexivity).
  - unfold ndim in *. cbn [shape] in *. unfold sliced_shape. rewrite H1, H2. reflexivity.
  - destruct Hw as [Hw HL]. unfold ndim in H1, H2. cbn [shape] in H1, H2. rewrite layout_len in H1, H2 by exact HL. unfold newax_getitem. unfold ndim. rewrite H1, H2. reflexivity.
  - rewrite (IH keys ks) by auto. reflexivity.
  - rewrite (IH keys ks) by auto. reflexivity.
Qed.
Lemma nth_sel_pos arrs ks sh : Forall2 (keyok ints arrs) ks sh -> forall s axis, sel_keys ks sh = Some s -> axis < length ks ->
  is_scalar (nth axis ks KBad) = false -> 1 <= nth axis sh 0 -> 1 <= nth (axis - count_if is_scalar (firstn axis ks)) (sel_shape s) 0.
Proof.
  induction 1 as [|k n ks sh Hk H IH]; intros s axis Hs Hax Hsc Hp; cbn [length] in Hax; [lia|].
  apply sel_keys_cons in Hs as [(-> & _)|(Hn & _ & n' & sh' & d & r & E & -> & Ed & Er)]; [contradiction|]. injection E as <- <-.
  destruct (keyok_sel _ _ _ Hk) as (d' & Ed' & Hd). rewrite Ed in Ed'. injection Ed' as <-.
  destruct axis as [|axis]; cbn [nth firstn] in *.
  - destruct d; [destruct Hd as (_ & E & _); congruence| |contradiction]. cbn. apply Hd. auto.
  - specialize (IH r axis Er ltac:(lia) Hsc Hp). rewrite count_if_cons. pose proof (cnt_le axis ks). destruct d; [| |contradiction].
    + destruct Hd as (_ & -> & _). cbn [sel_shape]. replace (S axis - (1 + count_if is_scalar (firstn axis ks))) with (axis - count_if is_scalar (firstn axis ks)) by lia. auto.
    + destruct Hd as (-> & _). cbn [sel_shape]. replace (S axis - (0 + count_if is_scalar (firstn axis ks))) with (S (axis - count_if is_scalar (firstn axis ks))) by lia. auto.
Qed.
Lemma tile_keys lens idx g : incb idx = true -> Forall (fun i => 0 <= i < Z.of_nat (fold_right Nat.add 0%nat lens))%Z idx ->
  In g (group_runs (map (fun i => (i, tile_of (offsets_from 0 lens) i)) idx)) ->
  exists t, fst g = Z.of_nat t /\ t < length lens /\ tile_form true (nth t lens 0) (tile_key (py_nth 0 (offsets_from 0 lens) (fst g)) (snd g)).
Proof.
  intros Hinc Hb Hg. set (offs := offsets_from 0 lens) in *. set (groups := group_runs (map (fun i => (i, tile_of offs i)) idx)) in *.
  destruct (group_runs_ok (map (fun i => (i, tile_of offs i)) idx)) as [GC GF]. fold groups in GC, GF.
  rewrite map_map in GC. cbn [fst] in GC. rewrite map_id in GC. rewrite Forall_forall in GF, Hb.
  destruct (GF g Hg) as [Gne Gin]. destruct (snd g) as [|i0 is] eqn:Eg; [congruence|].
  assert (HT : forall i, In i (i0 :: is) -> fst g = tile_of offs i /\ In i idx).
  { intros i Hi. apply Gin in Hi. apply in_map_iff in Hi as (j & E & Hj). injection E as <- <-. auto. }
  assert (HTT : forall i, In i (i0 :: is) -> exists t, fst g = Z.of_nat t /\ t < length lens
            /\ (Z.of_nat (fold_right Nat.add 0%nat (firstn t lens)) <= i < Z.of_nat (fold_right Nat.add 0%nat (firstn t lens)) + Z.of_nat (nth t lens 0%nat))%Z).
  { intros i Hi. destruct (HT i Hi) as [E Hii]. apply Hb in Hii.
    destruct (tile_of_ok lens (Z.to_nat i) ltac:(lia)) as (t & E1 & E2 & E3).
    exists t. rewrite E. fold offs in E1. rewrite Z2Nat.id in E1 by lia. split; auto. split; auto. lia. }
  destruct (HTT i0 (or_introl eq_refl)) as (t & E1 & E2 & _). exists t. split; auto. split; [lia|].
  rewrite E1. replace (py_nth 0 offs (Z.of_nat t)) with (fold_right Nat.add 0 (firstn t lens)).
  2:{ unfold py_nth. replace (Z.of_nat t <? 0)%Z with false by lia. rewrite Nat2Z.id. unfold offs. rewrite nth_offsets by auto. auto. }
  apply tile_key_ok; [auto| |].
  - apply Forall_forall. intros i Hi. destruct (HTT i Hi) as (t' & F1 & _ & F3). assert (t' = t) by lia. subst t'; auto.
  - intros _. destruct (in_concat_split (i0 :: is) (map snd groups)) as (pp & qq & Epq).
    + rewrite <- Eg. apply in_map. auto.
    + apply (incb_infix pp _ qq). rewrite <- Epq, GC. auto.
Qed.
Lemma tile_form_ok n k : tile_form true n k -> keyok ints true k n.
Proof.
  destruct k; simpl; try contradiction.
  - intros (i & Hi & ->). right. split; [unfold steps_up; cbn; lia|]. exists [i]. split; [apply tile_key_one; auto|discriminate].
  - intros (H1 & H2 & H3). auto.
Qed.
Lemma steady_arrs (a : barr) : forall str h arrs, steady true str h a -> steady arrs str h a.
Proof.
  induction a as [sh v d|o c ks0|a na IH|a dict lead IH|a d IH|a v IH|a axes IH|ssh items IH|tiles axis IH
    |g a axis d IH|o a d IH|o a b0 d IH1 IH2] using barr_ind2; intros str h [|] Hs; auto; cbn [steady] in *; auto.
  - destruct Hs as (H1 & H2 & H3 & H4 & H5). repeat split; auto. destruct H4 as [H|[[E H]|H]]; auto. right. left. auto.
  - destruct Hs as (H1 & H2 & H3). repeat split; auto.
  - destruct Hs as (H1 & H2 & H3). repeat split; auto. rewrite fold_right_and_Forall in *. rewrite Forall_forall in *. auto.
  - destruct Hs as (H1 & H2). split; auto. destruct str; auto. destruct h; auto.
  - destruct Hs as (H1 & H2). split; auto. destruct str; auto. destruct h; auto.
  - destruct Hs as (H1 & H2). split; auto. destruct str; [|destruct h; auto]; intuition auto.
Qed.
Lemma F2_set arrs ks sh axis k n : Forall2 (keyok ints arrs) ks sh -> keyok ints true k n -> Forall2 (keyok ints true) (set_nth axis k ks) (set_nth axis n sh).
Proof.
  intros H Hk. revert axis. induction H as [|k0 n0 ks sh H0 H IH]; intros [|axis]; cbn [set_nth]; constructor; auto; try (eapply keyok_arr; eauto).
  clear - H. induction H; constructor; auto. eapply keyok_arr; eauto.
Qed.
Lemma st_mosaic tiles axis : Forall Pst tiles -> Pst (AMosaic tiles axis).
Proof.
  intros IH arrs str h ks Hw (Hpos & Hstr & Hst) HF. pose proof Hw as (Hne & Hwt & Hsame).
  rewrite fold_right_and_Forall in Hst. rewrite fold_right_and_Forall in Hwt. rewrite Forall_forall in IH, Hst, Hwt, Hsame.
  assert (Hex : exists u0 us, tiles = u0 :: us) by (destruct tiles; [congruence|eauto]). destruct Hex as (u0 & us & Etl).
  set (lens := map (fun t => nth axis (shape t) 0) tiles) in *.
  assert (Hhd : forall t, hd t tiles = u0) by (subst; auto). assert (Hu0 : In u0 tiles) by (subst; simpl; auto).
  assert (Hax0 : axis < ndim u0) by (apply (Hsame u0); auto).
  assert (Hshape : shape (AMosaic tiles axis) = set_nth axis (fold_right Nat.add 0 lens) (shape u0)).
  { unfold lens. rewrite Etl. cbn [shape map fold_right]. rewrite fold_left_add_acc. auto. }
  assert (Hshp : forall t, In t tiles -> shape t = set_nth axis (nth axis (shape t) 0) (shape u0) /\ ndim t = ndim u0).
  { intros t Ht. destruct (Hsame t Ht) as (H1 & H2 & H3). rewrite Hhd in *.
    assert (shape t = set_nth axis (nth axis (shape t) 0) (shape u0)) as E by (apply set_nth_remove; auto).
    split; auto. unfold ndim. rewrite E, set_nth_length. auto. }
  assert (HLl : length lens = length tiles) by (unfold lens; apply map_length).
  pose proof HF as HFs. rewrite Hshape in HFs. pose proof (Forall2_length _ _ _ HFs) as HLk. rewrite set_nth_length in HLk. fold (ndim u0) in HLk.
  destruct (keysok_nonew _ _ _ HF) as (HN & HE & _). assert (Edn : drop_new ks = ks) by (apply drop_new_id; auto).
  assert (Hpos' : 1 <= fold_right Nat.add 0 lens) by (rewrite Hshape, nth_set_nth_eq in Hpos by auto; auto).
  assert (Hax : axis < length ks) by lia.
  assert (HK : keyok ints arrs (nth axis ks KBad) (fold_right Nat.add 0 lens)).
  { pose proof (F2_nth _ _ _ axis KBad 0 HFs Hax) as HK. rewrite nth_set_nth_eq in HK by auto. exact HK. }
  (* one tile *)
  assert (Htile : forall t k, In t tiles -> keyok ints true k (nth axis (shape t) 0) ->
     okk t (set_nth axis k ks) /\ forall b, getitem t (set_nth axis k ks) = Ok b -> steady true false h b).
  { intros t k Ht Hk. destruct (Hshp t Ht) as [Es En].
    assert (HFt : Forall2 (keyok ints true) (set_nth axis k ks) (shape t)).
    { rewrite Es. rewrite <- (set_nth_set_nth axis _ (fold_right Nat.add 0 lens)). eapply F2_set; eauto. }
    destruct (IH t Ht true false h _ (proj1 (Hwt _ Ht)) (Hst _ Ht) HFt) as [K1 K2]. split; auto. intros b Hb. apply (K2 b Hb). }
  assert (Hnorm : forall t k, In t tiles -> is_new k = false -> is_ell k = false -> axis < length (trim_keys ks) ->
     getitem t (set_nth axis k (trim_keys ks)) = getitem t (set_nth axis k ks)).
  { intros t k Ht H1 H2 Htr. destruct (Hshp t Ht) as [_ En]. apply getitem_norm; [apply Hwt; auto| |].
    - apply full_expand. apply np_expand_trim_set; auto. congruence.
    - apply full_keys_id. assert (HN' : nonew (set_nth axis k ks) /\ existsb is_ell (set_nth axis k ks) = false).
      { unfold nonew in *. apply existsb_false_Forall in HN, HE. split; apply existsb_false_Forall; apply Forall_set_nth; auto. }
      destruct HN' as [N1 N2]. split; auto. rewrite nonew_nreal by auto. rewrite set_nth_length. congruence. }
  pose proof (trim_axis ks axis ltac:(lia)) as Htrim.
  assert (Htf : forall t k', In t tiles -> tile_form true (nth axis (shape t) 0) k' -> okk t (set_nth axis k' ks)).
  { intros t k' Ht Hk'. apply (Htile t k' Ht). apply tile_form_ok; auto. }
  assert (Hk : okk (AMosaic tiles axis) ks).
  { cbn [okk]. cbn zeta. rewrite Edn. destruct (forallb key_full_b (skipn axis ks)) eqn:Efull.
    - left. split; auto. rewrite fold_right_and_Forall. apply Forall_forall. intros t Ht.
      assert (Ek : nth axis ks KBad = KFull).
      { apply Nat.leb_le in Htrim. rewrite (trim_app ks). rewrite app_nth2 by lia. apply nth_repeat_lt. pose proof (trim_le ks). lia. }
      rewrite <- (set_nth_same axis KBad ks). rewrite Ek. apply (Htile t KFull Ht). apply keyok_full.
    - right. split; auto. fold lens.
      destruct (nth axis ks KBad) as [i|s|l|l|l|l| | |] eqn:Ek; simpl in HK; try contradiction.
      + split; [lia|]. rewrite fold_right_and_Forall. apply Forall_forall. intros t Ht j Hj. apply (Htile t (KInt j) Ht). simpl. split; [tauto|auto].
      + split; [|split].
        * destruct HK as [->|[_ HK]]; auto. exists (map Z.of_nat (seq 0 (fold_right Nat.add 0 lens))). rewrite slice_idx_full. split; auto.
          destruct (fold_right Nat.add 0 lens); [lia|discriminate].
        * destruct HK as [->|[HK _]]; [exact I|exact HK].
        * rewrite fold_right_and_Forall. apply Forall_forall. intros t Ht k' Hk'. auto.
      + destruct HK as (_ & H2 & H3 & H4). split; [destruct l; cbn [length] in H2; [lia|discriminate]|]. split; [eapply Forall_impl; [|exact H3]; cbv beta; lia|].
        rewrite fold_right_and_Forall. apply Forall_forall. intros t Ht k' Hk'. rewrite H4 in Hk'. auto. }
  split; auto. intros b Hb. pose proof Hb as Hb'. destruct (got _ _ _ _ Hw Hk HF Hb) as (s & Es & Wb & Sb & _).
  cbn [getitem] in Hb. rewrite (base_steady _ _ _ _ _ HF eq_refl) in Hb. cbn zeta in Hb. fold lens in Hb. unfold mosaic_plan in Hb. rewrite Htrim in Hb.
  (* a mosaic of steady tiles *)
  assert (Hmk : forall ts ax, (forall x, In x ts -> steady true false h x) -> mk_mosaic ts (Z.of_nat ax) = Ok b ->
     (is_scalar (nth axis ks KBad) = false /\ ax = axis - count_if is_scalar (firstn axis ks)) ->
     steady arrs str h b /\ (str = true -> cs b = csel ks (cs (AMosaic tiles axis)))).
  { intros ts ax Ht Hm [Hsc Eax]. unfold mk_mosaic in Hm. destruct ts as [|t ts]; [discriminate|]. destruct (negb _); [discriminate|]. cbn zeta in Hm.
    destruct (mapM _ _); [|discriminate]. cbn [bind] in Hm. injection Hm as <-. rewrite Nat2Z.id in *. split.
    - cbn [steady]. split; [|split].
      + pose proof (nth_sel_pos _ _ _ HF s axis Es Hax Hsc Hpos) as HP1. rewrite <- Sb in HP1. rewrite <- Eax in HP1. exact HP1.
      + intros Hstt. destruct (Hstr Hstt) as [|Hlf]; auto. right. eapply leafy_get; eauto.
      + rewrite fold_right_and_Forall. apply Forall_forall. exact Ht.
    - intros _. eapply leaf_case; eauto; exact I. }
  destruct (forallb key_full_b (skipn axis ks)) eqn:Efull.
  - cbn [bind] in Hb. apply Nat.leb_le in Htrim.
    assert (Ek : nth axis ks KBad = KFull).
    { rewrite (trim_app ks). rewrite app_nth2 by lia. apply nth_repeat_lt. pose proof (trim_le ks). lia. }
    rewrite mapM_map in Hb. destruct (mapM _ _) as [ts|] eqn:EM; [|discriminate]. cbn [bind] in Hb.
    refine (Hmk ts _ _ Hb _).
    + intros x Hx. apply mapM_ok in EM. assert (Hin : exists t, In t tiles /\ getitem t (trim_keys ks) = Ok x).
      { clear - EM Hx. induction EM as [|t y l l' Hi EM IHm]; [contradiction|]. destruct Hx as [<-|Hx]; [exists t; simpl; auto|].
        destruct (IHm Hx) as (t' & H1 & H2). exists t'. simpl. auto. }
      destruct Hin as (t & Ht & E). apply (Htile t KFull Ht (keyok_full _ _)). rewrite <- E. rewrite <- Ek, set_nth_same. symmetry.
      destruct (Hshp t Ht) as [_ En]. apply getitem_norm; [apply Hwt; auto| |].
      * apply full_expand. rewrite np_expand_trim by (auto; congruence). reflexivity.
      * apply full_keys_id. split; auto. rewrite nonew_nreal by auto. congruence.
    + rewrite Ek. split; [reflexivity|]. f_equal. rewrite (trim_app ks) at 2. rewrite firstn_app, firstn_all2 by lia. rewrite count_if_app.
      replace (count_if is_scalar (firstn _ (repeat KFull _))) with 0; [lia|]. symmetry. apply count_if_0.
      apply existsb_false_Forall. apply Forall_forall. intros x Hx.
      assert (Hr : In x (repeat KFull (length ks - length (trim_keys ks)))).
      { rewrite <- (firstn_skipn (axis - length (trim_keys ks)) (repeat KFull _)). apply in_app_iff. auto. }
      apply repeat_spec in Hr. subst; auto.
  - apply Nat.leb_gt in Htrim.
    assert (Ekt : nth axis (trim_keys ks) KBad = nth axis ks KBad) by (rewrite (trim_app ks) at 2; rewrite app_nth1 by auto; auto).
    assert (Eft : firstn axis (trim_keys ks) = firstn axis ks).
    { rewrite (trim_app ks) at 2. rewrite firstn_app. replace (axis - length (trim_keys ks)) with 0 by lia. cbn [firstn]. rewrite app_nil_r. auto. }
    rewrite Ekt, Eft in Hb.
    assert (Hmany : forall idx, is_scalar (nth axis ks KBad) = false -> incb idx = true -> Forall (fun i => 0 <= i < Z.of_nat (fold_right Nat.add 0%nat lens))%Z idx ->
      (ts <- mapM (fun p => (nth (fst p) (map (fun t => getitem t) tiles) (fun _ => Err IndexError)) (snd p))
                  (map (fun g => let '(t, is) := g in
                               (tile_num (length lens) t,
                                set_nth axis (tile_key (py_nth 0 (offsets_from 0 lens) t) is) (trim_keys ks)))
                       (group_runs (map (fun i => (i, tile_of (offsets_from 0 lens) i)) idx))) ;;
       mk_mosaic ts (Z.of_nat (axis - count_if is_scalar (firstn axis ks)))) = Ok b ->
      steady arrs str h b /\ (str = true -> cs b = csel ks (cs (AMosaic tiles axis)))).
    { intros idx Hsc Hinc Hidx Hm. destruct (mapM _ _) as [ts|] eqn:EM; [|discriminate]. cbn [bind] in Hm. refine (Hmk ts _ _ Hm _); [|split; auto].
      intros x Hx. rewrite mapM_map in EM. apply mapM_ok in EM.
      assert (Hg : exists g, In g (group_runs (map (fun i => (i, tile_of (offsets_from 0 lens) i)) idx)) /\
         nth (tile_num (length lens) (fst g)) (map (fun t => getitem t) tiles) (fun _ => Err IndexError)
             (set_nth axis (tile_key (py_nth 0 (offsets_from 0 lens) (fst g)) (snd g)) (trim_keys ks)) = Ok x).
      { clear - EM Hx. induction EM as [|g y l l' Hi EM IHm]; [contradiction|]. destruct Hx as [<-|Hx].
        - exists g. destruct g. simpl in *. auto.
        - destruct (IHm Hx) as (g' & H1 & H2). exists g'. simpl. auto. }
      destruct Hg as (g & Hg & Eg). destruct (tile_keys lens idx g Hinc Hidx Hg) as (t & Et & Ht & HTF). rewrite Et in Eg at 1.
      assert (Hnum : tile_num (length lens) (Z.of_nat t) = t) by (unfold tile_num; replace (Z.of_nat t <? 0)%Z with false by lia; apply Nat2Z.id).
      rewrite Hnum in Eg. rewrite (nth_map _ _ _ _ u0) in Eg by lia. assert (Hin : In (nth t tiles u0) tiles) by (apply nth_In; lia).
      assert (Hlt : nth t lens 0 = nth axis (shape (nth t tiles u0)) 0) by (unfold lens; rewrite (nth_map _ _ _ _ u0) by lia; auto).
      rewrite Hlt in HTF. rewrite Hnorm in Eg; auto.
      - apply (Htile _ _ Hin (tile_form_ok _ _ HTF)). exact Eg.
      - destruct (tile_key (py_nth 0 (offsets_from 0 lens) (fst g)) (snd g)); try contradiction; auto.
      - destruct (tile_key (py_nth 0 (offsets_from 0 lens) (fst g)) (snd g)); try contradiction; auto. }
    destruct (nth axis ks KBad) as [i|sl|l|l|l|l| | |] eqn:Ek; simpl in HK; try contradiction.
    + cbn [bind] in Hb. destruct HK as [Hints Hi].
      destruct (tile_of_ok lens (Z.to_nat i) ltac:(lia)) as (t & E1 & E2 & E3). rewrite Z2Nat.id in E1 by lia. rewrite E1 in Hb.
      assert (Hnum : tile_num (length lens) (Z.of_nat t) = t) by (unfold tile_num; replace (Z.of_nat t <? 0)%Z with false by lia; apply Nat2Z.id).
      rewrite Hnum in Hb.
      assert (Hoff : py_nth 0 (offsets_from 0 lens) (Z.of_nat t) = fold_right Nat.add 0 (firstn t lens)).
      { unfold py_nth. replace (Z.of_nat t <? 0)%Z with false by lia. rewrite Nat2Z.id. rewrite nth_offsets by auto. auto. }
      rewrite Hoff in Hb. rewrite (nth_map _ _ _ _ u0) in Hb by lia. assert (Hin : In (nth t tiles u0) tiles) by (apply nth_In; lia).
      assert (Hlt : nth t lens 0 = nth axis (shape (nth t tiles u0)) 0) by (unfold lens; rewrite (nth_map _ _ _ _ u0) by lia; auto).
      rewrite Hnorm in Hb by auto.
      assert (K2 : steady true false h b).
      { refine (proj2 (Htile _ _ Hin _) b Hb). simpl. split; auto. lia. }
      destruct str; [|split; [apply steady_arrs; exact K2|discriminate]].
      destruct (Hstr eq_refl) as [|Hlf]; [congruence|]. pose proof (leafy_get _ _ _ Hlf Hb') as Lb.
      split; [apply leafy_steady; auto; apply steady_arrs; auto|]. intros _. eapply leaf_case; eauto; [exact I|apply leafy_isleaf; auto].
    + destruct (slice_idx sl (fold_right Nat.add 0 lens)) as [l|] eqn:El; [|discriminate]. cbn [bind] in Hb.
      assert (Hst' : match s_step sl with Some st => (0 < st)%Z | None => True end) by (destruct HK as [->|[HK _]]; [exact I|exact HK]).
      replace (match s_step sl with Some st => (st <? 0)%Z | None => false end) with false in Hb by (destruct (s_step sl); auto; lia).
      apply (Hmany l); auto; [eapply slice_idx_inc; eauto|eapply slice_idx_bounds; eauto].
    + cbn [bind] in Hb. destruct HK as (_ & H2 & H3 & H4). apply (Hmany l); auto.
Qed.

(** Indexing a steady array gives a steady array. *)
Theorem steady_get (a : barr) : Pst a.
Proof.
  induction a as [sh v d|o c ks0|a na IH|a dict lead IH|a d IH|a v IH|a axes IH|ssh items IH|tiles axis IH
    |g a axis d IH|o a d IH|o a b0 d IH1 IH2] using barr_ind2.
  - apply st_const.
  - apply st_adapt.
  - apply st_newax; auto.
  - apply st_bcast; auto.
  - apply st_asty; auto.
  - apply st_maskv; auto.
  - apply st_trans; auto.
  - apply st_stack; auto.
  - apply st_mosaic; auto.
  - apply st_agg; auto.
  - apply st_el1; auto.
  - apply st_el2; auto.
Qed.

End Steady.
