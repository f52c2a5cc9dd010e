(** AdapterClaims: repeated indexing of adapters (C03), without newaxis. *)
From Verif Require Import Base PySlice Keys NDArray Arrays Chunks Handlers Realise Spec Supported Lib SelLemmas KeyLemmas NewAxLemmas GetBase GetSimple GetBcast GetTrans GetStack GetMosaic GetItem ChunkLemmas AssignLemmas HandlerLemmas Realisable NumpyApply StreamLemmas RealOK RealiseOK IndexClaims.
From Coq Require Import ZifyBool ZifyNat.

Definition is_mask (k : key) : bool := match k with KMask _ => true | _ => false end.
(** A key tuple without boolean masks and newaxis. *)
Definition posn_keys (ks : list key) : Prop := existsb (fun k => is_mask k || is_new k) ks = false.

Definition nomask (ks : list key) : Prop := Forall (fun k => match k with KMask _ => False | _ => True end) ks.
Definition settled_key (k : key) : Prop := match k with KInt _ | KTuple _ => True | _ => False end.

Lemma posn_expand keys n ks : np_expand keys n = Ok ks -> posn_keys keys -> nomask ks /\ nonew ks.
Proof.
  unfold np_expand, posn_keys, nonew, nomask. intros E H.
  destruct (1 <? count_if is_ell keys); [discriminate|]. destruct (n <? n_real keys); [discriminate|].
  injection E as E.
  assert (HI : forall k, In k ks -> k = KFull \/ In k keys).
  { intros k Hk. rewrite <- E in Hk. assert (HF : forall q, In k (repeat KFull q) -> k = KFull) by (intros q Hq; apply repeat_spec in Hq; auto).
    destruct (existsb is_ell keys).
    - revert Hk. generalize (n - n_real keys). clear -HF. intros q Hk. induction keys as [|x keys IH]; simpl in Hk; [destruct Hk|]. destruct (is_ell x).
      + apply in_app_iff in Hk as [Hk|Hk]; eauto. right. right. auto.
      + destruct Hk as [->|Hk]; [right; left; auto|]. apply IH in Hk as [Hk|Hk]; auto. right; right; auto.
    - apply in_app_iff in Hk as [Hk|Hk]; eauto. }
  apply existsb_false_Forall in H. rewrite Forall_forall in H. split.
  - apply Forall_forall. intros k Hk. destruct (HI k Hk) as [->|Hk']; simpl; auto. apply H in Hk'. destruct k; simpl in *; auto. discriminate.
  - apply existsb_false_Forall, Forall_forall. intros k Hk. destruct (HI k Hk) as [->|Hk']; simpl; auto.
    apply H in Hk'. apply orb_false_iff in Hk'. tauto.
Qed.

Lemma remap_key_settled ind k k' : remap_key ind k = Ok k' -> settled_key k'.
Proof.
  unfold remap_key. destruct k; intros H; try discriminate; simpl in H.
  - destruct (_ || _); [discriminate|]. injection H as <-. simpl; auto.
  - destruct (slice_idx s _); [|discriminate]. injection H as <-. simpl; auto.
  - destruct (existsb _ l); [discriminate|]. injection H as <-. simpl; auto.
  - destruct (existsb _ l); [discriminate|]. injection H as <-. simpl; auto.
  - destruct (existsb _ l); [discriminate|]. injection H as <-. simpl; auto.
  - destruct (_ <? _); [discriminate|]. destruct (_ =? _); [|discriminate]. injection H as <-. simpl; auto.
Qed.
Lemma settled_nomask k : settled_key k -> match k with KMask _ => False | _ => True end.
Proof. destruct k; simpl; auto. Qed.

Lemma remap_nomask src : forall sh new ks', nomask src -> nomask new -> remap_keys sh src new = Ok ks' -> nomask ks'.
Proof.
  unfold nomask. induction src as [|s src IH]; intros sh new ks' HS HN H.
  - simpl in H. apply mapM_ok in H. rewrite Forall_forall in *. intros k Hk.
    destruct (Forall2_In_r _ _ _ _ H Hk) as ((k0 & n) & Hin & E). apply in_combine_l in Hin. apply HN in Hin. simpl in E.
    destruct k0; simpl in E; try discriminate; try (destruct (existsb _ _) in E; [discriminate|]); try (destruct (_ || _)%bool in E; [discriminate|]);
      try contradiction; injection E as <-; exact I.
  - simpl in H. destruct new as [|k new]; [injection H as <-; auto|]. destruct sh as [|n sh]; [discriminate|].
    inversion HS; subst. inversion HN; subst.
    destruct s; try discriminate; try contradiction.
    + destruct (remap_keys sh src (k :: new)) as [r|] eqn:E; [|discriminate]. injection H as <-. constructor; auto. eapply (IH sh (k :: new)); eauto.
    + destruct (slice_idx s n) as [ind|]; [|discriminate]. simpl in H. destruct (remap_key ind k) as [k'|] eqn:Ek; [|discriminate].
      simpl in H. destruct (remap_keys sh src new) as [r|] eqn:E; [|discriminate]. injection H as <-.
      constructor; [apply settled_nomask; eapply remap_key_settled; eauto|eapply IH; eauto].
    + destruct (remap_key l k) as [k'|] eqn:Ek; [|discriminate].
      simpl in H. destruct (remap_keys sh src new) as [r|] eqn:E; [|discriminate]. injection H as <-.
      constructor; [apply settled_nomask; eapply remap_key_settled; eauto|eapply IH; eauto].
    + destruct (remap_key l k) as [k'|] eqn:Ek; [|discriminate].
      simpl in H. destruct (remap_keys sh src new) as [r|] eqn:E; [|discriminate]. injection H as <-.
      constructor; [apply settled_nomask; eapply remap_key_settled; eauto|eapply IH; eauto].
    + destruct (remap_key l k) as [k'|] eqn:Ek; [|discriminate].
      simpl in H. destruct (remap_keys sh src new) as [r|] eqn:E; [|discriminate]. injection H as <-.
      constructor; [apply settled_nomask; eapply remap_key_settled; eauto|eapply IH; eauto].
Qed.

(** Lengths: one stored key per dimension after the first indexing, and only
    integers and tuples after the second. *)
Lemma remap_length src : forall sh new ks', length src <= length sh ->
  length new + count_if is_scalar src = length sh -> nomask src -> Forall stored_key src ->
  remap_keys sh src new = Ok ks' -> length ks' = length sh.
Proof.
  induction src as [|s src IH]; intros sh new ks' HL HN HM HS H.
  - simpl in H. apply mapM_length in H. rewrite H, combine_length. rewrite count_if_nil in HN. lia.
  - simpl in H. rewrite count_if_cons in HN. inversion HM; subst. inversion HS; subst. destruct sh as [|n sh]; [simpl in HL; lia|].
    destruct new as [|k new].
    + simpl in HN, HL. pose proof (count_if_le is_scalar src). injection H as <-. simpl. destruct (is_scalar s); lia.
    + destruct s; try contradiction; simpl in HN, HL.
      * destruct (remap_keys sh src (k :: new)) as [r|] eqn:E; [|discriminate]. injection H as <-. simpl. f_equal. eapply IH; eauto; simpl; lia.
      * destruct (slice_idx s n) as [ind|]; [|discriminate]. simpl in H. destruct (remap_key ind k) as [k'|] eqn:Ek; [|discriminate].
        simpl in H. destruct (remap_keys sh src new) as [r|] eqn:E; [|discriminate]. injection H as <-. simpl. f_equal. eapply IH; eauto; lia.
      * destruct (remap_key l k) as [k'|] eqn:Ek; [|discriminate].
        simpl in H. destruct (remap_keys sh src new) as [r|] eqn:E; [|discriminate]. injection H as <-. simpl. f_equal. eapply IH; eauto; lia.
Qed.

Lemma remap_settled src : forall sh new ks', length src = length sh ->
  length new + count_if is_scalar src = length sh -> nomask src -> Forall stored_key src ->
  remap_keys sh src new = Ok ks' -> Forall settled_key ks'.
Proof.
  induction src as [|s src IH]; intros sh new ks' HL HN HM HS H.
  - destruct sh; [|simpl in HL; lia]. simpl in H. destruct new; simpl in H; injection H as <-; auto.
  - simpl in H. rewrite count_if_cons in HN. inversion HM; subst. inversion HS; subst. destruct sh as [|n sh]; [simpl in HL; lia|].
    destruct new as [|k new].
    + simpl in HN, HL. injection H as <-.
      assert (Hall : forall l : list key, count_if is_scalar l = length l -> Forall settled_key l).
      { clear. induction l as [|x l IH]; intros H; auto. rewrite count_if_cons in H. pose proof (count_if_le is_scalar l).
        destruct (is_scalar x) eqn:E; simpl in H; [|lia]. constructor; [destruct x; try discriminate; simpl; auto|apply IH; lia]. }
      apply Hall. rewrite count_if_cons. simpl. pose proof (count_if_le is_scalar src). destruct (is_scalar s); lia.
    + destruct s; try contradiction; simpl in HN, HL.
      * destruct (remap_keys sh src (k :: new)) as [r|] eqn:E; [|discriminate]. injection H as <-. constructor; [simpl; auto|]. eapply IH; eauto; simpl; lia.
      * destruct (slice_idx s n) as [ind|]; [|discriminate]. simpl in H. destruct (remap_key ind k) as [k'|] eqn:Ek; [|discriminate].
        simpl in H. destruct (remap_keys sh src new) as [r|] eqn:E; [|discriminate]. injection H as <-.
        constructor; [eapply remap_key_settled; eauto|]. eapply IH; eauto; lia.
      * destruct (remap_key l k) as [k'|] eqn:Ek; [|discriminate].
        simpl in H. destruct (remap_keys sh src new) as [r|] eqn:E; [|discriminate]. injection H as <-.
        constructor; [eapply remap_key_settled; eauto|]. eapply IH; eauto; lia.
Qed.

Lemma settled_numpy_ok ks : Forall settled_key ks -> (forall l, In (KTuple l) ks -> l <> []) -> numpy_ok ks.
Proof.
  intros HS HT. unfold numpy_ok. assert (HP : forall ks, Forall settled_key ks -> one_block ks = true).
  { intros l Hl. unfold one_block.
    assert (E1 : drop_while (fun k => negb (is_point k)) l = l) by (destruct l as [|x l]; auto; inversion Hl; subst; destruct x; try contradiction; auto).
    rewrite E1. assert (E2 : drop_while is_point l = []) by (clear -Hl; induction Hl as [|x l Hx Hl IH]; auto; destruct x; try contradiction; auto).
    rewrite E2. auto. }
  assert (HC : count_if is_seq ks = count_if is_tup ks).
  { clear -HS. induction HS as [|x l Hx Hl IH]; auto. rewrite !count_if_cons, IH. destruct x; try contradiction; auto. }
  destruct (Nat.leb_spec 2 (count_if is_tup ks)).
  - split; auto. left. clear -HS. apply count_if_0. induction HS as [|x l Hx Hl IH]; simpl; auto.
    destruct x; try contradiction; simpl; auto.
  - unfold one_seq. rewrite HC. destruct (count_if is_tup ks) as [|[|q]] eqn:E; [left; auto|right; auto|lia].
Qed.

Section Adapters.
Context {V : Type} (O : numops V).
Notation cell := (option V).
Notation barr := (@barr V).

Definition okshape (ks : list key) (sh : list nat) : list nat :=
  match oselect ks sh with Some s => sel_shape s | None => [] end.

Lemma count_scalar_sel ks : forall sh s, nonew ks -> sel_keys ks sh = Some s -> length (sel_shape s) + count_if is_scalar ks = length sh.
Proof.
  induction ks as [|k ks IH]; intros sh s HN H.
  - destruct sh; simpl in H; [|discriminate]. injection H as <-. auto.
  - apply nonew_cons in HN as [H1 H2]. apply sel_keys_cons in H as [[-> _]|(_ & _ & n & sh' & d & r & -> & -> & Hd & Hr)]; [discriminate|].
    rewrite count_if_cons. specialize (IH _ _ H2 Hr). simpl length. rewrite <- IH. clear IH.
    destruct k; simpl in Hd; try discriminate; simpl;
      repeat match goal with H : match ?x with _ => _ end = Some _ |- _ => destruct x; try discriminate end;
      injection Hd as <-; simpl; lia.
Qed.

Lemma adapter_step o c ks keys : wf (AAdapt o c ks) -> nomask ks -> posn_keys keys -> valid_keys keys (shape (AAdapt o c ks)) ->
  exists ks', getitem (AAdapt o c ks) keys = Ok (AAdapt o c ks') /\ nomask ks' /\ wf (AAdapt o c ks')
    /\ (forall m, nd_eq (den O m (AAdapt o c ks')) (oindex (den O m (AAdapt o c ks)) keys))
    /\ length ks' = length (c_shape c)
    /\ (length ks = length (c_shape c) -> Forall settled_key ks').
Proof.
  intros Hw HM HP HV.
  assert (HS : supported (AAdapt o c ks) keys) by (intros ? ?; simpl; auto).
  destruct (getitem_ok O _ _ Hw HV HS) as (b & Eb & Wb & Db & _).
  pose proof Eb as Eb'. cbn [getitem] in Eb'. unfold base_getitem in Eb'.
  unfold valid_keys in HV. destruct (oselect keys (shape (AAdapt o c ks))) as [s|] eqn:Es; [|congruence].
  destruct (oselect_expand _ _ _ Es) as (fk & E1 & E2 & E3 & E4). unfold ndim in Eb'. rewrite E2 in Eb'. cbn [bind] in Eb'.
  destruct (posn_expand _ _ _ E1 HP) as [M1 M2]. rewrite M2 in Eb'.
  destruct (remap_keys (c_shape c) ks fk) as [ks'|] eqn:Er; [|discriminate]. cbn [bind] in Eb'.
  unfold mk_adapter in Eb'. destruct (length (c_shape c) <? length ks'); [discriminate|].
  destruct (mapM _ _); [|discriminate]. cbn [bind] in Eb'. injection Eb' as <-.
  exists ks'. split; auto. split; [apply (remap_nomask ks (c_shape c) fk); auto|]. split; auto. split; auto.
  destruct Hw as [W1 W2]. unfold valid_keys in W2. destruct (oselect ks (c_shape c)) as [s0|] eqn:E0; [|congruence].
  destruct (stored_valid _ _ _ W1 E0) as (L1 & L2 & L3).
  pose proof (count_scalar_sel _ _ _ L3 L2) as C. rewrite count_if_app in C.
  assert (C0 : count_if is_scalar (repeat KFull (length (c_shape c) - length ks)) = 0)
    by (apply count_if_0; clear; induction (length (c_shape c) - length ks); auto).
  rewrite C0 in C.
  assert (Hlen : length fk = length (shape (AAdapt o c ks))).
  { destruct E3 as [_ E3]. rewrite <- E3. unfold n_real. clear -M2 E1. pose proof (np_expand_full _ _ _ E1) as [F _]. clear E1.
    unfold nonew in M2. induction fk as [|k fk IH]; auto. simpl in M2, F. apply orb_false_iff in M2 as [A B]. apply orb_false_iff in F as [C D].
    rewrite count_if_cons, A, C. simpl. f_equal. apply IH; auto. }
  assert (Hsh : shape (AAdapt o c ks) = sel_shape s0).
  { cbn [shape]. rewrite (sliced_shape_ok _ _ _ E0) by (apply sel_key_stored_list; auto). auto. }
  rewrite Hsh in Hlen. split.
  - apply (remap_length ks (c_shape c) fk); auto. lia.
  - intros HL. apply (remap_settled ks (c_shape c) fk); auto. lia.
Qed.

Lemma valid_seq_shape {W X} kss : forall (x : nd W) (y : nd X), nshape x = nshape y -> valid_seq x kss -> valid_seq y kss.
Proof.
  induction kss as [|ks kss IH]; intros x y E H; simpl in *; auto. destruct H as [H1 H2]. rewrite E in H1. split; auto.
  eapply IH; [|eauto]. unfold oindex. rewrite E. destruct (oselect ks (nshape y)); auto.
Qed.
Lemma oindexes_map {W X} (f : W -> X) kss : forall a : nd W, valid_seq a kss -> nd_eq (oindexes (nd_map f a) kss) (nd_map f (oindexes a kss)).
Proof.
  induction kss as [|ks kss IH]; intros a HV; simpl in *; [apply nd_eq_refl|]. destruct HV as [V1 V2].
  unfold valid_keys in V1. unfold oindexes. simpl. fold (oindexes (oindex (nd_map f a) ks) kss). fold (oindexes (oindex a ks) kss).
  eapply nd_eq_trans; [|apply IH; auto]. refine (proj2 (oindexes_eq kss _ _ _ _)).
  - unfold oindex. cbn [nd_map nshape]. destruct (oselect ks (nshape a)) as [s|] eqn:E; [|congruence]. apply nd_eq_sym, nd_map_sel.
  - eapply valid_seq_shape; [|exact V2]. unfold oindex. cbn [nd_map nshape]. destruct (oselect ks (nshape a)); auto.
Qed.

Lemma adapter_seq o c kss : forall ks, wf (AAdapt o c ks) -> nomask ks -> Forall posn_keys kss ->
  valid_seq (den O false (AAdapt o c ks)) kss ->
  exists ks', getitems (AAdapt o c ks) kss = Ok (AAdapt o c ks') /\ nomask ks' /\ wf (AAdapt o c ks')
    /\ (forall m, nd_eq (den O m (AAdapt o c ks')) (oindexes (den O m (AAdapt o c ks)) kss))
    /\ (1 <= length kss -> length ks' = length (c_shape c))
    /\ (1 <= length kss -> length ks = length (c_shape c) \/ 2 <= length kss -> Forall settled_key ks').
Proof.
  induction kss as [|k kss IH]; intros ks Hw HM HP HV.
  - exists ks. simpl. split; auto. split; auto. split; auto. split; [intros; apply nd_eq_refl|]. split; intros; lia.
  - inversion HP; subst. destruct HV as [V1 V2]. rewrite den_shape in V1 by auto.
    destruct (adapter_step o c ks k Hw HM H1 V1) as (k1 & E1 & M1 & W1 & D1 & L1 & S1).
    assert (V3 : valid_seq (den O false (AAdapt o c k1)) kss).
    { eapply valid_seq_shape; [|exact V2]. symmetry. exact (proj1 (D1 false)). }
    destruct (IH k1 W1 M1 H2 V3) as (ks' & E2 & M2 & W2 & D2 & L2 & S2).
    exists ks'. cbn [getitems]. rewrite E1. cbn [bind]. split; auto. split; auto. split; auto. split; [|split].
    + intros m. eapply nd_eq_trans; [apply D2|]. refine (proj2 (oindexes_eq kss _ _ (D1 m) _)).
      eapply valid_seq_shape; [|exact V3]. rewrite !den_shape; auto.
    + intros _. destruct kss as [|k2 kss]; [|apply L2; simpl; lia]. simpl in E2. injection E2 as <-. auto.
    + intros _ H. destruct kss as [|k2 kss].
      * simpl in E2. injection E2 as <-. apply S1. destruct H; auto. simpl in H. lia.
      * apply S2; auto. simpl; lia.
Qed.

Lemma tuples_nonempty o c ks : wf (@AAdapt V o c ks) -> Forall (fun n => 1 <= n) (shape (AAdapt o c ks)) ->
  forall l, In (KTuple l) ks -> l <> [].
Proof.
  intros [W1 W2] HS. unfold valid_keys in W2. destruct (oselect ks (c_shape c)) as [s0|] eqn:E0; [|congruence].
  cbn [shape] in HS. rewrite (sliced_shape_ok _ _ _ E0) in HS by (apply sel_key_stored_list; auto). cbn [get_ok] in HS.
  destruct (stored_valid _ _ _ W1 E0) as (L1 & L2 & L3). revert L2 L3 HS.
  generalize (repeat KFull (length (c_shape c) - length ks)) (c_shape c) s0. clear. induction ks as [|k ks IH]; intros tl sh s H HN HS l Hin; [destruct Hin|].
  cbn [app] in H, HN. apply nonew_cons in HN as [N1 N2].
  apply sel_keys_cons in H as [[-> _]|(_ & _ & n & sh' & d & r & -> & -> & Hd & Hr)]; [discriminate|].
  destruct Hin as [->|Hin].
  - simpl in Hd. destruct (norm_ints l n) as [q|] eqn:E; [|discriminate]. injection Hd as <-. inversion HS; subst.
    apply norm_ints_length in E. destruct l; simpl in *; [lia|discriminate].
  - apply (IH tl sh' r Hr N2); auto. destruct d; simpl in HS; auto; inversion HS; auto.
Qed.

Variable maxc : nat.
Variable garbage : list nat -> cell.

Definition source (c : @concrete V) : nd cell := mkND (c_shape c) (c_cell c).
Definition src_fill (c : @concrete V) : V := match c_fill c with Some v => v | None => vdfill O (c_dtype c) end.

Lemma adapter_indexing fuel m o c kss :
  Forall posn_keys kss -> valid_seq (source c) kss ->
  (o = true \/ kss = [] \/ (exists k1, kss = [k1] /\ forall ks', getitem (AAdapt o c []) k1 = Ok (AAdapt o c ks') -> numpy_ok ks')
   \/ (2 <= length kss /\ Forall (fun n => 1 <= n) (nshape (oindexes (source c) kss)))) ->
  (m = true \/ nshape (oindexes (source c) kss) <> [] \/ forall i, c_cell c i <> None) ->
  exists b db, getitems (AAdapt o c []) kss = Ok b /\ realise O maxc garbage (S fuel) m b = Ok db
    /\ nd_eq db (nd_map (fill_cell m (src_fill c)) (oindexes (source c) kss)).
Proof.
  intros HP HV Hnp H0.
  assert (Hw : wf (@AAdapt V o c [])).
  { split; auto. unfold valid_keys, oselect, np_expand. cbn [count_if filter length n_real]. cbn. rewrite Nat.sub_0_r, sel_keys_full. discriminate. }
  assert (Hd : forall m, nd_eq (den O m (AAdapt o c [])) (nd_map (fill_cell m (src_fill c)) (source c))).
  { intros m'. cbn [den]. apply nd_map_eq. unfold oindex, oselect, np_expand. cbn. rewrite Nat.sub_0_r, sel_keys_full. apply nd_sel_full. }
  assert (HV' : valid_seq (den O false (AAdapt o c [])) kss).
  { eapply valid_seq_shape; [|exact HV]. symmetry. exact (proj1 (Hd false)). }
  destruct (adapter_seq o c kss [] Hw (Forall_nil _) HP HV') as (ks' & E & M & W & D & L & S).
  assert (HD : forall m, nd_eq (den O m (AAdapt o c ks')) (nd_map (fill_cell m (src_fill c)) (oindexes (source c) kss))).
  { intros m'. eapply nd_eq_trans; [apply D|].
    assert (HVm : valid_seq (den O m' (AAdapt o c [])) kss).
    { eapply valid_seq_shape; [|exact HV]. symmetry. exact (proj1 (Hd m')). }
    eapply nd_eq_trans; [apply (oindexes_eq kss _ _ (Hd m') HVm)|]. apply oindexes_map. auto. }
  assert (Hsh : shape (AAdapt o c ks') = nshape (oindexes (source c) kss)).
  { rewrite <- (den_shape O false) by auto. exact (proj1 (HD false)). }
  destruct (adapter_real O m o c ks') as (db & Edb & Ddb).
  - apply W.
  - apply W.
  - destruct Hnp as [Hnp|[Hnp|[(k1 & -> & Hnp)|[Hnp1 Hnp2]]]]; auto; right.
    + subst kss. simpl in E. injection E as <-. red. simpl. left. auto.
    + apply Hnp. cbn [getitems] in E. destruct (getitem (AAdapt o c []) k1) as [b|] eqn:Eb; [|discriminate]. cbn [bind] in E. congruence.
    + apply settled_numpy_ok; [apply S; auto; lia|]. eapply tuples_nonempty; eauto. rewrite Hsh. auto.
  - rewrite Hsh. auto.
  - exists (AAdapt o c ks'), db. split; auto. split; [exact Edb|]. eapply nd_eq_trans; [exact Ddb|apply HD].
Qed.
End Adapters.
