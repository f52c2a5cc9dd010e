(** GetStack: NumPy indexing with at most one index list is orthogonal; indexing
    an ArrayStack. *)
From Verif Require Import Base PySlice Keys NDArray Arrays Spec Supported Lib SelLemmas KeyLemmas NewAxLemmas GetBase GetSimple GetBcast GetTrans.

(** ** [np_index] on keys with at most one index list *)

Definition tod (i : isel) : dsel :=
  match i with IPt p => DPt p | IAdv l | ISl l => DLs l | INew => DNew end.
Definition is_seql (k : key) : bool :=
  match k with KTuple _ | KArr _ | KList _ | KMask _ => true | _ => false end.
(** what kind of index item a key becomes *)
Definition kk (k : key) (i : isel) : Prop :=
  is_adv i = is_seql k /\ is_pt i = is_scalar k.

Lemma np_isel_sel k n d : sel_key k n = Some d -> exists i, np_isel k n = Ok i /\ tod i = d /\ kk k i.
Proof.
  unfold kk. destruct k; simpl; intros H; try discriminate.
  - destruct (norm_int i n); [|discriminate]. injection H as <-. eexists; repeat split; reflexivity.
  - destruct (slice_idx s n); [|discriminate]. injection H as <-. simpl. eexists; repeat split; reflexivity.
  - destruct (norm_ints l n); [|discriminate]. injection H as <-. eexists; repeat split; reflexivity.
  - destruct (norm_ints l n); [|discriminate]. injection H as <-. eexists; repeat split; reflexivity.
  - destruct (norm_ints l n); [|discriminate]. injection H as <-. eexists; repeat split; reflexivity.
  - destruct (length l =? n); [|discriminate]. injection H as <-. eexists; repeat split; reflexivity.
Qed.

Lemma np_isels_cons k ks n sh : is_new k = false ->
  np_isels (k :: ks) (n :: sh) = (s <- np_isel k n ;; r <- np_isels ks sh ;; Ok (s :: r)).
Proof. destruct k; simpl; intros; try discriminate; auto. Qed.

Lemma np_isels_sel ks sh s : sel_keys ks sh = Some s ->
  exists is, np_isels ks sh = Ok is /\ map tod is = s /\ Forall2 kk ks is.
Proof.
  revert sh s; induction ks as [|k ks IH]; intros sh s H.
  - destruct sh; simpl in H; [|discriminate]. injection H as <-. exists []. repeat split; auto.
  - apply sel_keys_cons in H as [(-> & r & -> & H)|(Hn & _ & n & sh' & d & r & -> & -> & Hd & Hr)].
    + destruct (IH _ _ H) as (is & E & M & K). exists (INew :: is). simpl. rewrite E. simpl.
      repeat split; auto. f_equal; auto. constructor; auto. split; auto.
    + destruct (IH _ _ Hr) as (is & E & M & K). destruct (np_isel_sel _ _ _ Hd) as (i & E1 & M1 & K1).
      exists (i :: is). rewrite np_isels_cons by auto. rewrite E1. simpl. rewrite E. simpl.
      repeat split; auto. f_equal; auto.
Qed.

Lemma basic_sel is : existsb is_adv is = false ->
  basic_shape is = sel_shape (map tod is) /\ (forall j o, isel_map is j o = sel_map (map tod is) o).
Proof.
  induction is as [|i is IH]; simpl; intros H; auto.
  apply orb_false_iff in H as [H1 H2]. destruct (IH H2) as [E1 E2].
  destruct i; simpl in *; try discriminate; split; auto; intros.
  - f_equal; auto.
  - f_equal; auto.
  - destruct o; auto. f_equal; auto.
  - f_equal; auto.
  - destruct o; auto.
Qed.

Lemma adv_len_none is : existsb is_adv is = false -> adv_len is = Ok 1.
Proof. induction is as [|[] is IH]; simpl; intros; auto. discriminate. Qed.

Lemma adv_len_one is : count_if is_adv is = 1 -> exists l, adv_len is = Ok (length l) /\ In (IAdv l) is.
Proof.
  induction is as [|i is IH]; [discriminate|]. rewrite count_if_cons. intros H.
  destruct i; simpl in *; try (destruct (IH H) as (q & E & Hq); exists q; auto; fail).
  rewrite adv_len_none by (apply count_if_0; lia). simpl. exists l. auto.
Qed.

(** after the first point: points, one of them a list, then no more points *)
Lemma adv_block is : count_if is_adv is = 1 ->
  existsb (fun x => is_adv x || is_pt x) (drop_adv is) = false ->
  exists n, adv_len is = Ok n /\ sel_shape (map tod is) = n :: basic_shape is
    /\ forall j o, j < n -> isel_map is j o = sel_map (map tod is) (j :: o).
Proof.
  induction is as [|i is IH]; [discriminate|]. rewrite count_if_cons. intros H HC.
  destruct i; simpl in *.
  - destruct (IH H HC) as (n & E1 & E2 & E3). exists n. split; auto. split; auto.
    intros j o Hj. f_equal. auto.
  - assert (existsb is_adv is = false) by (apply count_if_0; lia).
    rewrite adv_len_none by auto. simpl. exists (length l). split; auto. destruct (basic_sel is H0) as [B1 B2].
    split; [f_equal; auto|]. intros j o Hj. f_equal; auto. destruct (Nat.eqb_spec (length l) 1); auto.
    replace j with 0 by lia. auto.
  - exfalso. apply existsb_false_Forall in HC.
    assert (existsb is_adv is = false). { apply existsb_false_Forall. eapply Forall_impl; [|apply HC].
      simpl; intros a Ha. apply orb_false_iff in Ha. tauto. }
    apply count_if_0 in H0. lia.
  - exfalso. apply existsb_false_Forall in HC.
    assert (existsb is_adv is = false). { apply existsb_false_Forall. eapply Forall_impl; [|apply HC].
      simpl; intros a Ha. apply orb_false_iff in Ha. tauto. }
    apply count_if_0 in H0. lia.
Qed.

Lemma adv_contig_sel is : count_if is_adv is = 1 -> adv_contig is = true ->
  exists n, adv_len is = Ok n /\ sel_shape (map tod is) = insert_at (lead_basic is) n (basic_shape is)
    /\ forall o, inb (sel_shape (map tod is)) o ->
         isel_map is (nth (lead_basic is) o 0) (remove_at (lead_basic is) o) = sel_map (map tod is) o.
Proof.
  unfold adv_contig. induction is as [|i is IH]; [discriminate|]. intros H HC.
  assert (HB : match i with ISl _ | INew => True | _ => False end \/
               (drop_basic (i :: is) = i :: is /\ lead_basic (i :: is) = 0)) by (destruct i; auto).
  destruct HB as [HB|[HB1 HB2]].
  - rewrite count_if_cons in H. destruct i; try contradiction; simpl in H, HC.
    + destruct (IH H HC) as (n & E1 & E2 & E3). exists n. simpl. rewrite insert_at_S. split; auto. split; [f_equal; auto|].
      intros o Ho. apply inb_cons_inv in Ho as (j & o' & -> & Hj & Ho). rewrite remove_at_S. simpl. f_equal; auto.
    + destruct (IH H HC) as (n & E1 & E2 & E3). exists n. simpl. rewrite insert_at_S. split; auto. split; [f_equal; auto|].
      intros o Ho. apply inb_cons_inv in Ho as (j & o' & -> & Hj & Ho). rewrite remove_at_S. simpl. auto.
  - rewrite HB1 in HC. rewrite HB2. apply negb_true_iff in HC.
    destruct (adv_block _ H HC) as (n & E1 & E2 & E3). exists n. split; auto. rewrite insert_at_0. split; auto.
    rewrite E2. intros o Ho. apply inb_cons_inv in Ho as (j & o' & -> & Hj & Ho). rewrite remove_at_0. simpl nth.
    apply E3; auto.
Qed.

Definition is_pointl (k : key) : bool := is_scalar k || is_seql k.
(** [one_block] counting lists as well *)
Definition one_blockl (ks : list key) : bool :=
  negb (existsb is_pointl (drop_while is_pointl (drop_while (fun k => negb (is_pointl k)) ks))).

Lemma one_block_contig ks is : Forall2 kk ks is -> one_blockl ks = adv_contig is.
Proof.
  intros HF. unfold one_blockl, adv_contig. f_equal.
  assert (H1 : Forall2 kk (drop_while (fun k => negb (is_pointl k)) ks) (drop_basic is)).
  { induction HF as [|k i ks is [K1 K2] HF IH]; simpl; auto. unfold is_pointl. rewrite <- K1, <- K2.
    destruct i; simpl; auto; constructor; auto; split; auto. }
  assert (H2 : Forall2 kk (drop_while is_pointl (drop_while (fun k => negb (is_pointl k)) ks)) (drop_adv (drop_basic is))).
  { clear HF. induction H1 as [|k i ks' is' [K1 K2] H1 IH]; simpl; auto. unfold is_pointl at 1. rewrite <- K1, <- K2.
    destruct i; simpl; auto; constructor; auto; split; auto. }
  induction H2 as [|k i ks' is' [K1 K2] H2 IH]; simpl; auto. rewrite IH. f_equal.
  unfold is_pointl. rewrite <- K1, <- K2. apply orb_comm.
Qed.

Lemma count_kk ks is : Forall2 kk ks is -> count_if is_seql ks = count_if is_adv is.
Proof. induction 1 as [|k i ks is [K1 K2] HF IH]; auto. rewrite !count_if_cons, K1, IH. auto. Qed.

(** NumPy indexing with at most one index list, in one block with the integers
    if there are any, is orthogonal indexing. *)
Lemma np_index_sel {W} (a : nd W) keys ks s :
  np_expand keys (length (nshape a)) = Ok ks -> sel_keys ks (nshape a) = Some s ->
  count_if is_seql ks = 0 \/ (count_if is_seql ks = 1 /\ one_blockl ks = true) ->
  exists r, np_index a keys = Ok r /\ nd_eq r (nd_sel a s).
Proof.
  intros He Hs Hc. unfold np_index. rewrite He. simpl bind.
  destruct (np_isels_sel _ _ _ Hs) as (is & E & M & K). rewrite E. simpl bind.
  rewrite (count_kk _ _ K), (one_block_contig _ _ K) in Hc. subst s.
  destruct Hc as [Hc|[Hc1 Hc2]].
  - apply count_if_0 in Hc. rewrite Hc. destruct (basic_sel is Hc) as [B1 B2].
    eexists; split; [reflexivity|]. split; simpl; auto. intros. rewrite B2. auto.
  - destruct (existsb is_adv is) eqn:Ea; [|apply count_if_0 in Ea; lia].
    destruct (adv_contig_sel is Hc1 Hc2) as (n & E1 & E2 & E3). rewrite E1. simpl bind. rewrite Hc2.
    eexists; split; [reflexivity|]. split; simpl; auto. rewrite <- E2. intros o Ho. rewrite E3; auto.
Qed.

(** ** Multi-indices and flat positions *)
Lemma ndindex_In sh o : In o (ndindex sh) <-> inb sh o.
Proof.
  revert o; induction sh as [|n sh IH]; intros o; simpl.
  - rewrite inb_nil. split; intros H; [destruct H as [<-|[]]; auto|auto].
  - rewrite in_flat_map. split.
    + intros (i & Hi & Ho). apply in_map_iff in Ho as (o' & <- & Ho). apply in_seq in Hi. apply inb_cons.
      split; [lia|]. apply IH; auto.
    + intros H. apply inb_cons_inv in H as (i & o' & -> & Hi & Ho). exists i. split; [apply in_seq; lia|].
      apply in_map. apply IH; auto.
Qed.
Lemma flat_map_length_const {A B} (f : A -> list B) l n : (forall x, In x l -> length (f x) = n) ->
  length (flat_map f l) = length l * n.
Proof. induction l; simpl; intros; auto. rewrite app_length, H, IHl by auto. auto. Qed.
Lemma ndindex_length sh : length (ndindex sh) = prodn sh.
Proof.
  induction sh as [|n sh IH]; auto. simpl. rewrite (flat_map_length_const _ _ (prodn sh)).
  - rewrite seq_length. auto.
  - intros. rewrite map_length. auto.
Qed.
Lemma ravel_lt sh o : inb sh o -> ravel sh o < prodn sh.
Proof.
  revert o; induction sh as [|n sh IH]; intros o H; simpl.
  - lia.
  - apply inb_cons_inv in H as (i & o' & -> & Hi & H). apply IH in H.
    unfold prodn in *. simpl. fold (prodn sh) in *. nia.
Qed.
Lemma nth_flat_map_const {A B} (f : A -> list B) l n i j da db : (forall x, In x l -> length (f x) = n) ->
  i < length l -> j < n -> nth (i * n + j) (flat_map f l) db = nth j (f (nth i l da)) db.
Proof.
  revert i; induction l as [|x l IH]; intros i H Hi Hj; simpl in *; [lia|].
  destruct i; simpl.
  - rewrite app_nth1; auto. rewrite H; auto.
  - rewrite app_nth2; rewrite H by auto; [|lia]. replace (n + i * n + j - n) with (i * n + j) by lia.
    apply IH; auto. lia.
Qed.
Lemma nth_ndindex sh o : inb sh o -> nth (ravel sh o) (ndindex sh) [] = o.
Proof.
  revert o; induction sh as [|n sh IH]; intros o H.
  - apply inb_nil in H. subst; auto.
  - apply inb_cons_inv in H as (i & o' & -> & Hi & H). cbn [ravel ndindex].
    rewrite (nth_flat_map_const _ _ (prodn sh) i (ravel sh o') 0).
    + rewrite seq_nth by auto. simpl.
      rewrite (nth_map _ _ _ _ []) by (rewrite ndindex_length; apply ravel_lt; auto). f_equal. auto.
    + intros. rewrite map_length. apply ndindex_length.
    + rewrite seq_length; auto.
    + apply ravel_lt; auto.
Qed.

Lemma is_seql_nolist ks : existsb is_list ks = false -> count_if is_seql ks = count_if is_seq ks
  /\ one_blockl ks = one_block ks.
Proof.
  intros H. apply existsb_false_Forall in H.
  assert (HE : forall k, In k ks -> is_seql k = is_seq k).
  { rewrite Forall_forall in H. intros k Hk. specialize (H k Hk). destruct k; auto. }
  split; [apply count_if_ext; auto|]. unfold one_blockl, one_block.
  assert (HP : forall k, In k ks -> is_pointl k = is_point k).
  { intros. unfold is_pointl, is_point. rewrite HE; auto. }
  assert (DW : forall (p q : key -> bool) l, (forall x, In x l -> p x = q x) -> drop_while p l = drop_while q l).
  { clear. induction l; simpl; intros H; auto. rewrite H, IHl by auto. auto. }
  assert (DI : forall (p : key -> bool) l x, In x (drop_while p l) -> In x l).
  { clear. induction l; simpl; intros; auto. destruct (p a); auto. }
  assert (EX : forall (p q : key -> bool) l, (forall x, In x l -> p x = q x) -> existsb p l = existsb q l).
  { clear. induction l; simpl; intros H; auto. rewrite H, IHl by auto. auto. }
  f_equal. rewrite (DW _ (fun k => negb (is_point k)) ks) by (intros; rewrite HP; auto).
  rewrite (DW is_pointl is_point) by (intros; apply HP; eauto).
  apply EX. intros. apply HP. eauto.
Qed.

Section GetStack.
Context {V : Type} (O : numops V).
Notation barr := (@barr V).
Notation good := (good O).
Notation Pget := (Pget O).

(** The items asked for are those with [K]. *)
Lemma gen_stack K ssh items keys ks s : Forall (Pgen O K) items ->
  wf (AStack ssh items) -> np_expand keys (ndim (AStack ssh items)) = Ok ks -> sel_keys ks (shape (AStack ssh items)) = Some s ->
  let sk := firstn (length ssh) (drop_new ks) in let ik := skipn (length ssh) (drop_new ks) in
  existsb is_list sk = false -> some_sel sk ssh ->
  count_if is_seq sk = 0 \/ count_if is_seq sk = 1 /\ one_block sk = true ->
  (forall s1 idx it, sel_keys sk ssh = Some s1 -> inb (sel_shape s1) idx -> nth_error items (ravel ssh (sel_map s1 idx)) = Some it -> K it ik) ->
  exists b, getitem (AStack ssh items) keys = Ok b /\ good (AStack ssh items) b s.
Proof.
  intros IH Hw Hexp Hs sk0 ik0 Hk1 Hk2 Hk3 Hk4. subst sk0 ik0. pose proof Hw as (Hne & HLi & Hwi & Hsi).
  apply wf_items in Hwi.
  cbn [getitem]. apply (base_getitem_ok O (AStack ssh items) _ keys s ks); auto.
  intros cs Hcs. set (fks := drop_new ks) in *.
  destruct items as [|it0 its0] eqn:Eits; [congruence|]. rewrite <- Eits in *.
  assert (Hsh : shape (AStack ssh items) = ssh ++ shape it0) by (subst; auto).
  rewrite Hsh in *. rewrite Forall_forall in Hsi.
  assert (Hsh0 : forall it, In it items -> shape it = shape it0 /\ dtype it = dtype it0).
  { intros it Hit. apply Hsi in Hit. rewrite Eits in Hit. simpl in Hit. auto. }
  rewrite Forall_forall in IH, Hwi.
  assert (HNf : nonew fks) by apply drop_new_nonew.
  destruct (sel_keys_length _ _ _ HNf Hcs) as [HLf HLc]. rewrite app_length in HLf.
  pose proof (firstn_skipn (length ssh) fks) as Ef. rewrite <- Ef in Hcs.
  assert (HNf' := HNf). rewrite <- Ef in HNf'. apply nonew_app in HNf' as [HNl HNc].
  apply sel_keys_app in Hcs as (s1 & s2 & -> & Hs1 & Hs2); auto.
  2:{ rewrite firstn_length. lia. }
  set (sk := firstn (length ssh) fks) in *. set (ik := skipn (length ssh) fks) in *.
  pose proof (sel_keys_valid _ _ _ Hs1) as Hv1. pose proof (sel_keys_valid _ _ _ Hs2) as Hv2.
  cbv beta zeta. rewrite (sliced_shape_ok sk ssh s1); auto.
  2:{ rewrite oselect_full; auto. eapply sel_keys_fullk; eauto. }
  simpl bind.
  destruct (is_seql_nolist _ Hk1) as [Q1 Q2].
  destruct (np_index_sel (mkND ssh (ravel ssh)) sk sk s1) as (st & Est & Hst).
  { apply np_expand_id. eapply sel_keys_fullk; eauto. }
  { auto. }
  { rewrite Q1, Q2. auto. }
  rewrite Est. simpl bind. destruct Hst as [St1 St2]. simpl in St1, St2. rewrite St1 in St2.
  set (gets := map (fun it => getitem it) items).
  (* each item *)
  assert (Hget : forall idx, inb (sel_shape s1) idx ->
     let it := nth (ravel ssh (sel_map s1 idx)) items it0 in
     In it items /\
     exists b, nth (nget st idx) gets (fun _ => Err IndexError) ik = Ok b /\ good it b s2).
  { intros idx Hidx it. pose proof (sel_map_inb _ _ _ Hv1 Hidx) as Hm. apply ravel_lt in Hm. rewrite <- HLi in Hm.
    assert (Hin : In it items) by (apply nth_In; auto). split; auto.
    rewrite St2 by auto. unfold gets. rewrite (nth_map _ _ _ _ it0) by auto. fold it.
    destruct (Hsh0 _ Hin) as [E1 E2]. destruct (Hwi _ Hin) as [W1 W2].
    apply (Pgen_full O K); auto; [rewrite E1; auto|]. eapply Hk4; eauto. rewrite (nth_error_nth' _ it0) by auto. auto. }
  assert (Hden : forall m idx o, inb (sel_shape s1) idx -> inb (sel_shape s2) o ->
     nget (den O m (nth (ravel ssh (sel_map s1 idx)) items it0)) (sel_map s2 o)
     = nget (nd_sel (den O m (AStack ssh items)) (s1 ++ s2)) (idx ++ o)).
  { intros m idx o Hidx Ho. simpl. rewrite sel_map_app by (apply inb_length; auto).
    pose proof (sel_map_inb _ _ _ Hv1 Hidx) as Hm. pose proof (inb_length _ _ Hm) as HLm.
    rewrite <- HLm. rewrite firstn_app, firstn_all, Nat.sub_diag. simpl. rewrite app_nil_r.
    rewrite skipn_app, skipn_all, Nat.sub_diag. simpl.
    rewrite (nth_map _ _ _ _ it0) by (rewrite HLi; apply ravel_lt; auto). auto. }
  assert (Hdsh : forall m, nshape (den O m (AStack ssh items)) = ssh ++ shape it0).
  { intros m. rewrite den_shape by auto. auto. }
  destruct (sel_shape s1) as [|n1 r1] eqn:Es1.
  - (* one item *)
    destruct (Hget [] ltac:(apply inb_nil; auto)) as (Hin & b & Eb & Gb).
    exists b. split; auto. split.
    + apply Gb.
    + intros m. destruct (g_den _ _ _ _ Gb m) as [A1 A2]. split.
      * rewrite A1. simpl. rewrite sel_shape_app, Es1. auto.
      * rewrite A1. intros o Ho. rewrite A2 by (rewrite A1; auto). simpl in Ho.
        simpl nget at 1. rewrite Hden; auto. apply inb_nil; auto.
    + intros _. destruct (Hwi _ Hin) as [W1 W2]. apply (g_dt _ _ _ _ Gb) in W2 as [W2 W3]. split; auto.
      rewrite W3. destruct (Hsh0 _ Hin) as [_ ->]. subst items; auto.
    + intros Hnl. apply Gb. simpl in Hnl. rewrite fold_right_and_Forall in Hnl.
      rewrite Forall_forall in Hnl. auto.
  - (* a stack *)
    rewrite <- Es1 in *. set (ssh' := sel_shape s1) in *.
    assert (Hnz : 1 <= prodn ssh').
    { apply Hk2 in Hs1. fold ssh' in Hs1. clear - Hs1. induction Hs1; simpl; auto.
      unfold prodn in *. simpl. nia. }
    rewrite St1, shape_eqb_refl.
    destruct (mapM_exists (fun idx => nth (nget st idx) gets (fun _ => Err IndexError) ik)
               (fun idx b => good (nth (ravel ssh (sel_map s1 idx)) items it0) b s2
                             /\ In (nth (ravel ssh (sel_map s1 idx)) items it0) items) (ndindex ssh'))
      as (its & Eits' & HF2).
    { intros idx Hidx. apply ndindex_In in Hidx. destruct (Hget idx Hidx) as (Hin & b & Eb & Gb). eauto. }
    rewrite Eits'. simpl bind.
    pose proof (Forall2_length _ _ _ HF2) as HLits. rewrite ndindex_length in HLits.
    destruct its as [|b0 its'] eqn:Eb0; [simpl in HLits; lia|]. rewrite <- Eb0 in *.
    assert (Hall : forall b, In b its -> exists it, In it items /\ good it b s2).
    { intros b Hb. apply (Forall2_In_r _ _ _ _ HF2) in Hb as (idx & _ & Gb & Hin). eauto. }
    assert (Hprop : forall b, In b its -> wf b /\ dt_stable b /\ shape b = sel_shape s2 /\ dtype b = dtype it0).
    { intros b Hb. destruct (Hall b Hb) as (it & Hin & Gb). destruct (Hwi _ Hin) as [W1 W2].
      destruct (g_dt _ _ _ _ Gb W2) as [D1 D2]. split; [apply Gb|]. split; auto. split; [eapply good_shape; eauto|].
      rewrite D2. apply Hsh0; auto. }
    assert (Hb0 : In b0 its) by (rewrite Eb0; simpl; auto).
    destruct (Hprop _ Hb0) as (B1 & B2 & B3 & B4).
    assert (Emk : mk_stack ssh' its = Ok (AStack ssh' its)).
    { unfold mk_stack. rewrite Eb0 at 1.
      replace (forallb _ its) with true; auto. symmetry. apply forallb_forall. intros b Hb.
      destruct (Hprop _ Hb) as (C1 & C2 & C3 & C4). rewrite C3, B3, C4, B4, shape_eqb_refl, Nat.eqb_refl. auto. }
    rewrite Emk. eexists; split; [reflexivity|]. split.
    + simpl. split; [rewrite Eb0; discriminate|]. split; [lia|]. split.
      * apply wf_items. apply Forall_forall. intros b Hb. destruct (Hprop _ Hb) as (C1 & C2 & _). auto.
      * apply Forall_forall. intros b Hb. destruct (Hprop _ Hb) as (C1 & C2 & C3 & C4).
        rewrite Eb0 at 1 2. simpl. rewrite C3, B3, C4, B4. auto.
    + intros m.
      assert (Esh : nshape (den O m (AStack ssh' its)) = ssh' ++ sel_shape s2).
      { simpl. rewrite Eb0 at 1. simpl. rewrite den_shape, B3 by auto. auto. }
      split.
      * rewrite Esh. simpl. rewrite sel_shape_app. auto.
      * rewrite Esh. intros o Ho. pose proof (inb_split _ _ _ Ho) as [Ho1 Ho2].
        rewrite <- (firstn_skipn (length ssh') o) at 2.
        set (o1 := firstn (length ssh') o) in *. set (o2 := skipn (length ssh') o) in *.
        rewrite <- Hden by auto. cbn [den nd_stack nget]. fold o1 o2.
        pose proof (ravel_lt _ _ Ho1) as Hr.
        rewrite (nth_map _ _ _ _ b0) by lia.
        assert (HG := Forall2_nth _ _ _ [] b0 (ravel ssh' o1) HF2 ltac:(rewrite ndindex_length; auto)).
        rewrite nth_ndindex in HG by auto. destruct HG as [HG _]. destruct (g_den _ _ _ _ HG m) as [A1 A2].
        rewrite A2; [reflexivity|]. rewrite A1. auto.
    + intros _. split.
      * simpl. apply fold_right_and_Forall. apply Forall_forall. intros b Hb. apply Hprop; auto.
      * simpl. rewrite Eb0 at 1. rewrite B4. subst items; auto.
    + intros Hnl. simpl in *. rewrite fold_right_and_Forall in *. rewrite Forall_forall in *.
      intros b Hb. destruct (Hall b Hb) as (it & Hin & Gb). apply Gb; auto.
Qed.
Lemma get_stack ssh items : Forall Pget items -> Pget (AStack ssh items).
Proof.
  intros IH keys ks s Hw Hexp Hs (Hk1 & Hk2 & Hk3 & Hk4). eapply gen_stack; eauto.
  intros s1 idx it _ _ H. rewrite fold_right_and_Forall, Forall_forall in Hk4. apply Hk4. eapply nth_error_In; eauto.
Qed.

End GetStack.
