(** Sound: an indexing that returns at all, returns the right array ([safe],
    Supported.v). *)
From Verif Require Import Base PySlice Keys NDArray Arrays Spec Supported Lib SelLemmas KeyLemmas NewAxLemmas GetBase GetSimple GetBcast GetTrans GetStack GetMosaic GetItem BoundClaims BuiltClaims.

Section Sound.
Context {V : Type} (O : numops V).
Notation barr := (@barr V).
Notation good := (good O).

(** Keys for which indexing returns. *)
Definition KS (a : barr) (ks : list key) : Prop := safe a ks /\ exists b, getitem a ks = Ok b.

Lemma sliced_nolist ks : forall sh r, sliced_loop sh ks = Ok r -> existsb is_list ks = false.
Proof.
  induction ks as [|k ks IH]; intros sh r E; auto. cbn [existsb].
  destruct k; cbn [sliced_loop] in E; try (destruct sh as [|n sh]; [discriminate|]); try discriminate; cbn [is_list orb];
    repeat (apply bind_ok in E as (? & ? & E)); eauto.
Qed.

(** The loop of a NewAxesArray. *)
Lemma newax_loop_safe keys : forall ki na comb isnew ck eaa bd na' comb' ck' bd' seen,
  newax_loop keys ki na comb isnew ck eaa bd = Ok (na', comb', ck', bd') -> nx_safe seen keys isnew ->
  nx_ok seen keys isnew /\ ck' = ck ++ nx_ck keys isnew.
Proof.
  induction keys as [|k keys IH]; intros ki na comb isnew ck eaa bd na' comb' ck' bd' seen E H.
  - cbn in *. split; auto. rewrite app_nil_r. congruence.
  - destruct (is_new k) eqn:Nk.
    + destruct k; try discriminate. cbn [newax_loop nx_safe nx_ok nx_ck] in *. eapply IH; eauto.
    + destruct isnew as [|[|] isnew].
      * exfalso. destruct k; try discriminate.
      * destruct k; try discriminate; cbn [newax_loop nx_safe nx_ok nx_ck] in *; try discriminate.
        -- destruct (_ && _)%Z; [|discriminate]. eapply IH; eauto.
        -- apply bind_ok in E as (l & _ & E). destruct H as [H1 H2]. destruct (IH _ _ _ _ _ _ _ _ _ _ _ _ E H2). auto.
        -- destruct (existsb _ _); [discriminate|]. destruct H as [H1 H2]. destruct (IH _ _ _ _ _ _ _ _ _ _ _ _ E H2). auto.
      * assert (E' : newax_loop keys (S ki) na (if is_scalar k then eaa :: comb else comb) isnew (ck ++ [k]) (S eaa) bd = Ok (na', comb', ck', bd')) by (destruct k; try discriminate; exact E).
        assert (H' : nx_safe (seen || is_scalar k) keys isnew) by (destruct k; try discriminate; exact H).
        destruct (IH _ _ _ _ _ _ _ _ _ _ _ _ E' H') as [A B].
        assert (Ck : nx_ck (k :: keys) (false :: isnew) = k :: nx_ck keys isnew) by (destruct k; try discriminate; reflexivity).
        split; [destruct k; try discriminate; exact A|]. rewrite Ck, B, <- app_assoc. auto.
Qed.
Lemma newax_safe child nd na ks (b : barr) : fullk ks (nd + fold_right Nat.add 0 na) ->
  newax_getitem child nd na ks = Ok b -> let fl := newax_layout true (repeat false nd) na in
  nx_safe false ks fl -> nx_ok false ks fl /\ exists c, child (nx_ck ks fl) = Ok c.
Proof.
  intros HF E fl H. unfold newax_getitem in E. rewrite full_keys_id in E by auto. cbn [bind] in E.
  apply bind_ok in E as ([[[na' comb] ck] bd] & E2 & E). destruct (newax_loop_safe _ _ _ _ _ _ _ _ _ _ _ _ _ E2 H) as [A B].
  split; auto. cbn [app] in B. subst ck. apply bind_ok in E as (c & Ec & _). eauto.
Qed.
Lemma base_safe gfk sh ks s (b : barr) : sel_keys ks sh = Some s ->
  base_getitem gfk (length sh) ks = Ok b -> exists c, gfk (drop_new ks) = Ok c.
Proof.
  intros Hs E. pose proof (sel_keys_fullk _ _ _ Hs) as HF. unfold base_getitem in E. rewrite full_keys_id in E by auto. cbn [bind] in E.
  destruct (existsb is_new ks) eqn:N.
  - assert (HZ : newax_layout true (repeat false (length sh)) (repeat 0 (length sh + 1)) = repeat false (length sh)) by (apply layout_zeros; rewrite repeat_length; auto).
    pose proof (sel_keys_drop _ _ _ Hs) as Hdrop. pose proof (drop_new_nonew ks) as Hnn.
    assert (HLd : length (drop_new ks) = length sh) by (eapply sel_keys_length; eauto).
    assert (HCK : nx_ck ks (repeat false (length sh)) = drop_new ks) by (rewrite nx_ck_false; apply firstn_all2; lia).
    assert (HF' : fullk ks (length sh + fold_right Nat.add 0 (repeat 0 (length sh + 1)))).
    { replace (length sh + fold_right Nat.add 0 (repeat 0 (length sh + 1))) with (length sh); auto.
      generalize (length sh + 1). intros n. induction n; cbn; auto. }
    destruct (newax_safe _ (length sh) (repeat 0 (length sh + 1)) ks b HF' E) as [_ (c & Ec)].
    + rewrite HZ. clear. generalize false at 1. generalize (length sh). induction ks as [|k ks IH]; intros [|n] sn; cbn; auto; destruct k; auto; try apply (IH 0); apply (IH (S n)).
    + rewrite HZ, HCK in Ec. rewrite full_keys_id in Ec by (eapply sel_keys_fullk; eauto). cbn [bind] in Ec. unfold nonew in Hnn. rewrite Hnn in Ec. eauto.
  - rewrite drop_new_id by auto. eauto.
Qed.

Lemma mapM_each {A B} (f : A -> res B) l r : mapM f l = Ok r -> forall x, In x l -> exists y, f x = Ok y.
Proof.
  revert r; induction l as [|z l IH]; intros r E x Hx; [destruct Hx|]. cbn [mapM] in E. apply bind_ok in E as (y & E1 & E).
  apply bind_ok in E as (ys & E2 & _). destruct Hx as [->|Hx]; eauto.
Qed.
(** Written-out keys give the same. *)
Lemma base_expand gfk nd keys ks : np_expand keys nd = Ok ks -> @base_getitem V gfk nd keys = base_getitem gfk nd ks.
Proof. intros H. unfold base_getitem. rewrite full_keys_np by (eapply np_expand_count; eauto). rewrite H, full_keys_id by (eapply np_expand_full; eauto). auto. Qed.
Lemma getitem_expand (a : barr) : forall keys ks, wf a -> np_expand keys (ndim a) = Ok ks -> getitem a keys = getitem a ks.
Proof.
  induction a as [sh v d|o c src|a na IH|a dict lead IH|a d IH|a v IH|a axes IH|ssh items IH|tiles axis IH|g a axis d IH|o a d IH|o a b d IH1 IH2]
    using barr_ind2; intros keys ks Hw H; cbn [getitem]; try (apply base_expand; exact H).
  - unfold sliced_shape. unfold ndim in H. cbn [shape] in H. rewrite full_keys_np by (eapply np_expand_count; eauto). rewrite H, full_keys_id by (eapply np_expand_full; eauto). auto.
  - destruct Hw as [Hw HL]. unfold newax_getitem.
    assert (E : ndim (ANewAx a na) = ndim a + fold_right Nat.add 0 na) by (unfold ndim in *; cbn [shape]; rewrite layout_len by auto; auto).
    rewrite <- E. rewrite full_keys_np by (eapply np_expand_count; eauto). rewrite H, full_keys_id by (eapply np_expand_full; eauto). auto.
  - rewrite (IH keys ks); auto.
  - rewrite (IH keys ks); auto.
Qed.

(** Broadcasts. *)
Lemma bcast_loop_safe dict ck : forall sh ax removed r, nonew ck -> bcast_loop dict ck sh ax removed = Ok r ->
  bc_some dict ck ax /\ fst r = bc_ck dict ck ax.
Proof.
  induction ck as [|k ck IH]; intros sh ax removed r HN E; cbn [bcast_loop bc_some bc_ck] in *.
  - injection E as <-. auto.
  - apply nonew_cons in HN as [HN1 HN2]. destruct (dict_find ax dict) as [q|].
    + destruct k; try discriminate.
      * destruct (_ && _)%Z; [|discriminate]. apply bind_ok in E as (r' & E' & E). injection E as <-. destruct (IH _ _ _ _ HN2 E') as [A B].
        cbn [fst]. rewrite B. auto.
      * apply bind_ok in E as (l & _ & E). apply bind_ok in E as (r' & E' & E). injection E as <-. destruct (IH _ _ _ _ HN2 E') as [A B].
        cbn [fst]. rewrite B. auto.
    + apply bind_ok in E as (r' & E' & E). injection E as <-. destruct (IH _ _ _ _ HN2 E') as [A B]. cbn [fst]. rewrite B. auto.
Qed.
Lemma all_full_true ks : all_full ks = Ok true -> Forall (fun k => k = KFull) ks.
Proof.
  induction ks as [|k ks IH]; intros E; constructor; cbn [all_full] in E; apply bind_ok in E as (b & E1 & E2); destruct b; try discriminate; auto.
  destruct k; cbn [key_is_full] in E1; try discriminate.
  - injection E1 as E1. apply slice_eqb_full in E1. subst; auto.
  - destruct (1 <? length l); discriminate.
  - destruct (1 <? length l); discriminate.
Qed.
Lemma mk_bcast_lead (a b : barr) dict lead : mk_bcast a dict lead = Ok b -> Forall (fun n => 1 <= n) lead.
Proof.
  unfold mk_bcast. intros E. assert (H : exists l0, existsb (fun n => n <? 1) (lead ++ l0) = false).
  { destruct a; apply bind_ok in E as (x & _ & E); match type of E with (if ?c then _ else _) = _ => destruct c eqn:F; [discriminate|] end;
      try (exists []; rewrite app_nil_r; exact F). eauto. }
  destruct H as [l0 H]. rewrite existsb_app in H. apply orb_false_iff in H as [H _]. apply existsb_false_Forall in H.
  eapply Forall_impl; [|apply H]. cbv beta. intros n Hn. destruct (Nat.ltb_spec n 1); [discriminate|lia].
Qed.
Lemma sliced_safe ks sh s r : nonew ks -> sel_keys ks sh = Some s -> sliced_shape sh ks = Ok r ->
  existsb is_list ks = false /\ r = sel_shape s.
Proof.
  intros HN Hs E. pose proof (sel_keys_fullk _ _ _ Hs) as HF. assert (N : existsb is_list ks = false).
  { unfold sliced_shape in E. rewrite full_keys_id in E by auto. cbn [bind] in E. eapply sliced_nolist; eauto. }
  split; auto. rewrite (sliced_shape_ok ks sh s) in E; auto; [congruence|]. rewrite oselect_full; auto.
Qed.

Notation Psound := (Pgen O KS).

Lemma sound_bcast (a : barr) dict lead : Psound a -> Psound (ABcast a dict lead).
Proof.
  intros IH keys ks s Hw Hexp Hs [Hsafe (b & E)]. cbn [safe] in Hsafe. destruct Hsafe as [Hnl Hsc]. pose proof Hw as (Hwa & HND & Hok & Hlead).
  cbn [getitem] in E. apply (base_safe _ (shape (ABcast a dict lead)) ks s) in E as [c E]; auto.
  apply bind_ok in E as (lead' & E1 & E). apply bind_ok in E as (r & E2 & E). apply bind_ok in E as (bf & E3 & E). apply bind_ok in E as (sub & E4 & E).
  pose proof (sel_keys_drop _ _ _ Hs) as Hd. cbn [shape] in Hd, E2. pose proof (drop_new_nonew ks) as HN. set (fks := drop_new ks) in *.
  destruct (sel_keys_length _ _ _ HN Hd) as [HLf _]. rewrite app_length in HLf.
  pose proof (firstn_skipn (length lead) fks) as Ef. rewrite <- Ef in Hd, HN. apply nonew_app in HN as [HNl HNc].
  apply sel_keys_app in Hd as (s1 & s2 & _ & Hs1 & Hs2); auto; [|rewrite firstn_length; lia].
  destruct (bcast_loop_safe _ _ _ _ _ _ HNc E2) as [B1 B2]. rewrite B2 in *.
  destruct (sliced_safe _ _ _ _ HNl Hs1 E1) as [L1 L2].
  eapply (gen_bcast O KS a dict lead keys ks s bf); eauto; fold fks; auto.
  - intros s' Hs'. replace s' with s1 by congruence. rewrite <- L2. eapply mk_bcast_lead; eauto.
  - intros ->. apply all_full_true; auto.
  - intros ->. split; auto. eauto.
Qed.

(** Stacks. *)
Lemma np_rank {W} (a r : nd W) ks is : fullk ks (length (nshape a)) -> np_isels ks (nshape a) = Ok is -> np_index a ks = Ok r ->
  existsb is_adv is = true -> length (nshape r) = S (length (basic_shape is)).
Proof.
  intros HF E H Ha. unfold np_index in H. rewrite np_expand_id in H by auto. cbn [bind] in H. rewrite E in H. cbn [bind] in H. rewrite Ha in H.
  apply bind_ok in H as (n & _ & H). injection H as <-. cbn [nshape]. destruct (adv_contig is); cbn [length]; auto.
  rewrite insert_at_length. auto.
Qed.
Lemma sel_rank is : length (sel_shape (map tod is)) = length (basic_shape is) + count_if is_adv is.
Proof. induction is as [|i is IH]; auto. rewrite count_if_cons. destruct i; cbn [map tod sel_shape basic_shape is_adv length]; lia. Qed.
Lemma prodn_pos l : 1 <= prodn l -> Forall (fun n => 1 <= n) l.
Proof. unfold prodn. induction l as [|n l IH]; intros H; constructor; cbn [fold_right] in H; [nia|apply IH; nia]. Qed.

Lemma sound_stack ssh (items : list barr) : Forall Psound items -> Psound (AStack ssh items).
Proof.
  intros IH keys ks s Hw Hexp Hs [Hsafe (b & E)]. cbn [safe] in Hsafe. destruct Hsafe as [Hob Hsi]. pose proof Hw as (Hne & HLi & Hwi & Hsh).
  cbn [getitem] in E. apply (base_safe _ (shape (AStack ssh items)) ks s) in E as [c E]; auto. cbv zeta in E.
  apply bind_ok in E as (ssh' & E1 & E). apply bind_ok in E as (st & E2 & E).
  pose proof (sel_keys_drop _ _ _ Hs) as Hd. pose proof (drop_new_nonew ks) as HN. set (fks := drop_new ks) in *.
  destruct items as [|it0 its0] eqn:Eits; [congruence|]. cbn [shape] in Hd. rewrite <- Eits in *.
  destruct (sel_keys_length _ _ _ HN Hd) as [HLf _]. rewrite app_length in HLf.
  pose proof (firstn_skipn (length ssh) fks) as Ef. rewrite <- Ef in Hd, HN. apply nonew_app in HN as [HNl HNc].
  apply sel_keys_app in Hd as (s1 & s2 & _ & Hs1 & Hs2); auto; [|rewrite firstn_length; lia].
  set (sk := firstn (length ssh) fks) in *. set (ik := skipn (length ssh) fks) in *.
  destruct (sliced_safe _ _ _ _ HNl Hs1 E1) as [L1 L2]. subst ssh'.
  destruct (is_seql_nolist _ L1) as [Q1 Q2]. pose proof (sel_keys_fullk _ _ _ Hs1) as HF.
  destruct (np_isels_sel _ _ _ Hs1) as (is & I1 & I2 & I3).
  assert (Hcount : count_if is_seq sk = 0 \/ count_if is_seq sk = 1 /\ one_block sk = true).
  { destruct (Nat.eq_dec (count_if is_seq sk) 0) as [C0|C0]; auto. destruct (Nat.eq_dec (count_if is_seq sk) 1) as [C1|C1]; auto. exfalso.
    rewrite <- Q1, (count_kk _ _ I3) in C0, C1.
    assert (Ha : existsb is_adv is = true) by (destruct (existsb is_adv is) eqn:F; auto; apply count_if_0 in F; lia).
    pose proof (np_rank (mkND ssh (ravel ssh)) st sk is HF I1 E2 Ha) as R. pose proof (sel_rank is) as R2. rewrite I2 in R2.
    destruct (sel_shape s1) as [|n1 r1] eqn:Es1; [cbn [length] in R2; lia|]. rewrite <- Es1 in *.
    destruct (shape_eqb (nshape st) (sel_shape s1)) eqn:F; [|discriminate]. apply shape_eqb_eq in F. rewrite F in R. lia. }
  destruct (np_index_sel (mkND ssh (ravel ssh)) sk sk s1) as (st' & Est & Hst); auto.
  { apply np_expand_id; auto. }
  { rewrite Q1, Q2. auto. }
  assert (st' = st) by congruence. subst st'. destruct Hst as [St1 St2]. cbn [nshape nget nd_sel] in St1, St2. rewrite St1 in St2.
  rewrite fold_right_and_Forall, Forall_forall in Hsi.
  eapply (gen_stack O KS ssh items keys ks s); eauto; fold fks sk ik; auto.
  - intros s' Hs'. replace s' with s1 by congruence. destruct (sel_shape s1) as [|n1 r1] eqn:Es1; [constructor|]. rewrite <- Es1 in *.
    destruct (shape_eqb _ _); [|discriminate]. apply bind_ok in E as (its & E3 & E). destruct (stack_inv _ _ _ E) as (_ & Hi & _).
    apply prodn_pos. rewrite <- ndindex_length. apply mapM_length in E3. destruct its; [congruence|]. cbn [length] in E3. lia.
  - intros s' idx it Hs' Hidx Hit. replace s' with s1 in * by congruence. split; [apply Hsi; eapply nth_error_In; eauto|].
    assert (G : forall f, nth (nget st idx) (map (fun it : barr => getitem it) items) f ik = getitem it ik).
    { intros f. rewrite St2 by auto. erewrite nth_map by (apply nth_error_Some; rewrite Hit; discriminate). rewrite (nth_error_nth _ _ it Hit). auto. }
    destruct (sel_shape s1) as [|n1 r1] eqn:Es1.
    + apply inb_nil in Hidx. subst idx. rewrite G in E. eauto.
    + rewrite <- Es1 in *. destruct (shape_eqb _ _); [|discriminate]. apply bind_ok in E as (its & E3 & _).
      destruct (mapM_each _ _ _ E3 idx) as (y & Ey); [apply ndindex_In; auto|]. rewrite G in Ey. eauto.
Qed.

(** Mosaics. *)
Lemma tile_key_plain off is : is_new (tile_key off is) = false /\ is_ell (tile_key off is) = false.
Proof. unfold tile_key. destruct is as [|i [|j is]]; auto. Qed.

Lemma sound_mosaic (tiles : list barr) axis : Forall Psound tiles -> Psound (AMosaic tiles axis).
Proof.
  intros IH keys ks s Hw Hexp Hs [Hsafe (b & E)]. cbn [safe] in Hsafe. pose proof Hw as (Hne & Hwt & Hst). apply wf_items in Hwt.
  rewrite Forall_forall in Hwt, Hst.
  cbn [getitem] in E. apply (base_safe _ (shape (AMosaic tiles axis)) ks s) in E as [c E]; auto. cbv zeta in E.
  apply bind_ok in E as (p & Ep & E).
  pose proof (sel_keys_drop _ _ _ Hs) as Hd. pose proof (drop_new_nonew ks) as HN. set (fks := drop_new ks) in *.
  set (lens := map (fun t : barr => nth axis (shape t) 0) tiles) in *. set (gets := map (fun t : barr => getitem t) tiles) in *.
  assert (Hex : exists u0 us, tiles = u0 :: us) by (destruct tiles; [congruence|eauto]). destruct Hex as (u0 & us & Etl).
  assert (Hhd : forall t, hd t tiles = u0) by (subst; auto).
  assert (Hax0 : axis < ndim u0) by (apply (Hst u0); subst; simpl; auto).
  assert (Hshape : shape (AMosaic tiles axis) = set_nth axis (sum lens) (shape u0)).
  { unfold lens. rewrite Etl. cbn [shape]. simpl. rewrite fold_left_add_acc. auto. }
  destruct (sel_keys_length _ _ _ HN Hd) as [HLf _]. pose proof (sel_keys_fullk _ _ _ Hd) as [HEf _].
  assert (HLf' : length fks = ndim u0) by (rewrite HLf, Hshape, set_nth_length; auto).
  assert (Hnd : forall t, In t tiles -> ndim t = ndim u0).
  { intros t Ht. destruct (Hst t Ht) as (H1 & H2 & _). rewrite Hhd in *. unfold ndim in *.
    assert (L : length (remove_at axis (shape t)) = length (remove_at axis (shape u0))) by (rewrite H2; auto).
    rewrite !remove_at_length in L by auto. lia. }
  assert (HLl : length lens = length tiles) by (unfold lens; apply map_length).
  pose proof (trim_axis fks axis ltac:(lia)) as Htrim.
  (* what a tile is asked for *)
  assert (Hgets : forall t u f, nth_error tiles t = Some u -> nth t gets f = getitem u).
  { intros t u f Hu. unfold gets. erewrite nth_map by (apply nth_error_Some; rewrite Hu; discriminate). rewrite (nth_error_nth _ _ u Hu). auto. }
  assert (Hset : forall u k, In u tiles -> axis < length (trim_keys fks) -> is_new k = false -> is_ell k = false ->
    getitem u (set_nth axis k (trim_keys fks)) = getitem u (set_nth axis k fks)).
  { intros u k Hu Hax K1 K2. apply getitem_expand; [apply Hwt; auto|]. apply np_expand_trim_set; auto. rewrite Hnd by auto. auto. }
  eapply (gen_mosaic O KS tiles axis keys ks s); eauto. cbv zeta. fold fks lens.
  unfold mosaic_plan in Ep. cbv zeta in Ep. rewrite Htrim in Ep.
  destruct Hsafe as [[Hk1 Hk2]|[Hk1 Hk2]]; rewrite Hk1 in *.
  - left. split; auto. intros t Ht. rewrite fold_right_and_Forall, Forall_forall in Hk2. split; auto.
    injection Ep as <-. apply bind_ok in E as (ts & E1 & _). unfold gets in E1. rewrite mapM_map in E1. destruct (mapM_each _ _ _ E1 t Ht) as (y & Ey).
    rewrite (getitem_expand t _ fks) in Ey; eauto; [apply Hwt; auto|]. apply np_expand_trim; auto. rewrite Hnd by auto. auto.
  - right. split; auto. apply Nat.leb_gt in Htrim.
    assert (Enk : nth axis (trim_keys fks) KBad = nth axis fks KBad) by (rewrite (trim_app fks) at 2; rewrite app_nth1; auto).
    rewrite Enk in Ep. set (offs := offsets_from 0 lens) in *.
    assert (Hoff : forall t, t < length lens -> py_nth 0 offs (Z.of_nat t) = sum (firstn t lens)).
    { intros t Ht. unfold py_nth. replace (Z.of_nat t <? 0)%Z with false by lia. rewrite Nat2Z.id. unfold offs. rewrite nth_offsets by auto. auto. }
    assert (Hnum : forall t, tile_num (length lens) (Z.of_nat t) = t).
    { intros t. unfold tile_num. replace (Z.of_nat t <? 0)%Z with false by lia. apply Nat2Z.id. }
    (* the parts asked for *)
    assert (Hmany : forall inc idx ax, p = PMany (map (fun g => let '(t, is) := g in
                               (tile_num (length lens) t, set_nth axis (tile_key (py_nth 0 offs t) is) (trim_keys fks)))
                                (group_runs (map (fun i => (i, tile_of offs i)) idx))) ax ->
       (inc = true -> incb idx = true) ->
       fold_right (fun t P => (forall k', tile_form inc (nth axis (shape t) 0) k' -> safe t (set_nth axis k' fks)) /\ P) True tiles ->
       idx <> [] /\ (Forall (fun i => 0 <= i < Z.of_nat (sum lens))%Z idx -> forall t is u, In (Z.of_nat t, is) (runs lens idx) -> nth_error tiles t = Some u ->
                     KS u (set_nth axis (tile_key (sum (firstn t lens)) is) fks))).
    { intros inc idx ax -> Hinc Hok. apply bind_ok in E as (ts & E1 & E2). rewrite mapM_map in E1. split.
      - intros ->. cbn [map group_runs mapM] in E1. injection E1 as <-. discriminate.
      - intros Hb t is u Hg Hu. rewrite fold_right_and_Forall, Forall_forall in Hok.
        assert (Hin : In u tiles) by (eapply nth_error_In; eauto).
        split; [apply (tile_forms tiles axis idx inc); auto|].
        assert (Ht : t < length lens) by (rewrite HLl; apply nth_error_Some; rewrite Hu; discriminate).
        destruct (mapM_each _ _ _ E1 (Z.of_nat t, is) Hg) as (y & Ey). cbn [fst snd] in Ey. rewrite Hnum, Hoff, (Hgets t u) in Ey by auto.
        destruct (tile_key_plain (sum (firstn t lens)) is). rewrite Hset in Ey by auto. eauto. }
    destruct (nth axis fks KBad) as [i|sl|l|l|l|l| | |]; try discriminate.
    + destruct Hk2 as [Hi Hok]. split; auto. intros t j u Et Hu Hj Eij. rewrite fold_right_and_Forall, Forall_forall in Hok.
      assert (Hin : In u tiles) by (eapply nth_error_In; eauto).
      assert (Ht : t < length lens) by (rewrite HLl; apply nth_error_Some; rewrite Hu; discriminate).
      assert (El : nth t lens 0 = nth axis (shape u) 0) by (unfold lens; rewrite (nth_map _ _ _ _ u) by (rewrite <- HLl; auto); rewrite (nth_error_nth _ _ _ Hu); auto).
      split; [apply Hok; auto; lia|]. fold offs in Et. rewrite Et, Hnum, Hoff in Ep by auto. injection Ep as <-. rewrite (Hgets t u) in E by auto.
      replace (i - Z.of_nat (sum (firstn t lens)))%Z with (Z.of_nat j) in E by lia. rewrite Hset in E by auto. eauto.
    + destruct Hk2 as [Hstep Hok]. apply bind_ok in Ep as (l & El & Ep). fold lens in El.
      assert (Hpos : match s_step sl with Some st => (0 < st)%Z | None => True end).
      { destruct (s_step sl) as [st|] eqn:Es; auto. destruct (Z.eq_dec st 0) as [->|]; [|lia]. unfold slice_idx, slice_indices in El. rewrite Es in El. discriminate. }
      split; auto. exists l. split; auto.
      replace (match s_step sl with Some st => (st <? 0)%Z | None => false end) with false in Ep by (destruct (s_step sl); auto; lia).
      injection Ep as <-. eapply (Hmany true l); eauto. intros _. apply (slice_idx_inc _ _ _ El Hpos).
    + destruct Hk2 as [Hpos Hok]. injection Ep as <-. destruct (Hmany (incb l) l _ eq_refl (fun H => H) Hok) as [A B]. auto.
    + destruct Hk2 as [Hpos Hok]. injection Ep as <-. destruct (Hmany (incb l) l _ eq_refl (fun H => H) Hok) as [A B]. auto.
    + destruct Hk2 as [Hpos Hok]. injection Ep as <-. destruct (Hmany (incb l) l _ eq_refl (fun H => H) Hok) as [A B]. auto.
    + destruct l; [|discriminate]. injection Ep as <-. exfalso. cbn [map group_runs mapM bind] in E. discriminate.
Qed.

Lemma sound_all (a : barr) : Psound a.
Proof.
  induction a as [sh v d|o c src|a na IH|a dict lead IH|a d IH|a v IH|a axes IH|ssh items IH|tiles axis IH|g a axis d IH|o a d IH|o a b' d IH1 IH2] using barr_ind2.
  - intros keys ks s Hw Hexp Hs [_ (b & E)]. apply (get_const O sh v d keys ks s); auto. cbn [okk getitem] in *.
    apply bind_ok in E as (sh' & E & _). unfold sliced_shape in E. rewrite full_keys_id in E by (eapply sel_keys_fullk; eauto). cbn [bind] in E. eapply sliced_nolist; eauto.
  - intros keys ks s Hw Hexp Hs [Hsafe _]. apply (get_adapt O o c src keys ks s); auto.
  - intros keys ks s Hw Hexp Hs [[Hs1 Hs2] (b & E)]. cbn [getitem] in E. pose proof Hw as [Hwa HL].
    assert (HF : fullk ks (ndim a + fold_right Nat.add 0 na)).
    { apply sel_keys_fullk in Hs. cbn [shape] in Hs. unfold ndim in *. rewrite layout_len in Hs by auto. exact Hs. }
    destruct (newax_safe _ _ _ _ _ HF E Hs1) as [A (c & Ec)]. eapply gen_newax; eauto. split; auto. eauto.
  - apply sound_bcast; auto.
  - intros keys ks s Hw Hexp Hs [Hsafe (b & E)]. cbn [getitem safe] in *. apply bind_ok in E as (c & Ec & _). eapply gen_asty; eauto. split; eauto.
  - intros keys ks s Hw Hexp Hs [Hsafe (b & E)]. cbn [getitem safe] in *. apply bind_ok in E as (c & Ec & _). eapply gen_maskv; eauto. split; eauto.
  - intros keys ks s Hw Hexp Hs [Hsafe (b & E)]. cbn [getitem safe] in *. apply (base_safe _ (shape (ATrans a axes)) ks s) in E as [c E]; auto. cbv zeta in E.
    apply bind_ok in E as (c' & Ec & _). eapply gen_trans; eauto. split; eauto.
  - apply sound_stack; auto.
  - apply sound_mosaic; auto.
  - intros keys ks s Hw Hexp Hs [Hsafe (b & E)]. cbn [getitem safe] in *. apply (base_safe _ (shape (AAgg g a axis d)) ks s) in E as [c E]; auto. cbv zeta in E.
    apply bind_ok in E as (c' & Ec & _). eapply gen_agg; eauto. split; eauto.
  - intros keys ks s Hw Hexp Hs [Hsafe (b & E)]. cbn [getitem safe] in *. apply (base_safe _ (shape (AEl1 o a d)) ks s) in E as [c E]; auto.
    apply bind_ok in E as (c' & Ec & _). eapply gen_el1; eauto. split; eauto.
  - intros keys ks s Hw Hexp Hs [[Hsa Hsb] (b & E)]. cbn [getitem] in *. apply (base_safe _ (shape (AEl2 o a b' d)) ks s) in E as [c E]; auto.
    apply bind_ok in E as (c1 & E1 & E). apply bind_ok in E as (c2 & E2 & _). eapply gen_el2; eauto; split; eauto.
Qed.

Theorem getitem_sound (a b : barr) keys : wf a -> valid_keys keys (shape a) -> safe_keys a keys -> getitem a keys = Ok b ->
  wf b /\ (forall m, nd_eq (den O m b) (oindex (den O m a) keys)) /\ (dt_stable a -> dt_stable b /\ dtype b = dtype a).
Proof.
  intros Hw Hv Hk Hg. unfold valid_keys, oselect in Hv. fold (ndim a) in Hv.
  destruct (np_expand keys (ndim a)) as [ks|] eqn:E; [|congruence].
  destruct (sel_keys ks (shape a)) as [s|] eqn:Es; [|congruence].
  rewrite (getitem_expand a keys ks) in Hg by auto. assert (KS a ks) as HK by (split; eauto).
  assert (E' : np_expand ks (ndim a) = Ok ks) by (apply np_expand_id; eapply np_expand_full; eauto).
  destruct (sound_all a ks ks s Hw E' Es HK) as (b' & Eb & Gb). assert (b' = b) by congruence. subst b'.
  split; [apply Gb|]. split; [|apply Gb]. intros m. unfold oindex, oselect. rewrite den_shape by auto. fold (ndim a). rewrite E, Es. apply Gb.
Qed.
End Sound.
