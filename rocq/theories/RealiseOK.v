(** RealiseOK: [ndarray()]/[masked_array()] of every class computes the array an
    expression denotes. *)
From Verif Require Import Base PySlice Keys NDArray Arrays Chunks Handlers Realise Spec Supported Lib SelLemmas KeyLemmas NewAxLemmas GetBase GetSimple GetBcast GetTrans GetStack GetMosaic GetItem ChunkLemmas AssignLemmas HandlerLemmas Realisable NumpyApply StreamLemmas RealOK.
From Coq Require Import ZifyBool ZifyNat.

(** *** newaxis *)
Lemma layout_keys sh na : length na = S (length sh) ->
  sel_keys (newax_layout KNew (repeat KFull (length sh)) na) sh = Some (newax_layout DNew (full_sels sh) na)
  /\ existsb is_ell (newax_layout KNew (repeat KFull (length sh)) na) = false
  /\ n_real (newax_layout KNew (repeat KFull (length sh)) na) = length sh
  /\ count_if is_seql (newax_layout KNew (repeat KFull (length sh)) na) = 0.
Proof.
  revert na; induction sh as [|n sh IH]; intros [|k na] H; simpl in H; try lia.
  - destruct na; [|simpl in H; lia]. cbn [newax_layout length repeat full_sels map]. rewrite !app_nil_r.
    induction k as [|k IHk]; [repeat split; auto|]. destruct IHk as (E1 & E2 & E3 & E4). cbn [repeat]. repeat split.
    + cbn [sel_keys]. rewrite E1. auto.
    + cbn [existsb]. rewrite E2. auto.
    + unfold n_real in *. rewrite count_if_cons, E3. auto.
    + rewrite count_if_cons, E4. auto.
  - destruct (IH na ltac:(lia)) as (E1 & E2 & E3 & E4). cbn [newax_layout length repeat full_sels map].
    induction k as [|k IHk].
    + cbn [repeat app]. repeat split.
      * rewrite sel_keys_cons_eq by auto. rewrite sel_key_full, E1. auto.
      * cbn [existsb]. rewrite E2. auto.
      * unfold n_real in *. rewrite count_if_cons, E3. auto.
      * rewrite count_if_cons, E4. auto.
    + destruct IHk as (F1 & F2 & F3 & F4). cbn [repeat app]. repeat split.
      * cbn [sel_keys]. rewrite F1. auto.
      * cbn [existsb]. rewrite F2. auto.
      * unfold n_real in *. rewrite count_if_cons, F3. auto.
      * rewrite count_if_cons, F4. auto.
Qed.

Lemma newax_real {W} (d : nd W) na : length na = S (length (nshape d)) ->
  exists r, np_index d (newax_layout KNew (repeat KFull (length (nshape d))) na) = Ok r
    /\ nd_eq r (nd_sel d (newax_layout DNew (full_sels (nshape d)) na)).
Proof.
  intros H. destruct (layout_keys (nshape d) na H) as (E1 & E2 & E3 & E4).
  eapply np_index_sel; eauto. apply np_expand_id. split; auto.
Qed.

(** *** broadcasting *)
Lemma zero_axes_length dict ax o : length (zero_axes dict ax o) = length o.
Proof. revert ax; induction o; intros; simpl; auto. Qed.
Lemma nth_zero_axes dict : forall o ax i, i < length o ->
  nth i (zero_axes dict ax o) 0 = match dict_find (ax + i) dict with Some _ => 0 | None => nth i o 0 end.
Proof.
  induction o as [|x o IH]; intros ax i Hi; simpl in Hi; [lia|]. destruct i as [|i]; simpl.
  - rewrite Nat.add_0_r. auto.
  - rewrite IH by lia. replace (ax + S i) with (S ax + i) by lia. auto.
Qed.
Lemma zero_axes_bidx sh dict sh' o : NoDup (map fst dict) -> shape_from_dict sh dict = Ok sh' -> inb sh' o ->
  zero_axes dict 0 o = bidx sh o.
Proof.
  intros HN HS Ho. apply sfd_char in HS as (HF & HL & HP); auto. pose proof (inb_length _ _ Ho) as HLo.
  apply (nth_error_ext_nth 0).
  - rewrite zero_axes_length, bidx_length by lia. lia.
  - rewrite zero_axes_length. intros i Hi. rewrite nth_zero_axes, nth_bidx by lia. simpl.
    pose proof (inb_nth _ _ i Ho ltac:(lia)) as Hb. rewrite HP in Hb by lia.
    destruct (dict_find i dict) as [n|] eqn:E.
    + apply dict_find_In in E. unfold dict_fits in HF. rewrite Forall_forall in HF. apply HF in E. simpl in E.
      destruct E as [_ ->]. auto.
    + destruct (Nat.eqb_spec (nth i sh 0) 1); auto. lia.
Qed.

Lemma bcast_real {W} (d : nd (option W)) dict lead : NoDup (map fst dict) -> is_ok (shape_from_dict (nshape d) dict) = true ->
  exists r, bcast_numpy d dict lead = Ok r
    /\ nd_eq r (mkND (lead ++ get_ok [] (shape_from_dict (nshape d) dict)) (fun o => nget d (bc_idx (nshape d) o))).
Proof.
  intros HN HS. unfold bcast_numpy. destruct (shape_from_dict (nshape d) dict) as [sh|] eqn:E; [|discriminate]. simpl.
  eexists; split; [reflexivity|]. split; auto. simpl. intros o Ho. f_equal.
  pose proof Ho as Ho'. apply Forall2_app_inv_r in Ho' as (o1 & o2 & H1 & H2 & ->). pose proof (inb_length _ _ H1) as L1.
  rewrite skipn_app, <- L1, skipn_all, Nat.sub_diag. cbn [skipn app].
  pose proof (inb_length _ _ H2) as L2. pose proof E as E'. apply sfd_char in E' as (_ & HL & _); auto.
  rewrite bc_idx_app by lia. eapply zero_axes_bidx; eauto.
Qed.

Lemma bcast_eq {W} (a b : nd W) dict lead sh' : nd_eq a b -> NoDup (map fst dict) -> shape_from_dict (nshape a) dict = Ok sh' ->
  nd_eq (mkND (lead ++ sh') (fun o => nget a (bc_idx (nshape a) o)))
        (mkND (lead ++ sh') (fun o => nget b (bc_idx (nshape b) o))).
Proof.
  intros [E1 E2] HN HS. split; auto. simpl. intros o Ho. rewrite <- E1. apply E2.
  apply Forall2_app_inv_r in Ho as (o1 & o2 & H1 & H2 & ->).
  pose proof (inb_length _ _ H2) as L2. pose proof HS as E'. apply sfd_char in E' as (_ & HL & _); auto.
  rewrite bc_idx_app by lia. eapply bidx_dict; eauto.
Qed.

(** *** transposition *)
Lemma transpose_real {W} (d : nd (option W)) axes : perm axes (length (nshape d)) ->
  nd_eq (np_transpose d axes) (nd_transpose axes d).
Proof.
  intros HP. split; auto. unfold np_transpose, nd_transpose. cbn [nshape nget]. intros o Ho. f_equal.
  pose proof (inb_length _ _ Ho) as HL. rewrite map_length in HL. pose proof (proj1 HP) as HA. rewrite !HA.
  apply scatter_index; auto. lia.
Qed.
Lemma transpose_inb axes sh o : perm axes (length sh) -> inb (map (fun ax => nth ax sh 0) axes) o ->
  inb sh (map (fun ax => match index_of ax axes with Some d => nth d o 0 | None => 0 end) (seq 0 (length axes))).
Proof.
  intros HP Ho. pose proof (proj1 HP) as HA. pose proof (inb_length _ _ Ho) as HL. rewrite map_length in HL.
  apply inb_ext; [rewrite map_length, seq_length; auto|]. intros i Hi. rewrite HA, nth_map_seq by auto.
  destruct (index_of_In _ _ (perm_In _ _ _ HP Hi)) as [j Ej]. rewrite Ej. apply index_of_Some in Ej as [J1 J2].
  pose proof (inb_nth _ _ j Ho ltac:(rewrite map_length; lia)) as H.
  rewrite (nth_map _ axes j 0 0) in H by auto. rewrite J2 in H. auto.
Qed.
Lemma transpose_eq {V} (a b : nd (option V)) axes : perm axes (length (nshape a)) -> nd_eq a b ->
  nd_eq (nd_transpose axes a) (nd_transpose axes b).
Proof.
  intros HP [E1 E2]. unfold nd_transpose. split; cbn [nshape nget]; [rewrite E1; auto|]. intros o Ho. apply E2.
  apply transpose_inb; auto.
Qed.

(** *** stacking *)
Lemma ravel_ndindex sh p : p < prodn sh -> ravel sh (nth p (ndindex sh) []) = p.
Proof.
  intros Hp. assert (Hi : inb sh (nth p (ndindex sh) [])). { apply ndindex_In, nth_In. rewrite ndindex_length; auto. }
  pose proof (nth_ndindex _ _ Hi) as E. pose proof (ravel_lt _ _ Hi) as Hl.
  apply (proj1 (NoDup_nth (ndindex sh) []) (NoDup_ndindex sh)); rewrite ?ndindex_length; auto.
Qed.

Lemma sel_keys_ints sh idx : inb sh idx -> sel_keys (map (fun i => KInt (Z.of_nat i)) idx) sh = Some (map DPt idx).
Proof.
  revert idx; induction sh as [|n sh IH]; intros idx H.
  - apply inb_nil in H; subst; auto.
  - apply inb_cons_inv in H as (i & o & -> & Hi & H). cbn [map]. rewrite sel_keys_cons_eq by auto. cbn [sel_key].
    rewrite norm_int_nat, IH by auto. auto.
Qed.
Lemma sel_pts_shape idx s : sel_shape (map DPt idx ++ s) = sel_shape s.
Proof. induction idx; simpl; auto. Qed.
Lemma sel_pts_map idx s o : sel_map (map DPt idx ++ s) o = idx ++ sel_map s o.
Proof. induction idx; simpl; auto. f_equal; auto. Qed.
Lemma in_sel_full sh o : inb sh o -> in_sel (full_sels sh) o = true.
Proof.
  unfold in_sel. revert o; induction sh as [|n sh IH]; intros o H.
  - apply inb_nil in H; subst; auto.
  - apply inb_cons_inv in H as (i & o' & -> & Hi & H). specialize (IH _ H). cbn [full_sels map sel_pos].
    rewrite index_of_seq by auto. unfold full_sels in IH. destruct (sel_pos _ o'); auto.
Qed.
Lemma in_sel_pts idx s o : in_sel (map DPt idx ++ s) (idx ++ o) = in_sel s o.
Proof.
  unfold in_sel. induction idx as [|i idx IH]; auto. cbn [map app sel_pos]. rewrite Nat.eqb_refl. auto.
Qed.

Lemma In_combine_nth {A B} (l : list A) (r : list B) da db p : length l = length r -> p < length l ->
  In (nth p l da, nth p r db) (combine l r).
Proof. intros H Hp. rewrite <- combine_nth by auto. apply nth_In. rewrite combine_length. lia. Qed.
Lemma Forall_combine_nth {A B} (P : A * B -> Prop) (l : list A) (r : list B) da db : length l = length r ->
  (forall p, p < length l -> P (nth p l da, nth p r db)) -> Forall P (combine l r).
Proof.
  intros H HP. apply Forall_forall. intros x Hx. apply In_nth with (d := (da, db)) in Hx as (p & Hp & <-).
  rewrite combine_nth by auto. apply HP. rewrite combine_length in Hp. lia.
Qed.

Lemma stack_real {V} (g : list nat -> option V) ssh (Ds ds : list (nd (option V))) ish :
  length Ds = prodn ssh -> Ds <> [] -> Forall (fun D => nshape D = ish) Ds -> Forall2 nd_eq ds Ds ->
  exists r, np_setitems (mkND (ssh ++ ish) g)
              (combine (map (map (fun i => KInt (Z.of_nat i))) (ndindex ssh)) ds) = Ok r
    /\ nd_eq r (nd_stack ssh Ds).
Proof.
  intros HL HN HS HF. pose proof (Forall2_length _ _ _ HF) as HLd.
  set (keys := map (map (fun i => KInt (Z.of_nat i))) (ndindex ssh)).
  assert (HLk : length keys = prodn ssh) by (unfold keys; rewrite map_length, ndindex_length; auto).
  set (dd := mkND (W := option V) [] (fun _ => None)).
  assert (HK : forall p, p < prodn ssh -> nth p keys [] = map (fun i => KInt (Z.of_nat i)) (nth p (ndindex ssh) [])).
  { intros p Hp. unfold keys. rewrite nth_map with (d' := []) by (rewrite ndindex_length; auto). auto. }
  assert (HA : forall p, p < prodn ssh -> assign_sels (nth p keys []) (ssh ++ ish)
                = Ok (map DPt (nth p (ndindex ssh) []) ++ full_sels ish)).
  { intros p Hp. rewrite HK by auto.
    assert (Hin : inb ssh (nth p (ndindex ssh) [])) by (apply ndindex_In, nth_In; rewrite ndindex_length; auto).
    apply assign_sels_prefix; [|rewrite map_length; apply inb_length; auto|apply sel_keys_ints; auto].
    apply forallb_forall. intros k Hk. apply in_map_iff in Hk as (i & <- & _). auto. }
  assert (HD : nshape (nd_stack ssh Ds) = ssh ++ ish).
  { destruct Ds as [|D Ds]; [congruence|]. inversion HS; subst. auto. }
  apply setitems_cover; auto.
  - apply Forall_combine_nth with (da := []) (db := dd); [lia|]. intros p Hp. rewrite HLk in Hp. cbn [fst snd].
    eexists; split; [apply HA; auto|].
    assert (Hin : inb ssh (nth p (ndindex ssh) [])) by (apply ndindex_In, nth_In; rewrite ndindex_length; auto).
    pose proof (Forall2_nth _ _ _ dd dd p HF ltac:(lia)) as He.
    assert (Hsh : nshape (nth p Ds dd) = ish) by (rewrite Forall_forall in HS; apply HS, nth_In; lia).
    eapply nd_eq_trans; [exact He|]. split.
    + simpl. rewrite sel_pts_shape, sel_shape_full. auto.
    + rewrite Hsh. intros o Ho. cbn [nd_sel nget nd_stack]. rewrite sel_pts_map, sel_map_full by auto.
      pose proof (inb_length _ _ Hin) as Hli. rewrite firstn_app, <- Hli, firstn_all, Nat.sub_diag. cbn [firstn].
      rewrite app_nil_r, ravel_ndindex by auto. rewrite skipn_app, skipn_all, Nat.sub_diag. auto.
  - intros o Ho. apply Forall2_app_inv_r in Ho as (o1 & o2 & H1 & H2 & ->).
    pose proof (ravel_lt _ _ H1) as Hr. exists (nth (ravel ssh o1) keys [], nth (ravel ssh o1) ds dd).
    eexists. split; [apply In_combine_nth; lia|]. cbn [fst]. split; [apply HA; auto|].
    rewrite nth_ndindex by auto. rewrite in_sel_pts. apply in_sel_full; auto.
Qed.

(** *** concatenation *)
Lemma sel_shape_axis ax l : forall sh, ax < length sh -> sel_shape (set_nth ax (DLs l) (full_sels sh)) = set_nth ax (length l) sh.
Proof.
  induction ax as [|ax IH]; intros [|n sh] H; simpl in H; try lia; cbn [full_sels map set_nth sel_shape].
  - f_equal. apply sel_shape_full.
  - rewrite seq_length. f_equal. apply IH. lia.
Qed.
Lemma sel_map_axis ax l : forall sh o, ax < length sh -> inb (set_nth ax (length l) sh) o ->
  sel_map (set_nth ax (DLs l) (full_sels sh)) o = set_nth ax (nth (nth ax o 0) l 0) o.
Proof.
  induction ax as [|ax IH]; intros [|n sh] o H Ho; simpl in H; try lia; cbn [set_nth] in Ho;
    apply inb_cons_inv in Ho as (i & o' & -> & Hi & Ho); cbn [full_sels map set_nth sel_map nth].
  - f_equal. apply sel_map_full. auto.
  - rewrite seq_nth by auto. simpl. f_equal. apply IH; auto. lia.
Qed.
Lemma in_sel_axis ax l : forall sh o, ax < length sh -> length o = length sh ->
  (forall i, i < length sh -> i <> ax -> nth i o 0 < nth i sh 0) -> In (nth ax o 0) l ->
  in_sel (set_nth ax (DLs l) (full_sels sh)) o = true.
Proof.
  induction ax as [|ax IH]; intros [|n sh] [|x o] H HL Hb Hin; simpl in H, HL; try lia;
    cbn [full_sels map set_nth nth]; unfold in_sel; cbn [sel_pos].
  - cbn [nth] in Hin. destruct (index_of_In _ _ Hin) as [j ->].
    assert (Hf : in_sel (full_sels sh) o = true).
    { apply in_sel_full. apply inb_ext; [lia|]. intros i Hi. apply (Hb (S i)); simpl; lia. }
    unfold in_sel, full_sels in Hf. destruct (sel_pos _ o); auto.
  - assert (Hf : in_sel (set_nth ax (DLs l) (full_sels sh)) o = true).
    { apply IH; try lia; auto. intros i Hi Hne. apply (Hb (S i)); simpl; lia. }
    rewrite index_of_seq by (apply (Hb 0); simpl; lia).
    unfold in_sel, full_sels in Hf. destruct (sel_pos _ o); auto.
Qed.

Lemma sel_keys_full sh : sel_keys (repeat KFull (length sh)) sh = Some (full_sels sh).
Proof.
  induction sh as [|n sh IH]; auto. cbn [length repeat]. rewrite sel_keys_cons_eq by auto. rewrite sel_key_full, IH. auto.
Qed.
Lemma nonew_full n : nonew (repeat KFull n).
Proof. unfold nonew. induction n; auto. Qed.

Lemma mosaic_real {V} (g : list nat -> option V) axis (Ds ds : list (nd (option V))) sh0 :
  Ds <> [] -> axis < length sh0 ->
  Forall (fun D => axis < length (nshape D) /\ remove_at axis (nshape D) = remove_at axis sh0) Ds ->
  Forall2 nd_eq ds Ds ->
  let lens := map (fun D => nth axis (nshape D) 0) Ds in
  let tot := fold_right Nat.add 0 lens in
  nshape (nd_concat Ds axis) = set_nth axis tot sh0 ->
  exists r, np_setitems (mkND (set_nth axis tot sh0) g) (mosaic_writes (length sh0) axis lens ds) = Ok r
    /\ nd_eq r (nd_concat Ds axis).
Proof.
  intros HN Hax HS HF lens tot HSh. pose proof (Forall2_length _ _ _ HF) as HLd.
  assert (HLl : length lens = length Ds) by (unfold lens; apply map_length).
  set (dd := mkND (W := option V) [] (fun _ => None)).
  set (keys := map (fun on => set_nth axis (sl (fst on) (fst on + snd on)) (repeat KFull (length sh0)))
                   (combine (offsets_from 0 lens) lens)).
  assert (HLk : length keys = length Ds).
  { unfold keys. rewrite map_length, combine_length, offsets_length. lia. }
  assert (Hnl : forall p, p < length Ds -> nth p lens 0 = nth axis (nshape (nth p Ds dd)) 0).
  { intros p Hp. unfold lens. rewrite nth_map with (d' := dd) by auto. auto. }
  assert (HA : forall p, p < length Ds -> assign_sels (nth p keys []) (set_nth axis tot sh0)
                = Ok (set_nth axis (DLs (seq (fold_right Nat.add 0 (firstn p lens)) (nth p lens 0))) (full_sels sh0))).
  { intros p Hp. unfold keys. rewrite nth_map with (d' := (0, 0)) by (rewrite combine_length, offsets_length; lia).
    rewrite combine_nth by (rewrite offsets_length; auto). cbn [fst snd]. rewrite nth_offsets by lia. simpl.
    set (off := fold_right Nat.add 0 (firstn p lens)).
    assert (Hle : off + nth p lens 0 <= tot).
    { unfold off, tot. destruct (nth p lens 0) as [|q] eqn:Eq.
      - rewrite Nat.add_0_r. clear. revert p. induction lens; intros [|p]; simpl; try lia. specialize (IHlens p). lia.
      - pose proof (sum_firstn_lt lens p q ltac:(lia) ltac:(lia)). lia. }
    apply assign_sels_ok.
    - apply forallb_forall. intros k Hk. apply In_nth with (d := KFull) in Hk as (i & Hi & <-).
      destruct (Nat.eq_dec axis i) as [<-|Ne].
      + rewrite nth_set_nth_eq by (rewrite repeat_length; auto). auto.
      + rewrite nth_set_nth_neq by auto. rewrite nth_repeat. auto.
    - apply sel_keys_set; auto; [apply nonew_full|apply sel_keys_full|].
      rewrite sel_key_sl by lia. do 3 f_equal. lia. }
  apply setitems_cover; auto.
  - unfold mosaic_writes. fold keys. apply Forall_combine_nth with (da := []) (db := dd); [lia|].
    intros p Hp. rewrite HLk in Hp. cbn [fst snd]. eexists; split; [apply HA; auto|].
    pose proof (Forall2_nth _ _ _ dd dd p HF ltac:(lia)) as He. eapply nd_eq_trans; [exact He|].
    assert (Hq : axis < length (nshape (nth p Ds dd)) /\ remove_at axis (nshape (nth p Ds dd)) = remove_at axis sh0)
      by (rewrite Forall_forall in HS; apply HS, nth_In; auto).
    destruct Hq as [Q1 Q2]. pose proof (set_nth_remove axis 0 _ _ Q1 Hax Q2) as Esh. rewrite <- Hnl in Esh by auto.
    split.
    + cbn [nd_sel nshape]. rewrite sel_shape_axis, seq_length by auto. auto.
    + intros o Ho. cbn [nd_sel nget]. rewrite Esh in Ho. rewrite sel_map_axis by (auto; rewrite seq_length; auto).
      pose proof (inb_nth _ _ axis Ho ltac:(rewrite set_nth_length; auto)) as Hi. rewrite nth_set_nth_eq in Hi by auto.
      pose proof (inb_length _ _ Ho) as HLo. rewrite set_nth_length in HLo.
      rewrite seq_nth by auto. unfold nd_concat. cbn [nget].
      rewrite (concat_at _ axis _ p (nth axis o 0) dd).
      * rewrite set_nth_set_nth, set_nth_same. auto.
      * rewrite set_nth_length. lia.
      * auto.
      * rewrite <- Hnl by auto. auto.
      * fold lens. rewrite nth_set_nth_eq by lia. auto.
  - intros o Ho. pose proof (inb_length _ _ Ho) as HLo. rewrite set_nth_length in HLo.
    pose proof (inb_nth _ _ axis Ho ltac:(rewrite set_nth_length; auto)) as Hi. rewrite nth_set_nth_eq in Hi by auto.
    destruct (offset_split lens _ Hi) as (p & i & Hp & Hip & Ei).
    exists (nth p keys [], nth p ds dd). eexists. split; [unfold mosaic_writes; fold keys; apply In_combine_nth; lia|].
    cbn [fst]. split; [apply HA; lia|]. apply in_sel_axis; auto.
    + intros k Hk Hne. pose proof (inb_nth _ _ k Ho ltac:(rewrite set_nth_length; auto)) as H.
      rewrite nth_set_nth_neq in H by auto. auto.
    + rewrite Ei. apply in_seq. lia.
Qed.

(** *** All classes *)
Section Real.
Context {V : Type} (O : numops V).
Notation cell := (option V).
Notation barr := (@barr V).
Variable maxc : nat.
Variable garbage : list nat -> cell.
Variable m : bool.
Variable HG : @agg V -> nat -> Prop.
Hypothesis HR : forall g, handler_right O m g (HG g).
Notation realise := (realise O maxc garbage).
Notation realisable := (realisable maxc m HG).

Lemma adapter_real ortho (c : @concrete V) ks : Forall stored_key ks -> valid_keys ks (c_shape c) ->
  (ortho = true \/ numpy_ok ks) -> (m = true \/ shape (AAdapt ortho c ks) <> [] \/ forall i, c_cell c i <> None) ->
  exists d, realise_adapter O m ortho c ks = Ok d /\ nd_eq d (den O m (AAdapt ortho c ks)).
Proof using.
  clear HR. intros HS HV Hok H0. unfold valid_keys in HV.
  destruct (oselect ks (c_shape c)) as [s|] eqn:Es; [|congruence].
  pose (src := mkND (c_shape c) (c_cell c)).
  assert (HA : exists r, (if ortho then apply_ortho src ks else apply_numpy src ks) = Ok r /\ nd_eq r (nd_sel src s)).
  { destruct ortho; [apply apply_ortho_ok; auto|]. destruct Hok as [Hok|Hok]; [discriminate|]. apply apply_numpy_ok; auto. }
  destruct HA as (r & Er & Hr). unfold realise_adapter. fold src. rewrite Er. cbn [bind]. eexists; split; [reflexivity|].
  cbn [den]. unfold oindex. cbn [nshape]. rewrite Es. fold src.
  assert (Hsh : shape (AAdapt ortho c ks) = sel_shape s).
  { cbn [shape]. rewrite (sliced_shape_ok _ _ _ Es) by (apply sel_key_stored_list; auto). auto. }
  destruct Hr as [Hr1 Hr2]. split; [cbn [nd_map nshape]; auto|]. cbn [nd_map nshape nget]. intros o Ho.
  rewrite Hr2 by auto. rewrite Hr1. unfold adapter_cell, fill_cell. cbn [nd_sel nshape nget].
  destruct (nget src (sel_map s o)) as [v|] eqn:Ev; auto. destruct m; auto.
  destruct H0 as [H0|[H0|H0]]; [discriminate| |].
  - rewrite Hsh in H0. destruct (sel_shape s); [congruence|auto].
  - destruct (H0 _ Ev).
Qed.

Lemma map_nd_eq_Forall2 {A} (P : A -> Prop) (f : A -> res (nd cell)) (D : A -> nd cell) l :
  (forall x, In x l -> exists d, f x = Ok d /\ nd_eq d (D x)) ->
  exists ds, mapM f l = Ok ds /\ Forall2 nd_eq ds (map D l).
Proof using.
  intros H. destruct (mapM_exists f (fun x d => nd_eq d (D x)) l H) as (ds & E & F). exists ds. split; auto.
  clear -F. induction F; constructor; auto.
Qed.

Lemma realise_ok fuel : forall a, wf a -> realisable fuel a ->
  exists d, realise fuel m a = Ok d /\ nd_eq d (den O m a).
Proof.
  induction fuel as [|f IHf]; [intros ? ? []|]. intros a.
  induction a as [sh v d|o c ks|a na IH|a dict lead IH|a d IH|a v IH|a axes IH|ssh items IH|tiles axis IH
                  |g a axis d IH|o a d IH|o a b d IH1 IH2] using barr_ind2; intros Hw HS.
  - exists (mkND sh (fun _ => Some v)). split; auto. apply nd_eq_refl.
  - destruct Hw as [W1 W2]. destruct HS as [S1 S2].
    change (realise (S f) m (AAdapt o c ks)) with (realise_adapter O m o c ks). apply adapter_real; auto.
  - destruct Hw as [Hw HL]. destruct (IH Hw HS) as (d & Ed & Hd).
    change (realise (S f) m (ANewAx a na)) with
      (d <- realise (S f) m a ;; np_index d (newax_layout KNew (repeat KFull (ndim a)) na)).
    rewrite Ed. cbn [bind]. pose proof (proj1 Hd) as Hsh. pose proof (den_shape O m a Hw) as Hda.
    destruct (newax_real d na) as (r & Er & Hr). { rewrite Hsh, Hda. exact HL. }
    assert (En : ndim a = length (nshape d)) by (unfold ndim; congruence). rewrite En.
    exists r. split; auto. eapply nd_eq_trans; [exact Hr|]. cbn [den]. rewrite Hsh. apply nd_sel_eq; auto.
    rewrite Hsh. rewrite Hda. eapply sel_keys_valid. apply layout_keys. exact HL.
  - destruct Hw as (Hw & W1 & W2 & W3). destruct (IH Hw HS) as (d & Ed & Hd).
    change (realise (S f) m (ABcast a dict lead)) with (d <- realise (S f) m a ;; bcast_numpy d dict lead).
    rewrite Ed. cbn [bind]. pose proof (proj1 Hd) as Hsh. pose proof (den_shape O m a Hw) as Hda.
    destruct (bcast_real d dict lead W1) as (r & Er & Hr). { rewrite Hsh, Hda. auto. }
    exists r. split; auto. eapply nd_eq_trans; [exact Hr|]. cbn [den]. rewrite <- Hsh.
    destruct (shape_from_dict (nshape d) dict) as [sh'|] eqn:Es.
    + cbn [get_ok]. rewrite Hsh. pose proof (bcast_eq d (den O m a) dict lead sh' Hd W1 Es) as H. rewrite Hsh in H. exact H.
    + rewrite Hsh, Hda in Es. rewrite Es in W2. discriminate.
  - destruct (IH Hw HS) as (x & Ex & Hx).
    change (realise (S f) m (AAsTy a d)) with (x <- realise (S f) m a ;; Ok (nd_map (lift1 (vcast O d)) x)).
    rewrite Ex. cbn [bind]. eexists; split; [reflexivity|]. apply (nd_map_eq (map_cell (vcast O d))). auto.
  - destruct (IH Hw HS) as (x & Ex & Hx).
    change (realise (S f) m (AMaskV a v)) with (x <- realise (S f) m a ;; Ok (nd_map (mask_equal O m v) x)).
    rewrite Ex. cbn [bind]. eexists; split; [reflexivity|]. cbn [den]. eapply nd_eq_trans; [apply nd_map_eq; exact Hx|].
    split; auto. intros i Hi. cbn [nd_map nget]. unfold mask_equal, eq_mask. destruct (nget _ i); auto. destruct m; auto.
  - destruct Hw as (Hw & W1 & W2 & W3). destruct (IH Hw HS) as (d & Ed & Hd).
    change (realise (S f) m (ATrans a axes)) with (d <- realise (S f) m a ;; Ok (np_transpose d axes)).
    rewrite Ed. cbn [bind]. eexists; split; [reflexivity|].
    pose proof (proj1 Hd) as Hsh. pose proof (den_shape O m a Hw) as Hda.
    assert (HP : perm axes (length (nshape d))). { rewrite Hsh, Hda. split; [|split]; auto. }
    eapply nd_eq_trans; [apply transpose_real; auto|]. cbn [den]. apply transpose_eq; auto.
  - destruct Hw as (Hne & HL & Hw & HF). apply wf_items in Hw.
    assert (HS' : Forall (realisable (S f)) items) by (apply fold_right_and_Forall; exact HS).
    change (realise (S f) m (AStack ssh items)) with
      (ds <- mapM (realise (S f) m) items ;;
       np_setitems (mkND (shape (AStack ssh items)) garbage) (combine (map (map (fun i => KInt (Z.of_nat i))) (ndindex ssh)) ds)).
    destruct (map_nd_eq_Forall2 (fun _ => True) (realise (S f) m) (den O m) items) as (ds & Eds & Fds).
    { intros x Hx. rewrite Forall_forall in IH, Hw, HS'. apply IH; auto. apply Hw; auto. }
    rewrite Eds. cbn [bind den]. destruct items as [|it items]; [congruence|]. cbn [shape].
    apply stack_real; auto.
    + rewrite map_length. auto.
    + discriminate.
    + apply Forall_map. rewrite Forall_forall in *. intros x Hx. rewrite den_shape by (apply Hw; auto).
      apply (HF x Hx).
  - destruct Hw as (Hne & Hw & HF). apply wf_items in Hw.
    assert (HS' : Forall (realisable (S f)) tiles) by (apply fold_right_and_Forall; exact HS).
    change (realise (S f) m (AMosaic tiles axis)) with
      (ds <- mapM (realise (S f) m) tiles ;;
       np_setitems (mkND (shape (AMosaic tiles axis)) garbage)
         (mosaic_writes (ndim (AMosaic tiles axis)) axis (map (fun t => nth axis (shape t) 0) tiles) ds)).
    destruct (map_nd_eq_Forall2 (fun _ => True) (realise (S f) m) (den O m) tiles) as (ds & Eds & Fds).
    { intros x Hx. rewrite Forall_forall in IH, Hw, HS'. apply IH; auto. apply Hw; auto. }
    rewrite Eds. cbn [bind den]. pose proof (den_shape O m (AMosaic tiles axis)) as HD.
    assert (Hlens : map (fun D => nth axis (nshape D) 0) (map (den O m) tiles) = map (fun t => nth axis (shape t) 0) tiles).
    { rewrite map_map. apply map_ext_in. intros t Ht. rewrite Forall_forall in Hw. rewrite den_shape; auto. apply Hw; auto. }
    destruct tiles as [|t0 tiles]; [congruence|].
    pose proof (mosaic_real garbage axis (map (den O m) (t0 :: tiles)) ds (shape t0)) as HM. cbv zeta in HM. rewrite Hlens in HM.
    assert (Hsh : shape (AMosaic (t0 :: tiles) axis)
                  = set_nth axis (fold_right Nat.add 0 (map (fun t => nth axis (shape t) 0) (t0 :: tiles))) (shape t0)).
    { cbn [shape map fold_right]. rewrite fold_left_add_acc. auto. }
    unfold ndim. rewrite Hsh. rewrite set_nth_length. apply HM; auto.
    + discriminate.
    + inversion HF as [|x l H1 H2]; subst. apply H1.
    + apply Forall_map. rewrite Forall_forall in *. intros x Hx. rewrite den_shape by (apply Hw; auto).
      destruct (HF x Hx) as (F1 & F2 & _). split; auto.
    + rewrite <- Hsh. apply HD. split; [discriminate|]. split; auto. apply wf_items; auto.
  - change (realise (S f) m (AAgg g a axis d)) with (engine_eval O maxc garbage (realise f m) m (AAgg g a axis d)).
    eapply engine_ok; eauto.
  - destruct HS as [Hop HS]. change (realise (S f) m (AEl1 o a d)) with
      (h <- op1_fun m o ;; x <- engine_eval O maxc garbage (realise f m) m a ;; Ok (nd_map h x)).
    rewrite (op1_ok m o Hop). cbn [bind].
    destruct (engine_ok O maxc garbage m HG HR (realisable f) (realise f m) IHf a Hw HS) as (x & Ex & Hx).
    rewrite Ex. cbn [bind]. eexists; split; [reflexivity|]. cbn [den]. apply nd_map_eq. auto.
  - destruct Hw as (Wa & Wb & Wsh). destruct HS as (Hop & HSa & HSb). change (realise (S f) m (AEl2 o a b d)) with
      (h <- op2_fun m o ;; x <- engine_eval O maxc garbage (realise f m) m a ;;
       y <- engine_eval O maxc garbage (realise f m) m b ;; np_op2 h x y).
    rewrite (op2_ok m o Hop). cbn [bind].
    destruct (engine_ok O maxc garbage m HG HR (realisable f) (realise f m) IHf a Wa HSa) as (x & Ex & Hx).
    destruct (engine_ok O maxc garbage m HG HR (realisable f) (realise f m) IHf b Wb HSb) as (y & Ey & Hy).
    rewrite Ex. cbn [bind]. rewrite Ey. cbn [bind].
    destruct Hx as [X1 X2], Hy as [Y1 Y2]. pose proof (den_shape O m a Wa) as Da. pose proof (den_shape O m b Wb) as Db.
    destruct (np_op2_same (op2_sem m o) x y) as (r & Er & Sr & Gr). { congruence. }
    exists r. split; auto. split.
    + cbn [den nshape]. congruence.
    + rewrite Sr. intros i Hi. rewrite Gr by auto. cbn [den nget]. rewrite X2, Y2; auto. rewrite Y1, Db, <- Wsh, <- Da, <- X1. auto.
Qed.
End Real.
