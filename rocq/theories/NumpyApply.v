(** NumpyApply: what the adapters read from their source. *)
From Verif Require Import Base PySlice Keys NDArray Arrays Chunks Handlers Realise Spec Supported Realisable Lib SelLemmas KeyLemmas GetBase GetSimple GetBcast GetTrans GetStack GetMosaic ChunkLemmas AssignLemmas.

Lemma stored_expand ks n : Forall stored_key ks -> length ks <= n ->
  np_expand ks n = Ok (ks ++ repeat KFull (n - length ks)).
Proof.
  intros HS HL.
  assert (HE : existsb is_ell ks = false).
  { apply existsb_false_Forall. eapply Forall_impl; [|apply HS]. intros []; simpl; auto; contradiction. }
  assert (HN : n_real ks = length ks).
  { unfold n_real. clear HL HE. induction HS as [|k ks H HS IH]; auto. rewrite count_if_cons, IH. destruct k; try contradiction; auto. }
  unfold np_expand. rewrite HE. pose proof (proj2 (count_if_0 is_ell ks) HE) as ->. rewrite HN. cbn [Nat.ltb].
  replace (1 <=? 0) with false by auto. destruct (Nat.ltb_spec n (length ks)); [lia|]. auto.
Qed.

Lemma stored_valid ks sh s : Forall stored_key ks -> oselect ks sh = Some s ->
  length ks <= length sh /\ sel_keys (ks ++ repeat KFull (length sh - length ks)) sh = Some s
  /\ nonew (ks ++ repeat KFull (length sh - length ks)).
Proof.
  intros HS H. unfold oselect in H.
  assert (HL : length ks <= length sh).
  { destruct (Nat.le_gt_cases (length ks) (length sh)) as [|H1]; auto. exfalso.
    unfold np_expand in H. assert (HN : n_real ks = length ks).
    { unfold n_real. clear H H1. induction HS as [|k ks H HS IH]; auto. rewrite count_if_cons, IH. destruct k; try contradiction; auto. }
    rewrite HN in H. destruct (1 <? count_if is_ell ks); [discriminate|].
    destruct (Nat.ltb_spec (length sh) (length ks)); [discriminate|lia]. }
  rewrite stored_expand in H by auto. split; auto. split; auto.
  apply nonew_app. split.
  - apply existsb_false_Forall. eapply Forall_impl; [|apply HS]. intros []; simpl; auto; contradiction.
  - apply existsb_false_Forall. apply Forall_forall. intros k Hk. apply repeat_spec in Hk. subst; auto.
Qed.

Lemma drop_while_app_full (p : key -> bool) ks m : p KFull = false ->
  existsb is_point (drop_while p (ks ++ repeat KFull m)) = existsb is_point (drop_while p ks).
Proof.
  intros Hp. assert (HR : existsb is_point (repeat KFull m) = false) by (induction m; auto).
  induction ks as [|k ks IH]; simpl.
  - destruct m; auto. cbn [repeat drop_while]. rewrite Hp. auto.
  - destruct (p k); auto. change (k :: ks ++ repeat KFull m) with ((k :: ks) ++ repeat KFull m).
    rewrite existsb_app, HR, orb_false_r. auto.
Qed.

Lemma drop_nonpoint_app ks m : exists m', drop_while (fun k => negb (is_point k)) (ks ++ repeat KFull m)
  = drop_while (fun k => negb (is_point k)) ks ++ repeat KFull m'.
Proof.
  induction ks as [|k ks IH]; simpl.
  - exists 0. induction m; auto.
  - destruct (negb (is_point k)); auto. exists m. auto.
Qed.

Lemma one_block_full ks m : one_block (ks ++ repeat KFull m) = one_block ks.
Proof.
  unfold one_block. f_equal. destruct (drop_nonpoint_app ks m) as [m' ->]. apply drop_while_app_full. auto.
Qed.

Lemma one_seq_full ks m : one_seq ks -> one_seq (ks ++ repeat KFull m).
Proof.
  unfold one_seq. rewrite count_if_app, one_block_full.
  replace (count_if is_seq (repeat KFull m)) with 0; [rewrite Nat.add_0_r; auto|].
  symmetry. apply count_if_0. induction m; auto.
Qed.

Lemma stored_nolist ks : Forall stored_key ks -> existsb is_list ks = false.
Proof. intros HS. apply existsb_false_Forall. eapply Forall_impl; [|apply HS]. intros []; simpl; auto; contradiction. Qed.

(** NumPy indexing of stored keys with at most one sequence. *)
Lemma np_index_stored {W} (a : nd W) ks s : Forall stored_key ks -> oselect ks (nshape a) = Some s ->
  one_seq ks -> exists r, np_index a ks = Ok r /\ nd_eq r (nd_sel a s).
Proof.
  intros HS Hs H1. destruct (stored_valid _ _ _ HS Hs) as (HL & Hk & HN).
  eapply np_index_sel; [apply stored_expand; auto|eauto|].
  destruct (is_seql_nolist (ks ++ repeat KFull (length (nshape a) - length ks))) as [-> ->].
  - rewrite existsb_app, (stored_nolist _ HS). apply nolist_repeat.
  - apply one_seq_full. auto.
Qed.

Lemma tuple_keys_from i ks : forall j, i = j ->
  flat_map (fun ik => match snd ik with KTuple l => [(fst ik, l)] | _ => [] end) (combine (seq i (length ks)) ks)
  = flat_map (fun ik => match snd ik with KTuple l => [(fst ik, l)] | _ => [] end) (combine (seq j (length ks)) ks).
Proof. intros j ->. auto. Qed.

Definition tup_from (i : nat) (ks : list key) : list (nat * list Z) :=
  flat_map (fun ik => match snd ik with KTuple l => [(fst ik, l)] | _ => [] end) (combine (seq i (length ks)) ks).

Lemma tup_from_app_full i ks m : tup_from i (ks ++ repeat KFull m) = tup_from i ks.
Proof.
  unfold tup_from. revert i; induction ks as [|k ks IH]; intros i; simpl.
  - revert i; induction m as [|m IHm]; intros i; simpl; auto.
  - rewrite IH. auto.
Qed.
Lemma tup_from_length i ks : length (tup_from i ks) = count_if is_tup ks.
Proof.
  unfold tup_from. revert i; induction ks as [|k ks IH]; intros i; auto. simpl. rewrite app_length, IH, count_if_cons.
  destruct k; auto.
Qed.
Lemma tup_from_In i ks it : In it (tup_from i ks) -> i <= fst it /\ fst it < i + length ks /\ In (KTuple (snd it)) ks.
Proof.
  unfold tup_from. revert i; induction ks as [|k ks IH]; intros i H; [destruct H|]. simpl in H.
  apply in_app_iff in H as [H|H].
  - destruct k; try destruct H. + subst it. simpl. split; auto. split; auto; lia. + destruct H.
  - apply IH in H as (H1 & H2 & H3). simpl. split; [lia|]. split; [lia|auto].
Qed.

Lemma foldM_ext {A S} (f g : S -> A -> res S) l s : (forall s x, In x l -> f s x = g s x) -> foldM f s l = foldM g s l.
Proof.
  revert s; induction l as [|x l IH]; intros s H; simpl; auto. rewrite H by (simpl; auto).
  destruct (g s x); simpl; auto. apply IH. intros. apply H. simpl; auto.
Qed.

Lemma sel_cut_scalar ks sh s : nonew ks -> sel_keys (cut_keys ks) sh = Some s ->
  nonew (cut_keys ks).
Proof.
  intros HN _. unfold nonew, cut_keys in *. rewrite existsb_false_Forall in *. apply Forall_map.
  eapply Forall_impl; [|apply HN]. intros k; destruct k; auto.
Qed.

Section Takes.
Context {W : Type}.

Lemma np_take_ok (a : nd W) cs i n l r (arr : nd W) : Forall (fun d => d <> DNew) cs -> i < length cs ->
  nth i cs DNew = DLs (seq 0 n) -> norm_ints l n = Some r -> l <> [] -> nd_eq arr (nd_sel a cs) ->
  vsel cs (nshape a) ->
  exists arr', np_take arr l (rk cs i) = Ok arr' /\ nd_eq arr' (nd_sel a (set_nth i (DLs r) cs)).
Proof.
  intros HF Hi Hd Hr Hl [HA1 HA2] HV. unfold np_take. destruct l as [|z l]; [congruence|].
  destruct (nth_sel_shape cs i _ HF Hi Hd) as [Hn Hrk]. rewrite seq_length in Hn.
  rewrite HA1. cbn [nd_sel nshape]. rewrite Hn, Hr.
  pose proof (norm_ints_bound _ _ _ Hr) as HB.
  eexists; split; [reflexivity|]. split.
  - cbn [nd_sel nshape]. symmetry. eapply sel_shape_set; eauto.
  - cbn [nd_sel nshape nget]. intros o Ho. pose proof (inb_length _ _ Ho) as HLo. rewrite set_nth_length in HLo.
    assert (Ho2 : nth (rk cs i) o 0 < length r).
    { pose proof (inb_nth _ _ (rk cs i) Ho) as H. rewrite set_nth_length, nth_set_nth_eq in H by auto. auto. }
    rewrite HA2.
    + cbn [nd_sel nget]. f_equal.
      set (q := nth (nth (rk cs i) o 0) r 0). assert (Hq : q < n) by (unfold q; apply (nth_Forall (fun j => j < n)); auto).
      rewrite <- (set_nth_same i DNew cs) at 1. rewrite Hd.
      rewrite (sel_map_set cs i (seq 0 n)) by auto. rewrite seq_nth by auto. simpl plus.
      symmetry. rewrite <- (set_nth_same (rk cs i) 0 o) at 1.
      rewrite (sel_map_set cs i (seq 0 n)) by auto. auto.
    + rewrite HA1. cbn [nd_sel nshape]. apply inb_ext.
      * rewrite set_nth_length. auto.
      * intros k Hk. destruct (Nat.eq_dec k (rk cs i)) as [->|N].
        -- rewrite nth_set_nth_eq by lia. rewrite Hn. apply (nth_Forall (fun j => j < n)); auto.
        -- rewrite nth_set_nth_neq by auto. pose proof (inb_nth _ _ k Ho) as H.
           rewrite set_nth_length, nth_set_nth_neq in H by auto. apply H. auto.
Qed.

Lemma cut_keys_sel ks sh s : nonew ks -> sel_keys ks sh = Some s ->
  exists s0, sel_keys (cut_keys ks) sh = Some s0 /\ length s0 = length s.
Proof.
  intros HN. revert sh s; induction ks as [|k ks IH]; intros sh s H.
  - destruct sh; simpl in H; [|discriminate]. injection H as <-. exists []. auto.
  - apply nonew_cons in HN as [HN1 HN2]. destruct sh as [|n sh].
    { destruct k; discriminate. }
    apply sel_keys_inv in H as (d & r & -> & E1 & E2); auto. destruct (IH HN2 _ _ E2) as (r0 & E3 & E4).
    cbn [cut_keys map]. fold (cut_keys ks). destruct (is_tuple k) eqn:Et.
    + exists (DLs (seq 0 n) :: r0). rewrite sel_keys_cons_eq by auto. rewrite sel_key_full, E3. simpl. auto.
    + exists (d :: r0). rewrite sel_keys_cons_eq by auto. rewrite E1, E3. simpl. auto.
Qed.

Lemma vsel_app s1 sh1 s2 sh2 : vsel s1 sh1 -> vsel s2 sh2 -> vsel (s1 ++ s2) (sh1 ++ sh2).
Proof.
  revert sh1; induction s1 as [|d s1 IH]; intros sh1 H1 H2.
  - destruct sh1; [auto|destruct H1].
  - destruct d as [i|l|], sh1 as [|n sh1]; simpl in H1 |- *; try contradiction; try (destruct H1; split; auto; fail).
    + apply (IH []); auto.
    + apply (IH (n :: sh1)); auto.
Qed.

Lemma takes_ok (a : nd W) suf : forall pre shp shs sfp sfs s0s arr,
  nonew pre -> nonew suf -> nshape a = shp ++ shs -> length pre = length shp ->
  sel_keys pre shp = Some sfp -> sel_keys suf shs = Some sfs -> sel_keys (cut_keys suf) shs = Some s0s ->
  (forall l, In (KTuple l) suf -> l <> []) ->
  nd_eq arr (nd_sel a (sfp ++ s0s)) ->
  exists r, foldM (fun arr it => np_take arr (snd it) (fst it - count_if is_scalar (firstn (S (fst it)) (cut_keys (pre ++ suf)))))
                  arr (tup_from (length pre) suf) = Ok r
            /\ nd_eq r (nd_sel a (sfp ++ sfs)).
Proof.
  induction suf as [|k suf IH]; intros pre shp shs sfp sfs s0s arr HNp HNs Hsh HL Hp Hs H0 Hne HA.
  - destruct shs; simpl in Hs, H0; try discriminate. injection Hs as <-. injection H0 as <-. exists arr. auto.
  - apply nonew_cons in HNs as [HN1 HN2]. destruct shs as [|n shs]. { destruct k; discriminate. }
    apply sel_keys_inv in Hs as (d & r & -> & E1 & E2); auto.
    cbn [cut_keys map] in H0. fold (cut_keys suf) in H0.
    assert (Hk0 : is_new (if is_tuple k then KFull else k) = false) by (destruct (is_tuple k); auto).
    apply sel_keys_inv in H0 as (d0 & r0 & -> & E3 & E4); auto.
    assert (Hp' : sel_keys (pre ++ [k]) (shp ++ [n]) = Some (sfp ++ [d])).
    { assert (Hk1 : sel_keys [k] [n] = Some [d]) by (rewrite sel_keys_cons_eq by auto; rewrite E1; auto).
      rewrite sel_keys_nth.
      - pose proof (proj1 (sel_keys_nth _ _ _ HNp) Hp) as (A1 & A2 & A3). rewrite !app_length. simpl.
        split; [lia|]. split; [lia|]. intros i Hi. destruct (Nat.eq_dec i (length shp)) as [->|N].
        + rewrite !app_nth2 by lia. replace (length shp - length pre) with 0 by lia.
          replace (length shp - length shp) with 0 by lia. replace (length shp - length sfp) with 0 by lia. auto.
        + rewrite !app_nth1 by lia. apply A3. lia.
      - apply nonew_app. split; auto. simpl. unfold nonew. simpl. rewrite HN1. auto. }
    assert (HNp' : nonew (pre ++ [k])) by (apply nonew_app; split; auto; unfold nonew; simpl; rewrite HN1; auto).
    assert (Hlast : forall arr1, nd_eq arr1 (nd_sel a ((sfp ++ [d]) ++ r0)) ->
       exists rr, foldM (fun arr it => np_take arr (snd it) (fst it - count_if is_scalar (firstn (S (fst it)) (cut_keys (pre ++ k :: suf)))))
                  arr1 (tup_from (S (length pre)) suf) = Ok rr
            /\ nd_eq rr (nd_sel a (sfp ++ d :: r))).
    { intros arr1 HA1. destruct (IH (pre ++ [k]) (shp ++ [n]) shs (sfp ++ [d]) r r0 arr1) as (rr & B1 & B2); auto.
      - rewrite Hsh, <- app_assoc. auto.
      - rewrite !app_length. simpl. lia.
      - intros l Hl. apply Hne. simpl; auto.
      - exists rr. rewrite <- !app_assoc in *. simpl in B1, B2. rewrite app_length in B1. simpl in B1.
        replace (length pre + 1) with (S (length pre)) in B1 by lia. auto. }
    unfold tup_from. cbn [length seq combine flat_map]. fold (tup_from (S (length pre)) suf). cbn [fst snd].
    destruct k as [i|sl|l|l|l|l| | |] eqn:Ek; try (apply Hlast; cbn [is_tuple] in E3; replace d with d0 by congruence;
      rewrite <- app_assoc; auto; fail).
    cbn [is_tuple] in E3. rewrite sel_key_full in E3. injection E3 as <-.
    simpl in E1. destruct (norm_ints l n) as [q|] eqn:Eq; [|discriminate]. injection E1 as <-.
    cbn [app]. cbn [foldM fst snd].
    set (cs := sfp ++ DLs (seq 0 n) :: r0) in *.
    pose proof (proj1 (sel_keys_nth _ _ _ HNp) Hp) as (A1 & A2 & A3).
    assert (HFc : Forall (fun d => d <> DNew) cs).
    { apply Forall_app. split.
      - apply (vsel_nodnew sfp shp); auto. eapply sel_keys_valid; eauto.
      - constructor; [discriminate|]. destruct (sel_keys_length (cut_keys suf) shs r0) as [B1 B2]; auto.
        + eapply sel_cut_scalar; eauto.
        + apply (vsel_nodnew r0 shs); auto. eapply sel_keys_valid; eauto. }
    assert (Hnth : nth (length pre) cs DNew = DLs (seq 0 n)).
    { unfold cs. rewrite app_nth2 by lia. replace (length pre - length sfp) with 0 by lia. auto. }
    assert (Hax : length pre - count_if is_scalar (firstn (S (length pre)) (cut_keys (pre ++ KTuple l :: suf))) = rk cs (length pre)).
    { unfold cut_keys. rewrite map_app. fold (cut_keys pre).
      assert (HLc : length (cut_keys pre) = length pre) by (unfold cut_keys; apply map_length).
      rewrite firstn_app. rewrite firstn_all2 by lia. rewrite HLc. replace (S (length pre) - length pre) with 1 by lia.
      cbn [map firstn]. rewrite count_if_app. cbn [is_tuple]. change (count_if is_scalar [KFull]) with 0. rewrite Nat.add_0_r.
      replace (count_if is_scalar (cut_keys pre)) with (count_if is_scalar pre).
      - pose proof (rk_scalar _ _ _ (length pre) HNp Hp ltac:(lia)) as H. rewrite firstn_all in H. rewrite H.
        unfold rk, cs. rewrite firstn_app. replace (length pre - length sfp) with 0 by lia. simpl. rewrite app_nil_r. auto.
      - unfold cut_keys. rewrite count_if_map. apply count_if_ext. intros x _. destruct x; auto. }
    rewrite Hax.
    assert (HVc : vsel cs (nshape a)).
    { rewrite Hsh. unfold cs. apply vsel_app; [eapply sel_keys_valid; eauto|].
      simpl. split; [apply Forall_forall; intros x Hx; apply in_seq in Hx; lia|]. eapply sel_keys_valid; eauto. }
    destruct (np_take_ok a cs (length pre) n l q arr HFc) as (arr1 & T1 & T2); auto.
    { unfold cs. rewrite app_length. simpl. lia. }
    { apply Hne. simpl; auto. }
    rewrite T1. cbn [bind]. apply Hlast.
    replace ((sfp ++ [DLs q]) ++ r0) with (set_nth (length pre) (DLs q) cs); auto.
    unfold cs. replace (length pre) with (length sfp) by lia. rewrite <- app_assoc. clear.
    induction sfp; simpl; auto. f_equal. auto.
Qed.

End Takes.

Section Adapters.
Context {V : Type}.
Notation cell := (option V).

(** C05: an orthogonally indexable source. *)
Lemma apply_ortho_ok (a : nd cell) ks s : Forall stored_key ks -> oselect ks (nshape a) = Some s ->
  exists r, apply_ortho a ks = Ok r /\ nd_eq r (nd_sel a s).
Proof.
  intros HS Hs. destruct (stored_valid _ _ _ HS Hs) as (HL & Hk & HN). unfold apply_ortho.
  assert (H : keys_dsel ks (nshape a) = Ok s).
  { clear Hs. revert HL Hk HN. generalize (nshape a) as sh. revert s. induction HS as [|k ks H HS IH]; intros s sh HL Hk HN.
    - simpl in *. rewrite Nat.sub_0_r in Hk. rewrite sel_keys_repeat_full in Hk. injection Hk as <-. auto.
    - destruct sh as [|n sh]; simpl in HL; [lia|]. cbn [app length] in Hk. rewrite Nat.sub_succ in Hk.
      apply nonew_cons in HN as [HN1 HN2]. apply sel_keys_inv in Hk as (d & r & -> & E1 & E2); auto.
      cbn [keys_dsel]. rewrite (IH r sh); auto; [|lia].
      + assert (key_dsel k n = Ok d) as ->; auto.
        destruct k; try contradiction; simpl in E1 |- *.
        * destruct (norm_int i n); congruence.
        * destruct (slice_idx s n); simpl; congruence.
        * destruct (norm_ints l n); congruence.
        * destruct (length l =? n); congruence. }
  rewrite H. simpl. eexists; split; [reflexivity|]. apply nd_eq_refl.
Qed.

(** C04: a NumPy source. *)
Lemma apply_numpy_ok (a : nd cell) ks s : Forall stored_key ks -> oselect ks (nshape a) = Some s ->
  numpy_ok ks -> exists r, apply_numpy a ks = Ok r /\ nd_eq r (nd_sel a s).
Proof.
  intros HS Hs Hok. destruct (stored_valid _ _ _ HS Hs) as (HL & Hk & HN). unfold apply_numpy. cbv zeta.
  change (tuple_keys ks) with (tup_from 0 ks). rewrite tup_from_length. unfold numpy_ok in Hok.
  change (1 <? count_if is_tup ks) with (2 <=? count_if is_tup ks).
  destruct (2 <=? count_if is_tup ks) eqn:E2; [|apply np_index_stored; auto].
  destruct Hok as [Hne H1].
  set (m := length (nshape a) - length ks) in *. set (kx := ks ++ repeat KFull m) in *.
  destruct (cut_keys_sel _ _ _ HN Hk) as (s0 & E0 & EL0).
  assert (Ecx : cut_keys kx = cut_keys ks ++ repeat KFull m).
  { unfold kx, cut_keys. rewrite map_app. f_equal. clear. induction m; simpl; auto. f_equal; auto. }
  assert (HSc : Forall stored_key (cut_keys ks)).
  { unfold cut_keys. apply Forall_map. eapply Forall_impl; [|apply HS]. intros []; simpl; auto. }
  assert (HLc : length (cut_keys ks) = length ks) by (unfold cut_keys; apply map_length).
  assert (Harr : exists r0, (if count_if is_tup ks =? length ks then np_index a [KEll] else np_index a (cut_keys ks)) = Ok r0
            /\ nd_eq r0 (nd_sel a s0)).
  { destruct (Nat.eqb_spec (count_if is_tup ks) (length ks)) as [Ec|Nc].
    - (* all keys are tuples *)
      assert (Hcf : cut_keys kx = repeat KFull (length (nshape a))).
      { rewrite Ecx. replace (length (nshape a)) with (length ks + m) by lia. rewrite repeat_app. f_equal.
        clear -Ec. induction ks as [|k ks IH]; auto. rewrite count_if_cons in Ec. simpl in Ec. pose proof (count_if_le is_tup ks).
        destruct (is_tup k) eqn:Ek; [|lia]. cbn [cut_keys map length repeat]. fold (cut_keys ks). rewrite IH by lia.
        destruct k; try discriminate. auto. }
      rewrite Hcf, sel_keys_repeat_full in E0. injection E0 as <-.
      destruct (np_index_sel a [KEll] (repeat KFull (length (nshape a))) (full_sels (nshape a))) as (r & R1 & R2); eauto.
      + unfold np_expand. simpl. rewrite Nat.sub_0_r, app_nil_r. auto.
      + apply sel_keys_repeat_full.
      + left. apply count_if_0. clear. induction (length (nshape a)); auto.
    - apply np_index_stored; auto. unfold oselect. rewrite stored_expand by (auto; lia). rewrite HLc. fold m. rewrite <- Ecx. auto. }
  destruct Harr as (r0 & R1 & R2). rewrite R1. cbn [bind].
  destruct (takes_ok a kx [] [] (nshape a) [] s s0 r0) as (r & T1 & T2); auto.
  { reflexivity. }
  { intros l Hl. apply Hne. apply in_app_iff in Hl as [Hl|Hl]; auto. apply repeat_spec in Hl. discriminate. }
  exists r. split; auto. cbn [length app] in T1. unfold kx in T1 at 2. rewrite tup_from_app_full in T1.
  rewrite <- T1. apply foldM_ext. intros x it Hit. apply tup_from_In in Hit as (_ & Hi & _).
  f_equal. f_equal. f_equal. rewrite Ecx. rewrite firstn_app. replace (S (fst it) - length (cut_keys ks)) with 0 by lia.
  simpl. rewrite app_nil_r. auto.
Qed.

End Adapters.
