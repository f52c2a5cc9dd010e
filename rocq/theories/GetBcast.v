(** GetBcast: indexing a BroadcastArray. *)
From Verif Require Import Base PySlice Keys NDArray Arrays Spec Supported Lib SelLemmas KeyLemmas NewAxLemmas GetBase GetSimple.

Lemma set_nth_app {A} (pre : list A) x y r : set_nth (length pre) y (pre ++ x :: r) = pre ++ y :: r.
Proof. induction pre; simpl; auto. f_equal; auto. Qed.

Lemma slice_eqb_full s : slice_eqb s full_slice = true -> s = full_slice.
Proof.
  destruct s as [a b c]. unfold slice_eqb, full_slice. simpl.
  destruct a, b, c; simpl; intros; try discriminate; auto.
Qed.

Lemma sel_keys_inv k ks n sh s : is_new k = false -> sel_keys (k :: ks) (n :: sh) = Some s ->
  exists d r, s = d :: r /\ sel_key k n = Some d /\ sel_keys ks sh = Some r.
Proof.
  intros Hk H. rewrite sel_keys_cons_eq in H by auto.
  destruct (sel_key k n) as [d|]; [|discriminate]. destruct (sel_keys ks sh) as [r|]; [|discriminate].
  injection H as <-. eauto.
Qed.

(** The part of [bc_ok] about stretched dimensions. *)
Fixpoint bc_some (dict : list (nat * nat)) (ks : list key) (ax : nat) : Prop :=
  match ks with
  | [] => True
  | k :: ks' => match dict_find ax dict, k with
                | None, _ => True
                | Some _, (KInt _ | KSlice _) => True
                | Some _, _ => False
                end /\ bc_some dict ks' (S ax)
  end.
Lemma bc_ok_some dict ks : forall ax, bc_ok dict ks ax -> bc_some dict ks ax.
Proof. induction ks as [|k ks IH]; intros ax H; auto. destruct H as [H1 H2]. split; auto. destruct (dict_find ax dict), k; auto. Qed.

Lemma bcast_loop_ok dict ck : forall shc sh' s2 ax removed,
  length shc = length sh' ->
  (forall i, i < length sh' -> match dict_find (ax + i) dict with
                               | Some n => nth i sh' 0 = n /\ nth i shc 0 = 1
                               | None => nth i sh' 0 = nth i shc 0 end) ->
  nonew ck -> sel_keys ck sh' = Some s2 -> bc_some dict ck ax -> removed <= ax ->
  exists dict' sc,
    bcast_loop dict ck sh' ax removed = Ok (bc_ck dict ck ax, dict')
    /\ sel_keys (bc_ck dict ck ax) shc = Some sc
    /\ Forall (fun p => ax - removed <= fst p) dict' /\ NoDup (map fst dict')
    /\ (forall pre, length pre = ax - removed ->
          shape_from_dict (pre ++ sel_shape sc) dict' = Ok (pre ++ sel_shape s2))
    /\ (forall o, inb (sel_shape s2) o -> bidx shc (sel_map s2 o) = sel_map sc (bidx (sel_shape sc) o))
    /\ length (sel_shape sc) = length (sel_shape s2).
Proof.
  induction ck as [|k ck IH]; intros shc sh' s2 ax removed HL Hd HN Hs Hok Hrm.
  - destruct sh'; simpl in Hs; [|discriminate]. injection Hs as <-.
    destruct shc; [|discriminate]. exists [], []. simpl.
    repeat split; auto; try constructor.
  - apply nonew_cons in HN as [HN1 HN2].
    destruct sh' as [|n sh']. { apply sel_keys_cons in Hs as [(-> & _)|(_ & _ & n & sh & d & r & E & _)]; discriminate. }
    destruct shc as [|m shc]; [discriminate|].
    apply sel_keys_inv in Hs as (d & r & -> & Ed & Er); auto.
    simpl in HL. injection HL as HL.
    assert (Hd' : forall i, i < length sh' -> match dict_find (S ax + i) dict with
                               | Some n => nth i sh' 0 = n /\ nth i shc 0 = 1
                               | None => nth i sh' 0 = nth i shc 0 end).
    { intros i Hi. specialize (Hd (S i) ltac:(simpl; lia)). rewrite Nat.add_succ_r in Hd. exact Hd. }
    specialize (Hd 0 ltac:(simpl; lia)). rewrite Nat.add_0_r in Hd. simpl in Hd.
    simpl in Hok. destruct Hok as [Hok1 Hok2].
    destruct (dict_find ax dict) as [q|] eqn:Edf.
    + destruct Hd as [-> ->]. destruct k; try contradiction.
      * (* integer *)
        destruct (IH shc sh' r (S ax) (S removed) HL Hd' HN2 Er Hok2 ltac:(lia))
          as (dict' & sc & E1 & E2 & E3 & E4 & E5 & E6 & E7).
        simpl in Ed. destruct (norm_int i q) as [j|] eqn:Ei; [|discriminate]. injection Ed as <-.
        exists dict', (DPt 0 :: sc). cbn [bcast_loop bc_ck hd tl]. rewrite Edf.
        replace ((- Z.of_nat q <=? i) && (i <? Z.of_nat q))%Z with true
          by (unfold norm_int in Ei; destruct ((- Z.of_nat q <=? i) && (i <? Z.of_nat q))%Z; auto; discriminate).
        rewrite E1. simpl bind. split; [auto|]. split.
        { rewrite sel_keys_cons_eq by auto. simpl sel_key. change (norm_int 0 1) with (Some 0). simpl. rewrite E2. auto. }
        split; [simpl in E3; auto|]. split; auto. split; [intros pre Hp; apply E5; simpl; auto|].
        split; [|auto]. intros o Ho. simpl. f_equal. auto.
      * (* slice *)
        destruct (IH shc sh' r (S ax) removed HL Hd' HN2 Er Hok2 ltac:(lia))
          as (dict' & sc & E1 & E2 & E3 & E4 & E5 & E6 & E7).
        simpl in Ed. destruct (slice_idx s q) as [l|] eqn:El; [|discriminate]. injection Ed as <-.
        exists ((ax - removed, length l) :: dict'), (DLs [0] :: sc).
        cbn [bcast_loop bc_ck hd tl]. rewrite Edf, El. simpl bind. rewrite E1. simpl bind. split; [auto|]. split.
        { rewrite sel_keys_cons_eq by auto. rewrite sel_key_full. simpl. rewrite E2. auto. }
        split. { constructor; simpl; auto. eapply Forall_impl; [|apply E3]. cbv beta; intros; lia. }
        split. { simpl. constructor; auto. intros Hi. apply in_map_iff in Hi as (p & Hp1 & Hp2).
                 rewrite Forall_forall in E3. apply E3 in Hp2. cbv beta in Hp2. lia. }
        split.
        { intros pre Hp. cbn [sel_shape length]. unfold shape_from_dict. cbn [foldM].
          rewrite app_length. simpl length.
          replace (length pre + S (length (sel_shape sc)) <=? ax - removed) with false by lia.
          rewrite <- Hp. rewrite nth_middle. cbn [Nat.eqb]. rewrite set_nth_app, map_length.
          specialize (E5 (pre ++ [length l])). rewrite <- !app_assoc in E5. cbn [app] in E5.
          apply E5. rewrite app_length. cbn [length]. lia. }
        split; [|simpl; rewrite E7; auto].
        intros o Ho. simpl in Ho. apply inb_cons_inv in Ho as (j & o' & -> & Hj & Ho').
        simpl. f_equal; auto.
    + subst m.
      assert (HS : exists dict' sc,
         bcast_loop dict ck sh' (S ax) (if is_scalar k then S removed else removed) = Ok (bc_ck dict ck (S ax), dict')
         /\ sel_keys (bc_ck dict ck (S ax)) shc = Some sc
         /\ Forall (fun p => S ax - (if is_scalar k then S removed else removed) <= fst p) dict' /\ NoDup (map fst dict')
         /\ (forall pre, length pre = S ax - (if is_scalar k then S removed else removed) ->
               shape_from_dict (pre ++ sel_shape sc) dict' = Ok (pre ++ sel_shape r))
         /\ (forall o, inb (sel_shape r) o -> bidx shc (sel_map r o) = sel_map sc (bidx (sel_shape sc) o))
         /\ length (sel_shape sc) = length (sel_shape r)).
      { apply IH; auto. destruct (is_scalar k); lia. }
      destruct HS as (dict' & sc & E1 & E2 & E3 & E4 & E5 & E6 & E7).
      exists dict', (d :: sc). cbn [bcast_loop bc_ck hd tl]. rewrite Edf, E1. simpl bind. split; [auto|].
      pose proof (sel_key_valid _ _ _ Ed) as Hv.
      split. { rewrite sel_keys_cons_eq by auto. rewrite Ed, E2. auto. }
      apply sel_key_kind in Ed as [(Esc & i & ->)|(Esc & l & ->)]; rewrite Esc in *; simpl in Hv.
      * split; [simpl in E3; auto|]. split; auto. split; [intros pre Hp; simpl sel_shape; apply E5; simpl; auto|].
        split; [|auto]. intros o Ho. simpl. f_equal; auto. destruct (Nat.eqb_spec n 1); lia.
      * split. { eapply Forall_impl; [|apply E3]. cbv beta; intros; lia. }
        split; auto. split.
        { intros pre Hp. cbn [sel_shape]. specialize (E5 (pre ++ [length l])).
          rewrite <- !app_assoc in E5. cbn [app] in E5. apply E5. rewrite app_length. cbn [length]. lia. }
        split; [|simpl; rewrite E7; auto].
        intros o Ho. simpl in Ho. apply inb_cons_inv in Ho as (j & o' & -> & Hj & Ho').
        simpl. f_equal; auto.
        rewrite Forall_forall in Hv. pose proof (Hv (nth j l 0) (nth_In _ _ Hj)).
        destruct (Nat.eqb_spec n 1); destruct (Nat.eqb_spec (length l) 1); try lia.
        -- assert (nth 0 l 0 < n) by (apply Hv, nth_In; lia). lia.
        -- replace j with 0 by lia. auto.
Qed.

Lemma all_full_ok dict : forall ck ax, bc_ok dict ck ax -> exists b, all_full (bc_ck dict ck ax) = Ok b
  /\ (b = true -> Forall (fun k => k = KFull) (bc_ck dict ck ax)).
Proof.
  induction ck as [|k ck IH]; intros ax H; simpl.
  - eexists; split; [reflexivity|]. auto.
  - simpl in H. destruct H as [H1 H2]. destruct (IH _ H2) as (b & Eb & Hb).
    set (k' := match dict_find ax dict with Some _ => match k with KInt _ => KInt 0 | _ => KFull end | None => k end).
    assert (exists b', key_is_full k' = Ok b' /\ (b' = true -> k' = KFull)) as (b' & E' & Hb').
    { unfold k'. destruct (dict_find ax dict).
      - destruct k; simpl; eexists; (split; [reflexivity|]); auto; discriminate.
      - destruct k; simpl; try (eexists; split; [reflexivity|]; discriminate).
        + eexists; split; [reflexivity|]. intros E. apply slice_eqb_full in E. subst; auto.
        + replace (1 <? length l) with false by lia. eexists; split; [reflexivity|]; discriminate.
        + replace (1 <? length l) with false by lia. eexists; split; [reflexivity|]; discriminate. }
    rewrite E'. simpl. destruct b'.
    + rewrite Eb. eexists; split; [reflexivity|]. intros ->. constructor; auto.
    + eexists; split; [reflexivity|]. discriminate.
Qed.

Lemma sel_keys_all_full ks sh s : Forall (fun k => k = KFull) ks -> sel_keys ks sh = Some s -> s = full_sels sh.
Proof.
  intros HF. revert sh s; induction HF as [|k ks -> HF IH]; intros sh s H.
  - destruct sh; simpl in H; [|discriminate]. injection H as <-. auto.
  - apply sel_keys_cons in H as [(E & _)|(_ & _ & n & sh' & d & r & -> & -> & Ed & Er)]; [discriminate|].
    rewrite sel_key_full in Ed. injection Ed as <-. simpl. f_equal. auto.
Qed.

Section GetBcast.
Context {V : Type} (O : numops V).
Notation barr := (@barr V).
Notation good := (good O).
Notation Pget := (Pget O).

Lemma good_self (a : barr) : wf a -> good a a (full_sels (shape a)).
Proof.
  intros Hw. split; auto. intros m. rewrite <- (den_shape O m) by auto. apply nd_eq_sym, nd_sel_full.
Qed.

Lemma gen_bcast K a dict lead keys ks s bf : Pgen O K a ->
  wf (ABcast a dict lead) -> np_expand keys (ndim (ABcast a dict lead)) = Ok ks -> sel_keys ks (shape (ABcast a dict lead)) = Some s ->
  let lk := firstn (length lead) (drop_new ks) in let ck := skipn (length lead) (drop_new ks) in
  existsb is_list lk = false -> some_sel lk lead -> bc_some dict ck 0 -> nolead a ->
  all_full (bc_ck dict ck 0) = Ok bf -> (bf = true -> Forall (fun k => k = KFull) (bc_ck dict ck 0)) ->
  (bf = false -> K a (bc_ck dict ck 0)) ->
  exists b, getitem (ABcast a dict lead) keys = Ok b /\ good (ABcast a dict lead) b s.
Proof.
  intros IH Hw Hexp Hs lk0 ck0 Hk1 Hk2 Hk3 Hk4 Eb Hb Hk5. subst lk0 ck0. pose proof Hw as (Hwa & HND & Hok & Hlead).
  cbn [getitem]. apply (base_getitem_ok O (ABcast a dict lead) _ keys s ks); auto.
  intros cs Hcs. cbn [shape] in *. set (fks := drop_new ks) in *.
  destruct (shape_from_dict (shape a) dict) as [sh'|] eqn:Esh; [|discriminate]. cbn [get_ok] in *.
  assert (HNf : nonew fks) by apply drop_new_nonew.
  destruct (sel_keys_length _ _ _ HNf Hcs) as [HLf HLc]. rewrite app_length in HLf.
  pose proof (firstn_skipn (length lead) fks) as Ef. rewrite <- Ef in Hcs.
  assert (HNf' := HNf). rewrite <- Ef in HNf'. apply nonew_app in HNf' as [HNl HNc].
  apply sel_keys_app in Hcs as (s1 & s2 & -> & Hs1 & Hs2); auto.
  2:{ rewrite firstn_length. lia. }
  set (lk := firstn (length lead) fks) in *. set (ck := skipn (length lead) fks) in *.
  cbv beta. rewrite (sliced_shape_ok lk lead s1).
  2:{ rewrite oselect_full; auto. eapply sel_keys_fullk; eauto. }
  2:{ auto. }
  simpl bind. rewrite skipn_app, skipn_all, Nat.sub_diag. cbn [skipn app].
  pose proof (proj1 (sfd_char dict (shape a) sh' HND) Esh) as (Hfit & HLsh & Hnth).
  destruct (bcast_loop_ok dict ck (shape a) sh' s2 0 0) as (dict' & sc & E1 & E2 & E3 & E4 & E5 & E6 & E7); auto.
  { intros i Hi. rewrite HLsh in Hi. specialize (Hnth i Hi). simpl.
    destruct (dict_find i dict) as [q|] eqn:Eq; auto. split; auto.
    apply dict_find_In in Eq. unfold dict_fits in Hfit. rewrite Forall_forall in Hfit.
    apply Hfit in Eq. tauto. }
  rewrite E1. simpl bind. cbn [fst]. rewrite Eb. simpl bind.
  assert (Hsub : exists sub, (if bf then Ok a else getitem a (bc_ck dict ck 0)) = Ok sub /\ good a sub sc).
  { destruct bf.
    - exists a. split; auto. rewrite (sel_keys_all_full _ _ _ (Hb eq_refl) E2). apply good_self; auto.
    - apply (Pgen_full O K); auto. }
  destruct Hsub as (sub & Esub & Gsub). rewrite Esub. simpl bind.
  pose proof (good_shape _ _ _ _ Gsub) as Shs.
  destruct (mk_bcast_ok O sub dict' (sel_shape s1) (sel_shape s2)) as (r & Er & Wr & Dr & Tr & TTr & Lr).
  - apply Gsub.
  - auto.
  - rewrite Shs. apply (E5 []). auto.
  - apply Hk2; auto.
  - right. apply Gsub; auto.
  - exists r. split; auto. split; auto.
    + intros m. eapply nd_eq_trans; [apply Dr|]. cbn [den].
      rewrite (den_shape O m sub) by apply Gsub. rewrite (den_shape O m a) by auto. rewrite Shs.
      pose proof (E5 [] eq_refl) as E5n. cbn [app] in E5n. rewrite E5n, Esh. cbn [get_ok app].
      split; [simpl; rewrite sel_shape_app; auto|]. simpl. intros o Ho.
      pose proof (inb_split _ _ _ Ho) as [Ho1 Ho2].
      rewrite <- (firstn_skipn (length (sel_shape s1)) o).
      set (o1 := firstn (length (sel_shape s1)) o) in *. set (o2 := skipn (length (sel_shape s1)) o) in *.
      rewrite sel_map_app by (apply inb_length; auto).
      rewrite bc_idx_app by (rewrite E7; apply inb_length; auto).
      rewrite bc_idx_app.
      2:{ apply sel_keys_valid in Hs2. rewrite (sel_map_length _ _ _ Hs2 Ho2). auto. }
      rewrite E6 by auto.
      destruct (g_den _ _ _ _ Gsub m) as [A1 A2]. rewrite A2; [reflexivity|].
      rewrite A1. simpl. apply (bidx_dict _ dict' (sel_shape s2)); auto.
    + intros Hst. simpl in Hst. apply (g_dt _ _ _ _ Gsub) in Hst as [Hst1 Hst2]. split; [auto|]. simpl. congruence.
    + intros Hnl. simpl in Hnl. subst lead. apply Lr; [|apply Gsub; auto].
      apply sel_keys_length in Hs1 as [_ Hs1]; auto. destruct s1; [auto|discriminate].
Qed.
Lemma get_bcast a dict lead : Pget a -> Pget (ABcast a dict lead).
Proof.
  intros IH keys ks s Hw Hexp Hs (Hk1 & Hk2 & Hk3 & Hk4 & Hk5). destruct (all_full_ok dict _ 0 Hk3) as (b & Eb & Hb).
  eapply gen_bcast; eauto. apply bc_ok_some; auto.
Qed.

End GetBcast.
