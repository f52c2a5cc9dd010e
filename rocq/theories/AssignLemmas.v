(** AssignLemmas: filling an array by item assignments. *)
From Verif Require Import Base PySlice Keys NDArray Chunks Arrays Spec Supported Lib SelLemmas KeyLemmas GetBase GetSimple GetBcast GetTrans GetStack ChunkLemmas.

Lemma sel_pos_some s idx o : sel_pos s idx = Some o -> sel_map s o = idx /\ inb (sel_shape s) o.
Proof.
  revert idx o; induction s as [|d s IH]; intros [|x idx] o H; simpl in H; try discriminate.
  - injection H as <-. simpl. split; auto. constructor.
  - destruct d; discriminate.
  - destruct d as [i|l|]; [| |discriminate].
    + destruct (Nat.eqb_spec x i); [|discriminate]. subst. apply IH in H as [<- H]. simpl. auto.
    + destruct (index_of x l) as [j|] eqn:Ej; [|discriminate]. destruct (sel_pos s idx) as [r|] eqn:Er; [|discriminate].
      injection H as <-. apply IH in Er as [<- Hr]. apply index_of_Some in Ej as [E1 E2]. simpl. rewrite E2.
      split; auto. apply inb_cons. auto.
Qed.

Definition plain_key (k : key) : bool := match k with KInt _ | KSlice _ => true | _ => false end.

Lemma assign_sels_ok ks sh s : forallb plain_key ks = true -> sel_keys ks sh = Some s -> assign_sels ks sh = Ok s.
Proof.
  revert sh s; induction ks as [|k ks IH]; intros sh s HP HS.
  - destruct sh; simpl in HS; [|discriminate]. injection HS as <-. auto.
  - simpl in HP. apply andb_prop in HP as [HP1 HP2]. destruct k; try discriminate HP1.
    + destruct sh as [|n sh]; simpl in HS; [discriminate|]. destruct (norm_int i n) as [j|] eqn:E; [|discriminate].
      destruct (sel_keys ks sh) as [r|] eqn:Er; [|discriminate]. injection HS as <-. simpl. rewrite E, (IH _ _ HP2 Er). auto.
    + destruct sh as [|n sh]; simpl in HS; [discriminate|]. destruct (slice_idx s0 n) as [j|] eqn:E; [|discriminate].
      destruct (sel_keys ks sh) as [r|] eqn:Er; [|discriminate]. injection HS as <-. simpl. rewrite E. simpl. rewrite (IH _ _ HP2 Er). auto.
Qed.

(** Missing trailing keys select everything. *)
Lemma assign_sels_prefix ks sh1 sh2 s : forallb plain_key ks = true -> length ks = length sh1 -> sel_keys ks sh1 = Some s ->
  assign_sels ks (sh1 ++ sh2) = Ok (s ++ full_sels sh2).
Proof.
  revert sh1 s; induction ks as [|k ks IH]; intros [|n sh1] s HP HL HS; simpl in HL; try lia.
  - simpl in HS. injection HS as <-. auto.
  - simpl in HP. apply andb_prop in HP as [HP1 HP2]. destruct k; try discriminate HP1; simpl in HS.
    + destruct (norm_int i n) as [j|] eqn:E; [|discriminate].
      destruct (sel_keys ks sh1) as [r|] eqn:Er; [|discriminate]. injection HS as <-. simpl.
      rewrite E, (IH sh1 _ HP2 ltac:(lia) Er). auto.
    + destruct (slice_idx s0 n) as [j|] eqn:E; [|discriminate].
      destruct (sel_keys ks sh1) as [r|] eqn:Er; [|discriminate]. injection HS as <-. simpl. rewrite E. simpl.
      rewrite (IH sh1 _ HP2 ltac:(lia) Er). auto.
Qed.

Lemma assignable_self l : assignable_rev l l = true.
Proof. induction l; simpl; auto. rewrite Nat.eqb_refl. auto. Qed.
Lemma bidx_id sh o : inb sh o -> bidx sh o = o.
Proof.
  revert o; induction sh as [|n sh IH]; intros o H.
  - apply inb_nil in H. subst; auto.
  - apply inb_cons_inv in H as (i & o' & -> & Hi & Ho). simpl. rewrite IH by auto.
    destruct (Nat.eqb_spec n 1); f_equal; lia.
Qed.
Lemma bc_idx_id sh o : inb sh o -> bc_idx sh o = o.
Proof. intros H. unfold bc_idx. rewrite (inb_length _ _ H), Nat.sub_diag. apply bidx_id; auto. Qed.

Section Assign.
Context {W : Type}.

Lemma setitem_ok (a : nd W) k s d : assign_sels k (nshape a) = Ok s -> nshape d = sel_shape s ->
  exists a', np_setitem a k d = Ok a' /\ nshape a' = nshape a
    /\ forall idx, nget a' idx = match sel_pos s idx with Some o => nget d o | None => nget a idx end.
Proof.
  intros Hs Hd. unfold np_setitem. rewrite Hs. simpl. unfold nd_assign. rewrite Hd, assignable_self.
  eexists; split; [reflexivity|]. split; auto. intros idx. simpl. rewrite Nat.sub_diag. simpl.
  destruct (sel_pos s idx) as [o|] eqn:E; auto. apply sel_pos_some in E as [_ E]. rewrite bc_idx_id; auto.
Qed.

(** Writing pieces of [D] that together cover every index yields [D]. *)
Lemma setitems_gen (D : nd W) ws : forall a : nd W, nshape D = nshape a ->
  Forall (fun w => exists s, assign_sels (fst w) (nshape a) = Ok s /\ nd_eq (snd w) (nd_sel D s)) ws ->
  exists r, np_setitems a ws = Ok r /\ nshape r = nshape a /\
    forall idx, (exists w s, In w ws /\ assign_sels (fst w) (nshape a) = Ok s /\ in_sel s idx = true) \/ nget a idx = nget D idx ->
      nget r idx = nget D idx.
Proof.
  induction ws as [|[k d] ws IH]; intros a HD HF.
  - exists a. split; auto. split; auto. intros idx [(w & s & [] & _)|H]; auto.
  - inversion HF as [|x l (s & Hs & Hd) HF']; subst. cbn [fst snd] in *.
    destruct (setitem_ok a k s d Hs (proj1 Hd)) as (a' & Ea & Sa & Ga).
    destruct (IH a') as (r & Er & Sr & Gr).
    { congruence. } { rewrite Sa. auto. }
    exists r. unfold np_setitems. simpl. rewrite Ea. simpl. split; auto. split; [congruence|].
    intros idx H. apply Gr. rewrite Ga.
    destruct (sel_pos s idx) as [o|] eqn:E.
    + right. apply sel_pos_some in E as [E1 E2]. destruct Hd as [Hd1 Hd2]. rewrite Hd2 by (rewrite Hd1; auto).
      simpl. rewrite E1. auto.
    + destruct H as [(w & s' & [<-|Hw] & Hs' & Hi)|H]; auto.
      * cbn [fst] in Hs'. rewrite Hs in Hs'. injection Hs' as <-. unfold in_sel in Hi. rewrite E in Hi. discriminate.
      * left. exists w, s'. rewrite Sa. auto.
Qed.

Lemma setitems_cover (D : nd W) sh g ws : nshape D = sh ->
  Forall (fun w => exists s, assign_sels (fst w) sh = Ok s /\ nd_eq (snd w) (nd_sel D s)) ws ->
  (forall idx, inb sh idx -> exists w s, In w ws /\ assign_sels (fst w) sh = Ok s /\ in_sel s idx = true) ->
  exists r, np_setitems (mkND sh g) ws = Ok r /\ nd_eq r D.
Proof.
  intros HD HF HC. destruct (setitems_gen D ws (mkND sh g) HD HF) as (r & Er & Sr & Gr).
  exists r. split; auto. split; [rewrite Sr; auto|]. intros idx Hi. apply Gr. left. rewrite Sr in Hi. apply HC. auto.
Qed.

End Assign.
