(** SaveLoop: [save] as the loop it is, which may stop part-way. *)
From Verif Require Import Base PySlice Keys NDArray Arrays Chunks Handlers Realise Spec Supported Lib SelLemmas KeyLemmas GetBase GetStack ChunkLemmas AssignLemmas HandlerLemmas Realisable IndexClaims ChunkClaims SaveClaims.
From Coq Require Import Permutation.

Section SaveLoop.
Context {V : Type} (O : numops V).
Notation cell := (option V).
Notation barr := (@barr V).
Variable maxc : nat.
Variable garbage : list nat -> cell.
Variable fuel : nat.
Variable m : bool.

(** biggus/_init.py:2191-2196: read a piece, assign it to the target, go on; an
    error ends the loop and leaves the target as it is at that moment.
    [masked] is [m]. *)
Fixpoint save_loop (a : barr) (ks : list (list key)) (target : nd cell) : nd cell * option err :=
  match ks with
  | [] => (target, None)
  | k :: ks' =>
      match getitem a k with
      | Err e => (target, Some e)
      | Ok b => match realise O maxc garbage fuel m b with
                | Err e => (target, Some e)
                | Ok d => match np_setitem target k d with
                          | Err e => (target, Some e)
                          | Ok t => save_loop a ks' t
                          end
                end
      end
  end.
(** 2162-2190: one source and one target, the pieces of [_all_slices]. *)
Definition save_run (a : barr) (target : nd cell) : nd cell * option err :=
  save_loop a (save_keys maxc (shape a)) target.

(** Pieces that can be read at all are read right. *)
Definition never_wrong (a : barr) (D : nd cell) (ks : list (list key)) : Prop :=
  forall k b d, In k ks -> getitem a k = Ok b -> realise O maxc garbage fuel m b = Ok d -> nd_eq d (oindex D k).

Lemma loop_state a D : nshape D = shape a -> forall ks t, nshape t = shape a ->
  (forall k, In k ks -> In k (save_keys maxc (shape a))) -> never_wrong a D ks ->
  exists done rest, ks = done ++ rest /\ nshape (fst (save_loop a ks t)) = shape a
    /\ (forall i, inb (shape a) i ->
          nget (fst (save_loop a ks t)) i = if existsb (covers (shape a) i) done then nget D i else nget t i)
    /\ match snd (save_loop a ks t) with
       | None => rest = []
       | Some e => exists k rest', rest = k :: rest'
                     /\ (getitem a k = Err e \/ exists b, getitem a k = Ok b /\ realise O maxc garbage fuel m b = Err e)
       end.
Proof.
  intros HD. induction ks as [|k ks IH]; intros t Ht HI HW.
  - exists [], []. cbn. auto.
  - cbn [save_loop]. destruct (getitem a k) as [b|e] eqn:Eb.
    2:{ exists [], (k :: ks). cbn. repeat split; auto. exists k, ks. auto. }
    destruct (realise O maxc garbage fuel m b) as [d|e] eqn:Ed.
    2:{ exists [], (k :: ks). cbn. repeat split; auto. exists k, ks. split; auto. right. exists b. auto. }
    destruct (save_key_ok maxc (shape a) k) as (s & S1 & S2); [apply HI; simpl; auto|].
    pose proof (HW k b d (or_introl eq_refl) Eb Ed) as Hd. unfold oindex in Hd. rewrite HD, S1 in Hd.
    destruct (setitem_ok t k s d) as (t' & Et & St & Gt); [rewrite Ht; auto|apply Hd|]. rewrite Et.
    destruct (IH t') as (dn & rest & E1 & E2 & E3 & E4); [congruence|intros; apply HI; simpl; auto|intros k' b' d' Hk'; apply HW; simpl; auto|].
    exists (k :: dn), rest. split; [rewrite E1; auto|]. split; [exact E2|]. split; [|exact E4].
    intros i Hi. rewrite E3 by auto. cbn [existsb]. rewrite Gt. unfold covers at 2. rewrite S1. unfold in_sel.
    destruct (sel_pos s i) as [o|] eqn:Eo; cbn [orb].
    + apply sel_pos_some in Eo as [Eo1 Eo2]. rewrite (proj2 Hd) by (rewrite (proj1 Hd); auto). cbn [nd_sel nget]. rewrite Eo1.
      destruct (existsb (covers (shape a) i) dn); auto.
    + auto.
Qed.

Lemma existsb_firstn {A} (p : A -> bool) l1 l2 : existsb p l1 = true -> existsb p (l1 ++ l2) = true.
Proof. intros H. rewrite existsb_app, H. auto. Qed.
Lemma save_covered sh i : inb sh i -> existsb (covers sh i) (save_keys maxc sh) = true.
Proof.
  intros Hi. pose proof (save_cover maxc sh i Hi) as HC. destruct (existsb (covers sh i) (save_keys maxc sh)) eqn:E; auto.
  apply count_if_0 in E. lia.
Qed.
Lemma covers_positions sh i k : In k (save_keys maxc sh) -> inb sh i -> covers sh i k = true <-> In i (positions sh k).
Proof.
  intros Hk Hi. destruct (save_key_ok maxc sh k Hk) as (s & S1 & S2). unfold covers, positions. rewrite S1. unfold in_sel. split.
  - intros H. destruct (sel_pos s i) as [o|] eqn:E; [|discriminate]. apply sel_pos_some in E as [E1 E2].
    apply in_map_iff. exists o. split; auto. apply GetStack.ndindex_In. auto.
  - intros H. pose proof Hk as Hk'. rewrite save_keys_gen in Hk'.
    assert (HP : perm (seq 0 (length sh)) (length (all_slices maxc false sh))) by (rewrite all_slices_length; apply perm_seq).
    destruct (gen_keys_In _ _ _ HP Hk') as [HL HI]. rewrite all_slices_length in *.
    destruct (drawn_sel _ sh k (all_slices_ok maxc false sh) HL HI) as (HN & s' & E1 & E2 & E3 & E4 & E5).
    rewrite S1 in E2. injection E2 as <-. apply in_map_iff in H as (o & <- & Ho). apply GetStack.ndindex_In in Ho.
    apply (in_sel_complete s sh o); auto.
    + eapply oselect_valid; eauto.
    + eapply drawn_nodup; eauto. apply all_slices_ok.
Qed.
Lemma covered_positions sh i ks : (forall k, In k ks -> In k (save_keys maxc sh)) -> inb sh i ->
  existsb (covers sh i) ks = true <-> In i (flat_map (positions sh) ks).
Proof.
  intros HI Hi. rewrite existsb_exists, in_flat_map. split; intros (k & Hk & H); exists k; split; auto; apply covers_positions; auto.
Qed.
End SaveLoop.
