(** KeyLemmas: [_full_keys] and [_sliced_shape] against the specification. *)
From Verif Require Import Base PySlice Keys NDArray Arrays Spec Supported Lib SelLemmas.
From Coq Require Import ZifyBool ZifyNat.

Lemma count_if_app {A} (p : A -> bool) l1 l2 : count_if p (l1 ++ l2) = count_if p l1 + count_if p l2.
Proof. unfold count_if. rewrite filter_app, app_length. auto. Qed.
Lemma count_if_cons {A} (p : A -> bool) x l : count_if p (x :: l) = (if p x then 1 else 0) + count_if p l.
Proof. unfold count_if. simpl. destruct (p x); auto. Qed.
Lemma count_if_nil {A} (p : A -> bool) : count_if p [] = 0.
Proof. auto. Qed.
Lemma count_if_le {A} (p : A -> bool) l : count_if p l <= length l.
Proof. unfold count_if. induction l; simpl; auto. destruct (p a); simpl; lia. Qed.
Lemma count_if_0 {A} (p : A -> bool) l : count_if p l = 0 <-> existsb p l = false.
Proof. induction l; simpl; [rewrite count_if_nil; tauto|]. rewrite count_if_cons. destruct (p a); simpl; try tauto.
  split; intros; try discriminate. Qed.
Lemma existsb_false_Forall {A} (p : A -> bool) l : existsb p l = false <-> Forall (fun x => p x = false) l.
Proof. induction l; simpl; split; intros H; auto.
  - apply orb_false_iff in H as [H1 H2]. constructor; auto. apply IHl; auto.
  - inversion H; subst. apply orb_false_iff. split; auto. apply IHl; auto. Qed.

Lemma fk_loop_left keys lh rh : existsb is_ell keys = false ->
  fk_loop (length keys) keys lh rh true = (lh ++ keys, rh).
Proof.
  revert lh; induction keys as [|k ks IH]; intros lh H; simpl.
  - rewrite app_nil_r; auto.
  - simpl in H. apply orb_false_iff in H as [H1 H2]. rewrite H1, IH by auto.
    rewrite <- app_assoc. auto.
Qed.

Lemma fk_loop_right keys lh rh : existsb is_ell keys = false ->
  fk_loop (length keys) keys lh rh false = (lh, rh ++ rev keys).
Proof.
  revert rh; induction keys as [|k ks IH] using rev_ind; intros rh H; simpl.
  - rewrite app_nil_r; auto.
  - rewrite existsb_app in H. apply orb_false_iff in H as [H1 H2]. simpl in H2.
    rewrite app_length. simpl. rewrite Nat.add_1_r. simpl.
    destruct (ks ++ [k]) as [|x xs] eqn:E; [destruct ks; discriminate|].
    rewrite <- E. rewrite last_last, removelast_last.
    destruct (is_ell k); [discriminate|]. rewrite IH by auto.
    rewrite rev_app_distr. simpl. rewrite <- app_assoc. auto.
Qed.

Lemma count_ell_split keys : count_if is_ell keys = 1 ->
  exists l r, keys = l ++ KEll :: r /\ existsb is_ell l = false /\ existsb is_ell r = false.
Proof.
  induction keys as [|k ks IH]; intros H; [discriminate|].
  rewrite count_if_cons in H. destruct (is_ell k) eqn:E.
  - exists [], ks. destruct k; try discriminate. simpl. repeat split; auto. apply count_if_0. lia.
  - destruct IH as (l & r & -> & Hl & Hr); [lia|]. exists (k :: l), r. simpl. rewrite E. auto.
Qed.

Lemma pop_first_ell_app l r : existsb is_ell l = false -> pop_first_ell (l ++ KEll :: r) = l ++ r.
Proof. induction l; simpl; intros H; auto. apply orb_false_iff in H as [H1 H2].
  rewrite H1. f_equal; auto. Qed.
Lemma expand_at_ell_app f l r : existsb is_ell l = false -> expand_at_ell f (l ++ KEll :: r) = l ++ f ++ r.
Proof. induction l; simpl; intros H; auto. apply orb_false_iff in H as [H1 H2].
  rewrite H1. f_equal; auto. Qed.

Lemma fk_loop_mid l r lh : existsb is_ell l = false -> existsb is_ell r = false ->
  fk_loop (length (l ++ KEll :: r)) (l ++ KEll :: r) lh [] true = (lh ++ l ++ [KFull], rev r).
Proof.
  revert lh; induction l as [|k l IH]; intros lh Hl Hr.
  - simpl. rewrite fk_loop_right by auto. simpl. auto.
  - simpl in *. apply orb_false_iff in Hl as [H1 H2]. rewrite H1. rewrite IH by auto.
    rewrite <- app_assoc. auto.
Qed.

Lemma n_real_noell keys : existsb is_ell keys = false ->
  count_if (fun k => negb (is_new k)) keys = n_real keys.
Proof. unfold n_real. induction keys as [|k ks IH]; simpl; intros H; auto.
  apply orb_false_iff in H as [H1 H2]. rewrite !count_if_cons, H1, IH by auto.
  destruct (is_new k); auto. Qed.

Lemma n_real_app l r : n_real (l ++ r) = n_real l + n_real r.
Proof. apply count_if_app. Qed.

Lemma n_real_mid l r : n_real (l ++ KEll :: r) = n_real (l ++ r).
Proof. rewrite !n_real_app. f_equal. Qed.

(** [_full_keys] expands as NumPy does, for at most one Ellipsis. *)
Lemma full_keys_np keys ndim : count_if is_ell keys <= 1 -> full_keys keys ndim = np_expand keys ndim.
Proof.
  intros H. unfold full_keys, np_expand.
  replace (1 <? count_if is_ell keys) with false by lia.
  assert (HC : count_if is_ell keys = 0 \/ count_if is_ell keys = 1) by lia.
  destruct HC as [HC|HC].
  - apply count_if_0 in HC. rewrite HC. rewrite andb_false_r.
    rewrite n_real_noell by auto. destruct (ndim <? n_real keys); auto.
    rewrite fk_loop_left by auto. simpl. rewrite app_nil_r. auto.
  - apply count_ell_split in HC as (l & r & -> & Hl & Hr).
    assert (Hex : existsb is_ell (l ++ KEll :: r) = true)
      by (rewrite existsb_app; simpl; apply orb_true_r).
    rewrite Hex, andb_true_r.
    assert (HN : count_if (fun k => negb (is_new k)) (l ++ KEll :: r) = S (n_real (l ++ r))).
    { rewrite count_if_app, count_if_cons. simpl. rewrite n_real_app.
      rewrite !n_real_noell by auto. lia. }
    assert (HR : n_real (l ++ KEll :: r) = n_real (l ++ r)).
    { rewrite !n_real_app. unfold n_real at 2. rewrite count_if_cons. simpl. auto. }
    rewrite HN, HR. simpl. rewrite Nat.sub_0_r.
    rewrite pop_first_ell_app, expand_at_ell_app by auto.
    destruct (Nat.leb_spec ndim (n_real (l ++ r))) as [L|L].
    + destruct (Nat.ltb_spec ndim (n_real (l ++ r))); auto.
      replace (ndim - n_real (l ++ r)) with 0 by lia. simpl.
      rewrite fk_loop_left by (rewrite existsb_app, Hl, Hr; auto).
      simpl. rewrite app_nil_r. auto.
    + replace (ndim <? S (n_real (l ++ r))) with false by lia.
      replace (ndim <? n_real (l ++ r)) with false by lia.
      rewrite fk_loop_mid by auto. simpl. rewrite rev_involutive.
      f_equal. rewrite <- app_assoc. f_equal. simpl.
      replace (ndim - n_real (l ++ r)) with (S (ndim - S (n_real (l ++ r)))) by lia. auto.
Qed.

(** Fully expanded key tuples: no Ellipsis, one key per dimension. *)
Definition fullk (ks : list key) (n : nat) : Prop :=
  existsb is_ell ks = false /\ n_real ks = n.

Lemma n_real_repeat n : n_real (repeat KFull n) = n.
Proof. induction n; simpl; auto. unfold n_real in *. rewrite count_if_cons. simpl. lia. Qed.
Lemma noell_repeat n : existsb is_ell (repeat KFull n) = false.
Proof. induction n; simpl; auto. Qed.

Lemma np_expand_full keys n ks : np_expand keys n = Ok ks -> fullk ks n.
Proof.
  unfold np_expand. destruct (Nat.ltb_spec 1 (count_if is_ell keys)) as [L|L]; [discriminate|].
  destruct (Nat.ltb_spec n (n_real keys)) as [L2|L2]; [discriminate|].
  intros H; injection H as <-. destruct (existsb is_ell keys) eqn:E.
  - assert (HC : count_if is_ell keys = 1).
    { destruct (count_if is_ell keys) eqn:EC; [apply count_if_0 in EC; congruence|lia]. }
    apply count_ell_split in HC as (l & r & -> & Hl & Hr).
    rewrite expand_at_ell_app by auto. split.
    + rewrite !existsb_app, Hl, Hr, noell_repeat. auto.
    + rewrite n_real_mid in *. rewrite !n_real_app, n_real_repeat in *. lia.
  - split. rewrite existsb_app, E, noell_repeat; auto. rewrite n_real_app, n_real_repeat. lia.
Qed.

Lemma np_expand_count keys n ks : np_expand keys n = Ok ks -> count_if is_ell keys <= 1.
Proof. unfold np_expand. destruct (Nat.ltb_spec 1 (count_if is_ell keys)) as [L|L]; [discriminate|lia]. Qed.

Lemma np_expand_id ks n : fullk ks n -> np_expand ks n = Ok ks.
Proof.
  intros [H1 H2]. unfold np_expand. assert (HC : count_if is_ell ks = 0) by (apply count_if_0; auto).
  rewrite HC, H1, H2. simpl. rewrite Nat.ltb_irrefl, Nat.sub_diag. simpl. rewrite app_nil_r. auto.
Qed.

Lemma full_keys_id ks n : fullk ks n -> full_keys ks n = Ok ks.
Proof. intros H. rewrite full_keys_np. apply np_expand_id; auto. destruct H as [H _].
  apply count_if_0 in H. lia. Qed.

Lemma oselect_expand keys sh s : oselect keys sh = Some s ->
  exists ks, np_expand keys (length sh) = Ok ks /\ full_keys keys (length sh) = Ok ks
             /\ fullk ks (length sh) /\ sel_keys ks sh = Some s.
Proof.
  unfold oselect. destruct (np_expand keys (length sh)) as [ks|e] eqn:E; [|discriminate].
  intros H. exists ks. repeat split; auto.
  - rewrite full_keys_np; auto. eapply np_expand_count; eauto.
  - eapply np_expand_full; eauto.
  - apply np_expand_full in E. apply E.
Qed.

Lemma oselect_full ks sh : fullk ks (length sh) -> oselect ks sh = sel_keys ks sh.
Proof. intros H. unfold oselect. rewrite np_expand_id; auto. Qed.


(** Case analysis of a successful selection. *)
Lemma sel_keys_cons k ks sh s : sel_keys (k :: ks) sh = Some s ->
  (k = KNew /\ exists r, s = DNew :: r /\ sel_keys ks sh = Some r)
  \/ (is_new k = false /\ is_ell k = false /\ exists n sh' d r, sh = n :: sh' /\ s = d :: r
      /\ sel_key k n = Some d /\ sel_keys ks sh' = Some r).
Proof.
  intros H. destruct (is_new k) eqn:EN.
  - left. destruct k; try discriminate. simpl in H.
    destruct (sel_keys ks sh) as [r|] eqn:E; [|discriminate]. injection H as <-. eauto.
  - right. assert (H' : match sh with [] => None | n :: sh' =>
                     match sel_key k n, sel_keys ks sh' with
                     | Some s, Some r => Some (s :: r) | _, _ => None end end = Some s)
      by (destruct k; simpl in H; auto; discriminate).
    destruct sh as [|n sh]; [discriminate|].
    destruct (sel_key k n) as [d|] eqn:E1; [|discriminate].
    destruct (sel_keys ks sh) as [r|] eqn:E2; [|discriminate]. injection H' as <-.
    split; auto. split; [destruct k; auto; discriminate|]. exists n, sh, d, r; auto.
Qed.

Lemma sel_keys_cons_eq k ks n sh : is_new k = false ->
  sel_keys (k :: ks) (n :: sh) = match sel_key k n, sel_keys ks sh with
                                 | Some s, Some r => Some (s :: r) | _, _ => None end.
Proof. destruct k; auto; discriminate. Qed.

Lemma sel_keys_fullk ks sh s : sel_keys ks sh = Some s -> fullk ks (length sh).
Proof.
  revert sh s; induction ks as [|k ks IH]; intros sh s H.
  - destruct sh; simpl in H; [|discriminate]. split; auto.
  - unfold fullk, n_real in *. rewrite count_if_cons. simpl existsb.
    apply sel_keys_cons in H as [(-> & r & -> & H)|(Hn & He & n & sh' & d & r & -> & -> & Hd & H)].
    + apply IH in H as [H1 H2]. simpl. auto.
    + apply IH in H as [H1 H2]. rewrite Hn, He. simpl. auto.
Qed.

(** ** [_sliced_shape] *)


Lemma sel_key_shape k n d : sel_key k n = Some d -> is_list k = false ->
  (is_scalar k = true /\ exists i, d = DPt i) \/ (is_scalar k = false /\ exists l, d = DLs l).
Proof.
  destruct k; simpl; intros H HL; try discriminate.
  - destruct (norm_int i n); [|discriminate]. injection H as <-. eauto.
  - destruct (slice_idx s n); [|discriminate]. injection H as <-. eauto.
  - destruct (norm_ints l n); [|discriminate]. injection H as <-. eauto.
  - destruct (norm_ints l n); [|discriminate]. injection H as <-. eauto.
  - destruct (length l =? n); [|discriminate]. injection H as <-. eauto.
Qed.

Lemma sel_key_kind k n d : sel_key k n = Some d ->
  (is_scalar k = true /\ exists i, d = DPt i) \/ (is_scalar k = false /\ exists l, d = DLs l).
Proof.
  destruct k; simpl; intros H; try discriminate.
  - destruct (norm_int i n); [|discriminate]. injection H as <-. eauto.
  - destruct (slice_idx s n); [|discriminate]. injection H as <-. eauto.
  - destruct (norm_ints l n); [|discriminate]. injection H as <-. eauto.
  - destruct (norm_ints l n); [|discriminate]. injection H as <-. eauto.
  - destruct (norm_ints l n); [|discriminate]. injection H as <-. eauto.
  - destruct (length l =? n); [|discriminate]. injection H as <-. eauto.
Qed.

Lemma sliced_loop_ok ks sh s : sel_keys ks sh = Some s -> existsb is_list ks = false ->
  sliced_loop sh ks = Ok (sel_shape s).
Proof.
  revert sh s; induction ks as [|k ks IH]; intros sh s H HL.
  - destruct sh; simpl in H; [|discriminate]. injection H as <-. auto.
  - simpl in HL. apply orb_false_iff in HL as [HL1 HL2].
    apply sel_keys_cons in H as [(-> & r & -> & H)|(Hn & He & n & sh' & d & r & -> & -> & Hd & H)].
    + simpl. rewrite (IH _ _ H HL2). auto.
    + specialize (IH _ _ H HL2). destruct k; simpl in *; try discriminate.
      * destruct (norm_int i n); [|discriminate]. injection Hd as <-. auto.
      * destruct (slice_idx s n); [|discriminate]. injection Hd as <-. simpl.
        rewrite IH. simpl. rewrite map_length. auto.
      * destruct (norm_ints l n) eqn:E; [|discriminate]. injection Hd as <-.
        rewrite IH. simpl. rewrite (norm_ints_length _ _ _ E). auto.
      * destruct (norm_ints l n) eqn:E; [|discriminate]. injection Hd as <-.
        rewrite IH. simpl. rewrite (norm_ints_length _ _ _ E). auto.
      * destruct (length l =? n); [|discriminate]. injection Hd as <-.
        rewrite IH. simpl. rewrite mask_nonzero_length. auto.
Qed.

Lemma expand_at_ell_nolist f l : existsb is_list l = false -> existsb is_list f = false ->
  existsb is_list (expand_at_ell f l) = false.
Proof. induction l as [|k l IH]; intros H1 H2; auto. simpl in *. apply orb_false_iff in H1 as [H1 H3].
  destruct (is_ell k). rewrite existsb_app, H2, H3; auto. simpl. rewrite H1. auto. Qed.
Lemma nolist_repeat n : existsb is_list (repeat KFull n) = false.
Proof. induction n; simpl; auto. Qed.
Lemma np_expand_nolist keys n ks : np_expand keys n = Ok ks -> existsb is_list keys = false ->
  existsb is_list ks = false.
Proof.
  unfold np_expand. destruct (1 <? _); [discriminate|]. destruct (n <? _); [discriminate|].
  intros H HL; injection H as <-. destruct (existsb is_ell keys).
  - apply expand_at_ell_nolist; auto using nolist_repeat.
  - rewrite existsb_app, HL, nolist_repeat. auto.
Qed.

Lemma sliced_shape_ok keys sh s : oselect keys sh = Some s -> existsb is_list keys = false ->
  sliced_shape sh keys = Ok (sel_shape s).
Proof.
  intros H HL. apply oselect_expand in H as (ks & H1 & H2 & H3 & H4).
  unfold sliced_shape. rewrite H2. simpl. apply sliced_loop_ok; auto.
  eapply np_expand_nolist; eauto.
Qed.

(** ** Keys without newaxis *)

Definition nonew (ks : list key) : Prop := existsb is_new ks = false.

Lemma sel_keys_length ks sh s : nonew ks -> sel_keys ks sh = Some s ->
  length ks = length sh /\ length s = length sh.
Proof.
  unfold nonew. revert sh s; induction ks as [|k ks IH]; intros sh s HN H.
  - destruct sh; simpl in H; [|discriminate]. injection H as <-. auto.
  - simpl in HN. apply orb_false_iff in HN as [HN1 HN2].
    apply sel_keys_cons in H as [(-> & r & -> & H)|(Hn & He & n & sh' & d & r & -> & -> & Hd & H)].
    + discriminate.
    + apply IH in H as [H1 H2]; auto. simpl. auto.
Qed.

Lemma nonew_cons k ks : nonew (k :: ks) <-> is_new k = false /\ nonew ks.
Proof. unfold nonew. simpl. apply orb_false_iff. Qed.
Lemma nonew_app a b : nonew (a ++ b) <-> nonew a /\ nonew b.
Proof. unfold nonew. rewrite existsb_app. apply orb_false_iff. Qed.

(** Without newaxis a selection is a key-by-key matter. *)
Lemma sel_keys_F2 ks sh s : nonew ks ->
  sel_keys ks sh = Some s <->
  (length ks = length sh /\ Forall2 (fun kn d => sel_key (fst kn) (snd kn) = Some d) (combine ks sh) s).
Proof.
  revert sh s; induction ks as [|k ks IH]; intros sh s HN.
  - simpl. destruct sh; simpl; split; intros H; try discriminate; try (destruct H; discriminate).
    + injection H as <-. auto.
    + destruct H as [_ H]. inversion H; auto.
  - apply nonew_cons in HN as [HN1 HN2]. split.
    + intros H. apply sel_keys_cons in H as [(-> & r & -> & H)|(Hn & He & n & sh' & d & r & -> & -> & Hd & H)].
      discriminate. apply IH in H as [H1 H2]; auto. simpl. split; auto.
    + intros [HL H]. destruct sh as [|n sh]; [discriminate|]. simpl in *.
      inversion H as [|x y l l' Hx Hl E1 E2]; subst.
      assert (H' : sel_keys ks sh = Some l') by (apply IH; auto).
      rewrite H'. simpl in Hx. destruct k; try discriminate; rewrite Hx; auto.
Qed.

Lemma sel_keys_app ks1 ks2 sh1 sh2 s : nonew ks1 -> nonew ks2 -> length ks1 = length sh1 ->
  sel_keys (ks1 ++ ks2) (sh1 ++ sh2) = Some s ->
  exists s1 s2, s = s1 ++ s2 /\ sel_keys ks1 sh1 = Some s1 /\ sel_keys ks2 sh2 = Some s2.
Proof.
  revert sh1 s; induction ks1 as [|k ks1 IH]; intros sh1 s HN1 HN2 HL H.
  - destruct sh1; [|discriminate]. exists [], s. simpl in *. auto.
  - destruct sh1 as [|n sh1]; [discriminate|]. apply nonew_cons in HN1 as [HN HN1]. simpl app in H.
    rewrite sel_keys_cons_eq in H by auto.
    destruct (sel_key k n) as [d|] eqn:E1; [|discriminate].
    destruct (sel_keys (ks1 ++ ks2) (sh1 ++ sh2)) as [r|] eqn:E2; [|discriminate].
    injection H as <-. simpl in HL. apply IH in E2 as (s1 & s2 & -> & H1 & H2); auto.
    exists (d :: s1), s2. rewrite sel_keys_cons_eq, E1, H1 by auto. auto.
Qed.

Lemma sel_keys_repeat_full sh : sel_keys (repeat KFull (length sh)) sh = Some (full_sels sh).
Proof. induction sh; simpl repeat; auto. rewrite sel_keys_cons_eq by auto.
  rewrite sel_key_full, IHsh. auto. Qed.

Lemma sel_shape_app s1 s2 : sel_shape (s1 ++ s2) = sel_shape s1 ++ sel_shape s2.
Proof. induction s1 as [|[i|l|] s1 IH]; simpl; auto; f_equal; auto. Qed.

Lemma sel_map_app s1 s2 o1 o2 : length o1 = length (sel_shape s1) ->
  sel_map (s1 ++ s2) (o1 ++ o2) = sel_map s1 o1 ++ sel_map s2 o2.
Proof.
  revert o1; induction s1 as [|[i|l|] s1 IH]; intros o1 H; simpl in *.
  - destruct o1; [auto|discriminate].
  - f_equal; auto.
  - destruct o1; [discriminate|]. simpl in *. f_equal; auto.
  - destruct o1; [discriminate|]. simpl in *. auto.
Qed.

(** Removing the newaxis keys. *)
Definition drop_dnew (s : list dsel) : list dsel :=
  filter (fun d => match d with DNew => false | _ => true end) s.

Lemma drop_new_nonew ks : nonew (drop_new ks).
Proof. unfold nonew, drop_new. induction ks; simpl; auto. destruct (is_new a) eqn:E; simpl; auto.
  rewrite E; auto. Qed.
Lemma drop_new_id ks : nonew ks -> drop_new ks = ks.
Proof. unfold drop_new. induction ks; simpl; intros H; auto. apply nonew_cons in H as [H1 H2].
  rewrite H1. simpl. f_equal; auto. Qed.

Lemma sel_key_not_new k n d : sel_key k n = Some d -> d <> DNew.
Proof. intros H. apply sel_key_kind in H as [(_ & i & ->)|(_ & l & ->)]; discriminate. Qed.

Lemma sel_keys_drop ks sh s : sel_keys ks sh = Some s ->
  sel_keys (drop_new ks) sh = Some (drop_dnew s).
Proof.
  revert sh s; induction ks as [|k ks IH]; intros sh s H.
  - destruct sh; simpl in *; [injection H as <-|discriminate]. auto.
  - apply sel_keys_cons in H as [(-> & r & -> & H)|(Hn & He & n & sh' & d & r & -> & -> & Hd & H)].
    + simpl. auto.
    + simpl. rewrite Hn. simpl negb. cbv iota. rewrite sel_keys_cons_eq by auto.
      rewrite (IH _ _ H), Hd. pose proof (sel_key_not_new _ _ _ Hd). destruct d; auto. congruence.
Qed.

(** ** Statements about [full_keys] alone *)
Lemma full_keys_error keys ndim : count_if is_ell keys <= 1 ->
  (full_keys keys ndim = Err IndexError <->
   ndim < count_if (fun k => negb (is_new k) && negb (is_ell k)) keys).
Proof.
  intros H. rewrite full_keys_np by auto. unfold np_expand.
  replace (1 <? count_if is_ell keys) with false by lia.
  fold (n_real keys). destruct (Nat.ltb_spec ndim (n_real keys)); split; intros; auto; try discriminate; lia.
Qed.
Lemma full_keys_complete keys ndim ks : count_if is_ell keys <= 1 ->
  full_keys keys ndim = Ok ks ->
  existsb is_ell ks = false /\ count_if (fun k => negb (is_new k)) ks = ndim.
Proof.
  intros H E. rewrite full_keys_np in E by auto. apply np_expand_full in E as [E1 E2].
  split; auto. rewrite n_real_noell; auto.
Qed.
Lemma sliced_shape_list_rejected : exists sh keys s,
  oselect keys sh = Some s /\ sliced_shape sh keys = Err ValueError.
Proof. exists [3], [KList [0%Z]], [DLs [0]]. split; reflexivity. Qed.
