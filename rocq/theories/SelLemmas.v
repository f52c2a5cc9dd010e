(** SelLemmas: slices, key normalisation and orthogonal selections. *)
From Verif Require Import Base PySlice Keys NDArray Arrays Spec Lib.
From Coq Require Import ZifyBool ZifyNat.

(** ** Slices select positions inside the dimension *)

Lemma clamp_bound_range n lo up v : (lo <= up + 1)%Z ->
  (0 <= n)%Z -> (lo = 0 /\ up = n \/ lo = -1 /\ up = n - 1)%Z ->
  (lo <= clamp_bound n lo up v <= up)%Z.
Proof. intros H Hn Hc. unfold clamp_bound.
  destruct (v <? 0)%Z eqn:E1; [destruct (v + n <? lo)%Z eqn:E2|destruct (up <? v)%Z eqn:E2]; lia. Qed.

Lemma slice_indices_ok s n a b c : slice_indices s n = Ok (a, b, c) ->
  (c <> 0 /\ (0 < c -> 0 <= a /\ b <= Z.of_nat n) /\ (c < 0 -> a <= Z.of_nat n - 1 /\ -1 <= b))%Z.
Proof.
  unfold slice_indices. set (z := Z.of_nat n).
  set (step := match s_step s with Some v => v | None => 1%Z end).
  destruct (Z.eqb_spec step 0) as [E|E]; [discriminate|].
  intros H; injection H as H1 H2 H3. subst c. split; auto.
  assert (0 <= z)%Z by (unfold z; lia).
  destruct (Z.ltb_spec step 0) as [L|L].
  - split; [lia|]. intros _. subst a b. split.
    + destruct (s_start s); [|lia].
      pose proof (clamp_bound_range z (-1) (z-1) z0); lia.
    + destruct (s_stop s); [|lia].
      pose proof (clamp_bound_range z (-1) (z-1) z0); lia.
  - split; [|lia]. intros _. subst a b. split.
    + destruct (s_start s); [|lia].
      pose proof (clamp_bound_range z 0 z z0); lia.
    + destruct (s_stop s); [|lia].
      pose proof (clamp_bound_range z 0 z z0); lia.
Qed.

Lemma range_len_pos a b c i : (0 < c)%Z -> i < range_len a b c -> (a + Z.of_nat i * c < b)%Z.
Proof.
  intros Hc Hi. unfold range_len in Hi. destruct (0 <? c)%Z eqn:E; [|lia].
  assert (Z.of_nat i + 1 <= (b - a + c - 1) / c)%Z by lia.
  assert (c * ((b - a + c - 1) / c) <= b - a + c - 1)%Z by (apply Z.mul_div_le; lia).
  nia.
Qed.

Lemma range_len_neg a b c i : (c < 0)%Z -> i < range_len a b c -> (b < a + Z.of_nat i * c)%Z.
Proof.
  intros Hc Hi. unfold range_len in Hi. destruct (0 <? c)%Z eqn:E; [lia|].
  assert (Z.of_nat i + 1 <= (a - b - c - 1) / (- c))%Z by lia.
  assert ((- c) * ((a - b - c - 1) / (- c)) <= a - b - c - 1)%Z by (apply Z.mul_div_le; lia).
  nia.
Qed.

Lemma slice_idx_bounds s n l : slice_idx s n = Ok l ->
  Forall (fun z => 0 <= z < Z.of_nat n)%Z l.
Proof.
  unfold slice_idx. destruct (slice_indices s n) as [[[a b] c]|e] eqn:E; [|discriminate].
  simpl. intros H; injection H as <-. apply slice_indices_ok in E as (Hc & Hp & Hn).
  apply Forall_forall. intros z Hz. unfold py_range in Hz. apply in_map_iff in Hz as (i & <- & Hi).
  apply in_seq in Hi. destruct (Z.lt_trichotomy c 0) as [L|[L|L]]; [|lia|].
  - assert (b < a + Z.of_nat i * c)%Z by (apply range_len_neg; lia). specialize (Hn L). nia.
  - assert (a + Z.of_nat i * c < b)%Z by (apply range_len_pos; lia). specialize (Hp L). nia.
Qed.

Lemma slice_idx_full n : slice_idx full_slice n = Ok (map Z.of_nat (seq 0 n)).
Proof.
  unfold slice_idx, slice_indices. simpl. f_equal. unfold py_range, range_len. simpl.
  replace ((Z.of_nat n - 0 + 1 - 1) / 1)%Z with (Z.of_nat n) by (rewrite Z.div_1_r; lia).
  rewrite Nat2Z.id. apply map_ext. intros; lia.
Qed.

Lemma map_to_of_nat l : map Z.to_nat (map Z.of_nat l) = l.
Proof. rewrite map_map. rewrite <- (map_id l) at 2. apply map_ext. intros; lia. Qed.

Lemma sel_key_full n : sel_key KFull n = Some (DLs (seq 0 n)).
Proof. unfold KFull, sel_key. rewrite slice_idx_full, map_to_of_nat. auto. Qed.

Lemma norm_int_bound i n j : norm_int i n = Some j -> j < n.
Proof. unfold norm_int. intros H.
  destruct ((- Z.of_nat n <=? i) && (i <? Z.of_nat n))%Z eqn:E; [|discriminate].
  injection H as <-. destruct (i <? 0)%Z eqn:E2; lia. Qed.

Lemma norm_int_nat i n : i < n -> norm_int (Z.of_nat i) n = Some i.
Proof. intros H. unfold norm_int. 
  replace ((- Z.of_nat n <=? Z.of_nat i) && (Z.of_nat i <? Z.of_nat n))%Z with true by lia.
  replace (Z.of_nat i <? 0)%Z with false by lia. f_equal; lia. Qed.

Lemma norm_ints_bound l n r : norm_ints l n = Some r -> Forall (fun j => j < n) r.
Proof.
  revert r; induction l as [|i l IH]; simpl; intros r H.
  - injection H as <-; auto.
  - destruct (norm_int i n) eqn:E; [|discriminate].
    destruct (norm_ints l n) eqn:E2; [|discriminate]. injection H as <-.
    constructor; eauto using norm_int_bound.
Qed.

Lemma norm_ints_length l n r : norm_ints l n = Some r -> length r = length l.
Proof.
  revert r; induction l as [|i l IH]; simpl; intros r H.
  - injection H as <-; auto.
  - destruct (norm_int i n) eqn:E; [|discriminate].
    destruct (norm_ints l n) eqn:E2; [|discriminate]. injection H as <-.
    simpl; f_equal; auto.
Qed.

Lemma norm_ints_Forall2 l n r : norm_ints l n = Some r <->
  Forall2 (fun i j => norm_int i n = Some j) l r.
Proof.
  revert r; induction l as [|i l IH]; simpl; intros r; split; intros H.
  - injection H as <-; auto.
  - inversion H; auto.
  - destruct (norm_int i n) eqn:E; [|discriminate].
    destruct (norm_ints l n) eqn:E2; [|discriminate]. injection H as <-.
    constructor; auto. apply IH; auto.
  - inversion H as [|x y l' r' Hx Hr]; subst. rewrite Hx. apply IH in Hr. rewrite Hr. auto.
Qed.

Lemma norm_ints_nat l n : Forall (fun j => j < n) l -> norm_ints (map Z.of_nat l) n = Some l.
Proof.
  intros H. apply norm_ints_Forall2. apply Forall2_map_l.
  induction H; constructor; auto using norm_int_nat.
Qed.

Lemma mask_nonzero_from_bound m i :
  Forall (fun j => i <= j < i + length m) (mask_nonzero_from i m).
Proof.
  revert i; induction m as [|b m IH]; intros i; simpl; auto.
  specialize (IH (S i)). assert (Forall (fun j => i <= j < i + S (length m)) (mask_nonzero_from (S i) m)).
  { eapply Forall_impl; [|apply IH]. simpl; intros; lia. }
  destruct b; auto. constructor; auto; lia.
Qed.

Lemma mask_nonzero_bound m : Forall (fun j => j < length m) (mask_nonzero m).
Proof. eapply Forall_impl; [|apply mask_nonzero_from_bound]. simpl; intros; lia. Qed.

Lemma mask_nonzero_from_length m i : length (mask_nonzero_from i m) = count_if (fun b => b) m.
Proof. revert i; induction m as [|b m IH]; intros i; simpl; auto.
  unfold count_if in *; destruct b; simpl; auto. Qed.
Lemma mask_nonzero_length m : length (mask_nonzero m) = count_if (fun b => b) m.
Proof. apply mask_nonzero_from_length. Qed.

(** ** Valid selections *)

Fixpoint vsel (s : list dsel) (sh : list nat) : Prop :=
  match s, sh with
  | [], [] => True
  | DNew :: s', _ => vsel s' sh
  | DPt i :: s', n :: sh' => i < n /\ vsel s' sh'
  | DLs l :: s', n :: sh' => Forall (fun j => j < n) l /\ vsel s' sh'
  | _, _ => False
  end.

Definition vkey (d : dsel) (n : nat) : Prop :=
  match d with DPt i => i < n | DLs l => Forall (fun j => j < n) l | DNew => False end.

Lemma sel_key_valid k n d : sel_key k n = Some d -> vkey d n.
Proof.
  destruct k; simpl; intros H; try discriminate.
  - destruct (norm_int i n) eqn:E; [|discriminate]. injection H as <-. simpl.
    eapply norm_int_bound; eauto.
  - destruct (slice_idx s n) eqn:E; [|discriminate]. injection H as <-. simpl.
    apply slice_idx_bounds in E. apply Forall_map. eapply Forall_impl; [|apply E].
    simpl; intros; lia.
  - destruct (norm_ints l n) eqn:E; [|discriminate]. injection H as <-.
    eapply norm_ints_bound; eauto.
  - destruct (norm_ints l n) eqn:E; [|discriminate]. injection H as <-.
    eapply norm_ints_bound; eauto.
  - destruct (norm_ints l n) eqn:E; [|discriminate]. injection H as <-.
    eapply norm_ints_bound; eauto.
  - destruct (Nat.eqb_spec (length l) n) as [<-|]; [|discriminate]. injection H as <-.
    apply mask_nonzero_bound.
Qed.

Lemma sel_keys_valid ks sh s : sel_keys ks sh = Some s -> vsel s sh.
Proof.
  revert sh s; induction ks as [|k ks IH]; intros sh s H.
  - destruct sh; simpl in H; [injection H as <-; simpl; auto|discriminate].
  - assert (Hk : k = KNew \/ k <> KNew) by (destruct k; auto; right; discriminate).
    destruct Hk as [->|Hk].
    + simpl in H. destruct (sel_keys ks sh) eqn:E; [|discriminate]. injection H as <-.
      simpl. destruct sh; eauto.
    + assert (H' : match sh with [] => None | n :: sh' =>
                     match sel_key k n, sel_keys ks sh' with
                     | Some s, Some r => Some (s :: r) | _, _ => None end end = Some s)
        by (destruct k; simpl in H; auto; congruence).
      clear H. destruct sh as [|n sh]; [discriminate|].
      destruct (sel_key k n) as [d|] eqn:E1; [|discriminate].
      destruct (sel_keys ks sh) as [r|] eqn:E2; [|discriminate].
      injection H' as <-. apply sel_key_valid in E1. apply IH in E2.
      destruct d; simpl in *; auto. contradiction.
Qed.

Lemma oselect_valid keys sh s : oselect keys sh = Some s -> vsel s sh.
Proof. unfold oselect. destruct (np_expand keys (length sh)); [|discriminate].
  apply sel_keys_valid. Qed.

Lemma inb_cons n sh i o : inb (n :: sh) (i :: o) <-> i < n /\ inb sh o.
Proof. unfold inb; split; intros H; [inversion H; auto|destruct H; constructor; auto]. Qed.
Lemma inb_nil o : inb [] o <-> o = [].
Proof. unfold inb; split; intros H; [inversion H; auto|subst; constructor]. Qed.
Lemma inb_cons_inv n sh o : inb (n :: sh) o -> exists i o', o = i :: o' /\ i < n /\ inb sh o'.
Proof. unfold inb; intros H; inversion H; subst; eauto. Qed.
Lemma inb_length sh o : inb sh o -> length o = length sh.
Proof. apply Forall2_length. Qed.

Lemma inb_app sh1 sh2 o1 o2 : length o1 = length sh1 ->
  inb (sh1 ++ sh2) (o1 ++ o2) <-> inb sh1 o1 /\ inb sh2 o2.
Proof.
  revert o1; induction sh1 as [|n sh1 IH]; intros [|i o1] HL; simpl in *; try discriminate.
  - split; [intros; split; auto; apply inb_nil; auto|intros [_ H]; auto].
  - rewrite !inb_cons. rewrite IH by lia. tauto.
Qed.

Lemma inb_split sh1 sh2 o : inb (sh1 ++ sh2) o ->
  inb sh1 (firstn (length sh1) o) /\ inb sh2 (skipn (length sh1) o).
Proof.
  intros H. pose proof (inb_length _ _ H) as HL. rewrite app_length in HL.
  rewrite <- (firstn_skipn (length sh1) o) in H. apply inb_app in H; auto.
  rewrite firstn_length; lia.
Qed.

Lemma inb_nth sh o i : inb sh o -> i < length sh -> nth i o 0 < nth i sh 0.
Proof. intros H Hi. eapply (Forall2_nth lt o sh 0 0); eauto. rewrite (inb_length _ _ H); auto. Qed.

Lemma inb_ext sh o : length o = length sh -> (forall i, i < length sh -> nth i o 0 < nth i sh 0) -> inb sh o.
Proof.
  revert o; induction sh as [|n sh IH]; intros [|i o] HL H; simpl in *; try discriminate.
  - constructor.
  - apply inb_cons. split; [apply (H 0); lia|]. apply IH; [lia|]. intros j Hj. apply (H (S j)); lia.
Qed.

Lemma nth_Forall {A} (P : A -> Prop) l i d : Forall P l -> i < length l -> P (nth i l d).
Proof. intros H Hi. rewrite Forall_forall in H. apply H. apply nth_In; auto. Qed.

Lemma sel_map_inb s sh o : vsel s sh -> inb (sel_shape s) o -> inb sh (sel_map s o).
Proof.
  revert sh o; induction s as [|[i|l|] s IH]; intros sh o Hv Ho; simpl in *.
  - destruct sh; [apply inb_nil; auto|contradiction].
  - destruct sh as [|n sh]; [contradiction|]. destruct Hv. apply inb_cons; auto.
  - destruct sh as [|n sh]; [contradiction|]. destruct Hv as [Hl Hv].
    apply inb_cons_inv in Ho as (j & o' & -> & Hj & Ho). apply inb_cons. split; auto.
    apply (nth_Forall (fun j => j < n)); auto.
  - apply inb_cons_inv in Ho as (j & o' & -> & Hj & Ho).
    assert (vsel s sh) by (destruct sh; auto). auto.
Qed.

Lemma sel_map_length s sh o : vsel s sh -> inb (sel_shape s) o -> length (sel_map s o) = length sh.
Proof. intros H1 H2. apply inb_length. eapply sel_map_inb; eauto. Qed.

(** ** Equality of arrays *)

Lemma nd_eq_refl {W} (a : nd W) : nd_eq a a.
Proof. split; auto. Qed.
Lemma nd_eq_sym {W} (a b : nd W) : nd_eq a b -> nd_eq b a.
Proof. intros [H1 H2]; split; auto. intros idx Hi. symmetry. apply H2. rewrite H1; auto. Qed.
Lemma nd_eq_trans {W} (a b c : nd W) : nd_eq a b -> nd_eq b c -> nd_eq a c.
Proof. intros [H1 H2] [H3 H4]; split; [congruence|]. intros idx Hi. rewrite H2 by auto.
  apply H4. rewrite <- H1; auto. Qed.

Lemma nd_sel_eq {W} (a b : nd W) s : nd_eq a b -> vsel s (nshape a) -> nd_eq (nd_sel a s) (nd_sel b s).
Proof. intros [H1 H2] Hv. split; auto. simpl. intros idx Hi. apply H2. apply sel_map_inb; auto. Qed.

Lemma nd_map_eq {W X} (f : W -> X) a b : nd_eq a b -> nd_eq (nd_map f a) (nd_map f b).
Proof. intros [H1 H2]; split; auto. simpl. intros idx Hi. f_equal. auto. Qed.

Lemma nd_map_sel {W X} (f : W -> X) a s : nd_eq (nd_map f (nd_sel a s)) (nd_sel (nd_map f a) s).
Proof. split; auto. Qed.

Lemma oindex_shape {W} (a : nd W) keys s : oselect keys (nshape a) = Some s ->
  oindex a keys = nd_sel a s.
Proof. unfold oindex. intros ->. auto. Qed.

(** ** Full selections *)

Lemma sel_shape_full sh : sel_shape (full_sels sh) = sh.
Proof. induction sh; simpl; auto. rewrite seq_length. f_equal; auto. Qed.

Lemma sel_map_full sh o : inb sh o -> sel_map (full_sels sh) o = o.
Proof.
  revert o; induction sh as [|n sh IH]; intros o H; simpl.
  - apply inb_nil in H; auto.
  - apply inb_cons_inv in H as (i & o' & -> & Hi & H). rewrite seq_nth by auto. f_equal; auto.
Qed.

Lemma vsel_full sh : vsel (full_sels sh) sh.
Proof. induction sh; simpl; auto. split; auto. apply Forall_forall. intros j Hj. apply in_seq in Hj. lia. Qed.

Lemma nd_sel_full {W} (a : nd W) : nd_eq (nd_sel a (full_sels (nshape a))) a.
Proof. split; simpl. apply sel_shape_full. intros idx. rewrite sel_shape_full. intros H.
  rewrite sel_map_full; auto. Qed.

