(** Lib: list lemmas used by the proofs. *)
From Verif Require Import Base.

Lemma set_nth_length {A} i (x : A) l : length (set_nth i x l) = length l.
Proof. revert i; induction l as [|y l IH]; intros [|i]; simpl; auto. Qed.

Lemma nth_set_nth_eq {A} i (x d : A) l : i < length l -> nth i (set_nth i x l) d = x.
Proof. revert i; induction l as [|y l IH]; intros [|i] H; simpl in *; try lia; auto.
  apply IH; lia. Qed.

Lemma nth_set_nth_neq {A} i j (x d : A) l : i <> j -> nth j (set_nth i x l) d = nth j l d.
Proof. revert i j; induction l as [|y l IH]; intros [|i] [|j] H; simpl; auto; try lia. Qed.

Lemma set_nth_out {A} i (x : A) l : length l <= i -> set_nth i x l = l.
Proof. revert i; induction l as [|y l IH]; intros [|i] H; simpl in *; auto; try lia.
  f_equal; apply IH; lia. Qed.

Lemma set_nth_split {A} i (x d : A) l : i < length l ->
  set_nth i x l = firstn i l ++ x :: skipn (S i) l.
Proof. revert i; induction l as [|y l IH]; intros [|i] H; simpl in *; try lia; auto.
  rewrite IH by lia. reflexivity. Qed.

Lemma set_nth_same {A} i (d : A) l : set_nth i (nth i l d) l = l.
Proof. revert i; induction l as [|y l IH]; intros [|i]; simpl; auto. f_equal; auto. Qed.

Lemma insert_at_length {A} i (x : A) l : length (insert_at i x l) = S (length l).
Proof. unfold insert_at. rewrite app_length; simpl.
  rewrite <- (firstn_skipn i l) at 3. rewrite app_length. lia. Qed.

Lemma remove_at_length {A} i (l : list A) : i < length l -> length (remove_at i l) = pred (length l).
Proof. intros H. unfold remove_at. rewrite app_length, firstn_length, skipn_length. lia. Qed.

Lemma insert_at_0 {A} (x : A) l : insert_at 0 x l = x :: l.
Proof. reflexivity. Qed.
Lemma insert_at_S {A} i (x y : A) l : insert_at (S i) x (y :: l) = y :: insert_at i x l.
Proof. reflexivity. Qed.
Lemma remove_at_0 {A} (x : A) l : remove_at 0 (x :: l) = l.
Proof. reflexivity. Qed.
Lemma remove_at_S {A} i (x : A) l : remove_at (S i) (x :: l) = x :: remove_at i l.
Proof. reflexivity. Qed.

Lemma remove_insert {A} i (x : A) l : i <= length l -> remove_at i (insert_at i x l) = l.
Proof.
  revert i; induction l as [|y l IH]; intros [|i] H; simpl in *; try lia; try reflexivity.
  rewrite insert_at_S, remove_at_S, IH by lia. reflexivity.
Qed.

Lemma insert_remove {A} i (d : A) l : i < length l -> insert_at i (nth i l d) (remove_at i l) = l.
Proof.
  revert i; induction l as [|y l IH]; intros [|i] H; simpl in *; try lia; try reflexivity.
  rewrite remove_at_S, insert_at_S, IH by lia. reflexivity.
Qed.

Lemma nth_insert_at {A} i (x d : A) l : i <= length l -> nth i (insert_at i x l) d = x.
Proof.
  revert i; induction l as [|y l IH]; intros [|i] H; simpl in *; try lia; try reflexivity.
  change (nth i (insert_at i x l) d = x). apply IH; lia.
Qed.

Lemma mapM_ok {A B} (f : A -> res B) l r :
  mapM f l = Ok r <-> Forall2 (fun x y => f x = Ok y) l r.
Proof.
  revert r; induction l as [|x l IH]; intros r; simpl.
  - split; intros H. injection H as <-. constructor. inversion H; auto.
  - split; intros H.
    + destruct (f x) as [y|e] eqn:E; [|discriminate].
      destruct (mapM f l) as [ys|e] eqn:E2; [|discriminate].
      injection H as <-. constructor; auto. apply IH; auto.
    + inversion H as [|x' y l' r' Hx Hr]; subst. rewrite Hx.
      apply IH in Hr. rewrite Hr. reflexivity.
Qed.

Lemma Forall2_length {A B} (P : A -> B -> Prop) l r : Forall2 P l r -> length l = length r.
Proof. intros H; induction H; simpl; auto. Qed.

Lemma mapM_length {A B} (f : A -> res B) l r : mapM f l = Ok r -> length r = length l.
Proof. intros H. apply mapM_ok in H. symmetry. eapply Forall2_length; eauto. Qed.

(** Success of a traversal, with a property of each result. *)
Lemma mapM_exists {A B} (f : A -> res B) (P : A -> B -> Prop) l :
  (forall x, In x l -> exists y, f x = Ok y /\ P x y) ->
  exists r, mapM f l = Ok r /\ Forall2 P l r.
Proof.
  induction l as [|x l IH]; intros H; simpl.
  - exists []; split; auto.
  - destruct (H x (or_introl eq_refl)) as (y & Hy & Py).
    destruct IH as (r & Hr & Pr). { intros z Hz; apply H; right; auto. }
    exists (y :: r). rewrite Hy, Hr. split; auto.
Qed.

Lemma Forall2_nth {A B} (P : A -> B -> Prop) l r da db i :
  Forall2 P l r -> i < length l -> P (nth i l da) (nth i r db).
Proof.
  intros H; revert i; induction H as [|x y l r Hxy H IH]; intros i Hi; simpl in *; [lia|].
  destruct i; auto. apply IH; lia.
Qed.

Lemma Forall2_map_l {A B C} (P : B -> C -> Prop) (f : A -> B) l r :
  Forall2 P (map f l) r <-> Forall2 (fun x y => P (f x) y) l r.
Proof.
  revert r; induction l as [|x l IH]; intros [|y r]; simpl; split; intros H;
    inversion H; subst; constructor; auto; apply IH; auto.
Qed.

Lemma Forall2_map_r {A B C} (P : A -> C -> Prop) (f : B -> C) l r :
  Forall2 P l (map f r) <-> Forall2 (fun x y => P x (f y)) l r.
Proof.
  revert r; induction l as [|x l IH]; intros [|y r]; simpl; split; intros H;
    inversion H; subst; constructor; auto; apply IH; auto.
Qed.

Lemma Forall2_impl {A B} (P Q : A -> B -> Prop) l r :
  (forall x y, P x y -> Q x y) -> Forall2 P l r -> Forall2 Q l r.
Proof. intros H F; induction F; constructor; auto. Qed.

Lemma Forall2_In_l {A B} (P : A -> B -> Prop) l r x :
  Forall2 P l r -> In x l -> exists y, In y r /\ P x y.
Proof. intros F; induction F; intros Hi; destruct Hi; subst; firstorder. Qed.

Lemma Forall2_In_r {A B} (P : A -> B -> Prop) l r y :
  Forall2 P l r -> In y r -> exists x, In x l /\ P x y.
Proof. intros F; induction F; intros Hi; destruct Hi; subst; firstorder. Qed.

Lemma Forall2_app_split {A B} (P : A -> B -> Prop) l r1 r2 :
  Forall2 P l (r1 ++ r2) ->
  Forall2 P (firstn (length r1) l) r1 /\ Forall2 P (skipn (length r1) l) r2.
Proof.
  revert l; induction r1 as [|y r1 IH]; intros l H; simpl in *.
  - auto.
  - inversion H as [|x y' l' r' Hxy Hr]; subst. apply IH in Hr. destruct Hr. split; simpl; auto.
Qed.

Lemma list_eqb_eq {A} (eqb : A -> A -> bool) l1 l2 :
  (forall x y, eqb x y = true <-> x = y) -> list_eqb eqb l1 l2 = true <-> l1 = l2.
Proof.
  intros H; revert l2; induction l1 as [|x l1 IH]; intros [|y l2]; simpl; split; intros E;
    try discriminate; auto.
  - apply andb_true_iff in E as [E1 E2]. apply H in E1. apply IH in E2. subst; auto.
  - injection E as -> ->. apply andb_true_iff. split; [apply H|apply IH]; auto.
Qed.

Lemma shape_eqb_eq l1 l2 : shape_eqb l1 l2 = true <-> l1 = l2.
Proof. apply list_eqb_eq. intros; apply Nat.eqb_eq. Qed.

Lemma shape_eqb_refl l : shape_eqb l l = true.
Proof. apply shape_eqb_eq; auto. Qed.

Lemma index_of_Some x l i : index_of x l = Some i -> i < length l /\ nth i l 0 = x.
Proof.
  revert i; induction l as [|y l IH]; simpl; intros i H; [discriminate|].
  destruct (Nat.eqb_spec x y) as [->|N].
  - injection H as <-. split; [lia|auto].
  - destruct (index_of x l) as [j|] eqn:E; [|discriminate]. injection H as <-.
    destruct (IH j eq_refl). split; [lia|auto].
Qed.

Lemma index_of_In x l : In x l -> exists i, index_of x l = Some i.
Proof.
  induction l as [|y l IH]; simpl; intros H; [contradiction|].
  destruct (Nat.eqb_spec x y); [eauto|]. destruct H as [->|H]; [congruence|].
  destruct (IH H) as [i ->]. eauto.
Qed.

Lemma index_of_None x l : index_of x l = None -> ~ In x l.
Proof. intros H Hi. destruct (index_of_In x l Hi) as [i E]. congruence. Qed.

Lemma index_of_nth l i : NoDup l -> i < length l -> index_of (nth i l 0) l = Some i.
Proof.
  intros N; revert i; induction N as [|y l Hy N IH]; intros i Hi; simpl in *; [lia|].
  destruct i; [rewrite Nat.eqb_refl; auto|].
  destruct (Nat.eqb_spec (nth i l 0) y) as [E|E].
  - exfalso. apply Hy. rewrite <- E. apply nth_In. lia.
  - rewrite IH by lia. auto.
Qed.

Lemma index_of_seq n j : j < n -> index_of j (seq 0 n) = Some j.
Proof.
  intros H. replace j with (nth j (seq 0 n) 0) at 1 by (rewrite seq_nth; lia).
  apply index_of_nth; [apply seq_NoDup|rewrite seq_length; auto].
Qed.

Lemma nth_error_ext_nth {A} (d : A) l l' :
  length l = length l' -> (forall i, i < length l -> nth i l d = nth i l' d) -> l = l'.
Proof.
  revert l'; induction l as [|x l IH]; intros [|y l'] HL H; simpl in *; try discriminate; auto.
  f_equal. apply (H 0); lia. apply IH; [lia|]. intros i Hi. apply (H (S i)); lia.
Qed.

Lemma firstn_length_le' {A} n (l : list A) : n <= length l -> length (firstn n l) = n.
Proof. intros; rewrite firstn_length; lia. Qed.

Lemma nth_firstn_lt {A} i n (l : list A) d : i < n -> nth i (firstn n l) d = nth i l d.
Proof.
  revert n l; induction i as [|i IH]; intros [|n] [|x l] H; simpl; auto; try lia.
  apply IH; lia.
Qed.

Lemma nth_skipn_plus {A} i n (l : list A) d : nth i (skipn n l) d = nth (n + i) l d.
Proof.
  revert l; induction n as [|n IH]; intros [|x l]; simpl; auto. destruct i; auto.
Qed.

Lemma prodn_app a b : prodn (a ++ b) = prodn a * prodn b.
Proof. induction a as [|x a IH]; simpl; [lia|]. rewrite IH. lia. Qed.

Lemma foldM_app {A S} (f : S -> A -> res S) s l1 l2 :
  foldM f s (l1 ++ l2) = bind (foldM f s l1) (fun s' => foldM f s' l2).
Proof.
  revert s; induction l1 as [|x l1 IH]; intros s; simpl; auto.
  destruct (f s x); simpl; auto.
Qed.

Lemma fold_left_add_acc l a : fold_left Nat.add l a = a + fold_right Nat.add 0 l.
Proof. revert a; induction l as [|x l IH]; intros a; simpl; [lia|]. rewrite IH. lia. Qed.

Lemma fold_right_and_Forall {A} (P : A -> Prop) l :
  fold_right (fun x Q => P x /\ Q) True l <-> Forall P l.
Proof. induction l; simpl; split; intros H; auto; [constructor|inversion H]; firstorder. Qed.

Lemma nth_map {A B} (f : A -> B) l i d d' : i < length l -> nth i (map f l) d = f (nth i l d').
Proof. intros H. rewrite (nth_indep _ d (f d')) by (rewrite map_length; auto). apply map_nth. Qed.
Lemma nth_map_seq {B} (f : nat -> B) n i d : i < n -> nth i (map f (seq 0 n)) d = f i.
Proof. intros H. rewrite (nth_map f _ _ _ 0) by (rewrite seq_length; auto). rewrite seq_nth; auto. Qed.
