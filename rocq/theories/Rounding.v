(** Rounding: how far sums computed with rounded additions are from the exact sum
    of the same real numbers. *)
From Verif Require Import Base NDArray Arrays Spec ExactSpec.
From Coq Require Import Reals Lra ZifyBool ZifyNat Permutation.
Open Scope R_scope.

(** [rounds O u]: the additions and divisions of [O] have a relative error of at
    most [u] (IEEE arithmetic without overflow: u = 2^-53 for doubles). *)
Record rounds (O : numops R) (u : R) : Prop := mkRounds {
  r_u : 0 <= u;
  r_zero : v0 O = 0;
  r_add : forall a b, Rabs (vadd O a b - (a + b)) <= u * Rabs (a + b);
  r_div : forall a b, b <> 0 -> Rabs (vdiv O a b - a / b) <= u * Rabs (a / b)
}.
(** [adds O k l v]: [v] is the result of adding up the numbers [l] in some order
    and grouping, each number going through at most [k] additions. *)
Inductive adds (O : numops R) : nat -> list R -> R -> Prop :=
| adds_none k : adds O k [] (v0 O)
| adds_one k x : adds O k [x] x
| adds_two k l r a b : adds O k l a -> adds O k r b -> adds O (S k) (l ++ r) (vadd O a b)
| adds_order k l l' v : Permutation l l' -> adds O k l v -> adds O k l' v.

Definition rsum (l : list R) : R := fold_right Rplus 0 l.
Definition mass (l : list R) : R := rsum (map Rabs l).

Lemma rsum_app l r : rsum (l ++ r) = rsum l + rsum r.
Proof. induction l as [|x l IH]; simpl; [lra|]. unfold rsum in *. simpl. rewrite IH. lra. Qed.
Lemma mass_app l r : mass (l ++ r) = mass l + mass r.
Proof. unfold mass. rewrite map_app. apply rsum_app. Qed.
Lemma mass_pos l : 0 <= mass l.
Proof. induction l as [|x l IH]; unfold mass, rsum in *; simpl; [lra|]. pose proof (Rabs_pos x). lra. Qed.
Lemma rsum_mass l : Rabs (rsum l) <= mass l.
Proof.
  induction l as [|x l IH]; unfold mass, rsum in *; simpl; [rewrite Rabs_R0; lra|].
  pose proof (Rabs_triang x (fold_right Rplus 0 l)). lra.
Qed.
Lemma rsum_perm l l' : Permutation l l' -> rsum l = rsum l'.
Proof. induction 1; unfold rsum in *; simpl; lra. Qed.
Lemma mass_perm l l' : Permutation l l' -> mass l = mass l'.
Proof. intros H. apply rsum_perm. apply Permutation_map. auto. Qed.

Section Rounding.
Variables (O : numops R) (u : R).
Hypothesis RU : rounds O u.

Definition grow (k : nat) : R := (1 + u) ^ k - 1.
Lemma grow_pos k : 0 <= grow k.
Proof. unfold grow. pose proof (r_u O u RU). pose proof (pow_R1_Rle (1 + u) k ltac:(lra)). lra. Qed.
Lemma grow_le k k' : (k <= k')%nat -> grow k <= grow k'.
Proof. intros H. unfold grow. pose proof (r_u O u RU). pose proof (Rle_pow (1 + u) k k' ltac:(lra) H). lra. Qed.
Lemma grow_S k : grow (S k) = u + (1 + u) * grow k.
Proof. unfold grow. simpl. ring. Qed.

(** One rounded addition. *)
Lemma add_error a b A B x y k : Rabs (a - x) <= grow k * A -> Rabs (b - y) <= grow k * B -> Rabs x <= A -> Rabs y <= B ->
  Rabs (vadd O a b - (x + y)) <= grow (S k) * (A + B).
Proof.
  intros Ha Hb HA HB. pose proof (r_u O u RU) as Hu. pose proof (r_add O u RU a b) as Hr. rewrite grow_S.
  assert (H1 : Rabs (a + b) <= (A + B) + grow k * (A + B)).
  { replace (a + b) with ((x + y) + ((a - x) + (b - y))) by ring. pose proof (Rabs_triang (x + y) ((a - x) + (b - y))). pose proof (Rabs_triang (a - x) (b - y)).
    pose proof (Rabs_triang x y). lra. }
  assert (H2 : Rabs (vadd O a b - (x + y)) <= Rabs (vadd O a b - (a + b)) + (Rabs (a - x) + Rabs (b - y))).
  { replace (vadd O a b - (x + y)) with ((vadd O a b - (a + b)) + ((a - x) + (b - y))) by ring.
    pose proof (Rabs_triang (vadd O a b - (a + b)) ((a - x) + (b - y))). pose proof (Rabs_triang (a - x) (b - y)). lra. }
  assert (H3 : u * Rabs (a + b) <= u * ((A + B) + grow k * (A + B))) by (apply Rmult_le_compat_l; auto).
  lra.
Qed.
Lemma weaken k k' e A : (k <= k')%nat -> 0 <= A -> e <= grow k * A -> e <= grow k' * A.
Proof. intros H HA He. pose proof (Rmult_le_compat_r A _ _ HA (grow_le k k' H)). lra. Qed.

Lemma adds_error k l v : adds O k l v -> Rabs (v - rsum l) <= grow k * mass l.
Proof.
  induction 1 as [k|k x|k l r a b H1 IH1 H2 IH2|k l l' v HP H IH].
  - unfold mass, rsum. simpl. rewrite (r_zero O u RU). replace (0 - 0) with 0 by ring. rewrite Rabs_R0. lra.
  - unfold mass, rsum. simpl. replace (x - (x + 0)) with 0 by ring. rewrite Rabs_R0. pose proof (Rabs_pos x). pose proof (grow_pos k).
    apply Rmult_le_pos; auto. lra.
  - rewrite rsum_app, mass_app. apply add_error; auto; apply rsum_mass.
  - rewrite <- (rsum_perm _ _ HP), <- (mass_perm _ _ HP). auto.
Qed.

(** Running total of the sums of pieces. *)
Lemma fold_error h (ps : list (list R)) : (forall p, In p ps -> exists k, (k <= h)%nat /\ adds O k p (vsum O p)) ->
  forall t l j, Rabs (t - rsum l) <= grow (h + j) * mass l ->
  Rabs (fold_left (vadd O) (map (vsum O) ps) t - rsum (l ++ concat ps)) <= grow (h + j + length ps) * mass (l ++ concat ps).
Proof.
  induction ps as [|p ps IH]; intros HP t l j Ht.
  - simpl. rewrite app_nil_r, Nat.add_0_r. auto.
  - cbn [map fold_left concat length]. replace (h + j + S (length ps))%nat with (h + S j + length ps)%nat by lia. rewrite app_assoc.
    apply IH; [intros q Hq; apply HP; simpl; auto|]. destruct (HP p (or_introl eq_refl)) as (k & Hk & Ha). apply adds_error in Ha.
    rewrite rsum_app, mass_app. replace (h + S j)%nat with (S (h + j))%nat by lia. apply add_error; auto; try apply rsum_mass.
    apply (weaken k); auto; [lia|apply mass_pos].
Qed.
Lemma running_error h (ps : list (list R)) : (forall p, In p ps -> exists k, (k <= h)%nat /\ adds O k p (vsum O p)) ->
  Rabs (fold_left (vadd O) (map (vsum O) ps) (v0 O) - rsum (concat ps)) <= grow (h + length ps) * mass (concat ps).
Proof.
  intros HP. pose proof (fold_error h ps HP (v0 O) [] 0%nat) as H. rewrite Nat.add_0_r in H. apply H. unfold mass, rsum. simpl. rewrite (r_zero O u RU).
  replace (0 - 0) with 0 by ring. rewrite Rabs_R0. lra.
Qed.
Lemma div_error t x A k n : n <> 0 -> 0 < n -> Rabs (t - x) <= grow k * A -> Rabs x <= A -> Rabs (vdiv O t n - x / n) <= grow (S k) * (A / n).
Proof.
  intros Hn Hp Ht HA. pose proof (r_u O u RU) as Hu. pose proof (r_div O u RU t n Hn) as Hd. pose proof (grow_pos k) as Hg.
  assert (Hi : 0 < / n) by (apply Rinv_0_lt_compat; auto).
  assert (H1 : Rabs (t / n - x / n) <= grow k * (A / n)).
  { replace (t / n - x / n) with ((t - x) * / n) by (unfold Rdiv; ring). rewrite Rabs_mult, (Rabs_pos_eq (/ n)) by lra.
    unfold Rdiv. rewrite <- Rmult_assoc. apply Rmult_le_compat_r; [lra|auto]. }
  assert (H2 : Rabs (x / n) <= A / n).
  { unfold Rdiv. rewrite Rabs_mult, (Rabs_pos_eq (/ n)) by lra. apply Rmult_le_compat_r; [lra|auto]. }
  assert (H3 : Rabs (t / n) <= A / n + grow k * (A / n)).
  { replace (t / n) with (x / n + (t / n - x / n)) by ring. pose proof (Rabs_triang (x / n) (t / n - x / n)). lra. }
  assert (H4 : Rabs (vdiv O t n - x / n) <= Rabs (vdiv O t n - t / n) + Rabs (t / n - x / n)).
  { replace (vdiv O t n - x / n) with ((vdiv O t n - t / n) + (t / n - x / n)) by ring. apply Rabs_triang. }
  assert (H5 : u * Rabs (t / n) <= u * (A / n + grow k * (A / n))) by (apply Rmult_le_compat_l; auto).
  rewrite grow_S. lra.
Qed.
End Rounding.
