(** RealOps: the model's arithmetic instantiated with the real numbers (exact
    arithmetic), and the standard deviation and variance handlers. *)
From Verif Require Import Base PySlice Keys NDArray Arrays Handlers Spec Lib HandlerLemmas.
From Coq Require Import Reals Lra.

(** Exact real arithmetic; casts, fill values and dtype labels stay arbitrary. *)
Definition real_ops (cast : nat -> R -> R) (dfill : nat -> R) (dtf : nat -> nat) (dti : nat) : numops R :=
  mkOps R 0%R Rplus (fun l => fold_left Rplus l 0%R) Rminus Rmult Rdiv INR sqrt Rmin Rmax
        (fun a b => if Req_EM_T a b then true else false)
        (fun a b => if Rlt_dec a b then true else false)
        cast dfill dtf dti.

Section RealOps.
Context (cast : nat -> R -> R) (dfill : nat -> R) (dtf : nat -> nat) (dti : nat).
Notation O := (real_ops cast dfill dtf dti).
Notation cell := (option R).

Lemma real_laws : laws O.
Proof.
  split; simpl; intros.
  - ring.
  - reflexivity.
  - ring.
  - ring.
  - apply plus_INR.
  - symmetry. apply Rmin_assoc.
  - symmetry. apply Rmax_assoc.
Qed.

Open Scope R_scope.

Fixpoint sumsq (l : list R) : R := match l with [] => 0 | x :: l' => x * x + sumsq l' end.
Lemma sumsq_app l r : sumsq (l ++ r) = sumsq l + sumsq r.
Proof. induction l as [|x l IH]; simpl; [ring|]. rewrite IH. ring. Qed.
Lemma total_app_R l r : total O (l ++ r) = total O l + total O r.
Proof. exact (total_app O real_laws l r). Qed.

(** Sum of squared deviations from any point. *)
Lemma dev_expand l c : total O (map (fun x => (x - c) * (x - c)) l) = sumsq l - 2 * c * total O l + INR (length l) * (c * c).
Proof.
  induction l as [|x l IH]; [simpl; ring|]. cbn [map total fold_right length sumsq].
  change (fold_right (vadd O) (v0 O) (map (fun x0 => (x0 - c) * (x0 - c)) l)) with (total O (map (fun x0 => (x0 - c) * (x0 - c)) l)).
  change (fold_right (vadd O) (v0 O) l) with (total O l). rewrite IH.
  rewrite S_INR. simpl. ring.
Qed.

(** The running state after the observations [l] (at least one). *)
Definition winv (st : nat * R * R) (l : list R) : Prop :=
  let '(k, a, q) := st in
  k = length l /\ (1 <= k)%nat /\ INR k * a = total O l /\ q = sumsq l - INR k * (a * a).

Lemma winv_one x : winv (1%nat, x, 0) [x].
Proof. repeat split; simpl; try lia; ring. Qed.

Lemma winv_step st l x : winv st l -> winv (welford_step O st x) (l ++ [x]).
Proof.
  destruct st as [[k a] q]. intros (Ek & Hk & Ea & Eq). unfold welford_step, winv.
  cbn [vdiv vsub vadd vmul vofn real_ops]. rewrite app_length. cbn [length].
  assert (HS : INR (S k) = INR k + 1) by apply S_INR.
  assert (Hp : 0 <= INR k) by apply pos_INR.
  assert (Hn : INR (S k) <> 0) by (rewrite HS; lra).
  rewrite mult_INR. replace (S k - 1)%nat with k by lia.
  split; [lia|]. split; [lia|]. rewrite total_app_R, sumsq_app, <- Ea. simpl total. simpl sumsq.
  split.
  - rewrite HS in *. field. auto.
  - rewrite Eq. rewrite HS in *. field. auto.
Qed.

Lemma winv_fold xs : forall st l, winv st l -> winv (fold_left (welford_step O) xs st) (l ++ xs).
Proof.
  induction xs as [|x xs IH]; intros st l H; simpl.
  - rewrite app_nil_r. auto.
  - replace (l ++ x :: xs) with ((l ++ [x]) ++ xs) by (rewrite <- app_assoc; auto).
    apply IH. apply winv_step. auto.
Qed.

Lemma winv_sumsq st l : winv st l -> snd st = sumsq_dev O l /\ fst (fst st) = length l.
Proof.
  destruct st as [[k a] q]. intros (Ek & Hk & Ea & Eq). cbn [fst snd]. split; auto.
  unfold sumsq_dev. cbn [vmul vsub real_ops]. rewrite dev_expand. unfold mean_of. cbn [vdiv vofn real_ops].
  assert (Hn : INR k <> 0) by (apply not_0_INR; lia). rewrite <- Ek, <- Ea, Eq. field. auto.
Qed.

Lemma sumsq_nonneg l c : 0 <= total O (map (fun x => (x - c) * (x - c)) l).
Proof.
  induction l as [|x l IH]; [simpl; lra|]. cbn [map total fold_right].
  change (fold_right (vadd O) (v0 O) (map (fun x0 => (x0 - c) * (x0 - c)) l)) with (total O (map (fun x0 => (x0 - c) * (x0 - c)) l)).
  simpl. pose proof (Rle_0_sqr (x - c)) as H. unfold Rsqr in H. lra.
Qed.

(** *** Plain deviation *)

Lemma std_more (ps : list (list cell)) : forall st l0, winv st l0 -> (2 <= length l0)%nat ->
  winv (fold_left (std_step O) ps st) (l0 ++ map (plain_val O) (concat ps)).
Proof.
  induction ps as [|p ps IH]; intros st l0 A HL.
  - simpl. rewrite app_nil_r. auto.
  - simpl concat. rewrite map_app, app_assoc. simpl fold_left. apply IH.
    + destruct st as [[k a] q]. pose proof A as (Ek & _). unfold std_step.
      destruct p as [|x p]; [simpl; rewrite app_nil_r; auto|].
      replace (k =? 1)%nat with false by (symmetry; apply Nat.eqb_neq; lia).
      apply (winv_fold (map (plain_val O) (x :: p)) (k, a, q) l0 A).
    + rewrite app_length. lia.
Qed.

Lemma std_pieces (pieces : list (list cell)) : pieces_fine false (GStd 0) (map (@length cell) pieces) ->
  winv (fold_left (std_step O) pieces (1%nat, 0, 0)) (map (plain_val O) (concat pieces)).
Proof.
  intros [H|(n1 & rest & E & H1 & HF & H2)]; [discriminate|]. destruct pieces as [|p ps]; [discriminate|].
  injection E as E1 E2. subst n1 rest.
  assert (A : winv (std_step O (1%nat, 0, 0) p) (map (plain_val O) p) ).
  { destruct p as [|x p]; [simpl in H1; lia|]. unfold std_step. cbn [Nat.eqb].
    change (map (plain_val O) (x :: p)) with ([plain_val O x] ++ map (plain_val O) p).
    apply (winv_fold (map (plain_val O) p)). apply winv_one. }
  simpl concat. rewrite map_app. cbn [fold_left].
  destruct H2 as [H2|H2].
  - destruct ps; [|discriminate]. simpl concat. simpl map. rewrite app_nil_r. auto.
  - apply std_more; auto. rewrite map_length. auto.
Qed.

(** [ddof] leaves a positive denominator. *)
Definition ddof_ok (m : bool) (g : @agg R) (n : nat) : Prop :=
  match g with GStd d | GVar d => m = true \/ d < INR n | _ => True end.

Lemma right_std_plain d : handler_right O false (GStd d) (ddof_ok false (GStd d)).
Proof.
  intros pieces [H|Hd] HP; [discriminate|]. pose proof (winv_sumsq _ _ (std_pieces pieces HP)) as [H1 H2].
  unfold run_handler. cbn [handler_of h_std hfin hboot hstep v0 real_ops]. cbn [agg_spec].
  match goal with |- context [fold_left ?g pieces ?s] =>
    change (fold_left g pieces s) with (fold_left (std_step O) pieces (1%nat, 0, 0)) end.
  destruct (fold_left (std_step O) pieces (1%nat, 0, 0)) as [[k a] q]. cbn [fst snd] in *. subst.
  unfold std_of, var_of. auto.
Qed.

Lemma right_var_plain d : handler_right O false (GVar d) (ddof_ok false (GVar d)).
Proof.
  intros pieces [H|Hd] HP; [discriminate|]. pose proof (winv_sumsq _ _ (std_pieces pieces HP)) as [H1 H2].
  unfold run_handler. cbn [handler_of h_std h_var hfin hboot hstep v0 real_ops]. cbn [agg_spec].
  match goal with |- context [fold_left ?g pieces ?s] =>
    change (fold_left g pieces s) with (fold_left (std_step O) pieces (1%nat, 0, 0)) end.
  destruct (fold_left (std_step O) pieces (1%nat, 0, 0)) as [[k a] q]. cbn [fst snd] in *. subst.
  unfold sq, var_of. cbn [vmul vsqrt vdiv vsub vofn real_ops]. f_equal. apply sqrt_sqrt.
  apply Rmult_le_pos.
  - apply sumsq_nonneg.
  - apply Rlt_le, Rinv_0_lt_compat. rewrite map_length. lra.
Qed.

(** *** Masked deviation *)

Definition minv (st : nat * R * R) (l : list R) : Prop :=
  let '(c, a, q) := st in (l = [] /\ c = 0%nat /\ q = 0) \/ winv st l.

Lemma mult_INR' c : vofn O (S c * (S c - 1)) = vmul O (vofn O (S c)) (vsub O (vofn O (S c)) (vofn O 1)).
Proof. cbn [vofn vmul vsub real_ops]. rewrite mult_INR. rewrite minus_INR by lia. auto. Qed.
Lemma minv_step st l (x : cell) : minv st l -> minv (welford_m_step O st x) (l ++ obs [x]).
Proof.
  destruct st as [[c a] q]. intros [(-> & -> & ->)|H].
  - destruct x as [v|]; simpl.
    + right. apply winv_one.
    + left. auto.
  - pose proof H as (Ek & Hk & _). destruct x as [v|].
    + unfold welford_m_step. cbn [is_some val0 obs].
      replace (c =? 0)%nat with false by (symmetry; apply Nat.eqb_neq; lia). cbn [negb andb].
      right. pose proof (winv_step (c, a, q) l v H) as W. unfold welford_step in W. rewrite mult_INR' in W. exact W.
    + simpl obs. rewrite app_nil_r. unfold welford_m_step. cbn [is_some].
      replace (c =? 0)%nat with false by (symmetry; apply Nat.eqb_neq; lia). cbn [negb andb]. right. auto.
Qed.

Lemma minv_fold (xs : list cell) : forall st l, minv st l -> minv (fold_left (welford_m_step O) xs st) (l ++ obs xs).
Proof.
  induction xs as [|x xs IH]; intros st l H; [simpl; rewrite app_nil_r; auto|].
  replace (obs (x :: xs)) with (obs [x] ++ obs xs) by (destruct x; auto).
  rewrite app_assoc. simpl fold_left. apply IH. apply minv_step. auto.
Qed.

Lemma minv_pieces (pieces : list (list cell)) :
  minv (fold_left (fun st l => fold_left (welford_m_step O) l st) pieces (0%nat, 0, 0)) (obs (concat pieces)).
Proof.
  apply (fold_pieces (fun st l => fold_left (welford_m_step O) l st) (fun st l => minv st (obs l))) with (l := []).
  - intros st l x H. rewrite obs_app. apply minv_fold. auto.
  - left. auto.
Qed.

Lemma right_std_masked d : handler_right O true (GStd d) (ddof_ok true (GStd d)).
Proof.
  intros pieces _ _. pose proof (minv_pieces pieces) as H. unfold run_handler.
  cbn [handler_of h_std_m hfin hboot hstep agg_spec v0 real_ops]. unfold masked_std, masked_var.
  match goal with |- context [fold_left ?g pieces ?s] =>
    change (fold_left g pieces s) with (fold_left (fun st l => fold_left (welford_m_step O) l st) pieces (0%nat, 0, 0)) end.
  destruct (fold_left (fun st l => fold_left (welford_m_step O) l st) pieces (0%nat, 0, 0)) as [[c a] q]. destruct H as [(-> & -> & _)|H]; auto.
  apply winv_sumsq in H as Hs. cbn [fst snd] in Hs. destruct Hs as [-> ->].
  change (v0 O) with 0. destruct (length (obs (concat pieces)) =? 0)%nat; auto. cbn [orb].
  destruct (veqb O (vsub O (vofn O (length (obs (concat pieces)))) d) 0); auto. cbn [orb].
  fold (var_of O d (obs (concat pieces))).
  destruct (vltb O (var_of O d (obs (concat pieces))) 0); auto.
Qed.

Lemma right_var_masked d : handler_right O true (GVar d) (ddof_ok true (GVar d)).
Proof.
  intros pieces _ _. pose proof (minv_pieces pieces) as H. unfold run_handler.
  cbn [handler_of h_std_m h_var_m hfin hboot hstep agg_spec v0 real_ops]. unfold masked_var.
  match goal with |- context [fold_left ?g pieces ?s] =>
    change (fold_left g pieces s) with (fold_left (fun st l => fold_left (welford_m_step O) l st) pieces (0%nat, 0, 0)) end.
  destruct (fold_left (fun st l => fold_left (welford_m_step O) l st) pieces (0%nat, 0, 0)) as [[c a] q]. destruct H as [(-> & -> & _)|H]; auto.
  apply winv_sumsq in H as Hs. cbn [fst snd] in Hs. destruct Hs as [-> ->].
  change (v0 O) with 0. destruct (length (obs (concat pieces)) =? 0)%nat; auto. cbn [orb].
  destruct (veqb O (vsub O (vofn O (length (obs (concat pieces)))) d) 0); auto. cbn [orb].
  fold (var_of O d (obs (concat pieces))).
  destruct (vltb O (var_of O d (obs (concat pieces))) 0) eqn:E; auto.
  cbn [sq vmul vsqrt real_ops]. f_equal. apply sqrt_sqrt. cbn [vltb real_ops] in E.
  destruct (Rlt_dec _ _) as [|N] in E; [discriminate|]. apply Rnot_lt_le in N. exact N.
Qed.

(** Every aggregation over the reals. *)
Theorem right_real m g : handler_right O m g (ddof_ok m g).
Proof.
  destruct g as [| | | |t|d|d].
  - intros p _. apply (right_count O m); auto.
  - intros p _. apply (right_min O (laws_orders O real_laws) m); auto.
  - intros p _. apply (right_max O (laws_orders O real_laws) m); auto.
  - intros p _. apply (right_sum O real_laws m); auto.
  - intros p _. apply (right_mean O real_laws m); auto.
  - destruct m; [apply right_std_masked|apply right_std_plain].
  - destruct m; [apply right_var_masked|apply right_var_plain].
Qed.

End RealOps.
