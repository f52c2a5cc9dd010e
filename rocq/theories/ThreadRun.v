(** ThreadRun: a scheduler, to compute executions; a check of the conditions of
    ThreadSpec.v on given graphs. *)
From Verif Require Import Base Lib PySlice Keys NDArray Arrays Chunks Handlers Realise Kahn Threads ThreadSpec.

Section Run.
Context {M L : Type}.
Variable next : nat -> L -> act M L.
Variable room : nat -> bool.
(** The first thread that can step. *)
Fixpoint pick (n i : nat) (s : gstate M L) : option (gstate M L) :=
  match n with
  | 0 => None
  | S n' => match fire next room i s with Some s' => Some s' | None => pick n' (S i) s end
  end.
Fixpoint run (fuel : nat) (s : gstate M L) : gstate M L :=
  match fuel with
  | 0 => s
  | S f => match pick (length (fst s)) 0 s with Some s' => run f s' | None => s end
  end.
Definition stuck (s : gstate M L) : bool := match pick (length (fst s)) 0 s with None => true | Some _ => false end.
Lemma pick_fires : forall n i s s', pick n i s = Some s' -> exists j, fire next room j s = Some s'.
Proof. induction n as [|n IH]; intros i s s' H; simpl in H; [discriminate|]. destruct (fire next room i s) eqn:E; [|eauto]. exists i. congruence. Qed.
Lemma run_steps : forall f s, exists n, steps next room n s (run f s).
Proof.
  induction f as [|f IH]; intros s; simpl; [exists 0; constructor|]. destruct (pick (length (fst s)) 0 s) as [s'|] eqn:E; [|exists 0; constructor].
  apply pick_fires in E as [j Hj]. destruct (IH s') as [n Hn]. exists (S n). econstructor; eauto.
Qed.
Lemma pick_none : forall n i s, pick n i s = None -> forall j, i <= j < i + n -> fire next room j s = None.
Proof.
  induction n as [|n IH]; intros i s H j Hj; [lia|]. simpl in H. destruct (fire next room i s) eqn:E; [discriminate|].
  destruct (Nat.eq_dec j i) as [->|]; auto. apply (IH (S i) s H). lia.
Qed.
Lemma stuck_final s : stuck s = true -> final next room s.
Proof.
  unfold stuck. destruct (pick (length (fst s)) 0 s) eqn:E; [discriminate|]. intros _ i.
  destruct (Nat.lt_ge_cases i (length (fst s))) as [Hi|Hi]; [apply (pick_none _ _ _ E); lia|].
  unfold fire. rewrite (proj2 (nth_error_None _ _) Hi). auto.
Qed.
End Run.

Section Check.
Context {V : Type} (O : numops V).
Notation entry := (@entry V).
Definition order_eqb (a b : list nat) : bool := shape_eqb a b.
Definition has (i : nat) (o : list nat) (L : list (nat * list nat)) : bool := existsb (fun x => (fst x =? i) && order_eqb (snd x) o) L.
(** [L] lists at least the demands. *)
Definition closedb (dag : list entry) (roots : list nat) (L : list (nat * list nat)) : bool :=
  forallb (fun r => has r (seq 0 (ndim (expr O dag r))) L) roots &&
  forallb (fun x => match nth_error dag (fst x) with
                    | Some e => forallb (fun s => has s (src_order e (snd x)) L) (entry_srcs e)
                    | None => true end) L.
Lemma has_In i o L : has i o L = true -> In (i, o) L.
Proof.
  intros H. apply existsb_exists in H as ([j p] & Hin & H). apply andb_true_iff in H as [H1 H2]. simpl in *. apply Nat.eqb_eq in H1. apply shape_eqb_eq in H2. subst. auto.
Qed.
Lemma closed_wants dag roots L : closedb dag roots L = true -> forall i o, wants O dag roots i o -> In (i, o) L.
Proof.
  intros H. apply andb_true_iff in H as [H1 H2]. rewrite forallb_forall in H1, H2. induction 1 as [r Hr|i o e s Hw IH He Hs].
  - apply has_In. auto.
  - specialize (H2 _ IH). cbn [fst snd] in H2. rewrite He in H2. rewrite forallb_forall in H2. apply has_In. auto.
Qed.
Lemma consistent_check dag roots L : closedb dag roots L = true ->
  forallb (fun x => forallb (fun y => negb (fst x =? fst y) || order_eqb (snd x) (snd y)) L) L = true -> consistent O dag roots.
Proof.
  intros HC H i o o' H1 H2. apply (closed_wants _ _ _ HC) in H1, H2. rewrite forallb_forall in H. specialize (H _ H1). rewrite forallb_forall in H. specialize (H _ H2).
  cbn [fst snd] in H. rewrite Nat.eqb_refl in H. simpl in H. apply shape_eqb_eq. auto.
Qed.
Variable maxc : nat.
Lemma few_check dag roots L n : closedb dag roots L = true ->
  forallb (fun x => length (stream_keys maxc (expr O dag (fst x)) (snd x)) <=? n) L = true -> shared_few O maxc n dag roots.
Proof.
  intros HC H i o u u' Hw _ _ _. apply (closed_wants _ _ _ HC) in Hw. rewrite forallb_forall in H. specialize (H _ Hw). apply Nat.leb_le. auto.
Qed.
Lemma aligned_check dag roots L : closedb dag roots L = true ->
  Forall (fun x => match nth_error dag (fst x) with
                    | Some (EEl2 _ s1 s2 _) => stream_keys maxc (expr O dag s1) (snd x) = stream_keys maxc (expr O dag s2) (snd x)
                    | _ => True end) L -> aligned O maxc dag roots.
Proof.
  intros HC H i o f s1 s2 d Hw He. apply (closed_wants _ _ _ HC) in Hw. rewrite Forall_forall in H. specialize (H _ Hw). cbn [fst snd] in H. rewrite He in H. auto.
Qed.
Lemma paced_check dag roots L : closedb dag roots L = true ->
  forallb (fun x => match nth_error dag (fst x) with
                    | Some (EEl2 _ s1 s2 _) => order_eqb (ticks maxc (expr O dag s1) (snd x)) (ticks maxc (expr O dag s2) (snd x))
                    | _ => true end) L = true -> paced O maxc dag roots.
Proof.
  intros HC H i o f s1 s2 d Hw He. apply (closed_wants _ _ _ HC) in Hw. rewrite forallb_forall in H. specialize (H _ Hw). cbn [fst snd] in H. rewrite He in H. apply shape_eqb_eq. auto.
Qed.
Lemma balanced_check dag roots L : closedb dag roots L = true ->
  forallb (fun x => match nth_error dag (fst x) with
                    | Some (EEl2 _ s1 s2 _) => length (stream_keys maxc (expr O dag s1) (snd x)) =? length (stream_keys maxc (expr O dag s2) (snd x))
                    | _ => true end) L = true -> balanced O maxc dag roots.
Proof.
  intros HC H i o f s1 s2 d Hw He. apply (closed_wants _ _ _ HC) in Hw. rewrite forallb_forall in H. specialize (H _ Hw). cbn [fst snd] in H. rewrite He in H. apply Nat.eqb_eq. auto.
Qed.
End Check.
