(** Kahn: threads that communicate only through first-in first-out queues with
    one writer and one reader each.  Generic interleaving semantics, used by
    Threads.v for biggus/_init.py:89-446 (threads of Node.run, queue.Queue). *)
From Verif Require Import Base Lib.

Section Kahn.
Context {M L : Type}.

(** What a thread does next: nothing more, a local computation, a blocking put on
    a queue, a blocking get from a queue. *)
Inductive act :=
| AHalt
| ATau (l : L)
| APut (q : nat) (m : M) (l : L)
| AGet (q : nat) (k : M -> L).

Variable next : nat -> L -> act.
(** Whether a queue holding that many messages accepts another one. *)
Variable room : nat -> bool.

(** Local states of the threads, contents of the queues (oldest first). *)
Definition gstate := (list L * list (list M))%type.

(** Thread [i] takes its next step, if it can. *)
Definition fire (i : nat) (s : gstate) : option gstate :=
  match nth_error (fst s) i with
  | None => None
  | Some l =>
      match next i l with
      | AHalt => None
      | ATau l' => Some (set_nth i l' (fst s), snd s)
      | APut q m l' =>
          if room (length (nth q (snd s) []))
          then Some (set_nth i l' (fst s), set_nth q (nth q (snd s) [] ++ [m]) (snd s))
          else None
      | AGet q k => match nth q (snd s) [] with
                    | [] => None
                    | m :: r => Some (set_nth i (k m) (fst s), set_nth q r (snd s))
                    end
      end
  end.

(** An execution of [n] steps: any thread that can step may be next. *)
Inductive steps : nat -> gstate -> gstate -> Prop :=
| steps_0 s : steps 0 s s
| steps_S n i s s1 s2 : fire i s = Some s1 -> steps n s1 s2 -> steps (S n) s s2.
(** Nothing can happen any more. *)
Definition final (s : gstate) : Prop := forall i, fire i s = None.
End Kahn.
Arguments act : clear implicits.
Arguments gstate : clear implicits.

Section KahnProofs.
Context {M L : Type}.
Variable next : nat -> L -> act M L.
Variable room : nat -> bool.
Notation gstate := (gstate M L).
Notation fire := (fire next room).
Notation steps := (steps next room).
Notation final := (final next room).

Lemma steps_app n1 n2 s1 s2 s3 : steps n1 s1 s2 -> steps n2 s2 s3 -> steps (n1 + n2) s1 s3.
Proof using. induction 1; intros; auto. simpl. econstructor; eauto. Qed.
Lemma steps_one i s s1 : fire i s = Some s1 -> steps 1 s s1.
Proof using. intros. econstructor; eauto. constructor. Qed.

Lemma set_nth_comm {A} i j (x y : A) l : i <> j -> set_nth i x (set_nth j y l) = set_nth j y (set_nth i x l).
Proof using. revert i j. induction l as [|a l IH]; intros [|i] [|j] H; simpl; auto; try congruence. f_equal. auto. Qed.
Lemma set_nth_twice {A} i (x y : A) l : set_nth i x (set_nth i y l) = set_nth i x l.
Proof using. revert i. induction l as [|a l IH]; intros [|i]; simpl; auto. f_equal. auto. Qed.
Lemma nth_error_set_neq {A} i j (x : A) l : i <> j -> nth_error (set_nth i x l) j = nth_error l j.
Proof using. revert i j. induction l as [|a l IH]; intros [|i] [|j] H; simpl; auto; try congruence. Qed.
Lemma nth_error_set_eq {A} i (x : A) l : i < length l -> nth_error (set_nth i x l) i = Some x.
Proof using. revert i. induction l as [|a l IH]; intros [|i] H; simpl in *; auto; try lia. apply IH. lia. Qed.

(** ** Halted threads stay halted; steps of the others leave a thread alone *)
Lemma fire_other i j s s' : fire i s = Some s' -> i <> j -> nth_error (fst s') j = nth_error (fst s) j.
Proof using.
  unfold Kahn.fire. destruct (nth_error (fst s) i) as [l|] eqn:E; [|discriminate]. intros H Hij.
  destruct (next i l) as [|l'|q m l'|q k]; try discriminate.
  - injection H as <-. apply nth_error_set_neq; auto.
  - destruct (room _); [|discriminate]. injection H as <-. apply nth_error_set_neq; auto.
  - destruct (nth q (snd s) []); [discriminate|]. injection H as <-. apply nth_error_set_neq; auto.
Qed.
Lemma halted_stays n s s' i l : steps n s s' -> nth_error (fst s) i = Some l -> next i l = AHalt ->
  nth_error (fst s') i = Some l.
Proof using.
  intros H. revert l. induction H as [s|n j s s1 s2 H1 H2 IH]; intros l E Hn; auto. apply IH; auto.
  destruct (Nat.eq_dec j i) as [->|Hij]. { unfold Kahn.fire in H1. rewrite E, Hn in H1. discriminate. }
  rewrite (fire_other j i s s1); auto.
Qed.

(** ** The order of steps does not matter *)
Section Confluence.
(** Every queue has one writer and one reader. *)
Variables wr rd : nat -> nat.
Hypothesis one_writer : forall i l q m l', next i l = APut q m l' -> wr q = i.
Hypothesis one_reader : forall i l q k, next i l = AGet q k -> rd q = i.
Hypothesis room_down : forall n, room (S n) = true -> room n = true.

Lemma diamond i j s s1 s2 : i <> j -> fire i s = Some s1 -> fire j s = Some s2 ->
  exists s3, fire j s1 = Some s3 /\ fire i s2 = Some s3.
Proof.
  destruct s as [ls qs]. unfold Kahn.fire. cbn [fst snd]. intros Hij.
  destruct (nth_error ls i) as [li|] eqn:Ei; [|discriminate]. destruct (nth_error ls j) as [lj|] eqn:Ej; [|discriminate].
  assert (Bi : i < length ls) by (apply nth_error_Some; congruence). assert (Bj : j < length ls) by (apply nth_error_Some; congruence).
  destruct (next i li) as [|l1|q1 m1 l1|q1 k1] eqn:Ni; try discriminate;
    destruct (next j lj) as [|l2|q2 m2 l2|q2 k2] eqn:Nj; try discriminate; intros H1 H2.
  - injection H1 as <-. injection H2 as <-. cbn [fst snd]. rewrite !nth_error_set_neq, Ei, Ej, Ni, Nj by auto.
    eexists. split; [reflexivity|]. do 2 f_equal. apply set_nth_comm; auto.
  - injection H1 as <-. destruct (room (length (nth q2 qs []))) eqn:R2; [|discriminate]. injection H2 as <-. cbn [fst snd].
    rewrite !nth_error_set_neq, Ei, Ej, Ni, Nj, R2 by auto. eexists. split; [reflexivity|]. do 2 f_equal. apply set_nth_comm; auto.
  - injection H1 as <-. destruct (nth q2 qs []) as [|m r] eqn:Q2; [discriminate|]. injection H2 as <-. cbn [fst snd].
    rewrite !nth_error_set_neq, Ei, Ej, Ni, Nj, Q2 by auto. eexists. split; [reflexivity|]. do 2 f_equal. apply set_nth_comm; auto.
  - destruct (room (length (nth q1 qs []))) eqn:R1; [|discriminate]. injection H1 as <-. injection H2 as <-. cbn [fst snd].
    rewrite !nth_error_set_neq, Ei, Ej, Ni, Nj, R1 by auto. eexists. split; [reflexivity|]. do 2 f_equal. apply set_nth_comm; auto.
  - assert (Hq : q1 <> q2). { intros ->. apply one_writer in Ni. apply one_writer in Nj. congruence. }
    destruct (room (length (nth q1 qs []))) eqn:R1; [|discriminate]. injection H1 as <-.
    destruct (room (length (nth q2 qs []))) eqn:R2; [|discriminate]. injection H2 as <-. cbn [fst snd].
    rewrite !nth_error_set_neq, Ei, Ej, Ni, Nj by auto. rewrite !nth_set_nth_neq, R1, R2 by auto.
    eexists. split; [reflexivity|]. f_equal. f_equal; apply set_nth_comm; auto.
  - destruct (room (length (nth q1 qs []))) eqn:R1; [|discriminate]. injection H1 as <-.
    destruct (nth q2 qs []) as [|m r] eqn:Q2; [discriminate|]. injection H2 as <-. cbn [fst snd].
    rewrite !nth_error_set_neq, Ei, Ej, Ni, Nj by auto. destruct (Nat.eq_dec q1 q2) as [->|Hq].
    + assert (Bq : q2 < length qs). { destruct (Nat.lt_ge_cases q2 (length qs)); auto. rewrite nth_overflow in Q2 by auto. discriminate. }
      rewrite !nth_set_nth_eq by auto. rewrite Q2. cbn [app]. rewrite Q2 in R1. cbn [length] in R1. rewrite (room_down _ R1).
      eexists. split; [reflexivity|]. rewrite !set_nth_twice. do 2 f_equal. apply set_nth_comm; auto.
    + rewrite !nth_set_nth_neq by auto. rewrite Q2, R1. eexists. split; [reflexivity|]. f_equal. f_equal; apply set_nth_comm; auto.
  - destruct (nth q1 qs []) as [|m r] eqn:Q1; [discriminate|]. injection H1 as <-. injection H2 as <-. cbn [fst snd].
    rewrite !nth_error_set_neq, Ei, Ej, Ni, Nj, Q1 by auto. eexists. split; [reflexivity|]. do 2 f_equal. apply set_nth_comm; auto.
  - destruct (nth q1 qs []) as [|m r] eqn:Q1; [discriminate|]. injection H1 as <-.
    destruct (room (length (nth q2 qs []))) eqn:R2; [|discriminate]. injection H2 as <-. cbn [fst snd].
    rewrite !nth_error_set_neq, Ei, Ej, Ni, Nj by auto. destruct (Nat.eq_dec q1 q2) as [->|Hq].
    + assert (Bq : q2 < length qs). { destruct (Nat.lt_ge_cases q2 (length qs)); auto. rewrite nth_overflow in Q1 by auto. discriminate. }
      rewrite !nth_set_nth_eq by auto. rewrite Q1. cbn [app]. rewrite Q1 in R2. cbn [length] in R2. rewrite (room_down _ R2).
      eexists. split; [reflexivity|]. rewrite !set_nth_twice. do 2 f_equal. apply set_nth_comm; auto.
    + rewrite !nth_set_nth_neq by auto. rewrite Q1, R2. eexists. split; [reflexivity|]. f_equal. f_equal; apply set_nth_comm; auto.
  - assert (Hq : q1 <> q2). { intros ->. apply one_reader in Ni. apply one_reader in Nj. congruence. }
    destruct (nth q1 qs []) as [|m r] eqn:Q1; [discriminate|]. injection H1 as <-.
    destruct (nth q2 qs []) as [|m' r'] eqn:Q2; [discriminate|]. injection H2 as <-. cbn [fst snd].
    rewrite !nth_error_set_neq, Ei, Ej, Ni, Nj by auto. rewrite !nth_set_nth_neq, Q1, Q2 by auto.
    eexists. split; [reflexivity|]. f_equal. f_equal; apply set_nth_comm; auto.
Qed.

Lemma strip n s t j s' : steps n s t -> final t -> fire j s = Some s' -> exists n', n = S n' /\ steps n' s' t.
Proof.
  intros H HF. revert j s'. induction H as [s|n i s s1 t H1 H2 IH]; intros j s' Hj.
  - rewrite (HF j) in Hj. discriminate.
  - exists n. split; auto. destruct (Nat.eq_dec i j) as [->|Hij]. { replace s' with s1 by congruence. auto. }
    destruct (diamond i j s s1 s' Hij H1 Hj) as (s3 & E1 & E2).
    destruct (IH HF j s3 E1) as (n' & -> & Hs). econstructor; eauto.
Qed.

(** If one execution runs to the end, so does every other, in the same number of
    steps and to the same state. *)
Lemma uniform n s t : steps n s t -> final t ->
  forall k s', steps k s s' -> k <= n /\ steps (n - k) s' t.
Proof.
  intros H HF k s' Hk. revert n H. induction Hk as [s|k i s s1 s' H1 H2 IH]; intros n H.
  - split; [lia|]. rewrite Nat.sub_0_r. auto.
  - destruct (strip n s t i s1 H HF H1) as (n' & -> & Hs). destruct (IH n' Hs) as [E1 E2]. split; [lia|exact E2].
Qed.
End Confluence.

(** ** Termination from a measure *)
Section Measure.
Variable P : gstate -> nat.
Variable I : gstate -> Prop.
Hypothesis dec : forall i s s', I s -> fire i s = Some s' -> I s' /\ P s' < P s.
Lemma steps_bounded n s s' : I s -> steps n s s' -> I s' /\ n + P s' <= P s.
Proof. intros HI H. induction H as [s|n i s s1 s2 H1 H2 IH]; [split; auto; lia|]. destruct (dec i s s1 HI H1) as [H3 H4]. destruct (IH H3) as [H5 H6]. split; auto. lia. Qed.
Hypothesis fin_dec : forall s, final s \/ exists i s', fire i s = Some s'.
Lemma reaches_final s : I s -> exists n t, steps n s t /\ final t.
Proof.
  remember (P s) as p. assert (HP : P s <= p) by lia. clear Heqp. revert s HP. induction p as [|p IH]; intros s HP HI.
  - destruct (fin_dec s) as [H|(i & s' & H)]; [exists 0, s; split; auto; constructor|]. apply dec in H as [_ H]; auto. lia.
  - destruct (fin_dec s) as [H|(i & s' & H)]; [exists 0, s; split; auto; constructor|].
    destruct (dec i s s' HI H) as [H1 H2]. destruct (IH s' ltac:(lia) H1) as (n & t & H3 & H4). exists (S n), t. split; auto. econstructor; eauto.
Qed.
End Measure.

Lemma final_dec s : final s \/ exists i s', fire i s = Some s'.
Proof using.
  assert (H : forall n, (forall i, i < n -> fire i s = None) \/ exists i s', fire i s = Some s').
  { induction n as [|n [IH|IH]]; auto; [left; intros; lia|]. destruct (fire n s) as [s'|] eqn:E; eauto.
    left. intros i Hi. destruct (Nat.eq_dec i n) as [->|]; auto. apply IH; lia. }
  destruct (H (length (fst s))) as [H1|H1]; auto. left. intros i. destruct (Nat.lt_ge_cases i (length (fst s))) as [Hi|Hi]; auto.
  unfold Kahn.fire. apply nth_error_None in Hi. rewrite Hi. auto.
Qed.
End KahnProofs.

(** Executions with small queues are executions with larger ones. *)
Lemma steps_mono {M L} (next : nat -> L -> act M L) (r1 r2 : nat -> bool) n s s' :
  (forall k, r1 k = true -> r2 k = true) -> steps next r1 n s s' -> steps next r2 n s s'.
Proof.
  intros H. induction 1 as [s|n i s s1 s2 H1 H2 IH]; [constructor|]. apply (steps_S next r2 n i s s1 s2); auto.
  revert H1. unfold fire. destruct (nth_error (fst s) i) as [l|]; auto.
  destruct (next i l) as [|l1|q m l1|q k]; auto.
  destruct (r1 (length (nth q (snd s) []))) eqn:E; [|discriminate]. rewrite (H _ E). auto.
Qed.
