(** NetProgress: the threads always stop, in a state that does not depend on the
    schedule; without sharing, every result thread ends. *)
From Verif Require Import Base Lib Kahn Threads NetLemmas.

Section Net.
Context {C : Type}.
Notation msg := (msg C). Notation node := (node C). Notation loc := (loc C).
Variable net : list node.
Variable nq : nat.
Variables wr rd : nat -> nat.
Hypothesis W : wired net nq wr rd.

Lemma net_writer i l q m l' : net_next net i l = APut q m l' -> wr q = i.
Proof.
  unfold net_next. destruct (nth_error net i) as [n|] eqn:En; [|discriminate]. intros H.
  assert (Hin : In q (outs_of n)).
  { destruct l as [rest|hist got|m0 j k|]; simpl in H; try discriminate.
    - destruct rest as [|[]]; discriminate.
    - destruct n as [|e f ins o]; [discriminate|]. destruct (nth_error ins (length got)); discriminate.
    - destruct (nth_error (outs_of n) j) as [q0|] eqn:E; [|discriminate]. injection H as -> _ _. eapply nth_error_In; eauto. }
  apply (w_out _ _ _ _ W i n q En Hin).
Qed.
Lemma net_reader i l q k : net_next net i l = AGet q k -> rd q = i.
Proof.
  unfold net_next. destruct (nth_error net i) as [n|] eqn:En; [|discriminate]. intros H.
  assert (Hin : In q (ins_of n)).
  { destruct l as [rest|hist got|m0 j k0|]; simpl in H; try discriminate.
    - destruct rest as [|[]]; discriminate.
    - destruct n as [|e f ins o]; [discriminate|]. destruct (nth_error ins (length got)) as [q0|] eqn:E; [|discriminate].
      injection H as -> _. simpl. eapply nth_error_In; eauto.
    - destruct (nth_error (outs_of n) j); discriminate. }
  apply (w_in _ _ _ _ W i n q En Hin).
Qed.

(** ** Every execution is finite *)
(** [K i]: more than what node [i] can still do with one message. *)
Definition weighs (K : nat -> nat) (from : nat) : Prop :=
  forall i n, from <= i -> nth_error net i = Some n ->
    K i = 3 + 2 * list_sum (map (fun q => 2 + K (rd q)) (outs_of n)).
Lemma weights_ex d : exists K, weighs K (length net - d).
Proof.
  induction d as [|d [K IH]].
  - exists (fun _ => 0). intros i n Hi Hn. assert (i < length net) by (apply nth_error_Some; congruence). lia.
  - destruct (Nat.le_gt_cases (length net) d) as [Hd|Hd].
    { exists K. intros i n Hi Hn. apply IH; auto. lia. }
    set (j := length net - S d). destruct (nth_error net j) as [nj|] eqn:Ej.
    2:{ apply nth_error_None in Ej. unfold j in Ej. lia. }
    set (x := 3 + 2 * list_sum (map (fun q => 2 + K (rd q)) (outs_of nj))).
    exists (fun i => if i =? j then x else K i). intros i n Hi Hn.
    assert (Hs : list_sum (map (fun q => 2 + (if rd q =? j then x else K (rd q))) (outs_of n)) = list_sum (map (fun q => 2 + K (rd q)) (outs_of n))).
    { f_equal. apply map_ext_in. intros q Hq. destruct (w_out _ _ _ _ W i n q Hn Hq) as (Hwr & _ & n' & Hn' & Hin).
      destruct (w_in _ _ _ _ W (rd q) n' q Hn' Hin) as (_ & _ & Hlt & _). replace (rd q =? j) with false by (symmetry; apply Nat.eqb_neq; lia). auto. }
    rewrite Hs. destruct (Nat.eqb_spec i j) as [->|Hij].
    + unfold x. rewrite Ej in Hn. injection Hn as ->. auto.
    + apply IH; auto. unfold j in Hij. lia.
Qed.
Lemma weights : exists K, weighs K 0.
Proof. destruct (weights_ex (length net)) as [K H]. exists K. rewrite Nat.sub_diag in H. auto. Qed.

Section Potential.
Variable K : nat -> nat.
Hypothesis HK : weighs K 0.
Definition cost (qs : list nat) : nat := list_sum (map (fun q => 2 + K (rd q)) qs).
Fixpoint pot (i : nat) (n : node) (l : loc) : nat :=
  match l with
  | LProd items => (length items + 1) * (2 + cost (outs_of n))
  | LGet _ got => length got * K i
  | LPut _ j k => 1 + cost (skipn j (outs_of n)) + pot i n k
  | LHalt _ _ _ => 0
  end.
Definition pot_at (i : nat) (l : loc) : nat := match nth_error net i with Some n => pot i n l | None => 0 end.
Fixpoint total {A} (f : nat -> A -> nat) (i : nat) (l : list A) : nat :=
  match l with [] => 0 | x :: r => f i x + total f (S i) r end.
Lemma total_set {A} (f : nat -> A -> nat) l : forall i j x y, nth_error l j = Some x ->
  total f i (set_nth j y l) + f (i + j) x = total f i l + f (i + j) y.
Proof.
  induction l as [|a l IH]; intros i [|j] x y H; simpl in H; try discriminate.
  - injection H as ->. simpl. rewrite Nat.add_0_r. lia.
  - simpl. specialize (IH (S i) j x y H). replace (i + S j) with (S i + j) by lia. lia.
Qed.
Definition weight (q : nat) (ms : list msg) : nat := length ms * (1 + K (rd q)).
Definition potential (s : gstate msg loc) : nat := total pot_at 0 (fst s) + total weight 0 (snd s).

Lemma cost_skipn j qs q : nth_error qs j = Some q -> cost (skipn j qs) = 2 + K (rd q) + cost (skipn (S j) qs).
Proof. intros H. unfold cost. apply nth_error_split in H as (l1 & l2 & -> & <-). rewrite skipn_app, skipn_all2, Nat.sub_diag by lia.
  rewrite (skipn_app (S (length l1))). rewrite (skipn_all2 l1) by lia. replace (S (length l1) - length l1) with 1 by lia. simpl. auto. Qed.

Lemma nth_total_lt room i s s' : fire (net_next net) room i s = Some s' -> potential s' < potential s.
Proof.
  destruct s as [ls qs]. unfold fire. cbn [fst snd]. destruct (nth_error ls i) as [l|] eqn:El; [|discriminate].
  unfold net_next. destruct (nth_error net i) as [n|] eqn:En; [|discriminate].
  pose proof (HK i n (Nat.le_0_l i) En) as HKi. fold (cost (outs_of n)) in HKi.
  assert (Hpot : forall l2, total pot_at 0 (set_nth i l2 ls) + pot i n l = total pot_at 0 ls + pot i n l2).
  { intros l2. pose proof (total_set pot_at ls 0 i l l2 El) as H. unfold pot_at in H at 2 4. simpl in H. rewrite En in H. auto. }
  assert (Hnth : forall q m r, nth q qs [] = m :: r -> nth_error qs q = Some (m :: r)).
  { intros q m r H. destruct (nth_error qs q) as [x|] eqn:E; [|rewrite nth_overflow in H by (apply nth_error_None; auto); discriminate].
    f_equal. rewrite <- H. symmetry. apply nth_error_nth. auto. }
  destruct (node_next n l) as [|l2|q m l2|q k] eqn:Ea; [discriminate| | |]; intros H.
  - injection H as <-. unfold potential. cbn [fst snd]. specialize (Hpot l2). enough (pot i n l2 < pot i n l) by lia. clear Hpot.
    destruct l as [rest|hist got|m j k|]; simpl in Ea; try discriminate.
    + destruct rest as [|[c|x] r]; injection Ea as <-; simpl; lia.
    + destruct n as [|e f ins o]; [discriminate|]. destruct (nth_error ins (length got)) eqn:E; [discriminate|]. injection Ea as <-.
      assert (Hg : 1 <= length got). { pose proof (w_cons _ _ _ _ W i e f ins o En) as Hne. apply nth_error_None in E. destruct ins; [congruence|]. simpl in E. lia. }
      assert (K i <= pot i (NCons e f ins o) (LGet hist got)) by (simpl; nia).
      enough (pot i (NCons e f ins o) (round e f hist got) < K i) by lia. rewrite HKi.
      unfold round. destruct (existsb is_abort got); [simpl; lia|]. destruct (existsb is_done got).
      * destruct (f hist) as [[]|]; simpl; lia.
      * destruct (e (hist ++ [flat_map chunk_of got])) as [[]|]; simpl; lia.
    + destruct (nth_error (outs_of n) j); [discriminate|]. injection Ea as <-. simpl. lia.
  - destruct (room (length (nth q qs []))); [|discriminate]. injection H as <-. unfold potential. cbn [fst snd]. specialize (Hpot l2).
    destruct l as [rest|hist got|m0 j k|]; simpl in Ea; try discriminate.
    + destruct rest as [|[]]; discriminate.
    + destruct n as [|e f ins o]; [discriminate|]. destruct (nth_error ins (length got)); discriminate.
    + destruct (nth_error (outs_of n) j) as [q0|] eqn:E; [|discriminate]. injection Ea as -> -> <-.
      cbn [pot] in Hpot. rewrite (cost_skipn j _ q E) in Hpot.
      assert (Hq : total weight 0 (set_nth q (nth q qs [] ++ [m]) qs) <= total weight 0 qs + (1 + K (rd q))).
      { destruct (nth_error qs q) as [x|] eqn:Ex.
        - pose proof (total_set weight qs 0 q x (nth q qs [] ++ [m]) Ex) as H. rewrite (nth_error_nth qs q [] Ex) in *. cbn [Nat.add] in H.
          unfold weight in H at 2 4. rewrite app_length in H. cbn [length] in H. lia.
        - rewrite set_nth_out by (apply nth_error_None; auto). lia. }
      lia.
  - destruct (nth q qs []) as [|m r] eqn:Eq; [discriminate|]. injection H as <-. unfold potential. cbn [fst snd]. specialize (Hpot (k m)).
    destruct l as [rest|hist got|m0 j k0|]; simpl in Ea; try discriminate.
    + destruct rest as [|[]]; discriminate.
    + destruct n as [|e f ins o]; [discriminate|]. destruct (nth_error ins (length got)) as [q0|] eqn:E; [|discriminate]. injection Ea as -> <-.
      cbn [pot] in Hpot. rewrite app_length in Hpot. cbn [length] in Hpot.
      pose proof (total_set weight qs 0 q (m :: r) r (Hnth q m r Eq)) as H. cbn [Nat.add] in H. unfold weight in H at 2 4. cbn [length] in H.
      assert (Hrd : rd q = i). { apply (w_in _ _ _ _ W i _ q En). simpl. eapply nth_error_In; eauto. } rewrite Hrd in H. lia.
    + destruct (nth_error (outs_of n) j); discriminate.
Qed.
End Potential.

(** Every execution can be continued to a final state, and none is longer than a
    fixed number of steps. *)
Lemma terminates room s : exists b, forall n s', steps (net_next net) room n s s' -> n <= b.
Proof.
  destruct weights as [K HK]. exists (potential K s). intros n s' H.
  destruct (steps_bounded (net_next net) room (potential K) (fun _ => True) (fun i s s' _ Hf => conj I (nth_total_lt K HK room i s s' Hf)) n s s' I H). lia.
Qed.
Lemma ends room s : exists n t, steps (net_next net) room n s t /\ final (net_next net) room t.
Proof.
  destruct weights as [K HK].
  apply (reaches_final (net_next net) room (potential K) (fun _ => True) (fun i s s' _ Hf => conj I (nth_total_lt K HK room i s s' Hf))); auto.
  apply final_dec.
Qed.
(** All complete executions end in the same state. *)
Lemma deterministic room n1 s t1 n2 t2 : (forall n, room (S n) = true -> room n = true) ->
  steps (net_next net) room n1 s t1 -> final (net_next net) room t1 ->
  steps (net_next net) room n2 s t2 -> final (net_next net) room t2 -> t1 = t2 /\ n1 = n2.
Proof.
  intros HR H1 F1 H2 F2.
  destruct (uniform (net_next net) room wr rd net_writer net_reader HR n1 s t1 H1 F1 n2 t2 H2) as [Hle Hs].
  inversion Hs as [s0 E1 E2|n i s0 s1 s2 Hf Hs' E1 E2]; subst.
  - split; auto. lia.
  - rewrite (F2 i) in Hf. discriminate.
Qed.

(** ** Blocked threads *)
Section Final.
Variable room : nat -> bool.
Hypothesis room0 : room 0 = true.
Variable s : gstate msg loc.
Hypothesis HI : inv net nq wr s.
Hypothesis HF : final (net_next net) room s.

(** In a final state every thread is finished, waits for a message on an empty
    queue, or waits for room in a full one. *)
Lemma blocked i n l : nth_error net i = Some n -> nth_error (fst s) i = Some l ->
  (exists ok hist got, l = LHalt ok hist got) \/
  (exists hist got q, l = LGet hist got /\ nth_error (ins_of n) (length got) = Some q /\ nth q (snd s) [] = []) \/
  (exists m j k q, l = LPut m j k /\ nth_error (outs_of n) j = Some q /\ room (length (nth q (snd s) [])) = false).
Proof.
  intros En El. specialize (HF i). unfold fire in HF. rewrite El in HF. unfold net_next in HF. rewrite En in HF.
  pose proof (i_loc _ _ _ _ HI i n l En El) as [HK HS].
  destruct l as [rest|hist got|m j k|ok hist got]; simpl in HF.
  - destruct rest as [|[]]; discriminate.
  - right. left. destruct n as [|e f ins o]; [destruct HK|]. destruct (nth_error ins (length got)) as [q|] eqn:E; [|discriminate].
    exists hist, got, q. split; auto. split; auto. destruct (nth q (snd s) []); auto. discriminate.
  - right. right. destruct (nth_error (outs_of n) j) as [q|] eqn:E; [|discriminate]. exists m, j, k, q. split; auto. split; auto.
    destruct (room (length (nth q (snd s) []))); auto. discriminate.
  - left. eauto.
Qed.

(** A thread that is reading has received only chunks on the input it reads next. *)
Lemma reading_chunks (hist : list (list C)) (got : list msg) : recvd (LGet hist got) (length got) = map MChunk (colm (length got) hist).
Proof. unfold recvd. simpl. rewrite (proj2 (nth_error_None got (length got))) by lia. simpl. apply app_nil_r. Qed.
(** What a finished thread sent ends with an end-of-stream message. *)
Lemma halted_due (n : node) ok hist got : coreok n (LHalt ok hist got) -> exists cs, due n (LHalt ok hist got) = map MChunk cs ++ [if ok then MDone else MAbort].
Proof. destruct n as [items o|e f ins o], ok; simpl; intros _; unfold due; simpl; eexists; reflexivity. Qed.
Lemma not_only_chunks (cs cs' : list C) (m : msg) : (forall c, m <> MChunk c) -> map MChunk cs ++ [m] <> map MChunk cs'.
Proof.
  intros Hm H. assert (Hin : In m (map MChunk cs')) by (rewrite <- H; apply in_or_app; simpl; auto).
  apply in_map_iff in Hin as (c & Hc & _). apply (Hm c). auto.
Qed.

(** Without sharing no thread waits for a message in a final state. *)
Hypothesis unshared : forall i n, nth_error net i = Some n -> length (outs_of n) <= 1.
Lemma no_reader_blocked : forall i n hist got, nth_error net i = Some n -> nth_error (fst s) i <> Some (LGet hist got).
Proof.
  induction i as [i IH] using lt_wf_ind. intros n hist got En El.
  destruct (blocked i n _ En El) as [(ok & h & g & E)|[(h & g & q & E & Hq & Hemp)|(m & j & k & q & E & _)]]; try discriminate.
  injection E as <- <-. pose proof (nth_error_In _ _ Hq) as Hin.
  destruct (w_in _ _ _ _ W i n q En Hin) as (Hrd & Hqn & Hlt & nw & Enw & Hout).
  assert (exists lw, nth_error (fst s) (wr q) = Some lw) as [lw Elw].
  { destruct (nth_error (fst s) (wr q)) eqn:E; eauto. apply nth_error_None in E. rewrite (i_len _ _ _ _ HI) in E.
    assert (wr q < length net) by (apply nth_error_Some; congruence). lia. }
  pose proof (i_queue _ _ _ _ HI i n _ (length got) q nw lw En El Hq Enw Elw) as HQ. rewrite reading_chunks, Hemp in HQ. cbn [app] in HQ.
  destruct (blocked (wr q) nw lw Enw Elw) as [(ok & h & g & ->)|[(h & g & q' & -> & _)|(m & j & k & q' & -> & Hj & Hfull)]].
  - pose proof (i_loc _ _ _ _ HI _ _ _ Enw Elw) as [HK _]. destruct (halted_due nw ok h g HK) as (cs & Hd). rewrite Hd in HQ. simpl in HQ.
    rewrite app_nil_r in HQ. apply not_only_chunks in HQ; auto. destruct ok; discriminate.
  - apply (IH (wr q) Hlt nw h g Enw Elw).
  - assert (q' = q). { pose proof (unshared _ _ Enw) as HU. destruct (outs_of nw) as [|a [|b r]]; simpl in *; try lia; try tauto.
      destruct j as [|j]; [|destruct j; discriminate]. injection Hj as ->. destruct Hout as [<-|[]]. auto. }
    subst q'. rewrite Hemp in Hfull. simpl in Hfull. congruence.
Qed.
(** Hence every thread without outputs has finished. *)
Lemma sinks_halt i n l : nth_error net i = Some n -> outs_of n = [] -> nth_error (fst s) i = Some l -> exists ok hist got, l = LHalt ok hist got.
Proof.
  intros En Ho El. destruct (blocked i n l En El) as [H|[(h & g & q & -> & _)|(m & j & k & q & -> & Hj & _)]]; auto.
  - destruct (no_reader_blocked i n h g En El).
  - rewrite Ho in Hj. destruct j; discriminate.
Qed.
End Final.
End Net.
