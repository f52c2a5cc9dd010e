(** NetSmall: the number of messages a node sends, whatever fails and however its
    inputs end; a node with several readers that sends few messages never waits. *)
From Verif Require Import Base Lib Kahn Threads NetLemmas NetProgress NetSeq NetFail.

Section Small.
Context {C K : Type} (kf : C -> K).
Notation msg := (msg C). Notation node := (node C). Notation loc := (loc C).
Variable net : list node.
Variable nq : nat.
Variables wr rd : nat -> nat.
Hypothesis W : wired net nq wr rd.
(** The keys of the chunks a node can send. *)
Variable nom : nat -> list K.
Definition sized : Prop := forall i n, nth_error net i = Some n ->
  match n with
  | NProd items _ => Forall2 (fun it k => match it with Ok c => kf c = k | Err _ => True end) items (nom i)
  | NCons e f ins outs =>
      outs <> [] -> forall hist, rows ins hist -> all_ok e hist ->
         (forall p q, nth_error ins p = Some q -> prefix (map kf (colm p hist)) (nom (wr q))) ->
         prefix (map kf (emitted e hist ++ opt (f hist))) (nom i)
  end.
Hypothesis SZ : sized.

Section State.
Variable s : gstate msg loc.
Hypothesis HI : inv net nq wr s.

Lemma sent_prefix : forall i n l, nth_error net i = Some n -> nth_error (fst s) i = Some l -> outs_of n <> [] -> prefix (map kf (dchunks n l)) (nom i).
Proof.
  induction i as [i IH] using lt_wf_ind. intros n l En El Ho. pose proof (i_loc _ _ _ _ HI i n l En El) as [HK _].
  pose proof (SZ i n En) as HN. destruct n as [items o|e f ins o].
  - assert (Hoks : forall cs rest, items = map Ok cs ++ rest -> prefix (map kf cs) (nom i)).
    { intros cs rest ->. apply Forall2_app_inv_l in HN as (k1 & k2 & H1 & H2 & ->). exists k2. f_equal.
      clear -H1. revert k1 H1. induction cs as [|c cs IH]; intros k1 H; inversion H; subst; auto. simpl. f_equal. auto. }
    unfold dchunks. destruct (core l) as [rest|hist got|m j k|ok hist got] eqn:Ec; simpl in HK; try contradiction.
    + destruct HK as (cs & Ei). rewrite Ei, firstn_pre, oks_all. apply (Hoks cs rest Ei).
    + destruct ok.
      * destruct HK as (cs & Ei). rewrite Ei, oks_all. apply (Hoks cs []). rewrite app_nil_r; auto.
      * destruct HK as (cs & x & r & Ei). rewrite Ei, oks_ok. simpl. rewrite app_nil_r. apply (Hoks cs (Err x :: r) Ei).
  - specialize (HN Ho).
    assert (Hkeys : forall hist got, (core l = LGet hist got \/ exists ok, core l = LHalt ok hist got) ->
      forall p q, nth_error ins p = Some q -> prefix (map kf (colm p hist)) (nom (wr q))).
    { intros hist got Hc p q Hp. destruct (w_in _ _ _ _ W i _ q En (nth_error_In _ _ Hp)) as (_ & _ & Hlt & _).
      destruct (input_writer net nq wr rd W s HI i _ l p q hist got En El Hp Hc) as (nw & lw & Enw & Elw & HL & How & HP & _).
      eapply prefix_trans; [apply prefix_map; exact HP|]. apply (IH (wr q) Hlt nw lw Enw Elw How). }
    assert (Hpre : forall hist, prefix (map kf (emitted e hist ++ opt (f hist))) (nom i) -> prefix (map kf (emitted e hist)) (nom i)).
    { intros hist H. rewrite map_app in H. eapply prefix_app; eauto. }
    unfold dchunks. destruct (core l) as [rest|hist got|m j k|ok hist got] eqn:Ec; simpl in HK; try contradiction.
    + destruct HK as (HR & HL & HA). apply Hpre, HN; auto. apply (Hkeys hist got); auto.
    + destruct ok.
      * destruct HK as (HR & HL & Hab & Hd & HA & of & Hf). apply HN; auto. apply (Hkeys hist got). right. exists true. auto.
      * destruct HK as (HR & [(HL & HA & Hcase)|(-> & h0 & row & Eh & HA & x & Hx)]).
        -- apply Hpre, HN; auto. apply (Hkeys hist got). right. exists false. auto.
        -- subst hist. rewrite emitted_snoc, Hx. simpl. rewrite app_nil_r. assert (HR0 : rows ins h0) by (apply Forall_app in HR; tauto).
           apply Hpre, HN; auto. intros p q Hp. pose proof (Hkeys _ _ (or_intror (ex_intro _ false eq_refl)) p q Hp) as H.
           rewrite colm_snoc, map_app in H. eapply prefix_app; eauto.
Qed.
(** Messages on one queue: at most the chunks and the end. *)
Lemma due_length n l i : nth_error net i = Some n -> nth_error (fst s) i = Some l -> outs_of n <> [] -> length (due n l) <= 1 + length (nom i).
Proof.
  intros En El Ho. pose proof (i_loc _ _ _ _ HI i n l En El) as [HK _]. rewrite (due_split n l HK), app_length, map_length.
  pose proof (prefix_length _ _ (sent_prefix i n l En El Ho)) as H. rewrite map_length in H.
  assert (length (dtail l) <= 1) by (unfold dtail; destruct (core l) as [| | |[] ? ?]; simpl; lia). lia.
Qed.

Variable room : nat -> bool.
Hypothesis room0 : room 0 = true.
Hypothesis HF : final (net_next net) room s.
(** A queue is full only when it holds at least as many messages as there are
    chunks from a node with several readers. *)
Hypothesis few : forall i n, nth_error net i = Some n -> 2 <= length (outs_of n) -> forall k, room k = false -> length (nom i) <= k.
(** An order of the queues: the inputs of a node are read in that order, its outputs
    written in that order, and the inputs come before the outputs. *)
Variable age : nat -> nat.
Hypothesis age_ins : forall i n p p' q q', nth_error net i = Some n -> nth_error (ins_of n) p = Some q -> nth_error (ins_of n) p' = Some q' -> p <= p' -> age q <= age q'.
Hypothesis age_outs : forall i n j j' q q', nth_error net i = Some n -> nth_error (outs_of n) j = Some q -> nth_error (outs_of n) j' = Some q' -> j < j' -> age q < age q'.
Hypothesis age_through : forall i n q q', nth_error net i = Some n -> In q (ins_of n) -> In q' (outs_of n) -> age q < age q'.

(** A node whose reader has not begun is waiting, on that queue or an earlier one. *)
Lemma not_begun i n l p q : nth_error net i = Some n -> nth_error (fst s) i = Some l -> nth_error (ins_of n) p = Some q -> recvd l p = [] ->
  exists got p' q', l = LGet [] got /\ p' = length got /\ p' <= p /\ nth_error (ins_of n) p' = Some q' /\ nth q' (snd s) [] = [].
Proof.
  intros En El Hp Hr. pose proof (i_loc _ _ _ _ HI i n l En El) as [HK HS]. destruct n as [items o|e f ins o]; [destruct p; discriminate|].
  cbn [ins_of] in *. unfold recvd in Hr.
  assert (Hh : forall (hist : list (list C)), rows ins hist -> colm p hist = [] -> hist = []).
  { intros hist HR Hc. destruct hist as [|row h]; auto. exfalso. apply Forall_inv in HR. unfold colm in Hc. simpl in Hc.
    destruct (nth_error row p) eqn:Ex; [discriminate|]. apply nth_error_None in Ex. assert (p < length ins) by (apply nth_error_Some; congruence). lia. }
  assert (Hg : forall (got : list msg), length got = length ins -> optl (nth_error got p) = [] -> False).
  { intros got HL Ho. destruct (nth_error got p) eqn:Ex; [discriminate|]. apply nth_error_None in Ex. assert (p < length ins) by (apply nth_error_Some; congruence). lia. }
  assert (HC : exists got, core l = LGet [] got /\ length got <= p).
  { destruct (core l) as [rest|hist got|m j k|ok hist got] eqn:Ec; simpl in HK; try contradiction.
    - apply app_eq_nil in Hr as [Hr1 Hr2]. apply map_eq_nil in Hr1. destruct HK as (HR & _). rewrite (Hh hist HR Hr1). exists got. split; auto.
      destruct (nth_error got p) eqn:Ex; [discriminate|]. apply nth_error_None in Ex. auto.
    - exfalso. apply app_eq_nil in Hr as [Hr1 Hr2]. apply map_eq_nil in Hr1. destruct ok.
      + destruct HK as (_ & HL & _). eauto.
      + destruct HK as (HR & [(HL & _)|(_ & h & row & Eh & _)]); eauto. rewrite (Hh hist HR Hr1) in Eh. destruct h; discriminate. }
  destruct HC as (got & Ec & HL).
  destruct l as [rest|hist0 got0|m j k|ok hist0 got0]; cbn [core] in Ec; try discriminate.
  - injection Ec as -> ->. destruct (blocked net nq wr room s HI HF i _ _ En El) as [(ok & h & g & E)|[(h & g & q' & E & Hq & Hemp)|(m & j & k & q' & E & _)]]; try discriminate.
    injection E as <- <-. exists got, (length got), q'. auto.
  - exfalso. unfold shaped in HS. destruct m, k as [| hh gg|m2 j2 k2|ok2 ? ?]; cbn [core] in Ec; try discriminate; try contradiction.
    + injection Ec as -> ->. destruct got; [|contradiction]. destruct HS as [HS _]. congruence.
    + destruct m2; try contradiction. destruct j2; try contradiction. destruct k2 as [| | |[] ? ?]; cbn [core] in Ec; try contradiction; discriminate.
Qed.
Lemma small_waits : forall a q, age q = a -> forall i n hist got, nth_error net i = Some n -> nth_error (fst s) i = Some (LGet hist got) ->
  nth_error (ins_of n) (length got) = Some q -> nth q (snd s) [] = [] -> False.
Proof.
  induction a as [a IH] using lt_wf_ind. intros q Ha i n hist got En El Hq Hemp.
  pose proof (nth_error_In _ _ Hq) as Hin.
  destruct (w_in _ _ _ _ W i n q En Hin) as (Hrd & Hqn & Hlt & nw & Enw & Hout).
  destruct (loc_at net nq wr s HI _ _ Enw) as [lw Elw].
  pose proof (i_queue _ _ _ _ HI i n _ (length got) q nw lw En El Hq Enw Elw) as HQ. rewrite reading_chunks, Hemp in HQ. cbn [app] in HQ.
  destruct (blocked net nq wr room s HI HF (wr q) nw lw Enw Elw) as [(ok & h & g & ->)|[(h & g & q2 & -> & Hq2 & Hemp2)|(mm & j & k & q' & -> & Hj & Hfull)]].
  - pose proof (i_loc _ _ _ _ HI _ _ _ Enw Elw) as [HK _]. destruct (halted_due nw ok h g HK) as (cs & Hd). rewrite Hd in HQ. simpl in HQ.
    rewrite app_nil_r in HQ. apply not_only_chunks in HQ; auto. destruct ok; discriminate.
  - pose proof (age_through _ _ q2 q Enw (nth_error_In _ _ Hq2) Hout). apply (IH (age q2) ltac:(lia) q2 eq_refl (wr q) nw h g Enw Elw Hq2 Hemp2).
  - assert (Hqq : q <> q') by (intros ->; rewrite Hemp in Hfull; simpl in Hfull; congruence).
    destruct (In_nth_error _ _ Hout) as [jq Hjq]. assert (H2 : 2 <= length (outs_of nw)).
    { destruct (outs_of nw) as [|x [|y r]]; simpl; try lia; [destruct Hout|]. exfalso. destruct jq as [|[|jq]], j as [|[|j]]; simpl in Hj, Hjq; congruence. }
    pose proof (few _ _ Enw H2 _ Hfull) as Hfew. pose proof (nth_error_In _ _ Hj) as Hin'.
    destruct (w_out _ _ _ _ W _ nw q' Enw Hin') as (Hwr & _ & nr & Enr & Hinr).
    apply In_nth_error in Hinr as [p Hp]. destruct (loc_at net nq wr s HI _ _ Enr) as [lr Elr].
    assert (Enw' : nth_error net (wr q') = Some nw) by (rewrite Hwr; auto). assert (Elw' : nth_error (fst s) (wr q') = Some (LPut mm j k)) by (rewrite Hwr; auto).
    pose proof (i_queue _ _ _ _ HI _ nr lr p q' nw _ Enr Elr Hp Enw' Elw') as HQ'.
    assert (Ho : outs_of nw <> []) by (intros E; rewrite E in H2; simpl in H2; lia).
    pose proof (due_length _ _ _ Enw Elw Ho) as Hd. pose proof (i_loc _ _ _ _ HI _ _ _ Enw Elw) as [HK _].
    assert (Hnj : ~ In q' (firstn j (outs_of nw))).
    { intros Hi. apply In_nth_error in Hi as [x Hx]. assert (Hxj : x < j). { assert (x < length (firstn j (outs_of nw))) by (apply nth_error_Some; congruence). rewrite firstn_length in *. lia. }
      assert (Hx' : nth_error (outs_of nw) x = Some q').
      { rewrite <- (firstn_skipn j (outs_of nw)). rewrite nth_error_app1; auto. apply nth_error_Some; congruence. }
      pose proof (w_outs _ _ _ _ W _ nw Enw) as ND. assert (x = j); [|lia]. apply (proj1 (NoDup_nth_error _) ND); [apply nth_error_Some; congruence|congruence]. }
    assert (Ht : todo (outs_of nw) (LPut mm j k) q' = mm :: pend k).
    { simpl. destruct (in_dec Nat.eq_dec q' (firstn j (outs_of nw))); [contradiction|]. auto. }
    rewrite Ht in HQ'. pose proof (f_equal (@length _) HQ') as HL. rewrite !app_length in HL. cbn [length] in HL.
    assert (Hr : recvd lr p = []) by (apply length_zero_iff_nil; lia). assert (Hpe : pend k = []) by (apply length_zero_iff_nil; lia).
    assert (Hend : exists ok, due nw (LPut mm j k) = map MChunk (dchunks nw (LPut mm j k)) ++ [if ok : bool then MDone else MAbort]).
    { rewrite (due_split _ _ HK) in HL |- *. rewrite app_length, map_length in HL. pose proof (prefix_length _ _ (sent_prefix _ _ _ Enw Elw Ho)) as HPL. rewrite map_length in HPL.
      unfold dtail in *. destruct (core (LPut mm j k)) as [| | |[] ? ?]; simpl in HL; try lia; [exists true|exists false]; auto. }
    destruct Hend as (ok & Hend).
    destruct (Nat.lt_trichotomy jq j) as [Hlt'|[->|Hgt]].
    + assert (Hinq : In q (firstn j (outs_of nw))).
      { rewrite <- (firstn_skipn j (outs_of nw)) in Hjq. rewrite nth_error_app1 in Hjq; [eapply nth_error_In; eauto|]. rewrite firstn_length.
        assert (j < length (outs_of nw)) by (apply nth_error_Some; congruence). lia. }
      cbn [todo] in HQ. destruct (in_dec Nat.eq_dec q (firstn j (outs_of nw))); [|contradiction]. rewrite Hpe in HQ. cbn [app] in HQ.
      rewrite Hend in HQ. rewrite app_nil_r in HQ. apply not_only_chunks in HQ; auto. destruct ok; discriminate.
    + congruence.
    + pose proof (age_outs _ _ _ _ _ _ Enw Hj Hjq Hgt) as Hage.
      destruct (not_begun _ _ _ _ _ Enr Elr Hp Hr) as (g3 & p3 & q3 & -> & -> & Hp3 & Hq3 & Hemp3).
      pose proof (age_ins _ _ _ _ _ _ Enr Hq3 Hp Hp3) as Hage3.
      apply (IH (age q3) ltac:(lia) q3 eq_refl _ nr [] g3 Enr Elr Hq3 Hemp3).
Qed.
Lemma small_no_reader i n hist got : nth_error net i = Some n -> nth_error (fst s) i <> Some (LGet hist got).
Proof.
  intros En El. destruct (blocked net nq wr room s HI HF i n _ En El) as [(ok & h & g & E)|[(h & g & q & E & Hq & Hemp)|(m & j & k & q & E & _)]]; try discriminate.
  injection E as <- <-. apply (small_waits (age q) q eq_refl i n hist got); auto.
Qed.
Lemma small_sinks i n l : nth_error net i = Some n -> outs_of n = [] -> nth_error (fst s) i = Some l -> exists ok hist got, l = LHalt ok hist got.
Proof.
  intros En Ho El. destruct (blocked net nq wr room s HI HF i n l En El) as [H|[(h & g & q & -> & _)|(m & j & k & q & -> & Hj & _)]]; auto.
  - destruct (small_no_reader i n h g En El).
  - rewrite Ho in Hj. destruct j; discriminate.
Qed.
End State.
End Small.
