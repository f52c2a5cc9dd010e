(** Properties C28 - C32: the threaded engine, under every schedule.

    An evaluation is given by the Array objects involved ([dag]: operands before
    the arrays made from them; an object used twice is listed once) and by the
    numbers of the requested ones ([roots]).  [expr O dag i] is the expression
    object [i] stands for, [engine_eval] its evaluation by a single thread
    (Realise.v), [one_thread] the evaluation of all requested arrays together by a
    single thread, node after node (OneThread.v), [network] the threads and queues made for the evaluation (an
    error: [evaluate] raises before starting them).  [reached net dag roots s]: some
    schedule of the threads leads to the state [s]; [over net s]: nothing can happen
    any more; [joined dag roots s]: all result threads have finished, so
    [evaluate] returns [returned O garbage dag roots s]. *)
From Verif Require Import Base Lib PySlice Keys NDArray Arrays Chunks Handlers Realise Spec Supported HandlerLemmas RealOps Realisable RealOK RealiseOK Kahn Threads ThreadSpec NetLemmas NetProgress NetSeq NetFail NetSmall ThreadBuild ThreadNodes ThreadSem ThreadClock ThreadFail ThreadSmall ThreadTree ThreadShare OneThread NetDen OneOK ThreadRun Samples.

Lemma bounded_down n : bounded (S n) = true -> bounded n = true.
Proof. unfold bounded. rewrite !Nat.ltb_lt. lia. Qed.
Lemma Forall2_det {A B} (P : A -> B -> Prop) l r1 r2 : (forall x y1 y2, P x y1 -> P x y2 -> y1 = y2) -> Forall2 P l r1 -> Forall2 P l r2 -> r1 = r2.
Proof. intros HP H1. revert r2. induction H1; intros r2 H2; inversion H2; subst; auto. f_equal; eauto. Qed.
Lemma nth_error_ext_seq {R} (n : nat) (ds : list R) : length ds = n -> compile n (combine (groups n) [ds]) = map Some ds.
Proof.
  intros <-. unfold compile, groups. cbn [combine fold_left fst snd].
  assert (G : forall (ds : list R) (pre : list (option R)), fold_left (fun all ir => set_nth (fst ir) (Some (snd ir)) all) (combine (seq (length pre) (length ds)) ds) (pre ++ repeat None (length ds)) = pre ++ map Some ds).
  { clear. induction ds as [|d ds IH]; intros pre; auto. cbn [length seq combine fold_left repeat map fst snd].
    assert (E : set_nth (length pre) (Some d) (pre ++ None :: repeat None (length ds)) = (pre ++ [Some d]) ++ repeat None (length ds)).
    { clear. induction pre as [|x pre IH]; simpl; auto. f_equal. auto. }
    rewrite E. specialize (IH (pre ++ [Some d])). rewrite app_length in IH. cbn [length] in IH. rewrite Nat.add_1_r in IH. rewrite IH. rewrite <- app_assoc. auto. }
  apply (G ds []).
Qed.

Section Threads.
Context {V : Type} (O : numops V).
Notation cell := (option V).
Notation barr := (@barr V).
Notation chunk := (list key * nd cell)%type.
Variable maxc : nat.                       (* MAX_CHUNK_SIZE *)
Variable garbage : list nat -> cell.       (* the content of np.empty *)
Variable rz : barr -> res (nd cell).       (* realisation of the chunks of a producer *)
Variable m : bool.                         (* masked_arrays rather than ndarrays *)
Notation alone := (engine_eval O maxc garbage rz m).
Notation network := (network O maxc garbage rz m).
Notation returned := (returned O garbage).

Section Graph.
Variable dag : list (@entry V).
Variable roots : list nat.
Hypothesis D : dag_ok dag roots.
Variable net : list (node chunk).
Hypothesis HN : network dag roots = Ok net.
Notation W := (network_wired O maxc garbage rz m dag roots D net HN).

Lemma returned_stays n s t : steps (net_next net) bounded n s t -> joined dag roots s -> returned dag roots s = returned dag roots t /\ joined dag roots t.
Proof.
  intros Hs HJ. assert (G : forall j, j < length roots -> exists ok hist got, sink_state dag s j = Some (LHalt ok hist got) /\ sink_state dag t j = Some (LHalt ok hist got)).
  { intros j Hj. destruct (HJ j Hj) as (ok & hist & got & E). exists ok, hist, got. split; auto. unfold sink_state in *.
    apply (halted_stays (net_next net) bounded n s t _ _ Hs E). unfold net_next. destruct (nth_error net _); auto. }
  split.
  - unfold Threads.returned. assert (H : forall l, (forall jr, In jr l -> fst jr < length roots) ->
      mapM (fun jr => match sink_state dag s (fst jr) with Some (LHalt true hist _) => stored garbage (shape (expr O dag (snd jr))) hist | _ => Err EvalError end) l =
      mapM (fun jr => match sink_state dag t (fst jr) with Some (LHalt true hist _) => stored garbage (shape (expr O dag (snd jr))) hist | _ => Err EvalError end) l).
    { induction l as [|jr l IH]; intros H; auto. cbn [mapM]. rewrite IH by (intros; apply H; right; auto).
      destruct (G (fst jr) (H jr (or_introl eq_refl))) as (ok & hist & got & -> & ->). auto. }
    apply H. intros [j r] Hin. apply in_combine_l in Hin. apply in_seq in Hin. simpl. lia.
  - intros j Hj. destruct (G j Hj) as (ok & hist & got & _ & E). eauto.
Qed.

(** C28: whatever the schedules, two evaluations that return give the same
    results (or both raise), and two evaluations run to the end are in the same
    state after the same number of steps.  No condition on the graph. *)
Theorem C28_schedule_independent s t : reached net dag roots s -> joined dag roots s -> reached net dag roots t -> joined dag roots t ->
  returned dag roots s = returned dag roots t.
Proof.
  intros [n1 H1] J1 [n2 H2] J2. destruct (ends net _ _ _ W bounded s) as (k1 & s' & S1 & F1). destruct (ends net _ _ _ W bounded t) as (k2 & t' & S2 & F2).
  rewrite (proj1 (returned_stays _ _ _ S1 J1)), (proj1 (returned_stays _ _ _ S2 J2)).
  destruct (deterministic net _ _ _ W bounded _ _ s' _ t' bounded_down (steps_app _ _ _ _ _ _ _ H1 S1) F1 (steps_app _ _ _ _ _ _ _ H2 S2) F2) as [-> _]. auto.
Qed.
Theorem C28_same_end n1 s n2 t :
  steps (net_next net) bounded n1 (net0 net (queues dag roots)) s -> over net s ->
  steps (net_next net) bounded n2 (net0 net (queues dag roots)) t -> over net t -> s = t /\ n1 = n2.
Proof. apply (deterministic net _ _ _ W bounded n1 _ s n2 t bounded_down). Qed.
(** The results are those of each array evaluated alone, when every array
    object is asked for in one iteration order (always so without sharing, see
    C28_expressions_partial; C31_order_refuted shows what happens otherwise). *)
Theorem C28_sequential_partial ds s : consistent O dag roots -> Forall2 (fun r d => alone (expr O dag r) = Ok d) roots ds ->
  reached net dag roots s -> joined dag roots s -> returned dag roots s = Ok ds.
Proof.
  intros CS HF [n Hs] HJ. destruct (threads_sequential O maxc garbage rz m dag roots D CS net HN) with (s := s) (n := n) (room := bounded) as (ds' & E & H); auto.
  - intros r Hr. clear -HF Hr. induction HF; [destruct Hr|]. destruct Hr as [<-|Hr]; eauto.
  - rewrite E. f_equal. apply (Forall2_det _ roots ds' ds) with (2 := H) (3 := HF). congruence.
Qed.

(** C29: every schedule stops; one can always go on to a state where nothing can
    happen any more. *)
Theorem C29_every_schedule_stops : exists b, forall n s, steps (net_next net) bounded n (net0 net (queues dag roots)) s ->
  n <= b /\ exists n' t, steps (net_next net) bounded n' s t /\ over net t.
Proof.
  destruct (terminates net _ _ _ W bounded (net0 net (queues dag roots))) as [b Hb]. exists b. intros n s Hs. split; [eauto|].
  apply (ends net _ _ _ W bounded s).
Qed.
(** No deadlock when no array object is used twice, whatever fails. *)
Theorem C29_no_sharing_partial s : unshared dag roots -> reached net dag roots s -> over net s -> joined dag roots s.
Proof. intros U [n Hs] HF. apply (unshared_joined O maxc garbage rz m dag roots D U net HN bounded s n eq_refl Hs HF). Qed.
(** With sharing: no deadlock, whatever fails, when the objects used in two places
    come in at most three chunks (the size of the queues; with four chunks there
    are deadlocks, C30_hang_refuted). *)
Theorem C29_few_chunks_partial s : consistent O dag roots -> shared_few O maxc 3 dag roots ->
  reached net dag roots s -> over net s -> joined dag roots s.
Proof.
  intros CS SF [n Hs] HF. apply (small_joined O maxc garbage rz m dag roots D CS net HN bounded s n 3 eq_refl); auto.
  intros k Hk. unfold bounded. apply Nat.ltb_lt. auto.
Qed.
Lemma all_done s tk : consistent O dag roots -> (forall r, In r roots -> exists d, alone (expr O dag r) = Ok d) ->
  in_step net (ThreadBuild.wr O dag roots) (ThreadSem.full O maxc rz m dag roots) tk -> reached net dag roots s -> over net s -> joined dag roots s /\ Forall finished (fst s).
Proof.
  intros CS HR HT [n Hs] HF. pose proof (inv_reach net _ _ _ W bounded n s Hs) as HI.
  pose proof (all_halt net _ _ _ W _ (network_solved O maxc garbage rz m dag roots D CS net HN HR) _ HT bounded eq_refl s HI HF) as HA. split.
  - intros j Hj. destruct (nth_error roots j) as [r|] eqn:Er; [|apply nth_error_None in Er; lia].
    pose proof (net_sink O maxc garbage rz m dag roots net HN j r Er) as Hn. destruct (loc_at net _ _ s HI _ _ Hn) as [l El].
    destruct (HA _ _ _ Hn El) as (hist & got & ->). exists true, hist, got. exact El.
  - apply Forall_forall. intros l Hl. apply In_nth_error in Hl as [i Hi].
    destruct (nth_error net i) as [nd|] eqn:En; [destruct (HA _ _ _ En Hi) as (h & g & ->); exact I|].
    exfalso. apply nth_error_None in En. assert (i < length (fst s)) by (apply nth_error_Some; congruence). rewrite (i_len _ _ _ _ HI) in *. lia.
Qed.
(** With sharing and any number of chunks: no deadlock when nothing fails and the
    operands of every binary operation are divided at the same places, or come at
    the same pace; every thread finishes. *)
Theorem C29_aligned_partial s : consistent O dag roots -> aligned O maxc dag roots -> (forall r, In r roots -> exists d, alone (expr O dag r) = Ok d) ->
  reached net dag roots s -> over net s -> joined dag roots s /\ Forall finished (fst s).
Proof. intros CS AL HR. apply (all_done s _ CS HR (aligned_in_step O maxc garbage rz m dag roots D CS net HN HR AL)). Qed.
Theorem C29_paced_partial s : consistent O dag roots -> paced O maxc dag roots -> (forall r, In r roots -> exists d, alone (expr O dag r) = Ok d) ->
  reached net dag roots s -> over net s -> joined dag roots s /\ Forall finished (fst s).
Proof. intros CS PA HR. apply (all_done s _ CS HR (paced_in_step O maxc garbage rz m dag roots D CS net HN HR (paced_balanced O maxc garbage rz dag roots PA) PA)). Qed.
(** Returning does not depend on the schedule: if one run to the end returns, all
    do.  No condition on the graph. *)
Theorem C29_all_or_none s t : reached net dag roots s -> over net s -> joined dag roots s ->
  reached net dag roots t -> over net t -> joined dag roots t.
Proof. intros [n1 H1] F1 J1 [n2 H2] F2. destruct (C28_same_end n1 s n2 t H1 F1 H2 F2) as [<- _]. auto. Qed.

(** C30: an array that is returned was computed without any failure: it is exactly
    what the sequential evaluation gives, so never partially filled. *)
Theorem C30_result_is_whole_partial s ds : consistent O dag roots -> balanced O maxc dag roots ->
  reached net dag roots s -> returned dag roots s = Ok ds -> Forall2 (fun r d => alone (expr O dag r) = Ok d) roots ds.
Proof. intros CS BL [n Hs]. apply (returned_ok O maxc garbage rz m dag roots D CS BL net HN bounded s n Hs). Qed.
(** A failure makes every schedule end in an exception, when nothing is shared or
    what is shared comes in at most three chunks. *)
Theorem C30_raises_partial s : consistent O dag roots -> shared_few O maxc 3 dag roots -> balanced O maxc dag roots ->
  (exists r e, In r roots /\ alone (expr O dag r) = Err e) ->
  reached net dag roots s -> over net s -> joined dag roots s /\ exists e, returned dag roots s = Err e.
Proof.
  intros CS SF BL (r & e & Hr & He) HS HF. pose proof (C29_few_chunks_partial s CS SF HS HF) as HJ. split; auto.
  destruct (returned dag roots s) as [ds|e'] eqn:E; [|eauto]. exfalso.
  pose proof (C30_result_is_whole_partial s ds CS BL HS E) as H. clear -H Hr He.
  induction H; [destruct Hr|]. destruct Hr as [<-|Hr]; auto. congruence.
Qed.
Theorem C30_no_sharing_partial s : unshared dag roots -> balanced O maxc dag roots -> (exists r e, In r roots /\ alone (expr O dag r) = Err e) ->
  reached net dag roots s -> over net s -> joined dag roots s /\ exists e, returned dag roots s = Err e.
Proof. intros U. apply (C30_raises_partial s (unshared_consistent O dag roots U) (unshared_few O maxc 3 dag roots U)). Qed.
End Graph.

(** C28: whatever the schedule, what [evaluate] returns or raises is what a single
    thread gets that walks over the graph and computes all chunks of a node before
    the next node, each Array object once.  No condition on the graph: nodes may
    be shared, asked for in several orders, have operands in different numbers of
    chunks or fail at any chunk. *)
Notation one_thread := (one_thread O maxc garbage rz m).
Theorem C28_one_thread dag roots : dag_ok dag roots ->
  match network dag roots with
  | Ok net => forall s, reached net dag roots s -> joined dag roots s -> returned dag roots s = one_thread dag roots
  | Err _ => exists e, one_thread dag roots = Err e
  end.
Proof.
  intros D. destruct (network dag roots) as [net|e] eqn:HN; [|apply (start_fails O maxc garbage rz m dag roots D e HN)].
  intros s [n Hs] HJ. apply (threads_one O maxc garbage rz m dag roots D net HN s n bounded Hs HJ).
Qed.
Lemma returned_joined dag roots s ds : returned dag roots s = Ok ds -> joined dag roots s.
Proof.
  unfold Threads.returned. intros H j Hj. apply mapM_ok in H. destruct (nth_error roots j) as [r|] eqn:Er; [|apply nth_error_None in Er; lia].
  pose proof (nth_error_combine_seq roots j r Er) as Hc. destruct (nth_error ds j) as [d|] eqn:Ed.
  - pose proof (Forall2_nth_error _ _ ds j _ d H Hc Ed) as E. cbn [fst snd] in E. destruct (sink_state dag s j) as [[| | |[|] hist got]|]; try discriminate. eauto.
  - exfalso. apply nth_error_None in Ed. apply Forall2_length in H. rewrite combine_length, seq_length in H. lia.
Qed.
(** C30: arrays are returned only if the single thread gets those arrays without
    any failure that reaches a requested array; nothing else is ever returned. *)
Theorem C30_only_one_thread dag roots net s ds : dag_ok dag roots -> network dag roots = Ok net ->
  reached net dag roots s -> returned dag roots s = Ok ds -> one_thread dag roots = Ok ds.
Proof.
  intros D HN HS HR. pose proof (C28_one_thread dag roots D) as H. rewrite HN in H. rewrite <- (H s HS (returned_joined _ _ _ _ HR)). auto.
Qed.
Lemma np_setitems_shape {W} (ws : list (list key * nd W)) : forall a r, np_setitems a ws = Ok r -> nshape r = nshape a.
Proof.
  unfold np_setitems. induction ws as [|w ws IH]; intros a r H; [apply Ok_inj' in H; subst; auto|]. cbn [foldM] in H.
  destruct (np_setitem a (fst w) (snd w)) as [a'|] eqn:E; [|discriminate]. cbn [bind] in H. rewrite (IH _ _ H). clear -E. unfold np_setitem in E.
  destruct (assign_sels (fst w) (nshape a)) as [ss|]; cbn [bind] in E; [|discriminate]. unfold nd_assign in E.
  repeat match type of E with (if ?c then _ else _) = _ => destruct c | match ?c with _ => _ end = _ => destruct c end; try discriminate; apply Ok_inj' in E; subst; auto.
Qed.
(** C32: whatever the graph, the [j]th result is made of the chunks of the [j]th
    array requested, and has its shape. *)
Theorem C32_positions dag roots net s ds : dag_ok dag roots -> network dag roots = Ok net ->
  reached net dag roots s -> returned dag roots s = Ok ds ->
  let results := compile (length roots) (combine (groups (length roots)) [ds]) in
  length results = length roots /\
  forall j r, nth_error roots j = Some r -> exists chunks d, nth_error results j = Some (Some d) /\ nshape d = shape (expr O dag r) /\
    nth r (walk_all O maxc rz m dag roots (repeat None (length dag))) None = Some (chunks, true) /\
    np_setitems (mkND (shape (expr O dag r)) garbage) chunks = Ok d.
Proof.
  intros D HN HS HR results. pose proof (C30_only_one_thread dag roots net s ds D HN HS HR) as H. unfold OneThread.one_thread in H. apply mapM_ok in H.
  pose proof (Forall2_length _ _ _ H) as HL. assert (E : results = map Some ds) by (apply nth_error_ext_seq; auto). rewrite E. split; [rewrite map_length; auto|].
  intros j r Hr. rewrite nth_error_map. destruct (nth_error ds j) as [d|] eqn:Ed.
  - pose proof (Forall2_nth_error _ roots ds j r d H Hr Ed) as Hd. cbn beta in Hd.
    destruct (nth r (walk_all O maxc rz m dag roots (repeat None (length dag))) None) as [[chunks ok]|]; [|discriminate]. unfold kept in Hd. cbn [fst snd] in Hd.
    destruct (np_setitems _ chunks) as [d'|] eqn:Ec; [|discriminate]. destruct ok; [|discriminate]. apply Ok_inj' in Hd. subst d'.
    exists chunks, d. split; auto. split; [|auto]. rewrite (np_setitems_shape chunks _ _ Ec). auto.
  - exfalso. apply nth_error_None in Ed. assert (j < length roots) by (apply nth_error_Some; congruence). lia.
Qed.

(** C27: elementwise operations without a masked equivalent.  [evaluate] raises
    TypeError, before any thread starts, exactly when masked arrays are asked for
    and the evaluation involves such an operation; it raises nothing else there. *)
Definition unmaskable (e : @entry V) : Prop :=
  match e with EEl1 o _ _ => o1_ma o = None | EEl2 o _ _ _ => o2_ma o = None | _ => False end.
Theorem C27_refused dag roots e : dag_ok dag roots ->
  network dag roots = Err e <-> e = TypeError /\ m = true /\ exists i o x, wants O dag roots i o /\ nth_error dag i = Some x /\ unmaskable x.
Proof.
  intros D. pose proof (build_ok O garbage dag roots D) as B. set (st := build O dag roots) in *.
  assert (HC : forall i o, wants O dag roots i o -> nth i (fst st) None <> None).
  { induction 1 as [r Hr|i o x s H IH He Hs]; [|apply (b_srcs _ _ _ _ _ B i x s); auto].
    apply In_nth_error in Hr as [j Hj]. apply (b_roots _ _ _ _ _ B j r); auto. apply nth_error_Some. congruence. }
  assert (HE : forall i x, (exists n, entry_node O maxc rz m dag st i x = Ok n) \/
    (entry_node O maxc rz m dag st i x = Err TypeError /\ m = true /\ unmaskable x /\ exists o, nth i (fst st) None = Some o)).
  { intros i x. unfold entry_node. destruct (nth i (fst st) None) as [o|]; [|left; eauto].
    destruct x; try (left; eexists; reflexivity); unfold op1_fun, op2_fun; destruct m; try (left; eexists; reflexivity); cbn [unmaskable];
      match goal with |- context [match ?y with Some _ => _ | None => _ end] => destruct y eqn:Eo end; [left; eexists; reflexivity|right; eauto|left; eexists; reflexivity|right; eauto]. }
  unfold network. unfold Threads.network. fold st. cbv zeta. set (l := combine (seq 0 (length dag)) dag).
  assert (HI : forall i x, In (i, x) l <-> nth_error dag i = Some x).
  { intros i x. unfold l. split; intros H.
    - apply In_nth_error in H as [k Hk]. assert (k < length dag). { assert (k < length (combine (seq 0 (length dag)) dag)) by (apply nth_error_Some; congruence). rewrite combine_length, seq_length in *. lia. }
      destruct (nth_error dag k) as [y|] eqn:Ek; [|apply nth_error_None in Ek; lia]. rewrite (nth_error_combine_seq dag k y Ek) in Hk. injection Hk as -> ->. auto.
    - eapply nth_error_In. apply nth_error_combine_seq. exact H. }
  assert (HM : (exists ns, mapM (fun ie => entry_node O maxc rz m dag st (fst ie) (snd ie)) l = Ok ns /\ forall i x, In (i, x) l -> exists n, entry_node O maxc rz m dag st i x = Ok n) \/
    (mapM (fun ie => entry_node O maxc rz m dag st (fst ie) (snd ie)) l = Err TypeError /\ exists i x, In (i, x) l /\ m = true /\ unmaskable x /\ exists o, nth i (fst st) None = Some o)).
  { clear -HE. induction l as [|[i x] l IH]; [left; exists []; split; [reflexivity|intros i x []]|]. cbn [mapM fst snd]. destruct (HE i x) as [[n En]|(En & H)]; rewrite En; cbn [bind].
    - destruct IH as [(ns & -> & HA)|(-> & j & y & Hy & H)]; [left|right]; cbn [bind].
      + eexists. split; [reflexivity|]. intros j y [E|Hy]; [injection E as <- <-; eauto|eauto].
      + split; auto. exists j, y. split; [right; auto|auto].
    - right. split; auto. exists i, x. split; [left; auto|]. tauto. }
  destruct HM as [(ns & -> & HA)|(-> & i & x & Hx & Hm & Hu & o & Ho)]; cbn [bind].
  - split; [discriminate|]. intros (_ & Hm & i & o & x & Hw & Hx & Hu). exfalso. apply HI in Hx. destruct (HA _ _ Hx) as [n En].
    specialize (HC _ _ Hw). unfold entry_node in En. destruct (nth i (fst st) None) as [o'|]; [|congruence].
    destruct x; cbn [unmaskable] in Hu; try contradiction; unfold op1_fun, op2_fun in En; rewrite Hm, Hu in En; discriminate.
  - split.
    + intros E. injection E as <-. split; auto. split; auto. exists i, o, x. split; [apply (b_wants _ _ _ _ _ B); auto|]. split; auto. apply HI. auto.
    + intros (-> & _). auto.
Qed.

(** Raising before the threads start also means that one of the arrays fails. *)
Theorem C30_start dag roots e : dag_ok dag roots -> network dag roots = Err e -> exists r e', In r roots /\ alone (expr O dag r) = Err e'.
Proof.
  intros D HE. assert (H : (forall r, In r roots -> exists d, alone (expr O dag r) = Ok d) \/ exists r e', In r roots /\ alone (expr O dag r) = Err e').
  { clear. induction roots as [|r rs [IH|(x & e' & Hx & He)]]; [left; intros r []| |right; exists x, e'; simpl; auto].
    destruct (alone (expr O dag r)) as [d|e'] eqn:E; [left|right; exists r, e'; simpl; auto].
    intros x [<-|Hx]; eauto. }
  destruct H as [H|H]; auto. destruct (network_ok O maxc garbage rz m dag roots D H) as [net Hn]. congruence.
Qed.

Lemma wants_sub dag roots roots' i o : incl roots' roots -> wants O dag roots' i o -> wants O dag roots i o.
Proof. intros Hi. induction 1; [apply wants_root; auto|eapply wants_src; eauto]. Qed.
(** C31: arrays evaluated together are those evaluated one by one, also when they
    share array objects, provided every object is asked for in one iteration
    order. *)
Theorem C31_together_partial dag roots net s ds : dag_ok dag roots -> consistent O dag roots ->
  network dag roots = Ok net -> reached net dag roots s -> joined dag roots s ->
  Forall2 (fun r d => alone (expr O dag r) = Ok d) roots ds ->
  returned dag roots s = Ok ds /\
  forall j r d, nth_error roots j = Some r -> nth_error ds j = Some d ->
    exists net1, network dag [r] = Ok net1 /\
      forall t, reached net1 dag [r] t -> joined dag [r] t -> returned dag [r] t = Ok [d].
Proof.
  intros D CS HN HS HJ HF. split; [apply (C28_sequential_partial dag roots D net HN ds s CS HF HS HJ)|].
  intros j r d Hr Hd. assert (D1 : dag_ok dag [r]).
  { destruct D as (A & B & C). split; [|split]; auto. intros x [<-|[]]. apply C. eapply nth_error_In; eauto. }
  assert (CS1 : consistent O dag [r]).
  { intros i o o' H1 H2. apply (CS i); [apply (wants_sub dag roots [r])|apply (wants_sub dag roots [r])]; auto; intros x [<-|[]]; eapply nth_error_In; eauto. }
  assert (He : alone (expr O dag r) = Ok d) by (apply (Forall2_nth_error _ roots ds j r d HF); auto).
  destruct (network_ok O maxc garbage rz m dag [r] D1) as [net1 H1]. { intros x [<-|[]]. eauto. }
  exists net1. split; auto. intros t Ht HJt. apply (C28_sequential_partial dag [r] D1 net1 H1 [d] t CS1); auto.
Qed.

(** C32: the results come back in the order of the request. *)
Theorem C32_request_order_partial dag roots net s ds : dag_ok dag roots -> consistent O dag roots -> balanced O maxc dag roots ->
  network dag roots = Ok net -> reached net dag roots s -> returned dag roots s = Ok ds ->
  let results := compile (length roots) (combine (groups (length roots)) [ds]) in
  length results = length roots /\
  forall j r, nth_error roots j = Some r -> exists d, nth_error results j = Some (Some d) /\ alone (expr O dag r) = Ok d.
Proof.
  intros D CS BL HN HS HR results. pose proof (C30_result_is_whole_partial dag roots D net HN s ds CS BL HS HR) as H.
  pose proof (Forall2_length _ _ _ H) as HL. assert (E : results = map Some ds) by (apply nth_error_ext_seq; auto). rewrite E. split; [rewrite map_length; auto|].
  intros j r Hr. rewrite nth_error_map. destruct (nth_error ds j) as [d|] eqn:Ed.
  - exists d. split; auto. apply (Forall2_nth_error _ roots ds j r d H); auto.
  - exfalso. apply nth_error_None in Ed. assert (j < length roots) by (apply nth_error_Some; congruence). lia.
Qed.
End Threads.

(** ** Expressions without shared objects *)
Section Expressions.
Context {V : Type} (O : numops V).
Variable maxc : nat.
Variable garbage : list nat -> option V.
Variable fuel : nat.
Variable m : bool.
Notation rz := (realise O maxc garbage fuel m).

(** C28 - C30 for a list of expressions made of distinct objects ([forest] lists
    their objects): whatever the schedule, the evaluation ends, all result threads
    finish, and the result is an error exactly when one of the expressions fails
    by itself. *)
Theorem C28_expressions_partial l : let dag := fst (forest 0 l) in let roots := snd (forest 0 l) in
  balanced O maxc dag roots ->
  match network O maxc garbage rz m dag roots with
  | Err _ => exists e, mapM (engine_eval O maxc garbage rz m) l = Err e
  | Ok net => (exists b, forall n s, steps (net_next net) bounded n (net0 net (queues dag roots)) s -> n <= b) /\
      (exists s, reached net dag roots s /\ over net s) /\
      forall s, reached net dag roots s -> over net s -> joined dag roots s /\
      match mapM (engine_eval O maxc garbage rz m) l with
      | Ok ds => returned O garbage dag roots s = Ok ds
      | Err _ => exists e, returned O garbage dag roots s = Err e
      end
  end.
Proof.
  intros dag roots BL. destruct (forest_graph O l) as (D & U & E). fold dag roots in D, U, E.
  rewrite <- E.
  assert (HO : forall ds, mapM (engine_eval O maxc garbage rz m) (map (expr O dag) roots) = Ok ds -> Forall2 (fun r d => engine_eval O maxc garbage rz m (expr O dag r) = Ok d) roots ds).
  { intros ds H. apply mapM_ok in H. clear -H. revert ds H. induction roots as [|r rs IH]; intros ds H; inversion H; subst; constructor; auto. }
  assert (HE : forall e, mapM (engine_eval O maxc garbage rz m) (map (expr O dag) roots) = Err e -> exists r e, In r roots /\ engine_eval O maxc garbage rz m (expr O dag r) = Err e).
  { clear. induction roots as [|r rs IH]; intros e H; [discriminate|]. cbn [map mapM] in H. destruct (engine_eval O maxc garbage rz m (expr O dag r)) as [d|e'] eqn:Er; [|exists r, e'; simpl; auto].
    cbn [bind] in H. destruct (mapM _ (map (expr O dag) rs)) as [ds|e']; [discriminate|]. destruct (IH e' eq_refl) as (x & e2 & Hx & He). exists x, e2. simpl; auto. }
  destruct (network O maxc garbage rz m dag roots) as [net|e] eqn:HN.
  - split. { destruct (C29_every_schedule_stops O maxc garbage rz m dag roots D net HN) as [b Hb]. exists b. intros n s Hs. apply (Hb n s Hs). }
    split. { destruct (C29_every_schedule_stops O maxc garbage rz m dag roots D net HN) as [b Hb]. destruct (Hb 0 _ (steps_0 _ _ _)) as (_ & n & t & Ht & HF). exists t. split; auto. exists n. auto. }
    intros s Hs HF. pose proof (C29_no_sharing_partial O maxc garbage rz m dag roots D net HN s U Hs HF) as HJ. split; auto.
    destruct (mapM _ _) as [ds|e] eqn:Em.
    + apply (C28_sequential_partial O maxc garbage rz m dag roots D net HN ds s); auto. apply (unshared_consistent O dag roots U).
    + apply (C30_no_sharing_partial O maxc garbage rz m dag roots D net HN s U BL (HE e eq_refl) Hs HF).
  - destruct (C30_start O maxc garbage rz m dag roots e D HN) as (r & e' & Hr & He).
    destruct (mapM _ _) as [ds|e2] eqn:Em; [|eauto]. exfalso. specialize (HO ds eq_refl). clear -HO Hr He. induction HO; [destruct Hr|]. destruct Hr as [<-|Hr]; auto. congruence.
Qed.
(** For expressions that can be streamed, the threads give the NumPy result. *)
Theorem C28_values_partial HG l : (forall g, handler_right O m g (HG g)) ->
  Forall (fun a => wf a /\ streamable maxc m HG (realisable maxc m HG fuel) a) l ->
  let dag := fst (forest 0 l) in let roots := snd (forest 0 l) in
  exists net, network O maxc garbage rz m dag roots = Ok net /\
    (exists s, reached net dag roots s /\ over net s) /\
    forall s, reached net dag roots s -> over net s -> joined dag roots s /\
      exists ds, returned O garbage dag roots s = Ok ds /\ Forall2 (fun a d => nd_eq d (den O m a)) l ds.
Proof.
  intros HR HL dag roots. destruct (forest_graph O l) as (D & U & E). fold dag roots in D, U, E.
  assert (H : exists ds, Forall2 (fun r d => engine_eval O maxc garbage rz m (expr O dag r) = Ok d) roots ds /\ Forall2 (fun a d => nd_eq d (den O m a)) l ds).
  { rewrite <- E in HL |- *. clear -HL HR. induction roots as [|r rs IH]; [exists []; split; constructor|]. cbn [map] in *. inversion HL as [|x y [Hw Hs] HL']; subst.
    destruct (IH HL') as (ds & H1 & H2).
    destruct (engine_ok O maxc garbage m HG HR (realisable maxc m HG fuel) rz (realise_ok O maxc garbage m HG HR fuel) _ Hw Hs) as (d & Ed & Hd).
    exists (d :: ds). split; constructor; auto. }
  destruct H as (ds & H1 & H2). destruct (network_ok O maxc garbage rz m dag roots D) as [net HN].
  { intros r Hr. clear -H1 Hr. induction H1; [destruct Hr|]. destruct Hr as [<-|Hr]; eauto. }
  exists net. split; auto. split. { destruct (C29_every_schedule_stops O maxc garbage rz m dag roots D net HN) as [b Hb]. destruct (Hb 0 _ (steps_0 _ _ _)) as (_ & n & t & Ht & HF). exists t. split; auto. exists n. auto. }
  intros s Hs HF. pose proof (C29_no_sharing_partial O maxc garbage rz m dag roots D net HN s U Hs HF) as HJ. split; auto.
  exists ds. split; auto. apply (C28_sequential_partial O maxc garbage rz m dag roots D net HN ds s); auto. apply (unshared_consistent O dag roots U).
Qed.
(** Also with shared objects, when each of them is asked for in one iteration
    order: no schedule deadlocks, every thread finishes, and the arrays returned are
    the NumPy results. *)
Theorem C28_shared_values_partial HG dag roots : (forall g, handler_right O m g (HG g)) -> dag_ok dag roots -> consistent O dag roots ->
  (forall r, In r roots -> wf (expr O dag r) /\ streamable maxc m HG (realisable maxc m HG fuel) (expr O dag r)) ->
  exists net, network O maxc garbage rz m dag roots = Ok net /\
    (exists s, reached net dag roots s /\ over net s) /\
    forall s, reached net dag roots s -> over net s -> joined dag roots s /\ Forall finished (fst s) /\
      exists ds, returned O garbage dag roots s = Ok ds /\ Forall2 (fun r d => nd_eq d (den O m (expr O dag r))) roots ds.
Proof.
  intros HR D CS HS. destruct (streamable_values O maxc garbage m HG HR fuel dag roots HS) as (ds & H1 & H2).
  assert (HA : forall r, In r roots -> exists d, engine_eval O maxc garbage rz m (expr O dag r) = Ok d).
  { intros r Hr. clear -H1 Hr. induction H1; [destruct Hr|]. destruct Hr as [<-|Hr]; eauto. }
  destruct (network_ok O maxc garbage rz m dag roots D HA) as [net HN].
  exists net. split; auto. split. { destruct (C29_every_schedule_stops O maxc garbage rz m dag roots D net HN) as [b Hb]. destruct (Hb 0 _ (steps_0 _ _ _)) as (_ & n & t & Ht & HF). exists t. split; auto. exists n. auto. }
  intros s Hs HF. destruct (C29_aligned_partial O maxc garbage rz m dag roots D net HN s CS (streamable_aligned O maxc garbage m HG HR fuel dag roots D HS) HA Hs HF) as [HJ HFi].
  split; auto. split; auto. exists ds. split; auto. apply (C28_sequential_partial O maxc garbage rz m dag roots D net HN ds s); auto.
Qed.
(** C31, no schedule deadlocking, together or alone. *)
Theorem C31_streamable_partial HG dag roots : (forall g, handler_right O m g (HG g)) -> dag_ok dag roots -> consistent O dag roots ->
  (forall r, In r roots -> wf (expr O dag r) /\ streamable maxc m HG (realisable maxc m HG fuel) (expr O dag r)) ->
  exists net ds, network O maxc garbage rz m dag roots = Ok net /\ length ds = length roots /\
    (forall s, reached net dag roots s -> over net s -> joined dag roots s /\ returned O garbage dag roots s = Ok ds) /\
    forall j r, nth_error roots j = Some r -> exists net1 d, nth_error ds j = Some d /\ network O maxc garbage rz m dag [r] = Ok net1 /\
      forall t, reached net1 dag [r] t -> over net1 t -> joined dag [r] t /\ returned O garbage dag [r] t = Ok [d].
Proof.
  intros HR D CS HS. destruct (streamable_values O maxc garbage m HG HR fuel dag roots HS) as (ds & H1 & _).
  destruct (C28_shared_values_partial HG dag roots HR D CS HS) as (net & HN & _ & HA). exists net, ds. split; auto. split; [symmetry; apply (Forall2_length _ _ _ H1)|]. split.
  - intros s Hs HF. destruct (HA s Hs HF) as (HJ & _). split; auto. apply (C28_sequential_partial O maxc garbage rz m dag roots D net HN ds s CS H1 Hs HJ).
  - intros j r Hr. destruct (nth_error ds j) as [d|] eqn:Ed; [|exfalso; apply nth_error_None in Ed; pose proof (Forall2_length _ _ _ H1); assert (j < length roots) by (apply nth_error_Some; congruence); lia].
    assert (Hin : incl [r] roots) by (intros x [<-|[]]; eapply nth_error_In; eauto).
    assert (D1 : dag_ok dag [r]). { destruct D as (A & B & C). split; [|split]; auto. }
    assert (CS1 : consistent O dag [r]) by (intros i o o' X Y; apply (CS i); apply (wants_sub O dag roots [r]); auto).
    destruct (C28_shared_values_partial HG dag [r] HR D1 CS1 ltac:(intros; apply HS; auto)) as (net1 & HN1 & _ & HA1). exists net1, d. split; auto. split; auto.
    intros t Ht HF. destruct (HA1 t Ht HF) as (HJ & _). split; auto. apply (C28_sequential_partial O maxc garbage rz m dag [r] D1 net1 HN1 [d] t CS1); auto.
    constructor; auto. apply (Forall2_nth_error _ roots ds j r d H1); auto.
Qed.
End Expressions.

(** ** Concrete evaluations *)
Definition filler : list nat -> option Z := fun _ => Some 77%Z.
Notation zrz maxc m := (realise z_ops maxc filler 3 m).
Definition znet maxc m (dag : list (@entry Z)) roots : list (node (list key * nd (option Z))) :=
  match network z_ops maxc filler (zrz maxc m) m dag roots with Ok n => n | Err _ => [] end.
Definition started maxc m (dag : list (@entry Z)) roots : bool :=
  match network z_ops maxc filler (zrz maxc m) m dag roots with Ok n => true | Err _ => false end.
Definition zend maxc m dag roots := run (net_next (znet maxc m dag roots)) bounded (Z.to_nat 2000) (net0 (znet maxc m dag roots) (queues dag roots)).
Definition zlevel (dag : list (@entry Z)) (s : gstate (msg (list key * nd (option Z))) (loc (list key * nd (option Z)))) (j : nat) : option bool :=
  match sink_state dag s j with Some (LHalt ok _ _) => Some ok | _ => None end.
Definition zflat maxc m (a : barr) : res (list nat * list (option Z)) := flat (engine_eval z_ops maxc filler (zrz maxc m) m a).
Lemma znet_ok maxc m dag roots : started maxc m dag roots = true -> network z_ops maxc filler (zrz maxc m) m dag roots = Ok (znet maxc m dag roots).
Proof. unfold started, znet. destruct (network _ _ _ _ _ _ _); [auto|discriminate]. Qed.
Lemma zend_unique maxc m dag roots s : dag_ok dag roots -> started maxc m dag roots = true -> stuck (net_next (znet maxc m dag roots)) bounded (zend maxc m dag roots) = true ->
  reached (znet maxc m dag roots) dag roots s -> over (znet maxc m dag roots) s -> s = zend maxc m dag roots.
Proof.
  intros D HS HE [n Hn] HF. destruct (run_steps (net_next (znet maxc m dag roots)) bounded (Z.to_nat 2000) (net0 (znet maxc m dag roots) (queues dag roots))) as [k Hk].
  destruct (C28_same_end z_ops maxc filler (zrz maxc m) m dag roots D _ (znet_ok _ _ _ _ HS) n s k (zend maxc m dag roots) Hn HF Hk (stuck_final _ _ _ HE)). auto.
Qed.
Lemma zlevel_joined dag roots s : joined dag roots s -> forall j, j < length roots -> zlevel dag s j <> None.
Proof. intros H j Hj. destruct (H j Hj) as (ok & h & g & E). unfold zlevel. rewrite E. discriminate. Qed.
Lemma dag_check (dag : list (@entry Z)) roots :
  forallb (fun ie => forallb (fun s => s <? fst ie) (entry_srcs (snd ie))) (combine (seq 0 (length dag)) dag) = true ->
  forallb (fun e => match e with EArr (AAgg _ _ _ _ | AEl1 _ _ _ | AEl2 _ _ _ _) => false | _ => true end) dag = true ->
  forallb (fun r => r <? length dag) roots = true -> dag_ok dag roots.
Proof.
  intros H1 H2 H3. rewrite forallb_forall in H1, H2, H3. split; [|split].
  - intros i e s Hi Hs. specialize (H1 (i, e)). rewrite forallb_forall in H1. apply Nat.ltb_lt. apply H1; auto. eapply nth_error_In. apply nth_error_combine_seq. eauto.
  - intros i a Hi. specialize (H2 _ (nth_error_In _ _ Hi)). destruct a; simpl in *; auto; discriminate.
  - intros r Hr. apply Nat.ltb_lt. auto.
Qed.

(** The sum over the first and the sum over the second axis of one array of
    [n] x [n], streamed by columns, added: with nine columns no schedule ever
    returns, although each operand alone (and the sum of separate objects) can be
    evaluated. *)
Definition cross (n : nat) : list (@entry Z) :=
  [EArr (arr [n; n]); EAgg GSum 0 0 0; EAgg GSum 0 1 0; EEl2 zadd2 1 2 0].
Theorem C29_deadlock_refuted : exists (dag : list (@entry Z)) (roots : list nat) net,
  dag_ok dag roots /\ network z_ops 9 filler (zrz 9 false) false dag roots = Ok net /\
  (forall r, In r roots -> exists d, realise z_ops 9 filler 3 false (expr z_ops dag r) = Ok d) /\
  (exists s, reached net dag roots s /\ over net s) /\
  forall s, reached net dag roots s -> over net s -> ~ joined dag roots s.
Proof.
  exists (cross 9), [3], (znet 9 false (cross 9) [3]). assert (D : dag_ok (cross 9) [3]) by (apply dag_check; vm_compute; reflexivity).
  assert (HS : started 9 false (cross 9) [3] = true) by (vm_compute; reflexivity). assert (HE : stuck (net_next (znet 9 false (cross 9) [3])) bounded (zend 9 false (cross 9) [3]) = true) by (vm_compute; reflexivity).
  split; auto. split; [apply znet_ok; auto|]. split.
  - intros r [<-|[]]. assert (H : exists x, flat (realise z_ops 9 filler 3 false (expr z_ops (cross 9) 3)) = Ok x) by (eexists; vm_compute; reflexivity).
    destruct H as [x H]. destruct (realise z_ops 9 filler 3 false (expr z_ops (cross 9) 3)); [eauto|discriminate].
  - split. { exists (zend 9 false (cross 9) [3]). split; [apply run_steps|apply stuck_final; auto]. }
    intros s Hr Ho HJ. rewrite (zend_unique _ _ _ _ s D HS HE Hr Ho) in HJ. apply (zlevel_joined _ _ _ HJ 0); [simpl; lia|]. vm_compute. reflexivity.
Qed.

(** [masked_arrays([x + bad, x])] where [bad] fails at its first chunk: the error
    stops the addition, which no longer reads [x]; with four chunks the evaluation
    never returns (with three it does, C30_raises_partial). *)
Definition no_masked : @op1 Z := mkOp1 Z.opp None (fun a => a).
Definition failing (sh : list nat) : @barr Z := AAsTy (AEl1 no_masked (arr sh) 0) 0.
Definition half (n : nat) : list (@entry Z) := [EArr (arr [n]); EArr (failing [n]); EEl2 zadd2 0 1 0].
Notation half_bad := (half 4).
Theorem C30_hang_refuted : exists (dag : list (@entry Z)) (roots : list nat) net,
  dag_ok dag roots /\ consistent z_ops dag roots /\ balanced z_ops 1 dag roots /\
  network z_ops 1 filler (zrz 1 true) true dag roots = Ok net /\
  (exists r e, In r roots /\ engine_eval z_ops 1 filler (zrz 1 true) true (expr z_ops dag r) = Err e) /\
  (exists s, reached net dag roots s /\ over net s) /\
  forall s, reached net dag roots s -> over net s -> ~ joined dag roots s.
Proof.
  exists half_bad, [2; 0], (znet 1 true half_bad [2; 0]). assert (D : dag_ok half_bad [2; 0]) by (apply dag_check; vm_compute; reflexivity).
  assert (HS : started 1 true half_bad [2; 0] = true) by (vm_compute; reflexivity). assert (HE : stuck (net_next (znet 1 true half_bad [2; 0])) bounded (zend 1 true half_bad [2; 0]) = true) by (vm_compute; reflexivity).
  split; auto. split; [apply (consistent_check z_ops half_bad [2; 0] [(2, [0]); (0, [0]); (1, [0])]); vm_compute; reflexivity|].
  split; [apply (balanced_check z_ops 1 half_bad [2; 0] [(2, [0]); (0, [0]); (1, [0])]); vm_compute; reflexivity|].
  split; [apply znet_ok; auto|]. split. { exists 2, TypeError. split; [simpl; auto|]. vm_compute. reflexivity. }
  split. { exists (zend 1 true half_bad [2; 0]). split; [apply run_steps|apply stuck_final; auto]. }
  intros s Hr Ho HJ. rewrite (zend_unique _ _ _ _ s D HS HE Hr Ho) in HJ. apply (zlevel_joined _ _ _ HJ 1); [simpl; lia|]. vm_compute. reflexivity.
Qed.
(** An operand with more chunks than the other: its failure is not noticed, and
    an array is returned. *)
Definition late_bad : list (@entry Z) :=
  [EArr (arr [4; 2]); EAgg GSum 0 1 0; EArr (AMosaic [arr [3; 8]; failing [1; 8]] 0); EAgg GSum 2 1 0; EEl2 zadd2 1 3 0].
Theorem C30_swallowed_refuted : exists (dag : list (@entry Z)) (roots : list nat) net,
  dag_ok dag roots /\ unshared dag roots /\ network z_ops 8 filler (zrz 8 true) true dag roots = Ok net /\
  (exists r e, In r roots /\ engine_eval z_ops 8 filler (zrz 8 true) true (expr z_ops dag r) = Err e) /\
  forall s, reached net dag roots s -> over net s -> joined dag roots s /\ exists ds, returned z_ops filler dag roots s = Ok ds.
Proof.
  exists late_bad, [4], (znet 8 true late_bad [4]). assert (D : dag_ok late_bad [4]) by (apply dag_check; vm_compute; reflexivity).
  assert (HS : started 8 true late_bad [4] = true) by (vm_compute; reflexivity). assert (HE : stuck (net_next (znet 8 true late_bad [4])) bounded (zend 8 true late_bad [4]) = true) by (vm_compute; reflexivity).
  assert (U : unshared late_bad [4]). { unfold unshared. simpl. repeat constructor; simpl; lia. }
  split; auto. split; auto. split; [apply znet_ok; auto|]. split. { exists 4, TypeError. split; [simpl; auto|]. vm_compute. reflexivity. }
  intros s Hr Ho. split; [apply (C29_no_sharing_partial z_ops 8 filler (zrz 8 true) true late_bad [4] D _ (znet_ok _ _ _ _ HS) s U Hr Ho)|].
  rewrite (zend_unique _ _ _ _ s D HS HE Hr Ho).
  assert (H : exists x, match returned z_ops filler late_bad [4] (zend 8 true late_bad [4]) with Ok l => map (fun d => flat (Ok d)) l | Err e => [] end = x :: []) by (eexists; vm_compute; reflexivity).
  destruct H as [x H]. destruct (returned z_ops filler late_bad [4] (zend 8 true late_bad [4])); [eauto|discriminate].
Qed.
(** [ndarrays([sum(a, 0), sum(a, 1)])]: both sums are fed by the same producer, in
    the iteration order of the first; the second is wrong. *)
Definition two_sums : list (@entry Z) := [EArr (arr [2; 3]); EAgg GSum 0 0 0; EAgg GSum 0 1 0].
Theorem C31_order_refuted : exists (dag : list (@entry Z)) (roots : list nat) net,
  dag_ok dag roots /\ network z_ops 1 filler (zrz 1 false) false dag roots = Ok net /\
  map (fun r => zflat 1 false (expr z_ops dag r)) roots = [Ok ([3], [Some 3%Z; Some 5%Z; Some 7%Z]); Ok ([2], [Some 3%Z; Some 12%Z])] /\
  forall s, reached net dag roots s -> over net s -> joined dag roots s /\
    exists ds, returned z_ops filler dag roots s = Ok ds /\ map (fun d => flat (Ok d)) ds = [Ok ([3], [Some 3%Z; Some 5%Z; Some 7%Z]); Ok ([2], [Some 2%Z; Some 5%Z])].
Proof.
  exists two_sums, [1; 2], (znet 1 false two_sums [1; 2]). assert (D : dag_ok two_sums [1; 2]) by (apply dag_check; vm_compute; reflexivity).
  assert (HS : started 1 false two_sums [1; 2] = true) by (vm_compute; reflexivity). assert (HE : stuck (net_next (znet 1 false two_sums [1; 2])) bounded (zend 1 false two_sums [1; 2]) = true) by (vm_compute; reflexivity).
  split; auto. split; [apply znet_ok; auto|]. split; [vm_compute; reflexivity|].
  intros s Hr Ho. rewrite (zend_unique _ _ _ _ s D HS HE Hr Ho).
  assert (H : match returned z_ops filler two_sums [1; 2] (zend 1 false two_sums [1; 2]) with Ok l => Ok (map (fun d => flat (Ok d)) l) | Err e => Err e end =
    Ok [Ok ([3], [Some 3%Z; Some 5%Z; Some 7%Z]); Ok ([2], [Some 2%Z; Some 5%Z])]) by (vm_compute; reflexivity).
  assert (HL : forallb (fun j => match zlevel two_sums (zend 1 false two_sums [1; 2]) j with Some _ => true | None => false end) [0; 1] = true) by (vm_compute; reflexivity).
  split.
  - intros j Hj. rewrite forallb_forall in HL. specialize (HL j). unfold zlevel in HL. destruct (sink_state two_sums (zend 1 false two_sums [1; 2]) j) as [[| | |ok h g]|]; eauto;
      (exfalso; simpl in Hj; assert (Hin : In j [0; 1]) by (simpl; lia); specialize (HL Hin); discriminate).
  - revert H. generalize (returned z_ops filler two_sums [1; 2] (zend 1 false two_sums [1; 2])). clear. intros [ds|e] H; [|discriminate H]. exists ds. split; [reflexivity|]. apply Ok_inj' in H. exact H.
Qed.

(** ** The hypotheses are met *)
(** [t = sum(x + x, axis=1); ndarrays([t + t, x])] on a 4 x 6 array in chunks of
    at most 3 elements: objects used several times, 8 chunks of [x]. *)
Definition shared_graph : list (@entry Z) :=
  [EArr (arr [4; 6]); EEl2 zadd2 0 0 0; EAgg GSum 1 1 0; EEl2 zadd2 2 2 0].
Example C29_paced_applies : dag_ok shared_graph [3; 0] /\ started 3 false shared_graph [3; 0] = true /\
  consistent z_ops shared_graph [3; 0] /\ paced z_ops 3 shared_graph [3; 0] /\ balanced z_ops 3 shared_graph [3; 0] /\
  map (fun r => zflat 3 false (expr z_ops shared_graph r)) [3; 0] =
    [Ok ([4], [Some 60%Z; Some 204%Z; Some 348%Z; Some 492%Z]); Ok ([4; 6], map (fun i => Some (Z.of_nat i)) (seq 0 24))] /\
  stuck (net_next (znet 3 false shared_graph [3; 0])) bounded (zend 3 false shared_graph [3; 0]) = true /\
  (match returned z_ops filler shared_graph [3; 0] (zend 3 false shared_graph [3; 0]) with Ok l => Ok (map (fun d => flat (Ok d)) l) | Err e => Err e end) =
    Ok [Ok ([4], [Some 60%Z; Some 204%Z; Some 348%Z; Some 492%Z]); Ok ([4; 6], map (fun i => Some (Z.of_nat i)) (seq 0 24))].
Proof.
  split; [apply dag_check; vm_compute; reflexivity|]. split; [vm_compute; reflexivity|].
  split; [apply (consistent_check z_ops shared_graph [3; 0] [(3, [0]); (2, [0]); (1, [0; 1]); (0, [0; 1])]); vm_compute; reflexivity|].
  split; [apply (paced_check z_ops 3 shared_graph [3; 0] [(3, [0]); (2, [0]); (1, [0; 1]); (0, [0; 1])]); vm_compute; reflexivity|].
  split; [apply (balanced_check z_ops 3 shared_graph [3; 0] [(3, [0]); (2, [0]); (1, [0; 1]); (0, [0; 1])]); vm_compute; reflexivity|].
  repeat split; vm_compute; reflexivity.
Qed.
(** [one_thread] on the graphs above: the wrong second sum of C31_order_refuted,
    the failure of C30_hang_refuted, the unnoticed one of C30_swallowed_refuted, the
    deadlocked graph of C29_deadlock_refuted (one thread has no queues to fill). *)
Definition zone maxc m dag roots := match one_thread z_ops maxc filler (zrz maxc m) m dag roots with Ok l => Ok (map (fun d => flat (Ok d)) l) | Err e => Err e end.
Example C28_one_thread_applies : dag_ok two_sums [1; 2] /\ started 1 false two_sums [1; 2] = true /\
  zone 1 false two_sums [1; 2] = Ok [Ok ([3], [Some 3%Z; Some 5%Z; Some 7%Z]); Ok ([2], [Some 2%Z; Some 5%Z])] /\
  zone 3 false shared_graph [3; 0] = Ok [Ok ([4], [Some 60%Z; Some 204%Z; Some 348%Z; Some 492%Z]); Ok ([4; 6], map (fun i => Some (Z.of_nat i)) (seq 0 24))] /\
  zone 1 true half_bad [2; 0] = Err EvalError /\
  (exists d, zone 8 true late_bad [4] = Ok [Ok ([4], d)]) /\ (exists d, zone 9 false (cross 9) [3] = Ok [Ok ([9], d)]).
Proof.
  split; [apply dag_check; vm_compute; reflexivity|]. split; [vm_compute; reflexivity|]. split; [vm_compute; reflexivity|]. split; [vm_compute; reflexivity|].
  split; [vm_compute; reflexivity|]. split; eexists; vm_compute; reflexivity.
Qed.
(** [masked_arrays([x + bad, x])] with three chunks: every schedule raises. *)
Example C30_raises_applies : dag_ok (half 3) [2; 0] /\ consistent z_ops (half 3) [2; 0] /\ shared_few z_ops 1 3 (half 3) [2; 0] /\
  balanced z_ops 1 (half 3) [2; 0] /\ started 1 true (half 3) [2; 0] = true /\ used (half 3) [2; 0] 0 (Operand 2 0) /\ used (half 3) [2; 0] 0 (Request 1) /\
  engine_eval z_ops 1 filler (zrz 1 true) true (expr z_ops (half 3) 2) = Err TypeError.
Proof.
  split; [apply dag_check; vm_compute; reflexivity|].
  split; [apply (consistent_check z_ops (half 3) [2; 0] [(2, [0]); (0, [0]); (1, [0])]); vm_compute; reflexivity|].
  split; [apply (few_check z_ops 1 (half 3) [2; 0] [(2, [0]); (0, [0]); (1, [0])]); vm_compute; reflexivity|].
  split; [apply (balanced_check z_ops 1 (half 3) [2; 0] [(2, [0]); (0, [0]); (1, [0])]); vm_compute; reflexivity|].
  split; [vm_compute; reflexivity|]. split; [eexists; split; reflexivity|]. split; [reflexivity|]. vm_compute. reflexivity.
Qed.
(** Sharing, eight chunks, operands divided at the same places. *)
Example C29_aligned_applies : aligned z_ops 3 shared_graph [3; 0] /\ length (stream_keys 3 (expr z_ops shared_graph 0) [0; 1]) = 8.
Proof.
  split; [apply (aligned_check z_ops 3 shared_graph [3; 0] [(3, [0]); (2, [0]); (1, [0; 1]); (0, [0; 1])]); [vm_compute; reflexivity|]|vm_compute; reflexivity].
  repeat constructor; vm_compute; reflexivity.
Qed.
(** An unshared expression with a failing operand: [x + bad]. *)
Example C30_no_sharing_applies : dag_ok half_bad [2] /\ unshared half_bad [2] /\ balanced z_ops 1 half_bad [2] /\ started 1 true half_bad [2] = true /\
  engine_eval z_ops 1 filler (zrz 1 true) true (expr z_ops half_bad 2) = Err TypeError /\
  forest 0 [AEl2 zadd2 (arr [4]) (failing [4]) 0] = (half_bad, [2]).
Proof.
  split; [apply dag_check; vm_compute; reflexivity|]. split; [unfold unshared; simpl; repeat constructor; simpl; lia|].
  split; [apply (balanced_check z_ops 1 half_bad [2] [(2, [0]); (0, [0]); (1, [0])]); vm_compute; reflexivity|].
  split; [vm_compute; reflexivity|]. split; [vm_compute; reflexivity|]. reflexivity.
Qed.

Print Assumptions C28_one_thread. Print Assumptions C30_only_one_thread. Print Assumptions C32_positions. Print Assumptions C28_schedule_independent. Print Assumptions C28_same_end. Print Assumptions C28_sequential_partial. Print Assumptions C28_expressions_partial. Print Assumptions C28_values_partial.
Print Assumptions C29_every_schedule_stops. Print Assumptions C29_no_sharing_partial. Print Assumptions C29_paced_partial. Print Assumptions C29_few_chunks_partial. Print Assumptions C29_aligned_partial. Print Assumptions C29_all_or_none. Print Assumptions C28_shared_values_partial. Print Assumptions C30_no_sharing_partial. Print Assumptions C29_deadlock_refuted.
Print Assumptions C30_result_is_whole_partial. Print Assumptions C30_raises_partial. Print Assumptions C30_start. Print Assumptions C27_refused. Print Assumptions C30_hang_refuted. Print Assumptions C30_swallowed_refuted.
Print Assumptions C31_together_partial. Print Assumptions C31_streamable_partial. Print Assumptions C31_order_refuted. Print Assumptions C32_request_order_partial.

(** Hypotheses of C27_refused: sum of an operation without a masked equivalent. *)
Example C27_refused_case : let f := mkOp1 Z.opp None (fun a => a) in
  let dag := [EArr (marr [4]); EEl1 f 0 0; EAgg GSum 1 0 0] in
  dag_ok dag [2]
  /\ Threads.network z_ops 10 (fun _ => None) (realise z_ops 10 (fun _ => None) 1 true) true dag [2] = Err TypeError
  /\ exists net, Threads.network z_ops 10 (fun _ => None) (realise z_ops 10 (fun _ => None) 1 false) false dag [2] = Ok net.
Proof.
  cbv zeta. split; [apply dag_check; vm_compute; reflexivity|split; [reflexivity|eexists; reflexivity]].
Qed.
