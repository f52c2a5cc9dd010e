(** ThreadSem: the threads of an evaluation compute the streams of Realise.v. *)
From Verif Require Import Base Lib PySlice Keys NDArray Arrays Chunks Handlers Realise GetBase BroadcastClaims Kahn Threads ThreadSpec NetLemmas NetProgress NetSeq NetFail ThreadBuild ThreadNodes.

Section Sem.
Context {V : Type} (O : numops V).
Notation cell := (option V).
Notation barr := (@barr V).
Notation chunk := (list key * nd cell)%type.
Notation entry := (@entry V).
Variable maxc : nat.
Variable garbage : list nat -> cell.
Variable rz : barr -> res (nd cell).
Variable m : bool.
Notation stream := (stream O maxc rz m).

(** ** The expressions of a graph *)
Lemma exprs_snoc (dag : list entry) e : exprs O (dag ++ [e]) = exprs O dag ++ [entry_expr O (exprs O dag) e].
Proof. unfold exprs. rewrite fold_left_app. auto. Qed.
Lemma exprs_length (dag : list entry) : length (exprs O dag) = length dag.
Proof. induction dag as [|e dag IH] using rev_ind; auto. rewrite exprs_snoc, !app_length, IH. auto. Qed.
Lemma expr_app (d1 d2 : list entry) i : i < length d1 -> expr O (d1 ++ d2) i = expr O d1 i.
Proof.
  intros Hi. unfold expr. induction d2 as [|e d2 IH] using rev_ind; [rewrite app_nil_r; auto|].
  rewrite app_assoc, exprs_snoc, app_nth1; auto. rewrite exprs_length, app_length. lia.
Qed.
Lemma expr_entry (dag : list entry) i e : nth_error dag i = Some e -> (forall s, In s (entry_srcs e) -> s < i) ->
  expr O dag i = match e with
                 | EArr a => a
                 | EAgg g s axis d => AAgg g (expr O dag s) axis d
                 | EEl1 o s d => AEl1 o (expr O dag s) d
                 | EEl2 o s1 s2 d => AEl2 o (expr O dag s1) (expr O dag s2) d
                 end.
Proof.
  intros He Hs. apply nth_error_split in He as (d1 & d2 & -> & <-).
  replace (d1 ++ e :: d2) with ((d1 ++ [e]) ++ d2) by (rewrite <- app_assoc; auto).
  assert (Hsub : forall s, In s (entry_srcs e) -> expr O ((d1 ++ [e]) ++ d2) s = nth s (exprs O d1) (no_array O)).
  { intros s Hin. specialize (Hs s Hin). rewrite <- app_assoc, expr_app by auto. auto. }
  rewrite (expr_app (d1 ++ [e])) by (rewrite app_length; simpl; lia). unfold expr at 1. rewrite exprs_snoc.
  rewrite app_nth2, exprs_length, Nat.sub_diag by (rewrite exprs_length; lia). cbn [nth].
  destruct e; simpl in *; auto; rewrite !Hsub; auto.
Qed.

(** ** Lengths *)
Lemma change_ticks_length : forall ks k ts, length ks <= length ts -> 1 + length (change_ticks k ks ts) = length (key_runs k ks).
Proof.
  induction ks as [|x ks IH]; intros k [|t ts] H; simpl in *; try lia; auto. specialize (IH x ts). destruct (keys_eqb x k); simpl; rewrite <- IH by lia; auto.
Qed.
Lemma ticks_length (a : barr) : forall o, length (ticks maxc a o) = 1 + length (stream_keys maxc a o).
Proof.
  induction a using barr_ind2; intros o'; cbn [ticks stream_keys]; try (rewrite seq_length; reflexivity); auto.
  unfold agg_ticks, agg_keys. cbv zeta. rewrite app_length. match goal with H : forall o, _ = _ |- _ => rename H into IH end.
  specialize (IH (input_order axis o')). revert IH. match goal with |- length ?t = _ -> _ => generalize t end. intros ts. match goal with |- _ = 1 + length ?t -> _ => generalize t end. intros [|k ks] H; auto.
  destruct ts as [|t ts]; [discriminate|]. cbn [map tl length]. rewrite <- (change_ticks_length (map (remove_at axis) ks) (remove_at axis k) ts) by (rewrite map_length; simpl in H; lia). lia.
Qed.
Lemma paced_balanced dag roots : paced O maxc dag roots -> balanced O maxc dag roots.
Proof.
  intros H i o f s1 s2 d Hw He. specialize (H i o f s1 s2 d Hw He). apply (f_equal (@length _)) in H. rewrite !ticks_length in H. lia.
Qed.

Variable dag : list entry.
Variable roots : list nat.
Hypothesis D : dag_ok dag roots.
Hypothesis CS : consistent O dag roots.
Notation N := (length dag).
Notation st := (build O dag roots).
Notation B := (build_ok O garbage dag roots D).
Variable net : list (node chunk).
Hypothesis HN : network O maxc garbage rz m dag roots = Ok net.
Notation wr := (wr O dag roots).
Notation W := (network_wired O maxc garbage rz m dag roots D net HN).

Lemma srcs_lt i e s : nth_error dag i = Some e -> In s (entry_srcs e) -> s < i.
Proof. apply (proj1 D). Qed.
Lemma src_cached i e o s : nth i (fst st) None = Some o -> nth_error dag i = Some e -> In s (entry_srcs e) ->
  nth s (fst st) None = Some (src_order e o).
Proof.
  intros Ho He Hs. assert (Hc : nth s (fst st) None <> None) by (apply (b_srcs _ _ _ _ _ B i e s); auto; congruence).
  destruct (nth s (fst st) None) as [o'|] eqn:Eo'; [|congruence]. f_equal. apply (CS s).
  - apply (b_wants _ _ _ _ _ B); auto.
  - apply (wants_src _ _ _ i o e s); auto. apply (b_wants _ _ _ _ _ B); auto.
Qed.
Lemma root_cached j r : nth_error roots j = Some r -> nth r (fst st) None = Some (seq 0 (ndim (expr O dag r))).
Proof.
  intros Hr. assert (Hc : nth r (fst st) None <> None) by (apply (b_roots _ _ _ _ _ B j r); auto; apply nth_error_Some; congruence).
  destruct (nth r (fst st) None) as [o|] eqn:Eo; [|congruence]. f_equal. apply (CS r).
  - apply (b_wants _ _ _ _ _ B); auto.
  - apply wants_root. eapply nth_error_In; eauto.
Qed.

(** ** Nodes of the network, by entry *)
Lemma node_at i n : nth_error net i = Some n ->
  (nth i (fst st) None = None /\ i < N /\ n = NProd [] []) \/
  (exists e o, nth_error dag i = Some e /\ nth i (fst st) None = Some o /\ entry_node O maxc rz m dag st i e = Ok n) \/
  (exists j r, i = N + j /\ nth_error roots j = Some r /\ n = sink_node O garbage dag j r).
Proof.
  intros Hn. destruct (net_cases O maxc garbage rz m dag roots net HN i n Hn) as [(e & He & Hen)|H]; auto.
  destruct (nth i (fst st) None) as [o|] eqn:Eo.
  - right. left. exists e, o. auto.
  - left. unfold entry_node in Hen. rewrite Eo in Hen. injection Hen as <-. split; auto. split; auto. apply nth_error_Some. congruence.
Qed.
Lemma sink_not_cached j : nth (N + j) (fst st) None = None.
Proof. apply nth_overflow. rewrite (b_len _ _ _ _ _ B). lia. Qed.

(** ** The sequential solution *)
Lemma Ok_inj' {A} (x y : A) : Ok x = Ok y -> x = y.
Proof. congruence. Qed.
Definition full (i : nat) : list chunk :=
  match nth i (fst st) None with
  | Some o => match stream (expr O dag i) o with Ok cs => cs | Err _ => [] end
  | None => []
  end.
Lemma mapM_map_Ok {A B} (f : A -> res B) l r : mapM f l = Ok r -> map f l = map Ok r.
Proof. intros H. apply mapM_ok in H. induction H; simpl; auto. f_equal; auto. Qed.
Lemma stream_producer a o : produces a -> stream a o = producer maxc rz a o.
Proof. destruct a; simpl; tauto. Qed.

Section Streams.
Hypothesis HR : forall r, In r roots -> exists d, engine_eval O maxc garbage rz m (expr O dag r) = Ok d.
Lemma wants_ok i o : wants O dag roots i o -> exists cs, stream (expr O dag i) o = Ok cs.
Proof.
  induction 1 as [r Hr|i o e s Hw [cs IH] He Hs].
  - destruct (HR r Hr) as [d Hd]. unfold engine_eval in Hd. destruct (stream (expr O dag r) _); [eauto|discriminate].
  - rewrite (expr_entry dag i e He) in IH by (intros; apply (srcs_lt i e); auto). destruct e as [a|g s0 ax d|f s0 d|f s1 s2 d]; simpl in Hs.
    + destruct Hs.
    + destruct Hs as [<-|[]]. simpl in IH. destruct (stream (expr O dag s0) (input_order ax o)) as [c|] eqn:E; [|discriminate]. exists c. auto.
    + destruct Hs as [<-|[]]. simpl in IH. destruct (op1_fun m f); [|discriminate]. cbn [bind] in IH. destruct (stream (expr O dag s0) o) as [c|] eqn:E; [|discriminate]. exists c. auto.
    + simpl in IH. destruct (op2_fun m f); [|discriminate]. cbn [bind] in IH. destruct (stream (expr O dag s1) o) as [c1|] eqn:E1; [|discriminate]. cbn [bind] in IH.
      destruct (stream (expr O dag s2) o) as [c2|] eqn:E2; [|discriminate]. destruct Hs as [<-|[<-|[]]]; eauto.
Qed.
Lemma full_stream i o : nth i (fst st) None = Some o -> stream (expr O dag i) o = Ok (full i).
Proof. intros Ho. unfold full. rewrite Ho. destruct (wants_ok i o) as [cs ->]; auto. apply (b_wants _ _ _ _ _ B). auto. Qed.

Lemma network_solved : solved net wr full.
Proof.
  intros i n Hn. destruct (node_at i n Hn) as [(Hc & _ & ->)|[(e & o & He & Ho & Hen)|(j & r & -> & Hr & ->)]].
  - unfold full. rewrite Hc. auto.
  - pose proof (full_stream i o Ho) as HS. rewrite (expr_entry dag i e He) in HS by (intros; apply (srcs_lt i e); auto).
    unfold entry_node in Hen. rewrite Ho in Hen. destruct e as [a|g s ax d|f s d|f s1 s2 d].
    + apply Ok_inj' in Hen; subst n. rewrite stream_producer in HS by (apply (proj1 (proj2 D) i); auto). unfold producer in HS. apply mapM_map_Ok in HS. auto.
    + apply Ok_inj' in Hen; subst n. cbn zeta. cbn [Realise.stream] in HS.
      pose proof (src_cached i _ o s Ho He (or_introl eq_refl)) as Hs. cbn [src_order] in Hs. rewrite (full_stream s _ Hs) in HS. cbn [bind] in HS.
      assert (Ew : wr (2 * i) = s). { replace (2 * i) with (2 * i + 0) by lia. apply (wr_entry O garbage dag roots D i (EAgg g s ax d) 0 s); auto. congruence. }
      unfold inputs. cbn [map]. rewrite Ew, rounds1. apply agg_stream in HS. auto.
    + destruct (op1_fun m f) as [g|] eqn:Eg; [|discriminate]. apply Ok_inj' in Hen; subst n. cbn zeta. cbn [Realise.stream] in HS. rewrite Eg in HS.
      pose proof (src_cached i _ o s Ho He (or_introl eq_refl)) as Hs. cbn [src_order] in Hs. cbn [bind] in HS. rewrite (full_stream s _ Hs) in HS. cbn [bind] in HS.
      assert (Ew : wr (2 * i) = s). { replace (2 * i) with (2 * i + 0) by lia. apply (wr_entry O garbage dag roots D i (EEl1 f s d) 0 s); auto. congruence. }
      unfold inputs. cbn [map]. rewrite Ew, rounds1. destruct (el1_ok g (full s)) as [H1 H2]. split; auto. split; [exists None; auto|].
      rewrite H2. cbn [no_fin opt]. rewrite app_nil_r. injection HS as <-. auto.
    + destruct (op2_fun m f) as [g|] eqn:Eg; [|discriminate]. apply Ok_inj' in Hen; subst n. cbn zeta. cbn [Realise.stream] in HS. rewrite Eg in HS.
      pose proof (src_cached i _ o s1 Ho He (or_introl eq_refl)) as Hs1. pose proof (src_cached i _ o s2 Ho He (or_intror (or_introl eq_refl))) as Hs2.
      cbn [src_order] in Hs1, Hs2. cbn [bind] in HS. rewrite (full_stream s1 _ Hs1) in HS. cbn [bind] in HS. rewrite (full_stream s2 _ Hs2) in HS. cbn [bind] in HS.
      assert (Ew1 : wr (2 * i) = s1). { replace (2 * i) with (2 * i + 0) by lia. apply (wr_entry O garbage dag roots D i (EEl2 f s1 s2 d) 0 s1); auto. congruence. }
      assert (Ew2 : wr (2 * i + 1) = s2). { apply (wr_entry O garbage dag roots D i (EEl2 f s1 s2 d) 1 s2); auto. congruence. }
      unfold inputs. cbn [map]. rewrite Ew1, Ew2, rounds2. rewrite zip_mapM in HS. destruct (el2_ok g _ _ HS) as [H1 H2]. split; auto. split; [exists None; auto|].
      cbn [no_fin opt]. rewrite app_nil_r. symmetry. exact H2.
  - unfold sink_node. cbn zeta. unfold inputs. cbn [map]. rewrite (wr_sink O garbage dag roots D j r Hr), rounds1.
    pose proof (root_cached j r Hr) as Ho. pose proof (full_stream r _ Ho) as HS.
    destruct (HR r (nth_error_In _ _ Hr)) as [d Hd]. unfold engine_eval in Hd. rewrite HS in Hd. cbn [bind] in Hd.
    assert (G : forall cs d, np_setitems (mkND (shape (expr O dag r)) garbage) cs = Ok d ->
               all_ok (sink_emit garbage (shape (expr O dag r))) (single cs) /\ emitted (sink_emit garbage (shape (expr O dag r))) (single cs) = []).
    { clear. induction cs as [|c cs IH] using rev_ind; intros d H; [split; [apply all_ok_nil|auto]|].
      assert (E : sink_emit garbage (shape (expr O dag r)) (single (cs ++ [c])) = Ok None).
      { unfold sink_emit, stored. rewrite concat_single, H. auto. }
      assert (H' : exists d', np_setitems (mkND (shape (expr O dag r)) garbage) cs = Ok d').
      { revert H. unfold np_setitems. generalize (mkND (shape (expr O dag r)) garbage). clear. induction cs as [|x cs IH]; intros a; simpl; [eauto|].
        destruct (np_setitem a (fst x) (snd x)); [apply IH|discriminate]. }
      destruct H' as [d' H']. destruct (IH d' H') as [H1 H2]. rewrite single_snoc in *. split; [apply (all_ok_snoc _ _ _ _ H1 E)|].
      rewrite emitted_snoc, E, H2. auto. }
    destruct (G _ _ Hd) as [H1 H2]. split; auto. split; [exists None; auto|]. rewrite H2. unfold full. rewrite sink_not_cached. auto.
Qed.

(** Whenever all result threads have finished, the results are the sequential ones. *)
Lemma threads_sequential s n room : steps (net_next net) room n (net0 net (queues dag roots)) s -> joined dag roots s ->
  exists ds, returned O garbage dag roots s = Ok ds /\ Forall2 (fun r d => engine_eval O maxc garbage rz m (expr O dag r) = Ok d) roots ds.
Proof.
  intros Hs HJ. pose proof (inv_reach net _ _ _ W room n s Hs) as HI.
  assert (G : forall j r, nth_error roots j = Some r -> exists d, engine_eval O maxc garbage rz m (expr O dag r) = Ok d /\
     match sink_state dag s j with Some (LHalt true hist _) => stored garbage (shape (expr O dag r)) hist | _ => Err EvalError end = Ok d).
  { intros j r Hr. destruct (HR r (nth_error_In _ _ Hr)) as [d Hd]. exists d. split; auto.
    destruct (HJ j) as (ok & hist & got & E); [apply nth_error_Some; congruence|]. rewrite E. unfold sink_state in E.
    pose proof (net_sink O maxc garbage rz m dag roots net HN j r Hr) as Hn.
    destruct (follow net _ _ _ W full network_solved s HI (N + j) _ _ Hn E) as (_ & _ & H). destruct (H ok hist got eq_refl) as [-> Hh].
    rewrite Hh by discriminate. unfold sink_node, inputs. cbn [ins_of map]. rewrite (wr_sink O garbage dag roots D j r Hr), rounds1.
    unfold stored. rewrite concat_single. unfold engine_eval in Hd. rewrite (full_stream r _ (root_cached j r Hr)) in Hd. auto. }
  unfold returned. clear HJ. revert G. generalize (@eq_refl nat 0). 
  assert (Gen : forall rs a, (forall j r, nth_error rs j = Some r -> exists d, engine_eval O maxc garbage rz m (expr O dag r) = Ok d /\
     match sink_state dag s (a + j) with Some (LHalt true hist _) => stored garbage (shape (expr O dag r)) hist | _ => Err EvalError end = Ok d) ->
     exists ds, mapM (fun jr => match sink_state dag s (fst jr) with Some (LHalt true hist _) => stored garbage (shape (expr O dag (snd jr))) hist | _ => Err EvalError end) (combine (seq a (length rs)) rs) = Ok ds /\
     Forall2 (fun r d => engine_eval O maxc garbage rz m (expr O dag r) = Ok d) rs ds).
  { induction rs as [|r rs IH]; intros a G; [exists []; simpl; auto|]. cbn [length seq combine mapM fst snd].
    destruct (G 0 r eq_refl) as (d & H1 & H2). rewrite Nat.add_0_r in H2. rewrite H2.
    destruct (IH (S a)) as (ds & H3 & H4). { intros j r' Hr'. replace (S a + j) with (a + S j) by lia. apply G. auto. }
    rewrite H3. exists (d :: ds). split; auto. }
  intros _ G. apply (Gen roots 0). auto.
Qed.

(** ** Pace *)
Lemma agg_outs_of g s ax d o i : nth i (fst st) None = Some o -> nth_error dag i = Some (EAgg g s ax d) ->
  exists os k stt, agg_outs (handler_of O m g) ax (nth ax (shape (expr O dag s)) 0) None (full s) = Ok (os, Some (k, stt)) /\ full i = os ++ [agg_finalise (handler_of O m g) (nth ax (shape (expr O dag s)) 0) k stt].
Proof.
  intros Ho He. pose proof (full_stream i o Ho) as HS. rewrite (expr_entry dag i _ He) in HS by (intros; eapply srcs_lt; eauto). cbn [Realise.stream] in HS.
  pose proof (src_cached i _ o s Ho He (or_introl eq_refl)) as Hs. cbn [src_order] in Hs. rewrite (full_stream s _ Hs) in HS. cbn [bind] in HS.
  rewrite agg_loop_outs in HS. destruct (agg_outs _ _ _ None (full s)) as [[os c]|]; [|discriminate]. cbn [bind fst snd] in HS.
  destruct c as [[k stt]|]; [|discriminate]. injection HS as HS. exists os, k, stt. auto.
Qed.
Hypothesis PC : balanced O maxc dag roots.
(** The keys of the chunks sent. *)
Lemma full_keys : forall i o, nth i (fst st) None = Some o -> map fst (full i) = stream_keys maxc (expr O dag i) o.
Proof.
  induction i as [i IH] using lt_wf_ind. intros o Ho. assert (Hi : i < N) by (apply (cached_bound O garbage dag roots D); congruence).
  destruct (nth_error dag i) as [e|] eqn:He; [|apply nth_error_None in He; lia].
  pose proof (full_stream i o Ho) as HS. rewrite (expr_entry dag i e He) in * by (intros; apply (srcs_lt i e); auto).
  destruct e as [a|g s ax d|f s d|f s1 s2 d].
  - assert (Hp : produces a) by (apply (proj1 (proj2 D) i); auto). rewrite stream_producer in HS by auto.
    assert (Ek : stream_keys maxc a o = chunk_index_gen maxc (shape a) o) by (destruct a; simpl in *; tauto). rewrite Ek.
    unfold producer in HS. apply mapM_ok in HS. clear Ek. induction HS as [|k c ks cs Hk HS IHs]; auto. simpl. f_equal; auto.
    destruct (getitem a k) as [b|]; [|discriminate]. cbn [bind] in Hk. destruct (rz b); [|discriminate]. injection Hk as <-. auto.
  - cbn [stream_keys]. destruct (agg_outs_of g s ax d o i Ho He) as (os & k & stt & E & ->).
    pose proof (src_cached i _ o s Ho He (or_introl eq_refl)) as Hs. cbn [src_order] in Hs.
    destruct (agg_keys_part _ _ _ _ (map fst (full s)) _ _ E) as (_ & _ & H3); [exists []; rewrite app_nil_r; auto|].
    rewrite map_app. cbn [map agg_finalise fst]. rewrite (H3 eq_refl k stt eq_refl). rewrite (IH s (srcs_lt i _ s He (or_introl eq_refl)) _ Hs). auto.
  - cbn [stream_keys]. cbn [Realise.stream] in HS. destruct (op1_fun m f); [|discriminate]. cbn [bind] in HS.
    pose proof (src_cached i _ o s Ho He (or_introl eq_refl)) as Hs. cbn [src_order] in Hs. rewrite (full_stream s _ Hs) in HS. cbn [bind] in HS. injection HS as <-.
    rewrite map_map. cbn [fst]. apply IH; auto. apply (srcs_lt i _ s He). simpl; auto.
  - cbn [stream_keys]. cbn [Realise.stream] in HS. destruct (op2_fun m f); [|discriminate]. cbn [bind] in HS.
    pose proof (src_cached i _ o s1 Ho He (or_introl eq_refl)) as Hs1. pose proof (src_cached i _ o s2 Ho He (or_intror (or_introl eq_refl))) as Hs2. cbn [src_order] in Hs1, Hs2.
    rewrite (full_stream s1 _ Hs1) in HS. cbn [bind] in HS. rewrite (full_stream s2 _ Hs2) in HS. cbn [bind] in HS. rewrite zip_mapM in HS.
    rewrite (el2_keys _ _ _ HS). pose proof (IH s1 (srcs_lt i _ s1 He (or_introl eq_refl)) _ Hs1) as K1. pose proof (IH s2 (srcs_lt i _ s2 He (or_intror (or_introl eq_refl))) _ Hs2) as K2.
    rewrite <- K1. assert (El : length (full s1) = length (full s2)).
    { rewrite <- (map_length fst (full s1)), <- (map_length fst (full s2)), K1, K2. apply (PC i o f s1 s2 d); auto. apply (b_wants _ _ _ _ _ B); auto. }
    clear -El. revert El. generalize (full s2). induction (full s1) as [|x xs IHx]; intros [|y ys] H; simpl in *; try discriminate; auto. f_equal; auto.
Qed.
(** [tk i]: when each message of entry [i] is sent, on a common clock. *)
Section Clock.
Variable tk : nat -> list nat.
Hypothesis tk_length : forall i o, nth i (fst st) None = Some o -> length (tk i) = 1 + length (stream_keys maxc (expr O dag i) o).
Hypothesis tk_arr : forall i o a, nth i (fst st) None = Some o -> nth_error dag i = Some (EArr a) -> incr (tk i).
Hypothesis tk_agg : forall i o g s ax d, nth i (fst st) None = Some o -> nth_error dag i = Some (EAgg g s ax d) ->
  exists te, tk i = removelast (agg_ticks ax (stream_keys maxc (expr O dag s) (input_order ax o)) (tk s)) ++ [te] /\
    1 + nth (length (stream_keys maxc (expr O dag s) (input_order ax o))) (tk s) 0 <= te.
Hypothesis tk_el1 : forall i o f s d, nth i (fst st) None = Some o -> nth_error dag i = Some (EEl1 f s d) -> tk i = tk s.
Hypothesis tk_el2 : forall i o f s1 s2 d, nth i (fst st) None = Some o -> nth_error dag i = Some (EEl2 f s1 s2 d) -> tk i = tk s1 /\ tk s1 = tk s2.
Definition times (i : nat) : list nat :=
  match nth i (fst st) None with
  | Some o => tk i
  | None => if i <? N then [0] else match nth_error roots (i - N) with
            | Some r => match nth r (fst st) None with Some o => [nth (length (full r)) (tk r) 0] | None => [] end
            | None => [] end
  end.
Lemma emit_sends (e f : list (list chunk) -> res (option chunk)) h t : exists te, emit_times e f h t = sends e f h t te /\ length (opt (f h)) + nth (length h) t 0 <= te.
Proof. eexists. split; [reflexivity|lia]. Qed.
Lemma network_in_step : in_step net wr full times.
Proof.
  intros i n Hn. destruct (node_at i n Hn) as [(Hc & Hi & ->)|[(e & o & He & Ho & Hen)|(j & r & -> & Hr & ->)]].
  - unfold times, full. rewrite Hc. apply Nat.ltb_lt in Hi. rewrite Hi. split; auto. intros a b Hab Hb. simpl in Hb. lia.
  - assert (Ht : times i = tk i) by (unfold times; rewrite Ho; auto).
    assert (Hin : forall s, In s (entry_srcs e) -> times s = tk s /\ map fst (full s) = stream_keys maxc (expr O dag s) (src_order e o) /\ length (times s) = 1 + length (full s)).
    { intros s Hs. pose proof (src_cached i e o s Ho He Hs) as Hso. pose proof (full_keys s _ Hso) as Hfk. split; [unfold times; rewrite Hso; auto|]. split; auto.
      unfold times. rewrite Hso, (tk_length s _ Hso), <- Hfk, map_length. auto. }
    assert (Hw : forall p s, nth_error (entry_srcs e) p = Some s -> wr (2 * i + p) = s).
    { intros p s Hp. apply (wr_entry O garbage dag roots D i e p s); auto. congruence. }
    pose proof (full_keys i o Ho) as HK. pose proof (full_stream i o Ho) as HS. pose proof (expr_entry dag i e He) as Hx.
    unfold entry_node in Hen. rewrite Ho in Hen. destruct e as [a|g s ax d|f s d|f s1 s2 d]; cbn [entry_srcs src_order] in *.
    + apply Ok_inj' in Hen; subst n. split; [rewrite Ht; eapply tk_arr; eauto|]. rewrite Ht, (tk_length i o Ho), <- HK, map_length. auto.
    + apply Ok_inj' in Hen; subst n. cbn zeta. intros q [<-|[]]. split; [|intros q' [<-|[]]; auto].
      assert (Ew : wr (2 * i) = s) by (replace (2 * i) with (2 * i + 0) by lia; apply Hw; auto).
      unfold inputs. cbn [map]. rewrite Ew, rounds1. destruct (agg_outs_of g s ax d o i Ho He) as (os & k & stt & E & _).
      destruct (Hin s (or_introl eq_refl)) as (E1 & E2 & E3). destruct (tk_agg i o g s ax d Ho He) as (te & E4 & E5). exists te.
      pose proof (agg_times _ _ _ _ _ _ _ _ _ E eq_refl E3) as E6. rewrite Ht, E4, <- E2, <- E1. split.
      * rewrite <- E6. unfold emit_times. rewrite (sends_end _ _ _ _ (length (opt (agg_fin (handler_of O m g) ax (nth ax (shape (expr O dag s)) 0) (single (full s)))) + nth (length (single (full s))) (times s) 0) te). auto.
      * rewrite <- E2, <- E1, map_length in E5. unfold single at 2. rewrite map_length.
        assert (length (opt (agg_fin (handler_of O m g) ax (nth ax (shape (expr O dag s)) 0) (single (full s)))) <= 1).
        { destruct (agg_fin _ _ _ _) as [[c|]|]; simpl; lia. } lia.
    + destruct (op1_fun m f) as [g|] eqn:Eg; [|discriminate]. apply Ok_inj' in Hen; subst n. cbn zeta. intros q [<-|[]]. split; [|intros q' [<-|[]]; auto].
      assert (Ew : wr (2 * i) = s) by (replace (2 * i) with (2 * i + 0) by lia; apply Hw; auto).
      unfold inputs. cbn [map]. rewrite Ew, rounds1. destruct (el1_ok g (full s)) as [_ H2]. destruct (Hin s (or_introl eq_refl)) as (E1 & E2 & E3).
      assert (Hsame : emit_times (el1_emit g) no_fin (single (full s)) (times s) = times s).
      { apply same_times; [rewrite H2, map_length|]; unfold single; rewrite map_length; auto. }
      assert (E : times i = times s) by (rewrite Ht, (tk_el1 i o f s d Ho He); auto). destruct (emit_sends (el1_emit g) no_fin (single (full s)) (times s)) as (te & A1 & A2). rewrite Hsame in A1. exists te. rewrite E. auto.
    + destruct (op2_fun m f) as [g|] eqn:Eg; [|discriminate]. apply Ok_inj' in Hen; subst n. cbn zeta.
      assert (Ew1 : wr (2 * i) = s1) by (replace (2 * i) with (2 * i + 0) by lia; apply Hw; auto).
      assert (Ew2 : wr (2 * i + 1) = s2) by (apply Hw; auto).
      destruct (Hin s1 (or_introl eq_refl)) as (E1 & K1 & L1). destruct (Hin s2 (or_intror (or_introl eq_refl))) as (E2 & K2 & L2).
      destruct (tk_el2 i o f s1 s2 d Ho He) as [T1 T2]. assert (Et : times s1 = times s2) by congruence.
      assert (El : length (full s1) = length (full s2)) by (rewrite Et in L1; lia).
      rewrite Hx in HK, HS by (intros; eapply srcs_lt; eauto). cbn [stream_keys] in HK.
      assert (Hl : length (full i) = length (full s1)).
      { rewrite <- (map_length fst (full i)), <- (map_length fst (full s1)), HK, K1. auto. }
      pose proof (src_cached i _ o s1 Ho He (or_introl eq_refl)) as Hs1. pose proof (src_cached i _ o s2 Ho He (or_intror (or_introl eq_refl))) as Hs2. cbn [src_order] in Hs1, Hs2.
      cbn [Realise.stream] in HS. rewrite Eg in HS. cbn [bind] in HS. rewrite (full_stream s1 _ Hs1) in HS. cbn [bind] in HS. rewrite (full_stream s2 _ Hs2) in HS. cbn [bind] in HS. rewrite zip_mapM in HS.
      destruct (el2_ok g _ _ HS) as [_ H2].
      assert (Hc : length (paired (combine (full s1) (full s2))) = length (full s1)) by (unfold paired; rewrite map_length, combine_length; lia).
      assert (Hsame : emit_times (el2_emit g) no_fin (paired (combine (full s1) (full s2))) (times s1) = times s1).
      { apply same_times; [transitivity (length (full i)); [f_equal; exact H2|rewrite Hc; auto]|rewrite Hc; auto]. }
      intros q Hq. assert (Hq' : times (wr q) = times s1) by (destruct Hq as [<-|[<-|[]]]; [rewrite Ew1|rewrite Ew2]; congruence).
      split.
      * unfold inputs. cbn [map]. rewrite Ew1, Ew2, rounds2, Hq'. assert (E : times i = times s1) by congruence. destruct (emit_sends (el2_emit g) no_fin (paired (combine (full s1) (full s2))) (times s1)) as (te & A1 & A2). rewrite Hsame in A1. exists te. rewrite E. auto.
      * intros q' [<-|[<-|[]]]; rewrite Hq'; [rewrite Ew1|rewrite Ew2]; congruence.
  - unfold sink_node. intros q [<-|[]]. split; [|intros q' [<-|[]]; auto]. unfold inputs. cbn [map]. rewrite (wr_sink O garbage dag roots D j r Hr), rounds1.
    unfold times at 1. rewrite sink_not_cached. replace (N + j <? N) with false by (symmetry; apply Nat.ltb_ge; lia).
    replace (N + j - N) with j by lia. rewrite Hr, (root_cached j r Hr). replace [nth (length (full r)) (tk r) 0] with (emit_times (sink_emit garbage (shape (expr O dag r))) no_fin (single (full r)) (times r)).
    + apply emit_sends.
    + rewrite sink_times. unfold single. rewrite map_length. unfold times. rewrite (root_cached j r Hr). auto.
Qed.
End Clock.
(** Each stream on the clock of the producers behind it. *)
Hypothesis PA : paced O maxc dag roots.
Lemma paced_in_step : in_step net wr full (times (fun i => match nth i (fst st) None with Some o => ticks maxc (expr O dag i) o | None => [] end)).
Proof.
  apply network_in_step.
  - intros i o Ho. rewrite Ho. apply ticks_length.
  - intros i o a Ho He. rewrite Ho. rewrite (expr_entry dag i _ He) by (intros; eapply srcs_lt; eauto).
    assert (Hp : produces a) by (apply (proj1 (proj2 D) i); auto). replace (ticks maxc a o) with (seq 0 (1 + length (chunk_index_gen maxc (shape a) o))) by (destruct a; simpl in Hp; tauto || reflexivity). apply incr_seq.
  - intros i o g s ax d Ho He. rewrite Ho. pose proof (src_cached i _ o s Ho He (or_introl eq_refl)) as Hs. cbn [src_order] in Hs. rewrite Hs.
    rewrite (expr_entry dag i _ He) by (intros; eapply srcs_lt; eauto). cbn [ticks]. unfold agg_ticks. eexists. split.
    + match goal with |- ?a ++ [?t; ?u] = _ => change [t; u] with ([t] ++ [u]) end. rewrite app_assoc, removelast_last. reflexivity.
    + lia.
  - intros i o f s d Ho He. rewrite Ho. pose proof (src_cached i _ o s Ho He (or_introl eq_refl)) as Hs. cbn [src_order] in Hs. rewrite Hs.
    rewrite (expr_entry dag i _ He) by (intros; eapply srcs_lt; eauto). auto.
  - intros i o f s1 s2 d Ho He. rewrite Ho. pose proof (src_cached i _ o s1 Ho He (or_introl eq_refl)) as Hs1. pose proof (src_cached i _ o s2 Ho He (or_intror (or_introl eq_refl))) as Hs2. cbn [src_order] in Hs1, Hs2. rewrite Hs1, Hs2.
    rewrite (expr_entry dag i _ He) by (intros; eapply srcs_lt; eauto). split; auto. apply (PA i o f s1 s2 d); auto. apply (b_wants _ _ _ _ _ B); auto.
Qed.
End Streams.
End Sem.
