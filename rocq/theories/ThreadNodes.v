(** ThreadNodes: what each kind of node makes of its complete inputs. *)
From Verif Require Import Base Lib PySlice Keys NDArray Arrays Chunks Handlers Realise BroadcastClaims Kahn Threads ThreadSpec NetLemmas NetSeq.

Section Nodes.
Context {V : Type} (O : numops V).
Notation cell := (option V).
Notation chunk := (list key * nd cell)%type.

Definition single (cs : list chunk) : list (list chunk) := map (fun x => [x]) cs.
Definition paired (ps : list (chunk * chunk)) : list (list chunk) := map (fun p => [fst p; snd p]) ps.
Lemma single_snoc cs c : single (cs ++ [c]) = single cs ++ [[c]]. Proof. apply map_app. Qed.
Lemma paired_snoc ps p : paired (ps ++ [p]) = paired ps ++ [[fst p; snd p]]. Proof. apply map_app. Qed.
Lemma concat_single cs : concat (single cs) = cs.
Proof. induction cs; simpl; auto. f_equal. auto. Qed.

Lemma rounds1 (xs : list chunk) : rounds [xs] = single xs.
Proof.
  unfold rounds, single. cbn [minlen]. apply list_ext. intros r. rewrite !nth_error_map.
  destruct (Nat.lt_ge_cases r (length xs)) as [Hr|Hr].
  - assert (Hs : nth_error (seq 0 (length xs)) r = Some r). { rewrite (nth_error_nth' _ 0) by (rewrite seq_length; auto). rewrite seq_nth by auto. auto. }
    rewrite Hs. simpl. unfold round_at. simpl. destruct (nth_error xs r) eqn:E; auto. apply nth_error_None in E. lia.
  - rewrite !(proj2 (nth_error_None _ _)); auto. rewrite seq_length. auto.
Qed.
Lemma nth_error_combine {A B} (l : list A) (r : list B) i x y : nth_error l i = Some x -> nth_error r i = Some y -> nth_error (combine l r) i = Some (x, y).
Proof. revert r i. induction l as [|a l IH]; intros [|b r] [|i] H1 H2; simpl in *; try discriminate; [congruence|auto]. Qed.
Lemma rounds2 (xs ys : list chunk) : rounds [xs; ys] = paired (combine xs ys).
Proof.
  unfold rounds, paired. cbn [minlen]. apply list_ext. intros r. rewrite !nth_error_map.
  destruct (Nat.lt_ge_cases r (Nat.min (length xs) (length ys))) as [Hr|Hr].
  - assert (Hs : nth_error (seq 0 (Nat.min (length xs) (length ys))) r = Some r). { rewrite (nth_error_nth' _ 0) by (rewrite seq_length; auto). rewrite seq_nth by auto. auto. }
    rewrite Hs. simpl. unfold round_at. simpl. destruct (nth_error xs r) eqn:E1; [|apply nth_error_None in E1; lia].
    destruct (nth_error ys r) eqn:E2; [|apply nth_error_None in E2; lia]. rewrite (nth_error_combine xs ys r _ _ E1 E2). auto.
  - rewrite !(proj2 (nth_error_None _ _)); auto. { rewrite combine_length. auto. } rewrite seq_length. auto.
Qed.
Lemma rows1 q (hist : list (list chunk)) : rows [q] hist -> hist = single (colm 0 hist).
Proof. induction 1 as [|row hist Hr HR IH]; auto. destruct row as [|x [|]]; try discriminate. unfold colm, single in *. simpl. f_equal. auto. Qed.
Lemma rows2 q q' (hist : list (list chunk)) : rows [q; q'] hist -> hist = paired (combine (colm 0 hist) (colm 1 hist)).
Proof. induction 1 as [|row hist Hr HR IH]; auto. destruct row as [|x [|y [|]]]; try discriminate. unfold colm, paired in *. simpl. f_equal. auto. Qed.

Lemma all_ok_pre e h (row : list chunk) : all_ok e (h ++ [row]) -> all_ok e h /\ exists o, e (h ++ [row]) = Ok o.
Proof.
  intros H. split.
  - intros r Hr. destruct (H r) as [o Ho]; [rewrite app_length; simpl; lia|]. exists o. rewrite firstn_app in Ho. replace (r - length h) with 0 in Ho by lia.
    simpl in Ho. rewrite app_nil_r in Ho. auto.
  - destruct (H (length (h ++ [row]))) as [o Ho]; [rewrite app_length; simpl; lia|]. rewrite firstn_all in Ho. eauto.
Qed.
Lemma all_ok_nil (e : list (list chunk) -> res (option chunk)) : all_ok e [].
Proof. intros r Hr. simpl in Hr. lia. Qed.

(** ** Elementwise nodes *)
Definition el1_out (f : cell -> cell) (ch : chunk) : chunk := (fst ch, nd_map f (snd ch)).
Lemma last_snoc {A} (l : list A) x d : last (l ++ [x]) d = x.
Proof. induction l as [|a l IH]; auto. simpl. destruct (l ++ [x]) eqn:E; auto. destruct l; discriminate. Qed.
Lemma el1_ok f cs : all_ok (el1_emit f) (single cs) /\ emitted (el1_emit f) (single cs) = map (el1_out f) cs.
Proof.
  induction cs as [|c cs [IH1 IH2]] using rev_ind; [split; [apply all_ok_nil|auto]|]. rewrite single_snoc.
  assert (E : el1_emit f (single cs ++ [[c]]) = Ok (Some (el1_out f c))) by (unfold el1_emit; rewrite last_snoc; auto).
  split; [apply (all_ok_snoc _ _ _ _ IH1 E)|]. rewrite emitted_snoc, E, IH2, map_app. auto.
Qed.
Definition el2_out (f : cell -> cell -> cell) (p : chunk * chunk) : res chunk :=
  d <- np_op2 f (snd (fst p)) (snd (snd p)) ;; Ok (fst (fst p), d).
Lemma zip_mapM f xs ys : zip_stream f xs ys = mapM (el2_out f) (combine xs ys).
Proof.
  revert ys. induction xs as [|[k x] xs IH]; intros [|[k' y] ys]; simpl; auto. unfold el2_out at 1. simpl.
  destruct (np_op2 f x y); simpl; auto. rewrite IH. destruct (mapM (el2_out f) (combine xs ys)); auto.
Qed.
Lemma el2_emit_snoc f ps p : el2_emit f (paired (ps ++ [p])) = (c <- el2_out f p ;; Ok (Some c)).
Proof. rewrite paired_snoc. unfold el2_emit, el2_out. rewrite last_snoc. destruct (np_op2 f (snd (fst p)) (snd (snd p))); auto. Qed.
Lemma el2_ok f ps r : mapM (el2_out f) ps = Ok r -> all_ok (el2_emit f) (paired ps) /\ emitted (el2_emit f) (paired ps) = r.
Proof.
  revert r. induction ps as [|p ps IH] using rev_ind; intros r H; [injection H as <-; split; [apply all_ok_nil|auto]|].
  rewrite mapM_app in H. destruct (mapM (el2_out f) ps) as [r1|]; [|discriminate]. cbn [bind mapM] in H.
  destruct (el2_out f p) as [c|] eqn:Ec; [|discriminate]. injection H as <-. destruct (IH r1 eq_refl) as [H1 H2].
  assert (E : el2_emit f (paired (ps ++ [p])) = Ok (Some c)) by (rewrite el2_emit_snoc, Ec; auto). rewrite paired_snoc in *.
  split; [apply (all_ok_snoc _ _ _ _ H1 E)|]. rewrite emitted_snoc, E, H2. auto.
Qed.
Lemma el2_ok_inv f ps : all_ok (el2_emit f) (paired ps) -> exists r, mapM (el2_out f) ps = Ok r.
Proof.
  induction ps as [|p ps IH] using rev_ind; intros H; [eexists; reflexivity|].
  pose proof (el2_emit_snoc f ps p) as Es. rewrite paired_snoc in *. destruct (all_ok_pre _ _ _ H) as [H1 [o Ho]].
  rewrite Es in Ho. destruct (el2_out f p) as [c|] eqn:Ec; [|discriminate]. destruct (IH H1) as [r Hr]. exists (r ++ [c]).
  rewrite mapM_app, Hr. cbn [bind mapM]. rewrite Ec. auto.
Qed.
Lemma el2_keys f ps r : mapM (el2_out f) ps = Ok r -> map fst r = map (fun p => fst (fst p)) ps.
Proof.
  intros H. apply mapM_ok in H. induction H as [|p c ps r Hp H IH]; auto. simpl. f_equal; auto.
  unfold el2_out in Hp. destruct (np_op2 _ _ _); [|discriminate]. injection Hp as <-. auto.
Qed.

(** ** Aggregation nodes *)
Section Agg.
  Context (h : handler V) (axis n : nat).
  Notation state := (@agg_state V h).
  Fixpoint agg_outs (cur : state) (cs : list chunk) : res (list chunk * state) :=
    match cs with
    | [] => Ok ([], cur)
    | c :: cs' => r <- agg_step h axis n cur c ;; r' <- agg_outs (fst r) cs' ;; Ok (optl (snd r) ++ fst r', snd r')
    end.
  Lemma agg_outs_snoc c : forall cs cur, agg_outs cur (cs ++ [c]) =
    (r <- agg_outs cur cs ;; r' <- agg_step h axis n (snd r) c ;; Ok (fst r ++ optl (snd r'), fst r')).
  Proof.
    induction cs as [|x cs IH]; intros cur; simpl.
    - destruct (agg_step h axis n cur c); simpl; auto. rewrite app_nil_r. auto.
    - destruct (agg_step h axis n cur x) as [r|]; simpl; auto. rewrite IH. destruct (agg_outs (fst r) cs) as [r'|]; simpl; auto.
      destruct (agg_step h axis n (snd r') c); simpl; auto. rewrite app_assoc. auto.
  Qed.
  Lemma agg_run_snoc c : forall cs cur last, agg_run h axis n cur last (cs ++ [c]) =
    (r <- agg_run h axis n cur last cs ;; agg_step h axis n (fst r) c).
  Proof.
    induction cs as [|x cs IH]; intros cur last; simpl.
    - destruct (agg_step h axis n cur c) as [[]|]; auto.
    - destruct (agg_step h axis n cur x) as [r|]; simpl; auto.
  Qed.
  (** The streams of Realise.v in these terms. *)
  Lemma agg_loop_outs : forall cs cur, agg_loop h axis n cur cs =
    (r <- agg_outs cur cs ;; match snd r with Some (k, st) => Ok (fst r ++ [agg_finalise h n k st]) | None => Err AttrErr end).
  Proof.
    induction cs as [|[k d] cs IH]; intros cur; simpl.
    - destruct cur as [[k st]|]; auto.
    - unfold agg_step. simpl.
      set (st0 := match cur with Some (_, st) => if (match cur with Some (k0, _) => keys_eqb (remove_at axis k) k0 | None => false end) then st else agg_boot h axis d | None => agg_boot h axis d end).
      destruct (agg_process h axis st0 d) as [st1|]; cbn [bind fst snd]; auto. rewrite IH.
      destruct (agg_outs (Some (remove_at axis k, st1)) cs) as [[o c]|]; cbn [bind fst snd]; auto.
      destruct c as [[k2 st2]|]; cbn [bind fst snd]; auto. destruct cur as [[k0 st]|]; simpl; auto.
      destruct (keys_eqb (remove_at axis k) k0); simpl; auto.
  Qed.
  Lemma agg_run_outs cs : (forall o c, agg_outs None cs = Ok (o, c) -> exists l, agg_run h axis n None None cs = Ok (c, l)) /\
    (forall c l, agg_run h axis n None None cs = Ok (c, l) -> exists o, agg_outs None cs = Ok (o, c)).
  Proof.
    induction cs as [|x cs [IH1 IH2]] using rev_ind.
    - split; intros a b H; simpl in *; injection H as <- <-; eauto.
    - split; intros a b H; rewrite agg_outs_snoc in *; rewrite agg_run_snoc in *.
      + destruct (agg_outs None cs) as [[o c]|] eqn:E; [|discriminate]. destruct (IH1 o c eq_refl) as [l Hl]. rewrite Hl. cbn [bind fst snd] in *.
        destruct (agg_step h axis n c x) as [[c' l']|]; [|discriminate]. cbn [bind fst snd] in H. injection H as <- <-. eauto.
      + destruct (agg_run h axis n None None cs) as [[c l]|] eqn:E; [|discriminate]. destruct (IH2 c l eq_refl) as [o Ho]. rewrite Ho. cbn [bind fst snd] in *.
        rewrite H. cbn [bind fst snd]. eauto.
  Qed.
  Lemma agg_emit_snoc cs x o c : agg_outs None cs = Ok (o, c) ->
    agg_emit h axis n (single cs ++ [[x]]) = (r <- agg_step h axis n c x ;; Ok (snd r)).
  Proof.
    intros H. unfold agg_emit. rewrite concat_app. cbn [concat app]. rewrite concat_single, agg_run_snoc.
    destruct (proj1 (agg_run_outs cs) o c H) as [l Hl]. rewrite Hl. auto.
  Qed.
  Lemma agg_ok cs o c : agg_outs None cs = Ok (o, c) ->
    all_ok (agg_emit h axis n) (single cs) /\ emitted (agg_emit h axis n) (single cs) = o.
  Proof.
    revert o c. induction cs as [|x cs IH] using rev_ind; intros o c H; [injection H as <- <-; split; [apply all_ok_nil|auto]|].
    rewrite agg_outs_snoc in H. destruct (agg_outs None cs) as [[o1 c1]|] eqn:E; [|discriminate]. cbn [bind fst snd] in H.
    destruct (agg_step h axis n c1 x) as [[c2 l2]|] eqn:Es; [|discriminate]. cbn [bind fst snd] in H. injection H as <- <-.
    destruct (IH o1 c1 eq_refl) as [H1 H2]. pose proof (agg_emit_snoc cs x o1 c1 E) as Ee. rewrite Es in Ee. cbn [bind fst snd] in Ee.
    rewrite single_snoc. split; [apply (all_ok_snoc _ _ _ _ H1 Ee)|]. rewrite emitted_snoc, Ee, H2. destruct l2; auto.
  Qed.
  Lemma agg_ok_inv cs : all_ok (agg_emit h axis n) (single cs) -> exists o c, agg_outs None cs = Ok (o, c).
  Proof.
    induction cs as [|x cs IH] using rev_ind; intros H; [eexists _, _; reflexivity|]. rewrite single_snoc in H.
    destruct (all_ok_pre _ _ _ H) as [H1 [oo Ho]]. destruct (IH H1) as (o & c & E). rewrite (agg_emit_snoc cs x o c E) in Ho.
    destruct (agg_step h axis n c x) as [[c2 l2]|] eqn:Es; [|discriminate]. rewrite agg_outs_snoc, E. cbn [bind fst snd]. rewrite Es. eexists _, _. reflexivity.
  Qed.
  Lemma agg_fin_outs cs o c : agg_outs None cs = Ok (o, c) ->
    agg_fin h axis n (single cs) = match c with Some (k, st) => Ok (Some (agg_finalise h n k st)) | None => Err AttrErr end.
  Proof. intros H. unfold agg_fin. rewrite concat_single. destruct (proj1 (agg_run_outs cs) o c H) as [l Hl]. rewrite Hl. cbn [bind fst]. destruct c as [[]|]; auto. Qed.
  Lemma agg_stream cs r : agg_loop h axis n None cs = Ok r ->
    all_ok (agg_emit h axis n) (single cs) /\ (exists o, agg_fin h axis n (single cs) = Ok o) /\
    r = emitted (agg_emit h axis n) (single cs) ++ opt (agg_fin h axis n (single cs)).
  Proof.
    rewrite agg_loop_outs. destruct (agg_outs None cs) as [[o c]|] eqn:E; [|discriminate]. cbn [bind fst snd].
    destruct c as [[k st]|]; [|discriminate]. intros H. injection H as <-. destruct (agg_ok cs o _ E) as [H1 H2].
    rewrite (agg_fin_outs cs o _ E). split; auto. split; eauto. rewrite H2. auto.
  Qed.
  Lemma agg_stream_inv cs : all_ok (agg_emit h axis n) (single cs) -> (exists o, agg_fin h axis n (single cs) = Ok o) ->
    agg_loop h axis n None cs = Ok (emitted (agg_emit h axis n) (single cs) ++ opt (agg_fin h axis n (single cs))).
  Proof.
    intros H1 [o2 H2]. destruct (agg_ok_inv cs H1) as (o & c & E). rewrite (agg_fin_outs cs o c E) in *. destruct (agg_ok cs o c E) as [_ H3].
    rewrite agg_loop_outs, E, H3. cbn [bind fst snd]. destruct c as [[k st]|]; [auto|discriminate].
  Qed.

  (** *** Keys and pace *)
  Notation rk := (fun c : chunk => remove_at axis (fst c)).
  Lemma agg_step_keys cur c r : agg_step h axis n cur c = Ok r -> exists st, fst r = Some (rk c, st).
  Proof. unfold agg_step. cbv zeta. match goal with |- context [agg_process h axis ?s ?d] => destruct (agg_process h axis s d) end; [|discriminate]. cbn [bind]. intros H. injection H as <-. eexists. reflexivity. Qed.
  Lemma agg_step_out k0 st0 c r : agg_step h axis n (Some (k0, st0)) c = Ok r ->
    map fst (optl (snd r)) = if keys_eqb (rk c) k0 then [] else [k0].
  Proof.
    unfold agg_step. cbv zeta. match goal with |- context [agg_process h axis ?s ?d] => destruct (agg_process h axis s d) end; [|discriminate].
    cbn [bind]. intros H. injection H as <-. cbn [snd]. destruct (keys_eqb _ k0); auto.
  Qed.
  Lemma agg_step_first c r : agg_step h axis n None c = Ok r -> snd r = None.
  Proof. unfold agg_step. cbv zeta. match goal with |- context [agg_process h axis ?s ?d] => destruct (agg_process h axis s d) end; [|discriminate]. cbn [bind]. intros H. injection H as <-. auto. Qed.
  Lemma outs_keys : forall cs k0 st0 o c, agg_outs (Some (k0, st0)) cs = Ok (o, c) ->
    exists k1 st1, c = Some (k1, st1) /\ map fst o ++ [k1] = key_runs k0 (map rk cs).
  Proof.
    induction cs as [|x cs IH]; intros k0 st0 o c H; simpl in H; [injection H as <- <-; exists k0, st0; auto|].
    destruct (agg_step h axis n (Some (k0, st0)) x) as [r|] eqn:Es; [|discriminate]. cbn [bind] in H.
    destruct (agg_step_keys _ _ _ Es) as [st1 E1]. pose proof (agg_step_out _ _ _ _ Es) as E2. rewrite E1 in H.
    destruct (agg_outs (Some (rk x, st1)) cs) as [[o1 c1]|] eqn:Eo; [|discriminate]. cbn [bind fst snd] in H. injection H as <- <-.
    destruct (IH _ _ _ _ Eo) as (k2 & st2 & -> & Hk). exists k2, st2. split; auto. rewrite map_app, E2, <- app_assoc, Hk. simpl.
    destruct (keys_eqb (remove_at axis (fst x)) k0); auto.
  Qed.
  Lemma outs_keys0 cs o c : agg_outs None cs = Ok (o, c) ->
    (cs = [] /\ o = [] /\ c = None) \/ exists k1 st1, c = Some (k1, st1) /\ map fst o ++ [k1] = agg_keys axis (map fst cs).
  Proof.
    destruct cs as [|x cs]; simpl; intros H; [injection H as <- <-; auto|]. right.
    destruct (agg_step h axis n None x) as [r|] eqn:Es; [|discriminate]. cbn [bind] in H.
    destruct (agg_step_keys _ _ _ Es) as [st1 E1]. rewrite E1, (agg_step_first _ _ Es) in H.
    destruct (agg_outs (Some (rk x, st1)) cs) as [[o1 c1]|] eqn:Eo; [|discriminate]. cbn [bind fst snd optl app] in H. injection H as <- <-.
    destruct (outs_keys _ _ _ _ _ Eo) as (k2 & st2 & -> & Hk). exists k2, st2. split; auto. unfold agg_keys. simpl. rewrite Hk, map_map. auto.
  Qed.
  Lemma key_runs_ne k ks : 1 <= length (key_runs k ks).
  Proof. revert k. induction ks as [|x ks IH]; intros k; simpl; [lia|]. destruct (keys_eqb x k); auto. simpl. lia. Qed.
  Lemma key_runs_app a : forall k b front k1, key_runs k a = front ++ [k1] -> key_runs k (a ++ b) = front ++ key_runs k1 b.
  Proof.
    induction a as [|x a IH]; intros k b front k1 H; simpl in *.
    - destruct front as [|y [|]]; [injection H as ->; auto| |]; try discriminate. 
    - destruct (keys_eqb x k); [apply IH; auto|]. destruct front as [|y front].
      + simpl in H. injection H as H1 H2. pose proof (key_runs_ne x a) as Hn. rewrite H2 in Hn. simpl in Hn. lia.
      + simpl in H. injection H as -> H. simpl. f_equal. apply IH. auto.
  Qed.
  (** Keys sent after a part of the input: fewer than for all of it. *)
  Lemma agg_keys_part cs ks o c : agg_outs None cs = Ok (o, c) -> prefix (map fst cs) ks ->
    prefix (map fst o) (agg_keys axis ks) /\ length o < length (agg_keys axis ks) /\
    (map fst cs = ks -> forall k st, c = Some (k, st) -> map fst o ++ [k] = agg_keys axis ks).
  Proof.
    intros H [b ->]. destruct (outs_keys0 cs o c H) as [(-> & -> & ->)|(k1 & st1 & -> & Hk)].
    - simpl. split; [eexists; reflexivity|]. split.
      + unfold agg_keys. destruct (map (remove_at axis) b); simpl; [lia|]. pose proof (key_runs_ne l l0). lia.
      + intros _ k st E. discriminate.
    - split; [|split].
      + unfold agg_keys in *. rewrite map_app. destruct (map (remove_at axis) (map fst cs)) as [|k ks].
        { destruct o as [|x [|]]; [|discriminate|discriminate]. exists (match [] ++ map (remove_at axis) b with [] => [[]] | k :: ks' => key_runs k ks' end). auto. }
        cbn [app]. rewrite (key_runs_app ks k _ (map fst o) k1) by auto. eexists. reflexivity.
      + unfold agg_keys in *. rewrite map_app. destruct (map (remove_at axis) (map fst cs)) as [|k ks].
        { assert (E : o = []) by (destruct o as [|x [|]]; [auto|discriminate|discriminate]). subst o. simpl. destruct (map (remove_at axis) b); simpl; [lia|]. pose proof (key_runs_ne l l0). lia. }
        cbn [app]. rewrite (key_runs_app ks k _ (map fst o) k1) by auto. rewrite app_length, map_length. pose proof (key_runs_ne k1 (map (remove_at axis) b)). lia.
      + intros Hc k st E. injection E as <- _. rewrite <- Hc. auto.
  Qed.
  (** Rounds that send a chunk. *)
  Lemma agg_times cs o c k st t : agg_outs None cs = Ok (o, c) -> c = Some (k, st) -> length t = 1 + length cs ->
    emit_times (agg_emit h axis n) (agg_fin h axis n) (single cs) t = agg_ticks axis (map fst cs) t.
  Proof.
    intros H Hc Ht. unfold emit_times, sends, agg_ticks. assert (Hsl : length (single cs) = length cs) by apply map_length. rewrite !Hsl, !map_length. clear Hsl.
    rewrite (agg_fin_outs cs o c H), Hc. cbn [opt map length app]. f_equal.
    destruct cs as [|x cs]; [auto|]. destruct t as [|t0 t]; [discriminate|]. injection Ht as Ht. cbn [length seq flat_map map tl].
    rewrite Hc in H. clear Hc c.
    assert (E0 : opt (agg_emit h axis n (firstn (1 + 0) (single (x :: cs)))) = []).
    { simpl in H. destruct (agg_step h axis n None x) as [r|] eqn:Es; [|discriminate]. simpl. unfold agg_emit. simpl. rewrite Es. simpl. destruct r as [c l]. simpl.
      pose proof (agg_step_first _ _ Es) as E. simpl in E. rewrite E. auto. }
    rewrite E0. cbn [map app]. rewrite <- seq_shift, flat_map_concat_map, map_map, <- flat_map_concat_map.
    (* walk along the chunks *)
    assert (G : forall post pre y k0 st0 o0, x :: cs = pre ++ [y] ++ post -> agg_outs None (pre ++ [y]) = Ok (o0, Some (k0, st0)) -> k0 = remove_at axis (fst y) ->
              forall ts, length ts = length post -> (forall j, j < length post -> nth (length pre + j) t 0 = nth j ts 0) ->
              flat_map (fun r => map (fun _ => nth r t 0) (opt (agg_emit h axis n (firstn (1 + S r) (single (x :: cs)))))) (seq (length pre) (length post))
              = change_ticks k0 (map (remove_at axis) (map fst post)) ts).
    { induction post as [|z post IH]; intros pre y k0 st0 o0 Ex Ho Hk ts Hts Hnth; [auto|]. destruct ts as [|tz ts]; [discriminate|].
      cbn [length seq flat_map map change_ticks].
      assert (Ef : firstn (1 + S (length pre)) (single (x :: cs)) = single (pre ++ [y]) ++ [[z]]).
      { rewrite Ex. unfold single. rewrite !map_app. cbn [map]. replace (1 + S (length pre)) with (length (map (fun x0 => [x0]) pre) + 2) by (rewrite map_length; lia).
        rewrite firstn_app_2. cbn [firstn app]. rewrite <- app_assoc. auto. }
      rewrite Ef. rewrite (agg_emit_snoc (pre ++ [y]) z _ _ Ho).
      assert (Hall : agg_outs None ((pre ++ [y]) ++ z :: post) = Ok (o, Some (k, st))).
      { rewrite <- app_assoc. cbn [app] in *. rewrite <- Ex. auto. }
      assert (Hz : exists r, agg_step h axis n (Some (k0, st0)) z = Ok r).
      { destruct (agg_step h axis n (Some (k0, st0)) z) as [r|] eqn:E; eauto. exfalso.
        assert (Happ : forall l1 l2 cur, agg_outs cur (l1 ++ l2) = (r <- agg_outs cur l1 ;; r' <- agg_outs (snd r) l2 ;; Ok (fst r ++ fst r', snd r'))).
        { clear. induction l1 as [|a l1 IH]; intros l2 cur; simpl; [destruct (agg_outs cur l2) as [[]|]; auto|].
          destruct (agg_step h axis n cur a) as [r|]; simpl; auto. rewrite IH. destruct (agg_outs (fst r) l1) as [r1|]; simpl; auto.
          destruct (agg_outs (snd r1) l2); simpl; auto. rewrite app_assoc. auto. }
        rewrite Happ, Ho in Hall. cbn [bind fst snd agg_outs] in Hall. rewrite E in Hall. discriminate. }
      destruct Hz as [r Er]. rewrite Er. cbn [bind]. destruct (agg_step_keys _ _ _ Er) as [st1 E1]. pose proof (agg_step_out _ _ _ _ Er) as E2.
      assert (Hnext : agg_outs None ((pre ++ [y]) ++ [z]) = Ok (o0 ++ optl (snd r), Some (remove_at axis (fst z), st1))).
      { rewrite agg_outs_snoc, Ho. cbn [bind fst snd]. rewrite Er. cbn [bind]. rewrite E1. auto. }
      specialize (IH (pre ++ [y]) z (remove_at axis (fst z)) st1 _ ltac:(rewrite <- app_assoc; auto) Hnext eq_refl ts ltac:(simpl in Hts; lia)).
      rewrite app_length in IH. cbn [length] in IH. rewrite Nat.add_1_r in IH.
      rewrite IH. 2:{ intros j Hj. specialize (Hnth (S j) ltac:(simpl; lia)). simpl in Hnth. rewrite <- Hnth. f_equal. lia. }
      specialize (Hnth 0 ltac:(simpl; lia)). rewrite Nat.add_0_r in Hnth. simpl in Hnth. rewrite Hnth.
      destruct (keys_eqb (remove_at axis (fst z)) k0).
      - destruct (snd r); [discriminate|]. auto.
      - destruct (snd r); [|discriminate]. auto. }
    simpl in H. destruct (agg_step h axis n None x) as [r|] eqn:Es; [|discriminate]. destruct (agg_step_keys _ _ _ Es) as [st1 E1].
    destruct t as [|tl_ tr] using rev_ind; [simpl in Ht; lia|]. clear IHtr. rewrite app_length in Ht. simpl in Ht.
    assert (Ht' : length tr = length cs) by lia.
    transitivity (change_ticks (remove_at axis (fst x)) (map (remove_at axis) (map fst cs)) tr).
    - apply (G cs [] x (remove_at axis (fst x)) st1 (optl (snd r) ++ [])); auto.
      + simpl. rewrite Es. cbn [bind]. rewrite E1. auto.
      + intros j Hj. simpl. rewrite app_nth1 by lia. auto.
    - assert (Gt : forall ks k0 a b, length a = length ks -> change_ticks k0 ks a = change_ticks k0 ks (a ++ b)).
      { clear. induction ks as [|k ks IH]; intros k0 [|x a] b H; simpl in *; try discriminate; auto. rewrite (IH k a b) by lia. auto. }
      rewrite map_map. apply Gt. rewrite !map_length. auto.
  Qed.
End Agg.
(** ** Nodes that send one chunk per round keep the pace of their input. *)
Lemma emitted_le (e : list (list chunk) -> res (option chunk)) h : length (emitted e h) <= length h.
Proof.
  induction h as [|row h IH] using rev_ind; [simpl; lia|]. rewrite emitted_snoc, !app_length. simpl length at 4.
  destruct (e (h ++ [row])) as [[]|]; simpl; lia.
Qed.
Lemma emitted_each (e : list (list chunk) -> res (option chunk)) h : length (emitted e h) = length h ->
  forall r, r < length h -> exists c, e (firstn (1 + r) h) = Ok (Some c).
Proof.
  induction h as [|row h IH] using rev_ind; intros H r Hr; [simpl in Hr; lia|]. rewrite emitted_snoc, !app_length in H. rewrite app_length in Hr. simpl in Hr.
  pose proof (emitted_le e h) as Hle. destruct (e (h ++ [row])) as [[c|]|] eqn:Ec; simpl in H; [|lia|lia].
  destruct (Nat.eq_dec r (length h)) as [->|Hn].
  - rewrite firstn_all2 by (rewrite app_length; simpl; lia). eauto.
  - rewrite firstn_app. replace (1 + r - length h) with 0 by lia. rewrite app_nil_r. apply IH; lia.
Qed.
Lemma same_times (e : list (list chunk) -> res (option chunk)) h t : length (emitted e h) = length h -> length t = 1 + length h ->
  emit_times e no_fin h t = t.
Proof.
  intros H Ht. unfold emit_times, sends. cbn [no_fin opt map length app]. rewrite Nat.add_0_l.
  assert (E : flat_map (fun r => map (fun _ => nth r t 0) (opt (e (firstn (1 + r) h)))) (seq 0 (length h)) = map (fun r => nth r t 0) (seq 0 (length h))).
  { assert (G : forall n a, a + n <= length h -> flat_map (fun r => map (fun _ => nth r t 0) (opt (e (firstn (1 + r) h)))) (seq a n) = map (fun r => nth r t 0) (seq a n)).
    { induction n as [|n IH]; intros a Ha; auto. cbn [seq flat_map map]. rewrite IH by lia. destruct (emitted_each e h H a) as [c ->]; [lia|]. auto. }
    apply G. lia. }
  rewrite E. clear E. assert (G : forall (l : list nat) x, map (fun r => nth r (l ++ [x]) 0) (seq 0 (length l)) ++ [nth (length l) (l ++ [x]) 0] = l ++ [x]).
  { clear. intros l x. rewrite app_nth2, Nat.sub_diag by lia. cbn [nth]. f_equal. apply list_ext. intros r. rewrite nth_error_map.
    destruct (Nat.lt_ge_cases r (length l)) as [Hr|Hr].
    - rewrite (nth_error_nth' _ 0) by (rewrite seq_length; auto). rewrite seq_nth by auto. simpl. rewrite app_nth1 by auto. symmetry. apply nth_error_nth'. auto.
    - rewrite (proj2 (nth_error_None (seq 0 (length l)) r)) by (rewrite seq_length; auto). symmetry. apply nth_error_None. auto. }
  destruct t as [|x0 t0] using rev_ind; [simpl in Ht; lia|]. clear IHt0. rewrite app_length in Ht. simpl in Ht. replace (length h) with (length t0) by lia. apply G.
Qed.
Lemma sink_times (garbage : list nat -> cell) sh h t : emit_times (sink_emit garbage sh) no_fin h t = [nth (length h) t 0].
Proof.
  unfold emit_times, sends. cbn [no_fin opt map length app]. rewrite Nat.add_0_l.
  assert (G : forall n a, flat_map (fun r => map (fun _ : chunk => nth r t 0) (opt (sink_emit garbage sh (firstn (1 + r) h)))) (seq a n) = []).
  { induction n as [|n IH]; intros a; auto. cbn [seq flat_map]. rewrite IH, app_nil_r. unfold sink_emit. destruct (stored _ _ _); auto. }
  rewrite G. auto.
Qed.
End Nodes.
