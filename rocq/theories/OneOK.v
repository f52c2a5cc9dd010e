(** OneOK: whatever the schedule, the threads compute what one thread would. *)
From Verif Require Import Base Lib PySlice Keys NDArray Arrays Chunks Handlers Realise Kahn Threads ThreadSpec NetLemmas NetProgress NetSeq NetFail ThreadBuild ThreadNodes ThreadSem OneThread NetDen.

Section OneOK.
Context {V : Type} (O : numops V).
Notation cell := (option V).
Notation barr := (@barr V).
Notation chunk := (list key * nd cell)%type.
Notation entry := (@entry V).
Notation feed := (feed V).
Variable maxc : nat.
Variable garbage : list nat -> cell.
Variable rz : barr -> res (nd cell).
Variable m : bool.
Notation broken := (@broken V).

(** ** Nodes *)
Lemma ends_one (x : list chunk * bool) : ends_badly [x] = negb (snd x).
Proof. destruct x as [cs ok]. unfold ends_badly. cbn [map fst snd minlen existsb]. rewrite Nat.eqb_refl, andb_true_r, orb_false_r. auto. Qed.
Lemma agg_go (h : handler V) axis n ok : forall (cs dn : list chunk) cur l, agg_run h axis n None None dn = Ok (cur, l) ->
  go (agg_emit h axis n) (agg_fin h axis n) (negb ok) (single dn) (single cs) = aggregated h axis n cur cs ok.
Proof.
  induction cs as [|c cs IH]; intros dn cur l H.
  - cbn [single map go aggregated]. destruct ok; cbn [negb]; auto. unfold agg_fin. rewrite concat_single, H. cbn [bind fst]. destruct cur as [[k st]|]; auto.
  - change (single (c :: cs)) with ([c] :: single cs). cbn [go aggregated]. rewrite <- single_snoc. unfold agg_emit at 1. rewrite concat_single, agg_run_snoc, H. cbn [bind fst].
    destruct (agg_step h axis n cur c) as [[cur' o]|e] eqn:E; cbn [bind fst snd]; auto. rewrite (IH (dn ++ [c]) cur' o).
    + destruct o; auto.
    + rewrite agg_run_snoc, H. cbn [bind fst]. auto.
Qed.
Lemma el1_go (f : cell -> cell) ok : forall (cs : list chunk) hist, go (el1_emit f) no_fin (negb ok) hist (single cs) = (map (fun c : chunk => (fst c, nd_map f (snd c))) cs, ok).
Proof.
  induction cs as [|c cs IH]; intros hist.
  - cbn. destruct ok; auto.
  - change (single (c :: cs)) with ([c] :: single cs). cbn [go]. unfold el1_emit at 1. rewrite last_snoc. rewrite IH. auto.
Qed.
Lemma ends_two (xs ys : list chunk) okx oky : ends_badly [(xs, okx); (ys, oky)]
  = (negb okx && (length xs <=? length ys)) || (negb oky && (length ys <=? length xs)).
Proof.
  unfold ends_badly. cbn [map fst snd minlen existsb]. rewrite orb_false_r. f_equal; f_equal; apply eq_true_iff_eq; rewrite Nat.eqb_eq, Nat.leb_le; lia.
Qed.
Lemma el2_go (f : cell -> cell -> cell) okx oky : forall (xs ys : list chunk) hist, go (el2_emit f) no_fin (ends_badly [(xs, okx); (ys, oky)]) hist (paired (combine xs ys)) = paired_up f xs okx ys oky.
Proof.
  intros xs ys hist. rewrite ends_two. revert ys hist. induction xs as [|x xs IH]; intros [|y ys] hist.
  - cbn. destruct okx, oky; auto.
  - cbn. destruct okx, oky; auto.
  - cbn. destruct okx, oky; auto.
  - change (paired (combine (x :: xs) (y :: ys))) with ([x; y] :: paired (combine xs ys)). cbn [go paired_up length Nat.leb].
    unfold el2_emit at 1. rewrite last_snoc. destruct (np_op2 f (snd x) (snd y)) as [d|e]; cbn [bind]; auto. rewrite IH. auto.
Qed.
Definition sink_feed (sh : list nat) (x : feed) : feed :=
  ([], match np_setitems (mkND sh garbage) (fst x) with Ok _ => snd x | Err _ => false end).
Lemma foldM_snoc {A B} (g : A -> B -> res A) l x : forall a, foldM g a (l ++ [x]) = (r <- foldM g a l ;; g r x).
Proof. induction l as [|y l IH]; intros a; simpl; [destruct (g a x); auto|]. destruct (g a y); simpl; auto. Qed.
Lemma foldM_app {A B} (g : A -> B -> res A) l l' : forall a, foldM g a (l ++ l') = (r <- foldM g a l ;; foldM g r l').
Proof. induction l as [|y l IH]; intros a; simpl; auto. destruct (g a y); simpl; auto. Qed.
Lemma sink_go sh ok : forall (cs dn : list chunk) d0, stored garbage sh (single dn) = Ok d0 ->
  go (sink_emit garbage sh) no_fin (negb ok) (single dn) (single cs) = ([], match np_setitems d0 cs with Ok _ => ok | Err _ => false end).
Proof.
  induction cs as [|c cs IH]; intros dn d0 H.
  - cbn. destruct ok; auto.
  - change (single (c :: cs)) with ([c] :: single cs). cbn [go]. rewrite <- single_snoc. unfold sink_emit at 1, stored. unfold stored in H. rewrite concat_single in *. unfold np_setitems in *.
    rewrite foldM_snoc, H. cbn [bind foldM]. destruct (np_setitem d0 (fst c) (snd c)) as [d1|e] eqn:E; cbn [bind]; auto. rewrite (IH (dn ++ [c]) d1); auto.
    unfold stored. rewrite concat_single. unfold np_setitems. rewrite foldM_snoc, H. auto.
Qed.
Lemma drawn_items a ks : let items := map (fun k => b <- getitem a k ;; d <- rz b ;; Ok (k, d)) ks in
  let x := drawn rz a ks in if snd x then items = map Ok (fst x) else exists e r, items = map Ok (fst x) ++ Err e :: r.
Proof.
  cbn zeta. induction ks as [|k ks IH]; [reflexivity|]. cbn [drawn map].
  destruct (getitem a k) as [b|e]; cbn [bind]; [|cbn; eauto]. destruct (rz b) as [d|e]; cbn [bind]; [|cbn; eauto].
  unfold before. cbn [fst snd app map]. destruct (snd (drawn rz a ks)); [rewrite IH; auto|]. destruct IH as (e & r & ->). eauto.
Qed.

(** ** The walk *)
Variable dag : list entry.
Variable roots : list nat.
Hypothesis D : dag_ok dag roots.
Notation N := (length dag).
Notation walk := (walk O maxc rz m).
Definition got (memo : list (option feed)) (s : nat) : feed := match nth s memo None with Some x => x | None => broken end.
Notation ef := (entry_feed O maxc rz m dag).

Record agree (orders : list (option (list nat))) (memo : list (option feed)) : Prop := {
  a_len : length orders = N;
  a_mlen : length memo = N;
  a_dom : forall i, nth i orders None = None <-> nth i memo None = None;
  a_val : forall i o e, nth i orders None = Some o -> nth_error dag i = Some e ->
    nth i memo None = Some (ef e o (map (got memo) (entry_srcs e))) /\ forall s, In s (entry_srcs e) -> nth s memo None <> None }.

Lemma walk_ok : forall f i order st memo, i < f -> i < N -> agree (fst st) memo ->
  let memo' := walk f dag i order memo in
  agree (fst (make_node f dag i order st)) memo' /\ nth i memo' None <> None /\
  (forall k, nth k memo None <> None -> nth k memo' None = nth k memo None) /\
  (forall k, i < k -> nth k memo' None = nth k memo None).
Proof.
  induction f as [|f IH]; intros i order st memo Hif Hi A; [lia|]. cbn [make_node OneThread.walk].
  destruct (nth i (fst st) None) as [oi|] eqn:Eo.
  { assert (Em : nth i memo None <> None) by (intros E; apply (a_dom _ _ A) in E; congruence). destruct (nth i memo None) as [x|] eqn:Ex; [|congruence]. cbn zeta. rewrite Ex. split; [exact A|]. split; [discriminate|]. split; auto. }
  pose proof (proj1 (a_dom _ _ A i) Eo) as Em. rewrite Em. destruct (nth_error dag i) as [e|] eqn:Ee; [|apply nth_error_None in Ee; lia]. cbn zeta.
  assert (Hsrc : forall s, In s (entry_srcs e) -> s < i) by (intros s Hs; apply (proj1 D i e s); auto).
  assert (G : forall ss st memo, (forall s, In s ss -> In s (entry_srcs e)) -> agree (fst st) memo ->
     let st' := fold_left (fun st s => make_node f dag s (src_order e order) st) ss st in
     let memo' := fold_left (fun memo s => walk f dag s (src_order e order) memo) ss memo in
     agree (fst st') memo' /\ (forall s, In s ss -> nth s memo' None <> None) /\
     (forall k, nth k memo None <> None -> nth k memo' None = nth k memo None) /\
     (forall k, i <= k -> nth k memo' None = nth k memo None)).
  { clear st memo A Eo Em. induction ss as [|s ss IHs]; intros st memo Hss A; cbn zeta; cbn [fold_left]; [split; [exact A|]; split; [intros s0 []|]; split; auto|].
    assert (Hs : In s (entry_srcs e)) by (apply Hss; simpl; auto). pose proof (Hsrc s Hs) as Hlt.
    destruct (IH s (src_order e order) st memo ltac:(lia) ltac:(lia) A) as (A1 & C1 & K1 & L1).
    set (st1 := make_node f dag s (src_order e order) st) in *. set (memo1 := walk f dag s (src_order e order) memo) in *.
    destruct (IHs st1 memo1) as (A2 & C2 & K2 & L2); auto. { intros s0 Hs0. apply Hss. simpl; auto. }
    split; auto. split; [|split].
    - intros s0 [<-|Hs0]; auto. rewrite K2; auto.
    - intros k Hk. rewrite K2, K1; auto. rewrite K1; auto.
    - intros k Hk. rewrite L2, L1; auto. lia. }
  destruct (G (entry_srcs e) st memo (fun s H => H) A) as (A1 & C1 & K1 & L1). cbn zeta in A1, C1, K1, L1.
  set (st1 := fold_left (fun st s => make_node f dag s (src_order e order) st) (entry_srcs e) st) in *. set (memo1 := fold_left (fun memo s => walk f dag s (src_order e order) memo) (entry_srcs e) memo) in *. cbn [fst snd].
  assert (Hi1 : i < length (fst st1)) by (rewrite (a_len _ _ A1); auto).
  assert (Hi2 : i < length memo1) by (rewrite (a_mlen _ _ A1); auto).
  assert (Hnone : nth i memo1 None = None) by (rewrite L1; auto).
  pose proof (proj2 (a_dom _ _ A1 i) Hnone) as Hnone'.
  set (x := ef e order (map (fun s => match nth s memo1 None with Some x => x | None => broken end) (entry_srcs e))).
  assert (Hget : forall s, s <> i -> got (set_nth i (Some x) memo1) s = got memo1 s).
  { intros s Hs. unfold got. rewrite nth_set_nth_neq; auto. }
  split; [constructor|split; [|split]].
  - rewrite set_nth_length. apply (a_len _ _ A1).
  - rewrite set_nth_length. apply (a_mlen _ _ A1).
  - intros k. destruct (Nat.eq_dec k i) as [->|Hk]; [rewrite !nth_set_nth_eq by auto; split; discriminate|]. rewrite !nth_set_nth_neq by auto. apply (a_dom _ _ A1).
  - intros k o e0 Hk He0. destruct (Nat.eq_dec k i) as [->|Hki].
    + rewrite nth_set_nth_eq in Hk by auto. injection Hk as <-. assert (e0 = e) by congruence. subst e0. rewrite nth_set_nth_eq by auto. split.
      * f_equal. unfold x. f_equal. apply map_ext_in. intros s Hs. rewrite Hget; [reflexivity|]. specialize (Hsrc s Hs). lia.
      * intros s Hs. rewrite nth_set_nth_neq by (specialize (Hsrc s Hs); lia). apply C1; auto.
    + rewrite nth_set_nth_neq in Hk by auto. destruct (a_val _ _ A1 k o e0 Hk He0) as [H1 H2].
      assert (Hne : forall s, In s (entry_srcs e0) -> s <> i) by (intros s Hs ->; apply (H2 i Hs); auto).
      rewrite nth_set_nth_neq by auto. split.
      * rewrite H1. f_equal. f_equal. apply map_ext_in. intros s Hs. symmetry. apply Hget. auto.
      * intros s Hs. rewrite nth_set_nth_neq by (apply Hne in Hs; congruence). auto.
  - rewrite nth_set_nth_eq by auto. discriminate.
  - intros k Hk. destruct (Nat.eq_dec k i) as [->|Hki]; [congruence|]. rewrite nth_set_nth_neq by auto. apply K1. auto.
  - intros k Hk. rewrite nth_set_nth_neq by lia. apply L1. lia.
Qed.

Notation st := (build O dag roots).
Definition memo : list (option feed) := walk_all O maxc rz m dag roots (repeat None N).
Lemma walks : agree (fst st) memo.
Proof.
  assert (G : forall rs J st memo, (forall r, In r rs -> r < N) -> agree (fst st) memo -> agree (fst (make_all O dag rs J st)) (walk_all O maxc rz m dag rs memo)).
  { induction rs as [|r rs IH]; intros J st0 memo0 Hr A; auto. cbn [make_all walk_all fold_left]. apply IH; [intros; apply Hr; simpl; auto|]. cbn [fst].
    apply walk_ok; auto. apply Hr. simpl; auto. }
  apply G; [apply D|]. cbn [fst]. constructor.
  - apply repeat_length.
  - apply repeat_length.
  - intros i. assert (E1 : nth i (repeat (@None (list nat)) N) None = None) by (destruct (Nat.lt_ge_cases i N); [apply nth_repeat|apply nth_overflow; rewrite repeat_length; auto]).
    assert (E2 : nth i (repeat (@None feed) N) None = None) by (destruct (Nat.lt_ge_cases i N); [apply nth_repeat|apply nth_overflow; rewrite repeat_length; auto]). rewrite E1, E2. tauto.
  - intros i o e Hi. assert (E1 : nth i (repeat (@None (list nat)) N) None = None) by (destruct (Nat.lt_ge_cases i N); [apply nth_repeat|apply nth_overflow; rewrite repeat_length; auto]). congruence.
Qed.

(** What is broken breaks everything made from it. *)
Lemma broken_up i e o s : nth i (fst st) None = Some o -> nth_error dag i = Some e -> In s (entry_srcs e) -> got memo s = broken -> got memo i = broken.
Proof.
  intros Ho He Hs Hb. destruct (a_val _ _ walks i o e Ho He) as [HV _]. unfold got at 1. rewrite HV.
  destruct e as [a|g s0 ax d|f s0 d|f s1 s2 d]; cbn [entry_srcs] in Hs; [destruct Hs|destruct Hs as [<-|[]]|destruct Hs as [<-|[]]|]; cbn [entry_srcs map entry_feed].
  - rewrite Hb. reflexivity.
  - destruct (op1_fun m f); [|reflexivity]. rewrite Hb. reflexivity.
  - destruct (op2_fun m f); [|reflexivity]. destruct Hs as [<-|[<-|[]]]; rewrite Hb; cbn [fst snd OneThread.broken].
    + destruct (got memo s2) as [[|y ys] oky]; reflexivity.
    + destruct (got memo s1) as [[|x xs] okx]; cbn [fst snd paired_up]; [rewrite andb_false_r|]; reflexivity.
Qed.
Lemma broken_root i o : wants O dag roots i o -> got memo i = broken -> exists r, In r roots /\ got memo r = broken.
Proof.
  induction 1 as [r Hr|i o e s Hw IH He Hs]; intros Hb; [eauto|]. apply IH.
  destruct (nth i (fst st) None) as [oi|] eqn:Ei; [eapply broken_up; eauto|].
  unfold got. rewrite (proj1 (a_dom _ _ walks i) Ei). reflexivity.
Qed.
Lemma start_fails e : network O maxc garbage rz m dag roots = Err e -> exists e', one_thread O maxc garbage rz m dag roots = Err e'.
Proof.
  intros HE. assert (H : exists i en o, nth_error dag i = Some en /\ nth i (fst st) None = Some o /\ got memo i = broken).
  { unfold network in HE. assert (G : forall l x, mapM (fun ie => entry_node O maxc rz m dag st (fst ie) (snd ie)) l = Err x -> exists ie y, In ie l /\ entry_node O maxc rz m dag st (fst ie) (snd ie) = Err y).
    { clear. induction l as [|ie l IH]; intros x H; [discriminate|]. cbn [mapM] in H. destruct (entry_node O maxc rz m dag st (fst ie) (snd ie)) as [n|y] eqn:E; [|exists ie, y; simpl; auto].
      cbn [bind] in H. destruct (mapM _ l) as [ns|x']; [discriminate|]. destruct (IH x' eq_refl) as (ie' & y & H1 & H2). exists ie', y. simpl; auto. }
    destruct (mapM _ (combine (seq 0 N) dag)) as [ns|x] eqn:Em; [discriminate|]. destruct (G _ _ Em) as ([i en] & y & Hin & Hy). cbn [fst snd] in Hy.
    assert (He : nth_error dag i = Some en).
    { apply In_nth_error in Hin as [k Hk]. clear -Hk.
      revert Hk. assert (G : forall (l : list entry) a, nth_error (combine (seq a (length l)) l) k = Some (i, en) -> i = a + k /\ nth_error l k = Some en).
      { revert k. induction k as [|k IH]; intros [|x l] a H; cbn [length seq combine nth_error] in H; try discriminate; [injection H as -> ->; split; auto; lia|].
        destruct (IH l (S a) H) as [-> H2]. split; [lia|auto]. }
      intros H. destruct (G dag 0 H) as [-> H2]. auto. }
    exists i, en. unfold entry_node in Hy. destruct (nth i (fst st) None) as [o|] eqn:Eo; [|discriminate]. exists o. split; auto. split; auto.
    destruct (a_val _ _ walks i o en Eo He) as [HV _]. unfold got at 1. rewrite HV.
    destruct en as [a|g s ax d|f s d|f s1 s2 d]; try discriminate; cbn [entry_srcs map entry_feed].
    - destruct (op1_fun m f); [discriminate|reflexivity].
    - destruct (op2_fun m f); [discriminate|reflexivity]. }
  destruct H as (i & en & o & He & Ho & Hb). destruct (broken_root i o) as (r & Hr & Hbr); auto. { apply (b_wants _ _ _ _ _ (build_ok O garbage dag roots D)). auto. }
  unfold one_thread. fold memo. clear -Hr Hbr. induction roots as [|r0 rs IH]; [destruct Hr|]. cbn [mapM].
  destruct (match nth r0 memo None with Some x => kept garbage (shape (expr O dag r0)) x | None => Err EvalError end) as [d|x] eqn:E; [|cbn; eauto]. cbn [bind].
  destruct Hr as [->|Hr].
  - exfalso. unfold got in Hbr. destruct (nth r memo None) as [x|]; [|discriminate]. subst x. discriminate E.
  - destruct (IH Hr) as [e' ->]. cbn. eauto.
Qed.

(** ** The network *)
Notation B := (build_ok O garbage dag roots D).
Variable net : list (node chunk).
Hypothesis HN : network O maxc garbage rz m dag roots = Ok net.
Notation wr := (wr O dag roots).
Notation W := (network_wired O maxc garbage rz m dag roots D net HN).

Definition F (i : nat) : feed :=
  match nth i memo None with
  | Some x => x
  | None => if i <? N then ([], true) else match nth_error roots (i - N) with
                                         | Some r => sink_feed (shape (expr O dag r)) (got memo r)
                                         | None => ([], true) end
  end.
Lemma F_cached s : nth s memo None <> None -> F s = got memo s.
Proof. unfold F, got. destruct (nth s memo None); congruence. Qed.
Lemma memo_root j r : nth_error roots j = Some r -> nth r memo None <> None.
Proof.
  intros Hr E. apply (a_dom _ _ walks) in E. revert E. apply (b_roots _ _ _ _ _ B j r); auto. apply nth_error_Some. congruence.
Qed.

Lemma network_meant : meant net wr F.
Proof.
  intros i n Hn. destruct (node_at O maxc garbage rz m dag roots net HN i n Hn) as [(Hc & Hi & ->)|[(e & o & He & Ho & Hen)|(j & r & -> & Hr & ->)]].
  - unfold F. rewrite (proj1 (a_dom _ _ walks i) Hc). apply Nat.ltb_lt in Hi. rewrite Hi. reflexivity.
  - destruct (a_val _ _ walks i o e Ho He) as [HV HS]. assert (HF : F i = ef e o (map (got memo) (entry_srcs e))) by (unfold F; rewrite HV; auto).
    assert (Hw : forall p s, nth_error (entry_srcs e) p = Some s -> wr (2 * i + p) = s).
    { intros p s Hp. apply (wr_entry O garbage dag roots D i e p s); auto. congruence. }
    unfold entry_node in Hen. rewrite Ho in Hen. destruct e as [a|g s ax d|f s d|f s1 s2 d]; cbn [entry_srcs] in *.
    + apply Ok_inj' in Hen; subst n. rewrite HF. cbn [entry_feed]. apply (drawn_items a (chunk_index_gen maxc (shape a) o)).
    + apply Ok_inj' in Hen; subst n. rewrite HF. unfold cons_feed, fed. cbn [map]. replace (2 * i) with (2 * i + 0) by lia. rewrite (Hw 0 s eq_refl).
      rewrite (F_cached s) by (apply HS; simpl; auto). rewrite ends_one, rounds1. cbn [entry_feed]. symmetry. apply (agg_go _ _ _ _ _ [] None None). reflexivity.
    + destruct (op1_fun m f) as [g|] eqn:Eg; [|discriminate]. apply Ok_inj' in Hen; subst n. rewrite HF. unfold cons_feed, fed. cbn [map]. replace (2 * i) with (2 * i + 0) by lia. rewrite (Hw 0 s eq_refl).
      rewrite (F_cached s) by (apply HS; simpl; auto). rewrite ends_one, rounds1. cbn [entry_feed map]. rewrite Eg, el1_go. auto.
    + destruct (op2_fun m f) as [g|] eqn:Eg; [|discriminate]. apply Ok_inj' in Hen; subst n. rewrite HF. unfold cons_feed, fed. cbn [map].
      rewrite (Hw 1 s2 eq_refl). replace (2 * i) with (2 * i + 0) by lia. rewrite (Hw 0 s1 eq_refl).
      rewrite (F_cached s1), (F_cached s2) by (apply HS; simpl; auto). rewrite rounds2. cbn [entry_feed map]. rewrite Eg.
      destruct (got memo s1) as [xs okx], (got memo s2) as [ys oky]. cbn [fst snd]. rewrite el2_go. auto.
  - unfold sink_node. unfold cons_feed, fed. cbn [map]. rewrite (wr_sink O garbage dag roots D j r Hr), (F_cached r) by (eapply memo_root; eauto). rewrite ends_one, rounds1.
    assert (E : nth (N + j) memo None = None) by (apply nth_overflow; rewrite (a_mlen _ _ walks); lia). unfold F. rewrite E.
    replace (N + j <? N) with false by (symmetry; apply Nat.ltb_ge; lia). replace (N + j - N) with j by lia. rewrite Hr.
    symmetry. exact (sink_go (shape (expr O dag r)) _ _ [] _ eq_refl).
Qed.

(** A result thread that has finished holds what one thread would store. *)
Lemma sink_result s n room j r ok hist gt : steps (net_next net) room n (net0 net (queues dag roots)) s ->
  nth_error roots j = Some r -> sink_state dag s j = Some (LHalt ok hist gt) ->
  (if ok then stored garbage (shape (expr O dag r)) hist else Err EvalError) = kept garbage (shape (expr O dag r)) (got memo r).
Proof.
  intros Hs Hr E. pose proof (inv_reach net _ _ _ W room n s Hs) as HI. unfold sink_state in E.
  pose proof (net_sink O maxc garbage rz m dag roots net HN j r Hr) as Hn.
  destruct (follow_feed net _ _ _ W F network_meant s HI (N + j) _ _ Hn E) as (_ & H). destruct (H ok hist gt eq_refl) as [Eok Hh].
  assert (EF : F (N + j) = sink_feed (shape (expr O dag r)) (got memo r)).
  { assert (E2 : nth (N + j) memo None = None) by (apply nth_overflow; rewrite (a_mlen _ _ walks); lia). unfold F. rewrite E2.
    replace (N + j <? N) with false by (symmetry; apply Nat.ltb_ge; lia). replace (N + j - N) with j by lia. rewrite Hr. auto. }
  rewrite EF in Eok. unfold sink_feed in Eok. cbn [snd] in Eok. unfold kept.
  destruct ok.
  - rewrite Hh by (auto; discriminate). unfold sink_node, fed. cbn [ins_of map]. rewrite (wr_sink O garbage dag roots D j r Hr), (F_cached r) by (eapply memo_root; eauto). rewrite rounds1.
    unfold stored. rewrite concat_single. destruct (np_setitems _ (fst (got memo r))) as [d|e]; [|discriminate]. rewrite <- Eok. auto.
  - destruct (np_setitems _ (fst (got memo r))) as [d|e]; [|auto]. rewrite <- Eok. auto.
Qed.

Lemma threads_one s n room : steps (net_next net) room n (net0 net (queues dag roots)) s -> joined dag roots s ->
  returned O garbage dag roots s = one_thread O maxc garbage rz m dag roots.
Proof.
  intros Hs HJ. unfold returned, one_thread. fold memo.
  assert (G : forall rs a, (forall j r, nth_error rs j = Some r -> nth_error roots (a + j) = Some r) ->
     mapM (fun jr => match sink_state dag s (fst jr) with Some (LHalt true hist _) => stored garbage (shape (expr O dag (snd jr))) hist | _ => Err EvalError end) (combine (seq a (length rs)) rs)
     = mapM (fun r => match nth r memo None with Some x => kept garbage (shape (expr O dag r)) x | None => Err EvalError end) rs).
  { induction rs as [|r rs IH]; intros a H; auto. cbn [length seq combine mapM fst snd].
    pose proof (H 0 r eq_refl) as Hr. rewrite Nat.add_0_r in Hr. rewrite IH by (intros j r' Hr'; replace (S a + j) with (a + S j) by lia; apply H; auto).
    destruct (HJ a) as (ok & hist & gt & E); [apply nth_error_Some; congruence|].
    pose proof (sink_result s n room a r ok hist gt Hs Hr E) as HK. rewrite E. unfold got in HK. pose proof (memo_root a r Hr) as Hm.
    destruct (nth r memo None) as [x|]; [|congruence]. rewrite <- HK. destruct ok; auto. }
  apply (G roots 0). auto.
Qed.
End OneOK.
