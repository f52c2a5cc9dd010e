(** ThreadBuild: the graph of nodes and queues that [_make_node] builds. *)
From Coq Require Import FinFun.
From Verif Require Import Base Lib PySlice Keys NDArray Arrays Chunks Handlers Realise Kahn Threads ThreadSpec NetLemmas NetProgress NetSeq NetFail.

(** ** Used by the thread model *)
Lemma NoDup_app_iff' {A} (a b : list A) : NoDup (a ++ b) <-> NoDup a /\ NoDup b /\ (forall x, In x a -> In x b -> False).
Proof.
  induction a as [|x a IH]; simpl.
  - split; [intros H; repeat split; auto; constructor|tauto].
  - rewrite !NoDup_cons_iff, IH, in_app_iff. split.
    + intros (H1 & H2 & H3 & H4). repeat split; auto. intros y [<-|Hy] Hb; eauto.
    + intros ((H1 & H2) & H3 & H4). repeat split; auto; [|intros; eauto]. intros [H|H]; [auto|eapply H4; eauto].
Qed.
Lemma nth_error_combine_seq {A} (l : list A) i x : nth_error l i = Some x -> nth_error (combine (seq 0 (length l)) l) i = Some (i, x).
Proof.
  assert (G : forall (l0 : list A) a i, nth_error l0 i = Some x -> nth_error (combine (seq a (length l0)) l0) i = Some (a + i, x)).
  { induction l0 as [|y r IH]; intros a [|j] H; simpl in *; try discriminate.
    - injection H as ->. rewrite Nat.add_0_r. auto.
    - rewrite (IH (S a) j H). do 2 f_equal. lia. }
  apply (G l 0).
Qed.
Lemma Forall2_nth_error {A B} (P : A -> B -> Prop) l r i x y : Forall2 P l r -> nth_error l i = Some x -> nth_error r i = Some y -> P x y.
Proof. intros H. revert i. induction H; intros [|i] H1 H2; simpl in *; try discriminate; [congruence|eauto]. Qed.
Lemma skipn_S_tl {A} n (l : list A) : skipn (S n) l = tl (skipn n l).
Proof. revert l. induction n; intros [|x l]; auto. apply (IHn l). Qed.

Section Build.
Context {V : Type} (O : numops V).
Notation cell := (option V).
Notation barr := (@barr V).
Notation chunk := (list key * nd cell)%type.
Notation entry := (@entry V).
Variable maxc : nat.
Variable garbage : list nat -> cell.
Variable rz : barr -> res (nd cell).
Variable m : bool.

Variable dag : list entry.
Variable roots : list nat.
Hypothesis D : dag_ok dag roots.
Notation N := (length dag).

Lemma srcs_short (e : entry) : length (entry_srcs e) <= 2.
Proof. destruct e; simpl; lia. Qed.

Definition slot (J : nat) (orders : list (option (list nat))) (w q : nat) : Prop :=
  (exists i e p, nth i orders None <> None /\ nth_error dag i = Some e /\ nth_error (entry_srcs e) p = Some w /\ q = 2 * i + p) \/
  (exists j, j < J /\ nth_error roots j = Some w /\ q = 2 * (N + j)).
Record binv (J : nat) (st : builder) : Prop := {
  b_len : length (fst st) = N;
  b_nodup : NoDup (map snd (snd st));
  b_edges : forall w q, In (w, q) (snd st) <-> slot J (fst st) w q;
  b_srcs : forall i e s, nth i (fst st) None <> None -> nth_error dag i = Some e -> In s (entry_srcs e) -> nth s (fst st) None <> None;
  b_roots : forall j r, j < J -> nth_error roots j = Some r -> nth r (fst st) None <> None;
  b_wants : forall i o, nth i (fst st) None = Some o -> wants O dag roots i o;
  b_order : forall pre w q post, snd st = pre ++ (w, q) :: post ->
    (forall e p, nth_error dag w = Some e -> p < length (entry_srcs e) -> In (2 * w + p) (map snd pre)) /\
    (Nat.odd q = true -> In (q - 1) (map snd pre))
}.
Lemma app_split {A} (a : list A) : forall b pre x post, a ++ b = pre ++ x :: post ->
  (exists post', a = pre ++ x :: post') \/ (exists pre', pre = a ++ pre' /\ b = pre' ++ x :: post).
Proof.
  induction a as [|y a IH]; intros b pre x post H; simpl in H.
  - right. exists pre. auto.
  - destruct pre as [|z pre]; simpl in H; injection H as -> H; [left; exists a; auto|].
    destruct (IH b pre x post H) as [(p & ->)|(p & -> & ->)]; [left; exists p; auto|right; exists p; auto].
Qed.
Lemma cached_edges J st w e p : (forall w q, In (w, q) (snd st) <-> slot J (fst st) w q) ->
  nth w (fst st) None <> None -> nth_error dag w = Some e -> p < length (entry_srcs e) -> In (2 * w + p) (map snd (snd st)).
Proof.
  intros HE Hc He Hp. destruct (nth_error (entry_srcs e) p) as [s|] eqn:Es; [|apply nth_error_None in Es; lia].
  apply in_map_iff. exists (s, 2 * w + p). split; auto. apply HE. left. exists w, e, p. auto.
Qed.
Lemma in_edges_in i srcs w q : In (w, q) (in_edges i srcs) <-> exists p, nth_error srcs p = Some w /\ q = 2 * i + p.
Proof.
  unfold in_edges. split.
  - intros H. apply In_nth_error in H as [p H]. exists p.
    assert (G : forall (l : list nat) a p, nth_error (combine l (map (fun p => 2 * i + p) (seq a (length l)))) p = Some (w, q) -> nth_error l p = Some w /\ q = 2 * i + (a + p)).
    { induction l as [|x l IH]; intros a [|p0] H0; simpl in H0; try discriminate.
      - injection H0 as -> <-. simpl. split; auto; lia.
      - apply IH in H0 as [H1 ->]. split; auto; lia. }
    apply G in H as [H1 ->]. split; auto.
  - intros (p & H & ->).
    assert (G : forall (l : list nat) a p, nth_error l p = Some w -> In (w, 2 * i + (a + p)) (combine l (map (fun p => 2 * i + p) (seq a (length l))))).
    { induction l as [|x l IH]; intros a [|p0] H0; simpl in H0; try discriminate.
      - injection H0 as ->. simpl. left. f_equal. lia.
      - right. replace (a + S p0) with (S a + p0) by lia. apply IH. auto. }
    apply (G srcs 0 p H).
Qed.
Lemma in_edges_snd i srcs : map snd (in_edges i srcs) = map (fun p => 2 * i + p) (seq 0 (length srcs)).
Proof.
  unfold in_edges. assert (G : forall (l r : list nat), length l = length r -> map snd (combine l r) = r).
  { induction l; intros [|y r] H; simpl in *; try discriminate; auto. f_equal. auto. }
  apply G. rewrite map_length, seq_length. auto.
Qed.
Lemma in_edges_odd i srcs pre w q post : length srcs <= 2 -> in_edges i srcs = pre ++ (w, q) :: post ->
  In w srcs /\ (Nat.odd q = true -> In (q - 1) (map snd pre)).
Proof.
  intros HL H. assert (Ho : Nat.odd (2 * i + 0) = false). { rewrite Nat.add_0_r, Nat.odd_mul. auto. }
  split. { assert (Hin : In (w, q) (in_edges i srcs)) by (rewrite H; apply in_elt). apply in_edges_in in Hin as (p & Hp & _). eapply nth_error_In; eauto. }
  destruct srcs as [|a [|b [|c r]]]; cbn [length] in HL; try lia; unfold in_edges in H; cbn [length seq map combine] in H.
  - destruct pre; discriminate.
  - destruct pre as [|x [|y pre]]; try discriminate. cbn [app] in H. assert (Eq : q = 2 * i + 0) by congruence. congruence.
  - destruct pre as [|x [|y [|z pre]]]; try discriminate.
    + cbn [app] in H. assert (Eq : q = 2 * i + 0) by congruence. congruence.
    + cbn [app] in H. assert (Ex : x = (a, 2 * i + 0)) by congruence. assert (Eq : q = 2 * i + 1) by congruence. subst. intros _. left. cbn [snd]. lia.
Qed.
Lemma set_none i (o : list nat) l k : nth k (set_nth i (Some o) l) None <> None -> k = i \/ nth k l None <> None.
Proof. intros H. destruct (Nat.eq_dec k i) as [->|Hk]; auto. rewrite nth_set_nth_neq in H by auto. auto. Qed.

Lemma make_node_ok J : forall f i order st, i < f -> i < N -> binv J st -> wants O dag roots i order ->
  let st' := make_node f dag i order st in
  binv J st' /\ nth i (fst st') None <> None /\
  (forall k, nth k (fst st) None <> None -> nth k (fst st') None = nth k (fst st) None) /\
  (forall k, i < k -> nth k (fst st') None = nth k (fst st) None).
Proof.
  induction f as [|f IH]; intros i order st Hif Hi B Hw; [lia|]. cbn [make_node].
  destruct (nth i (fst st) None) as [oi|] eqn:Eo. { cbn zeta. split; [exact B|]. repeat split; auto; congruence. }
  destruct (nth_error dag i) as [e|] eqn:Ee; [|apply nth_error_None in Ee; lia]. cbn zeta.
  assert (Hsrc : forall s, In s (entry_srcs e) -> s < i) by (intros s Hs; apply (proj1 D i e s); auto).
  assert (G : forall ss st, (forall s, In s ss -> In s (entry_srcs e)) -> binv J st -> nth i (fst st) None = None ->
     let st' := fold_left (fun st s => make_node f dag s (src_order e order) st) ss st in
     binv J st' /\ (forall s, In s ss -> nth s (fst st') None <> None) /\
     (forall k, nth k (fst st) None <> None -> nth k (fst st') None = nth k (fst st) None) /\
     (forall k, i <= k -> nth k (fst st') None = nth k (fst st) None)).
  { clear st B Eo. induction ss as [|s ss IHs]; intros st Hss B Hn; cbn zeta; cbn [fold_left]; [split; [exact B|]; split; [intros s0 []|]; split; auto|].
    assert (Hs : In s (entry_srcs e)) by (apply Hss; simpl; auto). pose proof (Hsrc s Hs) as Hlt.
    destruct (IH s (src_order e order) st ltac:(lia) ltac:(lia) B (wants_src _ _ _ _ _ _ _ Hw Ee Hs)) as (B1 & C1 & K1 & L1).
    set (st1 := make_node f dag s (src_order e order) st) in *.
    destruct (IHs st1) as (B2 & C2 & K2 & L2); auto. { intros s0 Hs0. apply Hss. simpl; auto. } { rewrite L1; auto. }
    split; auto. split; [|split].
    - intros s0 [<-|Hs0]; auto. rewrite K2; auto.
    - intros k Hk. rewrite K2, K1; auto. rewrite K1; auto.
    - intros k Hk. rewrite L2, L1; auto. lia. }
  destruct (G (entry_srcs e) st (fun s H => H) B Eo) as (B1 & C1 & K1 & L1). cbn zeta in B1, C1, K1, L1.
  set (st1 := fold_left _ (entry_srcs e) st) in *. cbn [fst snd].
  assert (Hi1 : i < length (fst st1)) by (rewrite (b_len _ _ B1); auto).
  assert (Hnone : nth i (fst st1) None = None) by (rewrite L1; auto).
  assert (Hge : forall k, nth k (set_nth i (Some order) (fst st1)) None <> None <-> k = i \/ nth k (fst st1) None <> None).
  { intros k. split; [apply set_none|]. intros [->|Hk]; [rewrite nth_set_nth_eq by auto; discriminate|].
    destruct (Nat.eq_dec k i) as [->|Hki]; [congruence|]. rewrite nth_set_nth_neq; auto. }
  split; [constructor; cbn [fst snd]|split; [|split]].
  - rewrite set_nth_length. apply (b_len _ _ B1).
  - rewrite map_app, in_edges_snd. apply NoDup_app_iff'.
    split; [apply (b_nodup _ _ B1)|]. split; [apply Injective_map_NoDup; [intros a b; lia|apply seq_NoDup]|].
    intros q Hq1 Hq2. apply in_map_iff in Hq2 as (p & <- & Hp). apply in_seq in Hp. pose proof (srcs_short e) as Hsh.
    apply in_map_iff in Hq1 as ((w & q) & Hq & Hin). simpl in Hq. subst q. apply (b_edges _ _ B1) in Hin as [(i' & e' & p' & Hc & He' & Hp' & Eq)|(j & Hj & Hr & Eq)].
    + pose proof (srcs_short e'). assert (p' < length (entry_srcs e')) by (apply nth_error_Some; congruence). assert (i' = i) by lia. subst i'. congruence.
    + lia.
  - intros w q. rewrite in_app_iff, (b_edges _ _ B1), in_edges_in. unfold slot. split.
    + intros [[(i' & e' & p' & Hc & He' & Hp' & ->)|H]|(p & Hp & ->)]; auto.
      * left. exists i', e', p'. rewrite Hge. auto.
      * left. exists i, e, p. rewrite Hge. auto.
    + intros [(i' & e' & p' & Hc & He' & Hp' & ->)|H]; auto. apply Hge in Hc as [->|Hc].
      * right. exists p'. split; auto. congruence.
      * left. left. exists i', e', p'. auto.
  - intros i' e' s Hc He' Hs. apply Hge. apply Hge in Hc as [->|Hc].
    + right. apply C1. congruence.
    + right. apply (b_srcs _ _ B1 i' e'); auto.
  - intros j r Hj Hr. apply Hge. right. apply (b_roots _ _ B1 j); auto.
  - intros k o Hk. destruct (Nat.eq_dec k i) as [->|Hki].
    + rewrite nth_set_nth_eq in Hk by auto. injection Hk as <-. auto.
    + rewrite nth_set_nth_neq in Hk by auto. apply (b_wants _ _ B1); auto.
  - intros pre w q post H. apply app_split in H as [(p' & H)|(p' & -> & H)]; [apply (b_order _ _ B1 _ _ _ _ H)|].
    apply in_edges_odd in H as [H1 H2]; [|apply srcs_short]. rewrite map_app. split.
    + intros e' p He' Hp. apply in_or_app. left. apply (cached_edges J st1 w e' p (b_edges _ _ B1)); auto.
    + intros Hq. apply in_or_app. right. auto.
  - apply Hge; auto.
  - intros k Hk. destruct (Nat.eq_dec k i) as [->|Hki]; [congruence|]. rewrite nth_set_nth_neq by auto. apply K1; auto.
  - intros k Hk. rewrite nth_set_nth_neq by lia. apply L1. lia.
Qed.

Lemma make_all_ok rs : forall J st, skipn J roots = rs -> J <= length roots -> binv J st -> binv (length roots) (make_all O dag rs J st).
Proof.
  induction rs as [|r rs IH]; intros J st Hs HJ B.
  - simpl. assert (J = length roots). { apply (f_equal (@length nat)) in Hs. rewrite skipn_length in Hs. simpl in Hs. lia. } subst; auto.
  - cbn [make_all]. cbn zeta.
    assert (Hr : nth_error roots J = Some r). { rewrite <- (firstn_skipn J roots), Hs, nth_error_app2; rewrite firstn_length, Nat.min_l by auto; auto. rewrite Nat.sub_diag. auto. }
    assert (HJ' : J < length roots) by (apply nth_error_Some; congruence).
    assert (Hrd : r < N) by (apply (proj2 (proj2 D)); eapply nth_error_In; eauto).
    destruct (make_node_ok J (S r) r (seq 0 (ndim (expr O dag r))) st ltac:(lia) Hrd B (wants_root _ _ _ r (nth_error_In _ _ Hr))) as (B1 & C1 & K1 & _).
    set (st1 := make_node (S r) dag r _ st) in *. apply IH; [|lia|].
    + rewrite skipn_S_tl, Hs. auto.
    + constructor; cbn [fst snd]; try apply B1.
      * rewrite map_app. simpl. apply NoDup_app_iff'. split; [apply B1|]. split; [repeat constructor; simpl; tauto|].
        intros q Hq1 [<-|[]]. apply in_map_iff in Hq1 as ((w & q) & Hq & Hin). simpl in Hq. subst q.
        apply (b_edges _ _ B1) in Hin as [(i' & e' & p' & Hc & He' & Hp' & Eq)|(j & Hj & _ & Eq)]; [|lia].
        pose proof (srcs_short e'). assert (p' < length (entry_srcs e')) by (apply nth_error_Some; congruence).
        assert (i' < N) by (apply nth_error_Some; congruence). lia.
      * intros w q. rewrite in_app_iff, (b_edges _ _ B1). unfold slot. simpl. split.
        -- intros [[H|(j & Hj & H1 & H2)]|[H|[]]]; auto.
           ++ right. exists j. split; auto.
           ++ injection H as <- <-. right. exists J. split; auto.
        -- intros [H|(j & Hj & H1 & H2)]; auto. destruct (Nat.eq_dec j J) as [->|Hn].
           ++ right. left. f_equal; [congruence|lia].
           ++ left. right. exists j. split; auto. lia.
      * intros j r' Hj Hr'. destruct (Nat.eq_dec j J) as [->|Hn]; [congruence|]. apply (b_roots _ _ B1 j); auto. lia.
      * intros pre w q post H. apply app_split in H as [(p' & H)|(p' & -> & H)]; [apply (b_order _ _ B1 _ _ _ _ H)|].
        destruct p' as [|x [|y p']]; try discriminate. cbn [app] in H. assert (Ew : w = r) by congruence. assert (Eq : q = 2 * (N + J)) by congruence. clear H. subst w q. rewrite app_nil_r. split.
        -- intros e' p He' Hp. apply (cached_edges J st1 r e' p (b_edges _ _ B1)); auto.
        -- rewrite Nat.odd_mul. simpl. discriminate.
Qed.
Lemma nth_none_repeat i n : nth i (repeat (@None (list nat)) n) None = None.
Proof. revert i. induction n; intros [|i]; simpl; auto. Qed.
Lemma build_ok : binv (length roots) (build O dag roots).
Proof.
  unfold build. apply make_all_ok; auto; [lia|]. constructor; cbn [fst snd].
  - apply repeat_length.
  - constructor.
  - intros w q. split; [intros []|]. intros [(i & e & p & Hc & _)|(j & Hj & _)]; [|lia]. rewrite nth_none_repeat in Hc. congruence.
  - intros i e s Hc. rewrite nth_none_repeat in Hc. congruence.
  - intros j r Hj. lia.
  - intros i o H. rewrite nth_none_repeat in H. discriminate.
  - intros pre w q post H. destruct pre; discriminate.
Qed.
Notation st := (build O dag roots).

(** The place of a queue in the order of registration. *)
Definition age (q : nat) : nat := match index_of q (map snd (snd st)) with Some k => k | None => 0 end.
Lemma index_of_app x (l r : list nat) : ~ In x l -> index_of x (l ++ x :: r) = Some (length l).
Proof.
  induction l as [|y l IH]; intros H; simpl in *. { rewrite Nat.eqb_refl. auto. }
  destruct (Nat.eqb_spec x y) as [->|Hn]; [tauto|]. rewrite IH; tauto.
Qed.
Lemma age_before pre w q post q' : snd st = pre ++ (w, q) :: post -> In q' (map snd pre) -> age q' < age q.
Proof.
  intros E Hin. pose proof (b_nodup _ _ build_ok) as ND. unfold age. rewrite E in ND |- *. rewrite map_app in ND |- *. cbn [map snd] in ND |- *.
  rewrite index_of_app by (apply NoDup_remove_2 in ND; rewrite in_app_iff in ND; tauto). rewrite map_length.
  apply in_split in Hin as (a & b & Eb). rewrite Eb in ND |- *. rewrite <- app_assoc in ND |- *. cbn [app] in ND |- *.
  rewrite index_of_app by (apply NoDup_remove_2 in ND; rewrite in_app_iff in ND; tauto).
  apply (f_equal (@length nat)) in Eb. rewrite map_length, app_length in Eb. simpl in Eb. lia.
Qed.
Lemma age_in w q e p : In (w, q) (snd st) -> nth_error dag w = Some e -> p < length (entry_srcs e) -> age (2 * w + p) < age q.
Proof.
  intros Hin He Hp. apply in_split in Hin as (pre & post & E). apply (age_before pre w q post); auto.
  apply (proj1 (b_order _ _ build_ok _ _ _ _ E) e p He Hp).
Qed.
Lemma age_pair w i : In (w, 2 * i + 1) (snd st) -> age (2 * i) < age (2 * i + 1).
Proof.
  intros Hin. apply in_split in Hin as (pre & post & E). apply (age_before pre w _ post); auto.
  replace (2 * i) with (2 * i + 1 - 1) by lia. apply (proj2 (b_order _ _ build_ok _ _ _ _ E)).
  rewrite Nat.odd_add, Nat.odd_mul. auto.
Qed.
Lemma age_outs i j j' q q' : nth_error (outs (snd st) i) j = Some q -> nth_error (outs (snd st) i) j' = Some q' -> j < j' -> age q < age q'.
Proof.
  intros H1 H2 Hj. apply nth_error_split in H2 as (a & b & E & HL).
  assert (Hq : In q a). { rewrite E, nth_error_app1 in H1 by lia. eapply nth_error_In; eauto. }
  assert (G : forall es a b, map snd (filter (fun e : nat * nat => fst e =? i) es) = a ++ q' :: b ->
    exists pre post, es = pre ++ (i, q') :: post /\ a = map snd (filter (fun e => fst e =? i) pre)).
  { clear. induction es as [|[w x] es IH]; intros a b E; simpl in E; [destruct a; discriminate|].
    destruct (Nat.eqb_spec w i) as [->|Hn].
    - destruct a as [|y a]; simpl in E; injection E as -> E.
      + exists [], es. auto.
      + destruct (IH _ _ E) as (pre & post & -> & ->). exists ((i, y) :: pre), post. simpl. rewrite Nat.eqb_refl. auto.
    - destruct (IH _ _ E) as (pre & post & -> & ->). exists ((w, x) :: pre), post. simpl. apply Nat.eqb_neq in Hn. rewrite Hn. auto. }
  destruct (G _ _ _ E) as (pre & post & Es & Ea). apply (age_before pre i q' post q Es). rewrite Ea in Hq.
  apply in_map_iff in Hq as (x & <- & Hx). apply filter_In in Hx as [Hx _]. apply in_map. auto.
Qed.

(** ** The nodes *)
Variable net : list (node chunk).
Hypothesis HN : network O maxc garbage rz m dag roots = Ok net.

Lemma net_entry i e : nth_error dag i = Some e -> exists n, nth_error net i = Some n /\ entry_node O maxc rz m dag st i e = Ok n.
Proof.
  intros He. unfold network in HN. cbv zeta in HN.
  destruct (mapM (fun ie => entry_node O maxc rz m dag st (fst ie) (snd ie)) (combine (seq 0 (length dag)) dag)) as [ns|] eqn:Em; [|discriminate].
  injection HN as <-. apply mapM_ok in Em.
  assert (Hc : nth_error (combine (seq 0 (length dag)) dag) i = Some (i, e)) by (apply nth_error_combine_seq; auto).
  assert (Hi : i < length ns). { pose proof (Forall2_length _ _ _ Em) as H. rewrite combine_length, seq_length in H. assert (i < length dag) by (apply nth_error_Some; congruence). lia. }
  destruct (nth_error ns i) as [n|] eqn:En; [|apply nth_error_None in En; lia]. exists n. rewrite nth_error_app1 by auto. split; auto.
  apply (Forall2_nth_error _ _ _ i _ _ Em Hc En).
Qed.
Lemma net_sink j r : nth_error roots j = Some r -> nth_error net (N + j) = Some (sink_node O garbage dag j r).
Proof.
  intros Hr. unfold network in HN. cbv zeta in HN.
  destruct (mapM (fun ie => entry_node O maxc rz m dag st (fst ie) (snd ie)) (combine (seq 0 (length dag)) dag)) as [ns|] eqn:Em; [|discriminate].
  injection HN as <-. apply mapM_ok in Em. assert (Hl : length ns = N).
  { pose proof (Forall2_length _ _ _ Em) as H. rewrite combine_length, seq_length in H. lia. }
  rewrite nth_error_app2 by lia. rewrite Hl. replace (N + j - N) with j by lia. rewrite nth_error_map, (nth_error_combine_seq roots j r Hr). auto.
Qed.
Lemma net_length : length net = N + length roots.
Proof.
  unfold network in HN. cbv zeta in HN.
  destruct (mapM (fun ie => entry_node O maxc rz m dag st (fst ie) (snd ie)) (combine (seq 0 (length dag)) dag)) as [ns|] eqn:Em; [|discriminate].
  injection HN as <-. apply mapM_ok in Em. pose proof (Forall2_length _ _ _ Em) as H. rewrite combine_length, seq_length in H.
  rewrite app_length, map_length, combine_length, seq_length. lia.
Qed.
(** Each node is that of an entry that is used, an idle one, or a result node. *)
Lemma net_cases i n : nth_error net i = Some n ->
  (exists e, nth_error dag i = Some e /\ entry_node O maxc rz m dag st i e = Ok n) \/
  (exists j r, i = N + j /\ nth_error roots j = Some r /\ n = sink_node O garbage dag j r).
Proof.
  intros Hn. destruct (Nat.lt_ge_cases i N) as [Hi|Hi].
  - destruct (nth_error dag i) as [e|] eqn:Ee; [|apply nth_error_None in Ee; lia].
    left. exists e. split; auto. destruct (net_entry i e Ee) as (n' & H1 & H2). congruence.
  - right. assert (Hl : i < N + length roots) by (rewrite <- net_length; apply nth_error_Some; congruence).
    exists (i - N). destruct (nth_error roots (i - N)) as [r|] eqn:Er; [|apply nth_error_None in Er; lia]. exists r.
    split; [lia|]. split; auto. pose proof (net_sink (i - N) r Er) as H. replace (N + (i - N)) with i in H by lia. congruence.
Qed.

Lemma entry_outs i e n : entry_node O maxc rz m dag st i e = Ok n ->
  (nth i (fst st) None = None /\ n = NProd [] []) \/
  (nth i (fst st) None <> None /\ outs_of n = outs (snd st) i /\ ins_of n = map (fun p => 2 * i + p) (seq 0 (length (entry_srcs e)))).
Proof.
  unfold entry_node. destruct (nth i (fst st) None) as [o|] eqn:Eo.
  - intros H. right. split; [discriminate|]. destruct e as [a|g s ax d|o1 s d|o2 s1 s2 d].
    + injection H as <-. auto.
    + injection H as <-. cbn [outs_of ins_of entry_srcs length seq map]. split; [reflexivity|]. f_equal; lia.
    + destruct (op1_fun m o1); [|discriminate]. injection H as <-. cbn [outs_of ins_of entry_srcs length seq map]. split; [reflexivity|]. f_equal; lia.
    + destruct (op2_fun m o2); [|discriminate]. injection H as <-. cbn [outs_of ins_of entry_srcs length seq map]. split; [reflexivity|]. f_equal; try lia; f_equal; lia.
  - intros H. injection H as <-. auto.
Qed.
Lemma in_outs i q : In q (outs (snd st) i) <-> In (i, q) (snd st).
Proof.
  unfold outs. rewrite in_map_iff. split.
  - intros ((w & q') & <- & H). apply filter_In in H as [H1 H2]. apply Nat.eqb_eq in H2. simpl in *. subst. auto.
  - intros H. exists (i, q). split; auto. apply filter_In. split; auto. simpl. apply Nat.eqb_refl.
Qed.
Lemma outs_nodup i : NoDup (outs (snd st) i).
Proof.
  unfold outs. pose proof (b_nodup _ _ build_ok) as H. induction (snd st) as [|[w q] es IH]; simpl; [constructor|].
  simpl in H. apply NoDup_cons_iff in H as [H1 H2]. destruct (w =? i); auto. simpl. constructor; auto.
  intros Hin. apply H1. apply in_map_iff in Hin as (x & <- & Hx). apply filter_In in Hx as [Hx _]. apply in_map. auto.
Qed.

(** Reader and writer of a queue. *)
Definition rd (q : nat) : nat := q / 2.
Definition wr (q : nat) : nat := match find (fun e => snd e =? q) (snd st) with Some e => fst e | None => 0 end.
Lemma rd_eq i p : p < 2 -> rd (2 * i + p) = i.
Proof. intros Hp. unfold rd. rewrite Nat.mul_comm, Nat.div_add_l, Nat.div_small by lia. lia. Qed.
Lemma wr_eq w q : In (w, q) (snd st) -> wr q = w.
Proof.
  unfold wr. pose proof (b_nodup _ _ build_ok) as H. induction (snd st) as [|[w' q'] es IH]; intros Hin; [destruct Hin|].
  simpl in H. apply NoDup_cons_iff in H as [H1 H2]. simpl. destruct (Nat.eqb_spec q' q) as [->|Hq].
  - destruct Hin as [E|Hin]; [injection E as ->; auto|]. exfalso. apply H1. apply in_map_iff. exists (w, q). auto.
  - destruct Hin as [E|Hin]; [injection E; congruence|]. auto.
Qed.
(** The writer of input [p] of an entry is its [p]th source. *)
Lemma wr_entry i e p s : nth i (fst st) None <> None -> nth_error dag i = Some e -> nth_error (entry_srcs e) p = Some s -> wr (2 * i + p) = s.
Proof. intros Hc He Hp. apply wr_eq. apply (b_edges _ _ build_ok). left. eauto 10. Qed.
Lemma wr_sink j r : nth_error roots j = Some r -> wr (2 * (N + j)) = r.
Proof. intros Hr. apply wr_eq. apply (b_edges _ _ build_ok). right. exists j. repeat split; auto. apply nth_error_Some. congruence. Qed.

Lemma cached_bound i : nth i (fst st) None <> None -> i < N.
Proof. intros H. destruct (Nat.lt_ge_cases i N); auto. rewrite nth_overflow in H; [congruence|]. rewrite (b_len _ _ build_ok). auto. Qed.
Lemma cached_outs w q : In (w, q) (snd st) -> nth w (fst st) None <> None.
Proof.
  intros H. apply (b_edges _ _ build_ok) in H as [(i & e & p & Hc & He & Hp & _)|(j & Hj & Hr & _)].
  - apply (b_srcs _ _ build_ok i e w); auto. eapply nth_error_In; eauto.
  - apply (b_roots _ _ build_ok j); auto.
Qed.
Lemma writer_node w q : In (w, q) (snd st) -> exists n, nth_error net w = Some n /\ In q (outs_of n).
Proof.
  intros H. pose proof (cached_outs w q H) as Hc. pose proof (cached_bound w Hc) as Hw.
  destruct (nth_error dag w) as [e|] eqn:Ee; [|apply nth_error_None in Ee; lia]. destruct (net_entry w e Ee) as (n & Hn & Hen).
  exists n. split; auto. destruct (entry_outs w e n Hen) as [[H1 _]|(_ & -> & _)]; [congruence|]. apply in_outs. auto.
Qed.

Lemma network_wired : wired net (queues dag roots) wr rd.
Proof.
  assert (Hshort : forall e p w, nth_error (@entry_srcs V e) p = Some w -> p < 2).
  { intros e p w H. pose proof (srcs_short e). assert (p < length (entry_srcs e)) by (apply nth_error_Some; congruence). lia. }
  assert (Hedge : forall w q, In (w, q) (snd st) -> q < queues dag roots /\ w < rd q /\ exists n', nth_error net (rd q) = Some n' /\ In q (ins_of n')).
  { intros w q H. apply (b_edges _ _ build_ok) in H as [(i & e & p & Hc & He & Hp & ->)|(j & Hj & Hr & ->)].
    - pose proof (Hshort e p w Hp) as H2. rewrite rd_eq by auto. assert (i < N) by (apply nth_error_Some; congruence).
      split; [unfold queues; lia|]. split; [apply (proj1 D i e w); auto; eapply nth_error_In; eauto|].
      destruct (net_entry i e He) as (n & Hn & Hen). exists n. split; auto. destruct (entry_outs i e n Hen) as [[H1 _]|(_ & _ & ->)]; [congruence|].
      apply in_map_iff. exists p. split; auto. apply in_seq. assert (p < length (entry_srcs e)) by (apply nth_error_Some; congruence). lia.
    - replace (2 * (N + j)) with (2 * (N + j) + 0) by lia. rewrite rd_eq by lia. split; [unfold queues; lia|].
      split; [assert (w < N) by (apply (proj2 (proj2 D)); eapply nth_error_In; eauto); lia|].
      exists (sink_node O garbage dag j w). split; [apply net_sink; auto|]. simpl. lia. }
  constructor.
  - intros i n q Hn Hq. assert (Hin : In (i, q) (snd st)).
    { destruct (net_cases i n Hn) as [(e & He & Hen)|(j & r & -> & Hr & ->)]; [|destruct Hq].
      destruct (entry_outs i e n Hen) as [[_ ->]|(_ & Ho & _)]; [destruct Hq|]. rewrite Ho in Hq. apply in_outs. auto. }
    destruct (Hedge i q Hin) as (H1 & H2 & H3). split; [apply wr_eq; auto|]. auto.
  - intros i n q Hn Hq. assert (Hin : exists w, In (w, q) (snd st) /\ rd q = i).
    { destruct (net_cases i n Hn) as [(e & He & Hen)|(j & r & -> & Hr & ->)].
      - destruct (entry_outs i e n Hen) as [[_ ->]|(Hc & _ & Hi)]; [destruct Hq|]. rewrite Hi in Hq. apply in_map_iff in Hq as (p & <- & Hp). apply in_seq in Hp.
        destruct (nth_error (entry_srcs e) p) as [w|] eqn:Ew; [|apply nth_error_None in Ew; lia]. exists w. split; [|apply rd_eq; eapply Hshort; eauto].
        apply (b_edges _ _ build_ok). left. eauto 10.
      - simpl in Hq. destruct Hq as [<-|[]]. exists r. split.
        + apply (b_edges _ _ build_ok). right. exists j. split; [apply nth_error_Some; congruence|]. split; auto.
        + replace (N + j + (N + j + 0)) with (2 * (N + j) + 0) by lia. apply rd_eq. lia. }
    destruct Hin as (w & Hin & Hr). destruct (Hedge w q Hin) as (H1 & H2 & _). rewrite Hr in H2. rewrite (wr_eq w q Hin).
    split; auto. split; auto. split; auto. apply writer_node. auto.
  - intros i n Hn. destruct (net_cases i n Hn) as [(e & He & Hen)|(j & r & -> & Hr & ->)]; [|constructor].
    destruct (entry_outs i e n Hen) as [[_ ->]|(_ & -> & _)]; [constructor|apply outs_nodup].
  - intros i n Hn. destruct (net_cases i n Hn) as [(e & He & Hen)|(j & r & -> & Hr & ->)]; [|repeat constructor; simpl; tauto].
    destruct (entry_outs i e n Hen) as [[_ ->]|(_ & _ & ->)]; [constructor|]. apply Injective_map_NoDup; [intros a b; lia|apply seq_NoDup].
  - intros i e0 f ins o Hn. destruct (net_cases i _ Hn) as [(e & He & Hen)|(j & r & -> & Hr & E)]; [|injection E as _ _ -> _; discriminate].
    unfold entry_node in Hen. destruct (nth i (fst st) None); [|discriminate]. destruct e as [a|g s ax d|o1 s d|o2 s1 s2 d]; try discriminate.
    + injection Hen as _ _ <- _. discriminate.
    + destruct (op1_fun m o1); [|discriminate]. injection Hen as _ _ <- _. discriminate.
    + destruct (op2_fun m o2); [|discriminate]. injection Hen as _ _ <- _. discriminate.
Qed.
End Build.
