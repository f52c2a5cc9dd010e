(** MemRun: the executions of an evaluation on memory and those on values are the
    same, and what that says about memory. *)
From Verif Require Import Base PySlice Keys NDArray Arrays Chunks Handlers Realise Lib Memory MemSpec MemLemmas MemReal Kahn Threads ThreadSpec MemThreads MemNet MemNodes.

Lemma number_in {A} (l : list A) : forall b ie, In ie (combine (seq b (length l)) l) -> b <= fst ie /\ nth_error l (fst ie - b) = Some (snd ie).
Proof.
  induction l as [|x l IH]; intros b ie; cbn; [tauto|]. intros [<-|HI]; cbn [fst snd]; [rewrite Nat.sub_diag; auto|].
  destruct (IH (S b) ie HI) as [H1 H2]. split; [lia|]. replace (fst ie - b) with (S (fst ie - S b)) by lia. auto.
Qed.
Lemma number_nth {A} (l : list A) : forall b p, nth_error (combine (seq b (length l)) l) p = option_map (fun x => (b + p, x)) (nth_error l p).
Proof.
  induction l as [|x l IH]; intros b [|p]; cbn; auto; [rewrite Nat.add_0_r; auto|]. rewrite IH. destruct (nth_error l p); cbn; auto. f_equal. f_equal. lia.
Qed.

Section MemRun.
Context {V : Type} (O : numops V).
Notation cell := (option V).
Notation barr := (@barr V).
Notation heap := (@heap V).
Notation chunk := (list key * nd cell)%type.
Implicit Types h H : heap.
Variable garbage : list nat -> cell.
Variable place : @concrete V -> nat.
Variable copies : bool -> @concrete V -> bool.
Variables maxc fuel : nat.
Variable m : bool.
Notation rz := (realise O maxc garbage fuel m).
Notation network := (network O maxc garbage rz m).
Notation mnetwork := (mnetwork O garbage place copies maxc fuel m).
Variable dag : list (@entry V).
Variable roots : list nat.
Variable H0 : heap.
Definition leaf_sources (e : @entry V) : list (@concrete V) := match e with EArr a => sources a | _ => [] end.
Definition srcs : list (@concrete V) := flat_map leaf_sources dag.
Hypothesis H0_in : all_in place copies srcs H0.
Notation l0 := (length H0).

Definition ent_rep (e : @entry V) : @rep V :=
  match e with
  | EAgg g s axis _ => agg_rep O (mhandler_of O m g) (handler_of O m g) (own_all O m g) axis (nth axis (shape (expr O dag s)) 0)
  | _ => any
  end.
Definition RR (i : nat) : @rep V :=
  match nth_error dag i with
  | Some e => ent_rep e
  | None => match nth_error roots (i - length dag) with Some r => sink_rep O garbage (shape (expr O dag r)) (l0 + (i - length dag)) | None => any end
  end.
Definition DD (i : nat) : @rep V :=
  match nth_error dag i with
  | Some e => any
  | None => match nth_error roots (i - length dag) with Some r => sink_rep O garbage (shape (expr O dag r)) (l0 + (i - length dag)) | None => any end
  end.
Notation node_ok := (node_ok O (used_by place srcs) (all_in place copies srcs)).
Lemma ent_moves e : moves (ent_rep e).
Proof. destruct e; try apply any_moves. apply agg_moves. Qed.
Lemma entry_ok st i e : nth_error dag i = Some e ->
  match entry_node O maxc rz m dag st i e, mentry_node O garbage place copies maxc fuel m dag st i e with
  | Ok n, Ok mn => node_ok (RR i) (DD i) n mn /\ forall own P H, loc_rel O (used_by place srcs) (all_in place copies srcs) own H (RR i) (DD i) P (length (ins_of n)) (mloc0 mn) (loc0 n)
  | Err e1, Err e2 => e1 = e2
  | _, _ => False
  end.
Proof.
  intros E. unfold RR, DD. rewrite E. unfold entry_node, mentry_node.
  assert (A : forall P H, any P H (@SNone V) []) by (intros; exact I).
  destruct (nth i (fst st) None) as [order|].
  2:{ split; [constructor; auto using any_moves, ent_moves|]. intros; constructor; auto. }
  destruct e as [a|g s axis d|o s d|o s1 s2 d].
  - assert (F : Forall2 (item_ok O (used_by place srcs) (all_in place copies srcs))
       (map (fun k => bindM (lift (getitem a k)) (fun b => bindM (mrealise O garbage place copies maxc fuel m b) (fun v => ret (k, v)))) (chunk_index_gen maxc (shape a) order))
       (map (fun k => b <- getitem a k ;; d <- rz b ;; Ok (k, d)) (chunk_index_gen maxc (shape a) order))).
    { assert (HI : incl (sources a) srcs). { intros c Hc. apply in_flat_map. exists (EArr a). split; auto. eapply nth_error_In; eauto. }
      induction (chunk_index_gen maxc (shape a) order) as [|k ks IH]; cbn [map]; constructor; auto. apply source_item. auto. }
    split; [constructor; auto using any_moves, ent_moves|]. intros; constructor; auto.
  - split; [constructor; apply agg_consumes|]. intros; constructor; [|constructor|cbn; lia]. exists None, None, None. cbn. auto.
  - destruct (op1_fun m o) as [f|]; cbn [bind]; auto. split; [constructor; apply el1_consumes|]. intros; constructor; [exact I|constructor|cbn; lia].
  - destruct (op2_fun m o) as [f|]; cbn [bind]; auto. split; [constructor; apply el2_consumes|]. intros; constructor; [exact I|constructor|cbn; lia].
Qed.
Lemma sink_ok j r : nth_error roots j = Some r ->
  node_ok (RR (length dag + j)) (DD (length dag + j)) (sink_node O garbage dag j r) (msink_node O dag l0 j r).
Proof.
  intros E. unfold RR, DD. replace (nth_error dag (length dag + j)) with (@None (@entry V)) by (symmetry; apply nth_error_None; lia).
  replace (length dag + j - length dag) with j by lia. rewrite E. constructor. apply sink_consumes.
Qed.

(** The two networks. *)
Lemma parts_ok st l : (forall ie, In ie l -> nth_error dag (fst ie) = Some (snd ie)) ->
  match mapM (fun ie => entry_node O maxc rz m dag st (fst ie) (snd ie)) l, mapM (fun ie => mentry_node O garbage place copies maxc fuel m dag st (fst ie) (snd ie)) l with
  | Ok ns, Ok mns => length ns = length l /\ length mns = length l /\ forall p ie n mn, nth_error l p = Some ie -> nth_error ns p = Some n -> nth_error mns p = Some mn ->
      entry_node O maxc rz m dag st (fst ie) (snd ie) = Ok n /\ mentry_node O garbage place copies maxc fuel m dag st (fst ie) (snd ie) = Ok mn
  | Err e1, Err e2 => e1 = e2
  | _, _ => False
  end.
Proof.
  induction l as [|ie l IH]; intros HI; cbn [mapM]; [split; auto; split; auto; intros [|p]; discriminate|].
  pose proof (entry_ok st (fst ie) (snd ie) (HI ie (or_introl eq_refl))) as HE.
  destruct (entry_node O maxc rz m dag st (fst ie) (snd ie)) as [n|] eqn:E1, (mentry_node O garbage place copies maxc fuel m dag st (fst ie) (snd ie)) as [mn|] eqn:E2; try contradiction; cbn [bind]; auto.
  specialize (IH (fun x Hx => HI x (or_intror Hx))). destruct (mapM _ l) as [ns|], (mapM _ l) as [mns|]; try contradiction; cbn [bind]; auto.
  destruct IH as (L1 & L2 & IH). cbn [length]. split; auto. split; auto. intros [|p] ie' n' mn' F1 F2 F3; cbn in *; [|eauto].
  injection F1 as <-. injection F2 as <-. injection F3 as <-. auto.
Qed.
Lemma networks :
  match network dag roots, mnetwork dag roots l0 with
  | Ok net, Ok mnet => length net = length dag + length roots /\ length mnet = length net
      /\ (forall i n mn, nth_error net i = Some n -> nth_error mnet i = Some mn -> node_ok (RR i) (DD i) n mn)
      /\ (forall i e n mn, nth_error dag i = Some e -> nth_error net i = Some n -> nth_error mnet i = Some mn ->
            forall own P H, loc_rel O (used_by place srcs) (all_in place copies srcs) own H (RR i) (DD i) P (length (ins_of n)) (mloc0 mn) (loc0 n))
      /\ (forall j r, nth_error roots j = Some r -> nth_error net (length dag + j) = Some (sink_node O garbage dag j r) /\ nth_error mnet (length dag + j) = Some (msink_node O dag l0 j r))
  | Err e1, Err e2 => e1 = e2
  | _, _ => False
  end.
Proof.
  unfold Threads.network, MemThreads.mnetwork. set (st := build O dag roots).
  assert (HI : forall ie, In ie (combine (seq 0 (length dag)) dag) -> nth_error dag (fst ie) = Some (snd ie)).
  { intros ie Hi. destruct (number_in dag 0 ie Hi) as [_ E]. rewrite Nat.sub_0_r in E. auto. }
  pose proof (parts_ok st _ HI) as HP. destruct (mapM _ _) as [ns|], (mapM _ _) as [mns|]; try contradiction; cbn [bind]; auto.
  destruct HP as (L1 & L2 & HP). assert (LL : length (combine (seq 0 (length dag)) dag) = length dag) by (rewrite combine_length, seq_length; lia).
  assert (LR : length (combine (seq 0 (length roots)) roots) = length roots) by (rewrite combine_length, seq_length; lia).
  rewrite LL in L1, L2. split; [rewrite app_length, map_length; lia|]. split; [rewrite !app_length, !map_length; lia|].
  assert (SK : forall j r, nth_error roots j = Some r -> nth_error (ns ++ map (fun jr => sink_node O garbage dag (fst jr) (snd jr)) (combine (seq 0 (length roots)) roots)) (length dag + j) = Some (sink_node O garbage dag j r)
     /\ nth_error (mns ++ map (fun jr => msink_node O dag l0 (fst jr) (snd jr)) (combine (seq 0 (length roots)) roots)) (length dag + j) = Some (msink_node O dag l0 j r)).
  { intros j r Ej. rewrite !nth_error_app2 by lia. rewrite L1, L2. replace (length dag + j - length dag) with j by lia. rewrite !nth_error_map, !number_nth, Ej. auto. }
  assert (EN : forall i e n mn, nth_error dag i = Some e -> nth_error ns i = Some n -> nth_error mns i = Some mn ->
     entry_node O maxc rz m dag st i e = Ok n /\ mentry_node O garbage place copies maxc fuel m dag st i e = Ok mn).
  { intros i e n mn E E1 E2. apply (HP i (i, e) n mn); auto. rewrite number_nth, E. auto. }
  split; [|split; auto].
  - intros i n mn E1 E2. destruct (Nat.lt_ge_cases i (length dag)) as [Hi|Hi].
    + rewrite nth_error_app1 in E1, E2 by lia. destruct (nth_error dag i) as [e|] eqn:E; [|apply nth_error_None in E; lia].
      destruct (EN i e n mn E E1 E2) as [F1 F2]. pose proof (entry_ok st i e E) as HE. rewrite F1, F2 in HE. apply HE.
    + assert (Hr : i - length dag < length roots).
      { assert (i < length (ns ++ map (fun jr => sink_node O garbage dag (fst jr) (snd jr)) (combine (seq 0 (length roots)) roots))) by (apply nth_error_Some; congruence). rewrite app_length, map_length in *. lia. }
      destruct (nth_error roots (i - length dag)) as [r|] eqn:E; [|apply nth_error_None in E; lia].
      destruct (SK _ _ E) as [F1 F2]. replace (length dag + (i - length dag)) with i in F1, F2 by lia. rewrite F1 in E1. rewrite F2 in E2. injection E1 as <-. injection E2 as <-.
      pose proof (sink_ok _ _ E) as HS. replace (length dag + (i - length dag)) with i in HS by lia. exact HS.
  - intros i e n mn E E1 E2. assert (Hi : i < length dag) by (apply nth_error_Some; congruence). rewrite nth_error_app1 in E1, E2 by lia.
    destruct (EN i e n mn E E1 E2) as [F1 F2]. pose proof (entry_ok st i e E) as HE. rewrite F1, F2 in HE. apply HE.
Qed.

(** ** Executions *)
Variable net : list (node chunk).
Hypothesis HN : network dag roots = Ok net.
Variable mnet : list (@mnode V).
Hypothesis HM : mnetwork dag roots l0 = Ok mnet.
Notation start := (mnet0 garbage mnet dag roots H0).
Notation inv := (inv O (used_by place srcs) (all_in place copies srcs) net RR DD).
Definition net_facts : length net = length dag + length roots /\ length mnet = length net
  /\ (forall i n mn, nth_error net i = Some n -> nth_error mnet i = Some mn -> node_ok (RR i) (DD i) n mn)
  /\ (forall i e n mn, nth_error dag i = Some e -> nth_error net i = Some n -> nth_error mnet i = Some mn ->
        forall own P H, loc_rel O (used_by place srcs) (all_in place copies srcs) own H (RR i) (DD i) P (length (ins_of n)) (mloc0 mn) (loc0 n))
  /\ (forall j r, nth_error roots j = Some r -> nth_error net (length dag + j) = Some (sink_node O garbage dag j r) /\ nth_error mnet (length dag + j) = Some (msink_node O dag l0 j r)).
Proof. pose proof networks as E. rewrite HN, HM in E. exact E. Qed.
Definition own0 (i l : nat) : Prop := length dag <= i < length dag + length roots /\ l = l0 + (i - length dag).
Lemma look_more H (b : @buffer V) n l : look (H ++ repeat b n) l = if l <? length H then look H l else if l <? length H + n then b else look [] l.
Proof.
  unfold look. destruct (Nat.ltb_spec l (length H)); [apply app_nth1; auto|]. rewrite app_nth2 by lia. destruct (Nat.ltb_spec l (length H + n)).
  - rewrite nth_indep with (d' := b) by (rewrite repeat_length; lia). apply nth_repeat.
  - rewrite nth_overflow; [destruct l; auto|rewrite repeat_length; lia].
Qed.
Lemma start_inv : inv own0 (fst start) (snd start) (net0 net (queues dag roots)).
Proof.
  destruct net_facts as (N1 & N2 & N3 & N4 & N5). unfold mnet0, net0. cbn [fst snd].
  match goal with |- context [H0 ++ ?x] => set (H1 := H0 ++ x) end.
  assert (L1 : length H1 = l0 + length roots) by (unfold H1; rewrite app_length, repeat_length; auto).
  constructor; cbn [fst snd].
  - intros i l [Hi ->]. lia.
  - intros i j l [Hi E1] [Hj E2]. lia.
  - intros i l [Hi ->] HU. pose proof (used_in place copies srcs H0 _ H0_in HU). lia.
  - apply (used_same place copies srcs H0); [exact H0_in|lia|]. intros l HU. pose proof (used_in place copies srcs H0 _ H0_in HU). unfold H1. rewrite look_more. destruct (Nat.ltb_spec l l0); [auto|lia].
  - rewrite !map_length. lia.
  - intros i kl l E1 E2. rewrite nth_error_map in E1, E2.
    destruct (nth_error mnet i) as [mn|] eqn:Em; [|discriminate]. destruct (nth_error net i) as [n|] eqn:En; [|discriminate]. injection E1 as <-. injection E2 as <-.
    unfold nins. rewrite En. destruct (nth_error dag i) as [e|] eqn:E; [apply (N4 i e); auto|].
    apply nth_error_None in E. assert (i < length net) by (apply nth_error_Some; congruence).
    destruct (nth_error roots (i - length dag)) as [r|] eqn:Er; [|apply nth_error_None in Er; lia].
    destruct (N5 _ _ Er) as [F1 F2]. replace (length dag + (i - length dag)) with i in F1, F2 by lia. rewrite F1 in En. rewrite F2 in Em. injection En as <-. injection Em as <-.
    constructor; [|constructor|cbn; lia]. unfold RR. replace (nth_error dag i) with (@None (@entry V)) by (symmetry; apply nth_error_None; auto). rewrite Er.
    split; auto. split; [split; [lia|auto]|]. split; [lia|]. exists (mkND (shape (expr O dag r)) garbage). split; [reflexivity|]. split; auto. intros j. cbn.
    unfold H1. rewrite look_more. destruct (Nat.ltb_spec (l0 + (i - length dag)) l0); [lia|]. destruct (Nat.ltb_spec (l0 + (i - length dag)) (l0 + length roots)); [|lia]. reflexivity.
  - clear. induction (queues dag roots); cbn; constructor; auto.
Qed.

(** One step, both ways. *)
Lemma both own s t i : inv own (fst s) (snd s) t -> length (fst (fst s)) = length mnet ->
  match mfire mnet i s, fire (net_next net) bounded i t with
  | Some s', Some t' => exists Q : nat -> Prop, (forall l, Q l -> may own (snd s) i l) /\ spares (may own (snd s) i) (snd s) (snd s') /\ inv (now own (snd s') i Q) (fst s') (snd s') t' /\ length (fst (fst s')) = length mnet
  | None, None => True
  | _, _ => False
  end.
Proof.
  destruct net_facts as (N1 & N2 & N3 & _). intros I HL. destruct s as [s H]. cbn [fst snd] in *.
  pose proof (step_ok O (used_by place srcs) (all_in place copies srcs) (used_same place copies srcs) (used_in place copies srcs) net mnet RR DD (eq_sym N2) N3 own s H t i I HL) as ST.
  destruct (mfire mnet i (s, H)) as [[s' H']|] eqn:E1, (fire (net_next net) bounded i t) as [t'|] eqn:E2; auto. destruct ST as (Q & S1 & S2 & S3). exists Q. repeat (split; auto).
  cbn [fst snd]. unfold mfire in E1. cbn [fst snd] in E1. destruct (fire _ bounded i s) as [s2|] eqn:E3; [|discriminate]. injection E1 as -> _.
  unfold fire in E3. destruct (nth_error (fst s) i); [|discriminate]. destruct (fst (mnext mnet H i m0)); try discriminate; try (injection E3 as <-; cbn [fst]; rewrite set_nth_length; auto; fail).
  - destruct (bounded _); [|discriminate]. injection E3 as <-. cbn [fst]. rewrite set_nth_length. auto.
  - destruct (nth _ _ _); [discriminate|]. injection E3 as <-. cbn [fst]. rewrite set_nth_length. auto.
Qed.
Definition state_ok (own : nat -> nat -> Prop) (s : @mgstate V) (t : gstate (msg chunk) (loc chunk)) : Prop :=
  inv own (fst s) (snd s) t /\ length (fst (fst s)) = length mnet.
(** What may not change from [s] to [s']: memory nobody owned, and whose memory it is. *)
Definition kept (own own' : nat -> nat -> Prop) (s s' : @mgstate V) : Prop :=
  length (snd s) <= length (snd s')
  /\ (forall l, l < length (snd s) -> (forall i, ~ own i l) -> look (snd s') l = look (snd s) l /\ forall i, ~ own' i l)
  /\ (forall i l, l < length (snd s) -> own' i l -> own i l).
Lemma one_kept own s s' i (Q : nat -> Prop) : (forall l, Q l -> may own (snd s) i l) -> spares (may own (snd s) i) (snd s) (snd s') -> kept own (now own (snd s') i Q) s s'.
Proof.
  intros HQ [SL SP]. split; auto. split.
  - intros l Hl HF. split; [apply SP; auto; intros [HO|HO]; [apply (HF i HO)|lia]|]. intros j. unfold now. destruct (Nat.eqb_spec j i); [|auto]. intros [HO _]. destruct (HQ l HO) as [HO'|HO']; [apply (HF i HO')|lia].
  - intros j l Hl. unfold now. destruct (Nat.eqb_spec j i); [|auto]. subst. intros [HO _]. destruct (HQ l HO); [auto|lia].
Qed.
Lemma kept_trans o1 o2 o3 s1 s2 s3 : kept o1 o2 s1 s2 -> kept o2 o3 s2 s3 -> kept o1 o3 s1 s3.
Proof.
  intros (A1 & A2 & A3) (B1 & B2 & B3). split; [lia|]. split.
  - intros l Hl HF. destruct (A2 l Hl HF) as [E1 F1]. destruct (B2 l ltac:(lia) F1) as [E2 F2]. split; [congruence|auto].
  - intros i l Hl HO. apply A3; auto. apply B3; [lia|auto].
Qed.
Lemma run_forward n s s' : msteps mnet n s s' -> forall own t, state_ok own s t ->
  exists own' t', steps (net_next net) bounded n t t' /\ state_ok own' s' t' /\ kept own own' s s'.
Proof.
  induction 1 as [s|n i s s1 s2 E HS IH]; intros own t [I HL].
  - exists own, t. split; [constructor|]. split; [split; auto|]. split; auto.
  - pose proof (both own s t i I HL) as B. rewrite E in B. destruct (fire (net_next net) bounded i t) as [t1|] eqn:Et; [|contradiction].
    destruct B as (Q & B1 & B2 & B3 & B4). destruct (IH _ t1 (conj B3 B4)) as (own' & t' & S1 & S2 & S3).
    exists own', t'. split; [econstructor; eauto|]. split; auto. eapply kept_trans; [|exact S3]. apply one_kept; auto.
Qed.
Lemma run_backward n t t' : steps (net_next net) bounded n t t' -> forall own s, state_ok own s t ->
  exists own' s', msteps mnet n s s' /\ state_ok own' s' t' /\ kept own own' s s'.
Proof.
  induction 1 as [t|n i t t1 t2 E HS IH]; intros own s [I HL].
  - exists own, s. split; [constructor|]. split; [split; auto|]. split; auto.
  - pose proof (both own s t i I HL) as B. rewrite E in B. destruct (mfire mnet i s) as [s1|] eqn:Et; [|contradiction].
    destruct B as (Q & B1 & B2 & B3 & B4). destruct (IH _ s1 (conj B3 B4)) as (own' & s' & S1 & S2 & S3).
    exists own', s'. split; [econstructor; eauto|]. split; auto. eapply kept_trans; [|exact S3]. apply one_kept; auto.
Qed.
Lemma start_ok : state_ok own0 start (net0 net (queues dag roots)).
Proof. split; [apply start_inv|]. unfold mnet0. cbn. apply map_length. Qed.

(** ** Observations *)
Lemma sinks_match own s t : state_ok own s t -> forall j, j < length roots ->
  match msink_state dag s j, sink_state dag t j with
  | Some (KHalt ok st), Some (LHalt ok' hist got) => ok = ok' /\ forall r, nth_error roots j = Some r -> ok = true ->
      st = SSink (l0 + j) /\ own (length dag + j) (l0 + j) /\ l0 + j < length (snd s) /\ exists d, stored garbage (shape (expr O dag r)) hist = Ok d /\ nd_same (read O (snd s) (whole (l0 + j) (shape (expr O dag r)))) d
  | Some (KHalt _ _), _ => False
  | _, Some (LHalt _ _ _) => False
  | _, _ => True
  end.
Proof.
  intros [I HL] j Hj. unfold msink_state, sink_state. destruct net_facts as (N1 & N2 & _).
  assert (L2 : length (fst t) = length (fst (fst s))) by (symmetry; apply I).
  destruct (nth_error (fst (fst s)) (length dag + j)) as [kl|] eqn:E1; [|apply nth_error_None in E1; lia].
  destruct (nth_error (fst t) (length dag + j)) as [l|] eqn:E2; [|apply nth_error_None in E2; lia].
  pose proof (v_locs _ _ _ _ _ _ _ _ _ _ I _ _ _ E1 E2) as HR. destruct HR as [| | |ok st hist got HD]; auto. split; auto. intros r Er Hok. specialize (HD Hok). unfold DD in HD.
  replace (nth_error dag (length dag + j)) with (@None (@entry V)) in HD by (symmetry; apply nth_error_None; lia). replace (length dag + j - length dag) with j in HD by lia. rewrite Er in HD.
  destruct HD as (-> & HP & HLn & d & Ed & HS). split; auto. split; auto. split; auto. eauto.
Qed.
Lemma joined_same own s t : state_ok own s t -> (mjoined dag roots s <-> joined dag roots t).
Proof.
  intros SO. split; intros HJ j Hj; pose proof (sinks_match own s t SO j Hj) as HS; specialize (HJ j Hj).
  - destruct HJ as (ok & st & E). rewrite E in HS. destruct (sink_state dag t j) as [[]|]; try contradiction. eauto.
  - destruct HJ as (ok & hist & got & E). rewrite E in HS. destruct (msink_state dag s j) as [[]|]; try contradiction. eauto.
Qed.
Lemma returned_same own s t : state_ok own s t -> res_rel (Forall2 (holds O (snd s))) (mreturned O dag roots s) (returned O garbage dag roots t).
Proof.
  intros SO. unfold mreturned, returned.
  assert (HI : forall jr, In jr (combine (seq 0 (length roots)) roots) -> fst jr < length roots /\ nth_error roots (fst jr) = Some (snd jr)).
  { intros jr Hi. destruct (number_in roots 0 jr Hi) as [_ E]. rewrite Nat.sub_0_r in E. split; auto. apply nth_error_Some. congruence. }
  induction (combine (seq 0 (length roots)) roots) as [|jr l IH]; cbn [mapM]; [constructor|].
  destruct (HI jr (or_introl eq_refl)) as [Hj Er]. pose proof (sinks_match own s t SO _ Hj) as HS.
  specialize (IH (fun x Hx => HI x (or_intror Hx))).
  destruct (msink_state dag s (fst jr)) as [[| | |ok st]|], (sink_state dag t (fst jr)) as [[| | |ok' hist' got']|]; try contradiction; cbn [bind res_rel]; auto.
  destruct HS as [-> HS]. destruct ok'; cbn [bind res_rel]; auto. destruct (HS _ Er eq_refl) as (-> & HO & HLn & d & Ed & HR). rewrite Ed. cbn [bind].
  destruct (mapM _ l) as [vs|], (mapM _ l) as [ds|]; cbn [res_rel bind] in *; try contradiction; auto. constructor; auto. split; auto.
Qed.
End MemRun.
