(** Property C63: the threads of an evaluation share memory without interfering.

    [dag], [roots]: the Array objects of the evaluation and the requested ones, as
    in PropThreads.v; [H0] the memory before it, in which [place c] is the array a
    source wraps.  [start]: the threads made for it, with the result arrays
    allocated behind [H0] (MemThreads.v).  [msteps mnet n s s']: [n] steps of the
    threads, in any order, lead from [s] to [s']; [snd s] is the memory in [s]. *)
From Verif Require Import Base PySlice Keys NDArray Arrays Chunks Handlers Realise Spec Supported Lib GetBase HandlerLemmas RealOps Realisable RealOK RealiseOK Memory MemSpec MemLemmas MemReal Kahn Threads ThreadSpec ThreadTree PropThreads MemThreads MemNet MemNodes MemRun Samples PropMemory.

(** The arrays a thread is reading from or about to send on. *)
Inductive held {V} (mc : mchunk) : @mloc V -> Prop :=
| held_got st got : In (MChunk mc) got -> held mc (KGet st got)
| held_put j k : held mc (KPut (MChunk mc) j k)
| held_later x j k : held mc k -> held mc (KPut x j k).
(** The arrays on some queue or held by some thread. *)
Definition in_flight {V} (s : @mgstate V) (mc : mchunk) : Prop :=
  (exists q, In (MChunk mc) (nth q (snd (fst s)) [])) \/ (exists i kl, nth_error (fst (fst s)) i = Some kl /\ held mc kl).
(** A step writes to the array at [l]: creates or changes it. *)
Definition writes {V} (s s' : @mgstate V) (l : nat) : Prop :=
  l < length (snd s') /\ (length (snd s) <= l \/ look (snd s') l <> look (snd s) l).

Section MemThreadsProp.
Context {V : Type} (O : numops V).
Notation cell := (option V).
Notation barr := (@barr V).
Notation heap := (@heap V).
Implicit Types h H : heap.
Variable garbage : list nat -> cell.
Variable place : @concrete V -> nat.
Variable copies : bool -> @concrete V -> bool.
Variables maxc fuel : nat.
Variable m : bool.
Notation rz := (realise O maxc garbage fuel m).
Notation network := (network O maxc garbage rz m).
Notation mnetwork := (mnetwork O garbage place copies maxc fuel m).

Section Graph.
Variable dag : list (@entry V).
Variable roots : list nat.
Variable H0 : heap.
Hypothesis sources_here : forall a, In (EArr a) dag -> sources_in place copies H0 a.
Lemma here : all_in place copies (srcs dag) H0.
Proof.
  intros c Hc. apply in_flat_map in Hc as (e & He & Hc). destruct e as [a| | |]; cbn in Hc; try contradiction. apply (sources_here a He c Hc).
Qed.

(** Threads exchanging arrays in memory do exactly what threads exchanging values
    do (Threads.v), under every schedule: they start or fail to start alike; they
    make the same steps; evaluation has returned in one iff in the other, and what it
    returns has the same values. *)
Definition alike net mnet (s : @mgstate V) (t : gstate (msg (list key * nd cell)) (loc (list key * nd cell))) : Prop :=
  (mjoined dag roots s <-> joined dag roots t)
  /\ match mreturned O dag roots s, returned O garbage dag roots t with
     | Ok vs, Ok ds => Forall2 (fun v d => exists_in (snd s) v /\ same_values (read O (snd s) v) d) vs ds
     | Err e1, Err e2 => e1 = e2
     | _, _ => False
     end
  /\ forall i, mfire mnet i s = None <-> fire (net_next net) bounded i t = None.
Theorem C63_same_runs :
  match network dag roots, mnetwork dag roots (length H0) with
  | Ok net, Ok mnet =>
      (forall n s, msteps mnet n (mnet0 garbage mnet dag roots H0) s -> exists t, steps (net_next net) bounded n (net0 net (queues dag roots)) t /\ alike net mnet s t)
      /\ (forall n t, steps (net_next net) bounded n (net0 net (queues dag roots)) t -> exists s, msteps mnet n (mnet0 garbage mnet dag roots H0) s /\ alike net mnet s t)
  | Err e1, Err e2 => e1 = e2
  | _, _ => False
  end.
Proof.
  pose proof (networks O garbage place copies maxc fuel m dag roots H0) as HNW.
  destruct (network dag roots) as [net|] eqn:HN, (mnetwork dag roots (length H0)) as [mnet|] eqn:HM; try contradiction; auto. clear HNW.
  pose proof (start_ok O garbage place copies maxc fuel m dag roots H0 here net HN mnet HM) as ST.
  assert (AL : forall own s t, state_ok O garbage place copies m dag roots H0 net mnet own s t -> alike net mnet s t).
  { intros own s t SO. split; [|split].
    - eapply joined_same; eauto.
    - pose proof (returned_same O garbage place copies maxc fuel m dag roots H0 net HN mnet HM own s t SO) as R.
      destruct (mreturned O dag roots s), (returned O garbage dag roots t); cbn in R; auto.
    - intros i. destruct SO as [I L]. pose proof (both O garbage place copies maxc fuel m dag roots H0 net HN mnet HM own s t i I L) as B.
      destruct (mfire mnet i s), (fire (net_next net) bounded i t); try contradiction; split; congruence. }
  split.
  - intros n s HS. destruct (run_forward O garbage place copies maxc fuel m dag roots H0 net HN mnet HM n _ s HS _ _ ST) as (own' & t' & S1 & S2 & _). eauto.
  - intros n t HS. destruct (run_backward O garbage place copies maxc fuel m dag roots H0 net HN mnet HM n _ t HS _ _ ST) as (own' & s' & S1 & S2 & _). eauto.
Qed.

Variable mnet : list (@mnode V).
Hypothesis made : mnetwork dag roots (length H0) = Ok mnet.
Notation start := (mnet0 garbage mnet dag roots H0).
Lemma val_net : exists net, network dag roots = Ok net.
Proof.
  pose proof (networks O garbage place copies maxc fuel m dag roots H0) as HNW. rewrite made in HNW. destruct (network dag roots) as [net|]; [eauto|contradiction].
Qed.
Notation SOK net := (state_ok O garbage place copies m dag roots H0 net mnet).
Lemma reach n s : msteps mnet n start s -> exists net own t, network dag roots = Ok net /\ SOK net own s t /\ kept (own0 dag roots H0) own start s.
Proof.
  intros HS. destruct val_net as [net HN]. pose proof (start_ok O garbage place copies maxc fuel m dag roots H0 here net HN mnet made) as ST.
  destruct (run_forward O garbage place copies maxc fuel m dag roots H0 net HN mnet made n _ s HS _ _ ST) as (own & t & _ & S2 & S3). exists net, own, t. auto.
Qed.

(** Whatever the threads do, the memory that was there before is as it was: the
    sources' arrays and everything else. *)
Theorem C63_untouched n s : msteps mnet n start s -> forall l, l < length H0 -> l < length (snd s) /\ look (snd s) l = look H0 l.
Proof.
  intros HS l Hl. destruct (reach n s HS) as (net & own & t & _ & _ & (K1 & K2 & _)). unfold mnet0 in K1, K2. cbn [snd] in K1, K2. rewrite app_length in K1, K2. split; [lia|].
  destruct (K2 l) as [E _]; [lia| |].
  - intros i [Hi ->]. lia.
  - rewrite E. unfold look. apply app_nth1. auto.
Qed.

(** An array that has been put on a queue, or that a thread has received or is about
    to send, is not changed by anybody any more. *)
Theorem C63_chunks n s mc : msteps mnet n start s -> in_flight s mc ->
  forall n' s', msteps mnet n' s s' -> look (snd s') (vloc (snd mc)) = look (snd s) (vloc (snd mc)).
Proof.
  intros HS HF n' s' HS'. destruct (reach n s HS) as (net & own & t & HN & SO & _).
  assert (FREE : vloc (snd mc) < length (snd s) /\ forall i, ~ own i (vloc (snd mc))).
  { destruct SO as [I HL]. assert (M1 : forall y, msg_rel O own (snd s) (MChunk mc) y -> vloc (snd mc) < length (snd s) /\ forall i, ~ own i (vloc (snd mc))).
    { intros [c| |]; cbn; try tauto. intros [[_ [HH _]] HO]. auto. }
    destruct HF as [(q & HI)|(i & kl & E & HH)].
    - pose proof (queues_len O own (snd s) _ _ q (v_queues _ _ _ _ _ _ _ _ _ _ I)) as HQ.
      clear -HQ HI M1. induction HQ; [destruct HI|]. destruct HI as [->|HI]; [eapply M1; eauto|auto].
    - assert (L2 : length (fst (fst s)) = length (fst t)) by apply I. destruct (nth_error (fst t) i) as [l|] eqn:Et.
      2:{ apply nth_error_None in Et. assert (i < length (fst (fst s))) by (apply nth_error_Some; congruence). lia. }
      pose proof (v_locs _ _ _ _ _ _ _ _ _ _ I _ _ _ E Et) as HR. clear -HR HH M1. induction HR as [|st got' hist got HR HG HLn|x' x j k' k HX HK IH|]; inversion HH as [st0 got0 HI| |]; subst; eauto.
      clear -HG M1 HI. induction HG; [destruct HI|]. destruct HI as [->|HI]; [eapply M1; eauto|auto]. }
  destruct FREE as [F1 F2]. destruct (run_forward O garbage place copies maxc fuel m dag roots H0 net HN mnet made n' s s' HS' own t SO) as (own' & t' & _ & _ & (_ & K2 & _)). apply K2; auto.
Qed.

(** No two threads write to the same array. *)
Theorem C63_no_race n1 s1 i s1' n2 s2 j s2' l : msteps mnet n1 start s1 -> mfire mnet i s1 = Some s1' -> msteps mnet n2 s1' s2 -> mfire mnet j s2 = Some s2' ->
  writes s1 s1' l -> writes s2 s2' l -> i = j.
Proof.
  intros R1 F1 R2 F2 [W1 W1'] [W2 W2']. destruct (reach n1 s1 R1) as (net & own & t & HN & [I HL] & _).
  pose proof (both O garbage place copies maxc fuel m dag roots H0 net HN mnet made own s1 t i I HL) as B. rewrite F1 in B.
  destruct (fire (net_next net) bounded i t) as [t1|]; [|contradiction]. destruct B as (Q & B1 & B2 & B3 & B4).
  destruct (run_forward O garbage place copies maxc fuel m dag roots H0 net HN mnet made n2 s1' s2 R2 _ t1 (conj B3 B4)) as (own2 & t2 & _ & [I2 HL2] & (K1 & _ & K3)).
  pose proof (both O garbage place copies maxc fuel m dag roots H0 net HN mnet made own2 s2 t2 j I2 HL2) as B'. rewrite F2 in B'.
  destruct (fire (net_next net) bounded j t2) as [t3|]; [|contradiction]. destruct B' as (Q' & C1 & C2 & C3 & C4).
  destruct W2' as [W2'|W2']; [lia|]. destruct (Nat.eq_dec i j) as [|Hn]; auto. exfalso.
  apply W2'. apply C2; [|lia]. intros [HO|HO]; [|lia]. apply K3 in HO; [|auto]. unfold now in HO. destruct (Nat.eqb_spec j i); [congruence|].
  pose proof (v_in _ _ _ _ _ _ _ _ _ _ I _ _ HO) as HB. destruct W1' as [W1'|W1']; [lia|]. apply W1'. apply B2; [|auto]. intros [HO'|HO']; [|lia].
  apply Hn. eapply (v_one _ _ _ _ _ _ _ _ _ _ I); eauto.
Qed.

Lemma halted_keep net n s s' i ok st : network dag roots = Ok net -> msteps mnet n s s' -> forall own t, SOK net own s t -> nth_error (fst (fst s)) i = Some (KHalt ok st) ->
  nth_error (fst (fst s')) i = Some (KHalt ok st) /\ forall l, own i l -> look (snd s') l = look (snd s) l.
Proof.
  intros HN. induction 1 as [s|n k s s1 s2 E HS IH]; intros own t [I HL] Hi; auto.
  pose proof (both O garbage place copies maxc fuel m dag roots H0 net HN mnet made own s t k I HL) as B. rewrite E in B.
  destruct (fire (net_next net) bounded k t) as [t1|]; [|contradiction]. destruct B as (Q & B1 & B2 & B3 & B4).
  unfold mfire in E. destruct (fire (fun i l => fst (mnext mnet (snd s) i l)) bounded k (fst s)) as [g|] eqn:Ef; [|discriminate].
  assert (Eg : fst s1 = g) by (injection E as <-; auto). clear E.
  assert (Hk : k <> i).
  { intros ->. unfold fire in Ef. rewrite Hi in Ef. unfold mnext in Ef. destruct (nth_error mnet i); cbn in Ef; discriminate. }
  destruct (IH _ t1 (conj B3 B4)) as [N1 N2].
  { rewrite Eg, <- Hi. eapply fire_other; eauto. }
  split; auto. intros l HO. rewrite N2.
  - apply B2; [|apply (v_in _ _ _ _ _ _ _ _ _ _ I _ _ HO)]. intros [HO'|HO']; [apply Hk; eapply (v_one _ _ _ _ _ _ _ _ _ _ I); eauto|].
    pose proof (v_in _ _ _ _ _ _ _ _ _ _ I _ _ HO). lia.
  - unfold now. destruct (Nat.eqb_spec i k); [congruence|auto].
Qed.
Lemma returned_at net own s t vs : network dag roots = Ok net -> SOK net own s t -> mreturned O dag roots s = Ok vs ->
  map vloc vs = seq (length H0) (length roots) /\ forall j, j < length roots -> msink_state dag s j = Some (KHalt true (SSink (length H0 + j))) /\ own (length dag + j) (length H0 + j).
Proof.
  intros HN SO HR. unfold mreturned in HR. apply mapM_ok in HR.
  assert (HJ : forall jr, In jr (combine (seq 0 (length roots)) roots) -> fst jr < length roots /\ nth_error roots (fst jr) = Some (snd jr)).
  { intros jr Hi. destruct (number_in roots 0 jr Hi) as [_ E]. rewrite Nat.sub_0_r in E. split; auto. apply nth_error_Some. congruence. }
  assert (F : Forall2 (fun jr v => vloc v = length H0 + fst jr /\ msink_state dag s (fst jr) = Some (KHalt true (SSink (length H0 + fst jr))) /\ own (length dag + fst jr) (length H0 + fst jr)) (combine (seq 0 (length roots)) roots) vs).
  { induction HR as [|jr v l vs E HR IH]; constructor.
    - destruct (HJ jr (or_introl eq_refl)) as [Hj Er]. pose proof (sinks_match O garbage place copies maxc fuel m dag roots H0 net HN mnet made own s t SO _ Hj) as HS.
      destruct (msink_state dag s (fst jr)) as [[| | |ok st]|]; try discriminate E. destruct ok; [|discriminate E]. destruct (sink_state dag t (fst jr)) as [[]|]; try contradiction.
      destruct HS as [<- HS]. destruct (HS _ Er eq_refl) as (-> & HO & _). injection E as <-. cbn. auto.
    - apply IH. intros x Hx. apply HJ. right. auto. }
  clear HR HJ. split.
  - assert (E1 : map vloc vs = map (fun jr => length H0 + fst jr) (combine (seq 0 (length roots)) roots)) by (clear -F; induction F as [|jr v l vs [E _] F IH]; cbn; congruence).
    rewrite E1. clear. assert (G : forall b (l : list nat), map (fun jr : nat * nat => length H0 + fst jr) (combine (seq b (length l)) l) = seq (length H0 + b) (length l)).
    { intros b l. revert b. induction l as [|x l IH]; intros b; cbn; auto. f_equal. rewrite IH. f_equal. lia. }
    rewrite G, Nat.add_0_r. auto.
  - intros j Hj. destruct (nth_error roots j) as [r|] eqn:Er; [|apply nth_error_None in Er; lia].
    assert (Hi : In (j, r) (combine (seq 0 (length roots)) roots)) by (eapply nth_error_In; rewrite number_nth, Er; reflexivity).
    clear -F Hi. induction F as [|jr v l vs (_ & E & HO) F IH]; [destruct Hi|]. destruct Hi as [->|Hi]; auto.
Qed.

(** What evaluation returns are the result arrays: new ones, one for every request;
    and threads still running do not change them. *)
Theorem C63_results n s vs : msteps mnet n start s -> mreturned O dag roots s = Ok vs ->
  map vloc vs = seq (length H0) (length roots)
  /\ forall n' s', msteps mnet n' s s' -> mreturned O dag roots s' = Ok vs /\ forall v, In v vs -> look (snd s') (vloc v) = look (snd s) (vloc v).
Proof.
  intros HS HR. destruct (reach n s HS) as (net & own & t & HN & SO & _).
  destruct (returned_at net own s t vs HN SO HR) as [E HJ]. split; auto. intros n' s' HS'. split.
  - rewrite <- HR. unfold mreturned. assert (HI : forall jr, In jr (combine (seq 0 (length roots)) roots) -> fst jr < length roots).
    { intros jr Hi. destruct (number_in roots 0 jr Hi) as [_ Er]. rewrite Nat.sub_0_r in Er. apply nth_error_Some. congruence. }
    induction (combine (seq 0 (length roots)) roots) as [|jr l IH]; cbn [mapM]; auto. rewrite IH by (intros x Hx; apply HI; right; auto).
    destruct (HJ (fst jr) (HI jr (or_introl eq_refl))) as [E1 HO]. destruct (halted_keep net n' s s' _ _ _ HN HS' own t SO E1) as [E2 _]. unfold msink_state in *. rewrite E1, E2. auto.
  - intros v Hv. assert (Hl : In (vloc v) (seq (length H0) (length roots))) by (rewrite <- E; apply in_map; auto). apply in_seq in Hl.
    destruct (HJ (vloc v - length H0)) as [E1 HO]; [lia|]. replace (length H0 + (vloc v - length H0)) with (vloc v) in HO by lia.
    eapply (halted_keep net n' s s'); eauto.
Qed.
End Graph.

Lemma tree_sources (a : barr) : forall base b, In (EArr b) (tree base a) -> incl (sources b) (sources a).
Proof.
  induction a as [sh v d|o c ks|a na IH|a dict lead IH|a d IH|a v IH|a axes IH|ssh items IH|tiles axis IH|g a axis d IH|o a d IH|o a b' d IH1 IH2]
    using barr_ind2; intros base b HI; cbn [tree] in HI; try (destruct HI as [E|[]]; injection E as <-; apply incl_refl).
  - apply in_app_iff in HI as [HI|[HI|[]]]; [|discriminate]. cbn [sources]. eapply IH; eauto.
  - apply in_app_iff in HI as [HI|[HI|[]]]; [|discriminate]. cbn [sources]. eapply IH; eauto.
  - apply in_app_iff in HI as [HI|[HI|[]]]; [|discriminate]. cbn [sources]. apply in_app_iff in HI as [HI|HI]; [apply incl_appl; eapply IH1; eauto|apply incl_appr; eapply IH2; eauto].
Qed.
Lemma forest_sources (l : list barr) : forall base b, In (EArr b) (fst (forest base l)) -> exists a, In a l /\ incl (sources b) (sources a).
Proof.
  induction l as [|a l IH]; intros base b HI; cbn [forest fst] in HI; [destruct HI|]. apply in_app_iff in HI as [HI|HI].
  - exists a. split; [left; auto|]. eapply tree_sources; eauto.
  - destruct (IH _ _ HI) as (x & Hx & HS). exists x. split; [right; auto|auto].
Qed.
(** For expressions that can be streamed, whose sources are in memory: every schedule
    comes to an end; then evaluation has returned arrays that hold the NumPy results,
    and all memory that was there before is unchanged. *)
Theorem C63_arrays HG (l : list barr) H0 : (forall g, handler_right O m g (HG g)) ->
  Forall (fun a => wf a /\ streamable maxc m HG (realisable maxc m HG fuel) a) l -> (forall a, In a l -> sources_in place copies H0 a) ->
  let dag := fst (forest 0 l) in let roots := snd (forest 0 l) in
  exists mnet, mnetwork dag roots (length H0) = Ok mnet
  /\ (exists n s, msteps mnet n (mnet0 garbage mnet dag roots H0) s /\ forall i, mfire mnet i s = None)
  /\ forall n s, msteps mnet n (mnet0 garbage mnet dag roots H0) s -> (forall i, mfire mnet i s = None) ->
       mjoined dag roots s
       /\ (exists vs, mreturned O dag roots s = Ok vs /\ Forall2 (fun a v => exists_in (snd s) v /\ nd_eq (read O (snd s) v) (den O m a)) l vs)
       /\ forall x, x < length H0 -> look (snd s) x = look H0 x.
Proof.
  intros HR HF HS dag roots. destruct (C28_values_partial O maxc garbage fuel m HG l HR HF) as (net & HN & (t0 & (n0 & T0) & O0) & HV). fold dag roots in HN, T0, O0, HV.
  assert (SH : forall a, In (EArr a) dag -> sources_in place copies H0 a).
  { intros b Hb c Hc. destruct (forest_sources l 0 b Hb) as (a & Ha & HI). apply (HS a Ha). auto. }
  pose proof (C63_same_runs dag roots H0 SH) as SR. rewrite HN in SR. destruct (mnetwork dag roots (length H0)) as [mnet|] eqn:HM; [|contradiction]. destruct SR as [SF SB].
  exists mnet. split; auto. split.
  - destruct (SB n0 t0 T0) as (s & R1 & _ & _ & A). exists n0, s. split; auto. intros i. apply A. apply O0.
  - intros n s R1 HI. destruct (SF n s R1) as (t & T1 & J & RT & A). destruct (HV t) as [HJ (ds & ED & FD)]; [exists n; auto|intros i; apply A; auto|].
    split; [apply J; auto|]. split.
    + rewrite ED in RT. destruct (mreturned O dag roots s) as [vs|] eqn:EV; [|contradiction]. exists vs. split; auto.
      clear -RT FD. revert vs RT. induction FD as [|a d l ds E FD IH]; intros vs RT; inversion RT as [|v d0 vs0 ds0 [E1 [E2 E3]] RT']; subst; constructor; auto.
      split; auto. destruct E as [F1 F2]. split; [congruence|]. intros idx Hx. rewrite E3. apply F2. rewrite <- E2. auto.
    + intros x Hx. apply (C63_untouched dag roots H0 SH mnet HM n s R1 x Hx).
Qed.
End MemThreadsProp.

(** A schedule that always lets the first thread that can go on. *)
Fixpoint first_go {V} (mnet : list (@mnode V)) (s : @mgstate V) (is : list nat) : option (@mgstate V) :=
  match is with [] => None | i :: r => match mfire mnet i s with Some s' => Some s' | None => first_go mnet s r end end.
Fixpoint mrun {V} (mnet : list (@mnode V)) (b : nat) (s : @mgstate V) : nat * @mgstate V :=
  match b with
  | 0 => (0, s)
  | S b' => match first_go mnet s (seq 0 (length mnet)) with Some s' => let r := mrun mnet b' s' in (S (fst r), snd r) | None => (0, s) end
  end.
Lemma first_steps {V} (mnet : list (@mnode V)) is s s' : first_go mnet s is = Some s' -> exists i, mfire mnet i s = Some s'.
Proof. induction is as [|i is IH]; cbn; [discriminate|]. destruct (mfire mnet i s) eqn:E; auto. intros H. exists i. congruence. Qed.
Lemma mrun_steps {V} (mnet : list (@mnode V)) b : forall s, msteps mnet (fst (mrun mnet b s)) s (snd (mrun mnet b s)).
Proof.
  induction b as [|b IH]; intros s; cbn [mrun]; [constructor|]. destruct (first_go mnet s (seq 0 (length mnet))) as [s'|] eqn:E; [|constructor].
  destruct (first_steps _ _ _ _ E) as [i Ei]. cbn [fst snd]. econstructor; [exact Ei|apply IH].
Qed.
(** One source, twice used: its negation, and the sum of its columns; chunks of a row. *)
Definition grid : @heap Z := [fun i => MV (c_cell (numbered [2; 3]) i)].
Definition twice : list (@entry Z) := [EArr (arr [2; 3]); EEl1 zneg1 0 0; EAgg GSum 0 1 0].
Definition zmnet : res (list (@mnode Z)) := mnetwork z_ops junk at0 nocopy 3 3 false twice [1; 2] 1.
Lemma grid_sources a : In (EArr a) twice -> sources_in at0 nocopy grid a.
Proof.
  intros [E|[E|[E|[]]]]; try discriminate. injection E as <-. intros c [<-|[]]. split; [unfold at0, grid; cbn; auto|]. split; [auto|]. intros _ i. discriminate.
Qed.
Example C63_case : match zmnet with
  | Ok mnet => let s := snd (mrun mnet (Z.to_nat 300) (mnet0 junk mnet twice [1; 2] grid)) in
      forallb (fun i => match mfire mnet i s with None => true | Some _ => false end) (seq 0 (length mnet)) = true
      /\ map (fun j => match msink_state twice s j with Some (KHalt ok (SSink l)) => (ok, l) | _ => (false, 0) end) [0; 1] = [(true, 1); (true, 2)]
      /\ flat (Ok (read z_ops (snd s) (whole 1 [2; 3]))) = Ok ([2; 3], map Some [0; -1; -2; -3; -4; -5]%Z)
      /\ flat (Ok (read z_ops (snd s) (whole 2 [2]))) = Ok ([2], map Some [3; 12]%Z)
      /\ flat (Ok (read z_ops (snd s) (whole 0 [2; 3]))) = Ok ([2; 3], map Some [0; 1; 2; 3; 4; 5]%Z)
  | Err _ => False
  end.
Proof.
  vm_compute. auto 10.
Qed.
Print Assumptions C63_same_runs.
Print Assumptions C63_untouched.
Print Assumptions C63_chunks.
Print Assumptions C63_no_race.
Print Assumptions C63_results.
Print Assumptions C63_arrays.
