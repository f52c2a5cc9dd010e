(** MemNet: whatever the threads do on shared memory, they do on values as well
    (Threads.v): ownership of memory, one step at a time. *)
From Verif Require Import Base PySlice Keys NDArray Arrays Chunks Handlers Realise Lib Memory MemSpec MemLemmas MemReal Kahn Threads MemThreads.

Section MemNet.
Context {V : Type} (O : numops V).
Notation cell := (option V).
Notation barr := (@barr V).
Notation heap := (@heap V).
Notation chunk := (list key * nd cell)%type.
Implicit Types h H : heap.
Notation ch_holds := (ch_holds O).

(** A message whose array nobody owns. *)
Definition out_rel (P : nat -> Prop) (Q : nat -> Prop) (H : heap) (mo : option mchunk) (o : option chunk) : Prop :=
  match mo, o with
  | None, None => True
  | Some mc, Some c => ch_holds H mc c /\ P (vloc (snd mc)) /\ ~ Q (vloc (snd mc))
  | _, _ => False
  end.
Definition rep := (nat -> Prop) -> heap -> @mstate V -> list (list chunk) -> Prop.
Definition moves (R : rep) : Prop := forall (P Q : nat -> Prop) H H' st hist, R P H st hist -> length H <= length H' ->
  (forall l, P l -> l < length H -> Q l /\ look H' l = look H l) -> R Q H' st hist.
(** A consumer on memory does what the consumer on values does. *)
Record consumes (R D : rep) (emit fin : list (list chunk) -> res (option chunk))
                (memit : @mstate V -> list mchunk -> @M V (@mstate V * option mchunk)) (mfin : @mstate V -> @M V (option mchunk)) (nins : nat) : Prop := mkCons {
  c_move : moves R;
  d_move : moves D;
  c_emit : forall P H st hist mcs cs, R P H st hist -> wide P H ->
    Forall2 (fun mc c => ch_holds H mc c /\ ~ P (vloc (snd mc))) mcs cs -> length cs = nins ->
    match emit (hist ++ [cs]) with
    | Ok o => exists st' mo H' (Q : nat -> Prop), memit st mcs H = (Ok (st', mo), H') /\ spares P H H' /\ (forall l, Q l -> P l)
              /\ R Q H' st' (hist ++ [cs]) /\ out_rel P Q H' mo o
    | Err _ => exists e H', memit st mcs H = (Err e, H') /\ spares P H H'
    end;
  c_fin : forall P H st hist, R P H st hist -> wide P H ->
    match fin hist with
    | Ok o => exists mo H' (Q : nat -> Prop), mfin st H = (Ok mo, H') /\ spares P H H' /\ (forall l, Q l -> P l) /\ D Q H' st hist /\ out_rel P Q H' mo o
    | Err _ => exists e H', mfin st H = (Err e, H') /\ spares P H H'
    end }.

(** Locations nobody may ever write to, and what is known of the memory as long as
    they are not. *)
Variable fixed : nat -> Prop.
Variable ready : heap -> Prop.
Hypothesis ready_same : forall H H', ready H -> length H <= length H' -> (forall l, fixed l -> look H' l = look H l) -> ready H'.
Hypothesis ready_in : forall H l, ready H -> fixed l -> l < length H.

Definition item_ok (mi : @M V mchunk) (it : res chunk) : Prop :=
  forall H, ready H -> does (fun H' mc c => ch_holds H' mc c /\ (length H <= vloc (snd mc) \/ fixed (vloc (snd mc)))) mi H it.
Inductive node_ok (R D : rep) : node chunk -> @mnode V -> Prop :=
| ok_prod items mitems outs : Forall2 item_ok mitems items -> (forall P H, D P H SNone []) -> moves R -> moves D -> node_ok R D (NProd items outs) (MProd mitems outs)
| ok_cons emit fin memit mfin st ins outs : consumes R D emit fin memit mfin (length ins) -> node_ok R D (NCons emit fin ins outs) (MCons memit mfin st ins outs).

Section Rel.
Variable own : nat -> nat -> Prop.
Variable H : heap.
Definition msg_rel (x : msg mchunk) (y : msg chunk) : Prop :=
  match x, y with
  | MChunk mc, MChunk c => ch_holds H mc c /\ forall i, ~ own i (vloc (snd mc))
  | MDone, MDone => True
  | MAbort, MAbort => True
  | _, _ => False
  end.
Inductive loc_rel (R D : rep) (P : nat -> Prop) (nins : nat) : @mloc V -> loc chunk -> Prop :=
| lr_prod mi it : Forall2 item_ok mi it -> (forall P' H', D P' H' SNone []) -> loc_rel R D P nins (KProd mi) (LProd it)
| lr_get st got' hist got : R P H st hist -> Forall2 msg_rel got' got -> length got <= nins -> loc_rel R D P nins (KGet st got') (LGet hist got)
| lr_put x' x j k' k : msg_rel x' x -> loc_rel R D P nins k' k -> loc_rel R D P nins (KPut x' j k') (LPut x j k)
| lr_halt ok st hist got : (ok = true -> D P H st hist) -> loc_rel R D P nins (KHalt ok st) (LHalt ok hist got).
End Rel.

Variable net : list (node chunk).
Variable mnet : list (@mnode V).
Variables R D : nat -> rep.
Hypothesis nodes_len : length net = length mnet.
Hypothesis nodes : forall i n mn, nth_error net i = Some n -> nth_error mnet i = Some mn -> node_ok (R i) (D i) n mn.
Definition nins (i : nat) : nat := match nth_error net i with Some n => length (ins_of n) | None => 0 end.

Record inv (own : nat -> nat -> Prop) (s : gstate (msg mchunk) (@mloc V)) (H : heap) (t : gstate (msg chunk) (loc chunk)) : Prop := mkInv {
  v_in : forall i l, own i l -> l < length H;
  v_one : forall i j l, own i l -> own j l -> i = j;
  v_fixed : forall i l, own i l -> ~ fixed l;
  v_ready : ready H;
  v_len : length (fst s) = length (fst t);
  v_locs : forall i kl l, nth_error (fst s) i = Some kl -> nth_error (fst t) i = Some l -> loc_rel own H (R i) (D i) (own i) (nins i) kl l;
  v_queues : Forall2 (Forall2 (msg_rel own H)) (snd s) (snd t) }.

(** Thread [i] may write to its own memory and to new memory. *)
Definition may (own : nat -> nat -> Prop) (H : heap) (i l : nat) : Prop := own i l \/ length H <= l.
Definition now (own : nat -> nat -> Prop) (H' : heap) (i : nat) (Q : nat -> Prop) (j l : nat) : Prop :=
  if j =? i then Q l /\ l < length H' else own j l.

Section Change.
Variables (own : nat -> nat -> Prop) (H H' : heap) (i : nat) (Q : nat -> Prop).
Hypothesis b_in : forall i l, own i l -> l < length H.
Hypothesis b_one : forall i j l, own i l -> own j l -> i = j.
Hypothesis sp : spares (may own H i) H H'.
Hypothesis sub : forall l, Q l -> may own H i l.
Lemma now_free l : l < length H -> (forall j, ~ own j l) -> (forall j, ~ now own H' i Q j l) /\ look H' l = look H l.
Proof.
  intros HL HF. split.
  - intros j. unfold now. destruct (Nat.eqb_spec j i) as [->|]; [|auto]. intros [HQ _]. destruct (sub l HQ) as [HO|HO]; [apply (HF i HO)|lia].
  - apply sp; auto. intros [HO|HO]; [apply (HF i HO)|lia].
Qed.
Lemma chunk_free mc c : ch_holds H mc c -> (forall j, ~ own j (vloc (snd mc))) -> ch_holds H' mc c /\ forall j, ~ now own H' i Q j (vloc (snd mc)).
Proof.
  intros [E HD] HF. destruct (now_free (vloc (snd mc)) (proj1 HD) HF) as [N _]. split; auto. split; auto. eapply holds_spares; [exact sp| |exact HD].
  intros [HO|HO]; [apply (HF i HO)|destruct HD; lia].
Qed.
Lemma msg_free x y : msg_rel own H x y -> msg_rel (now own H' i Q) H' x y.
Proof. destruct x, y; cbn; auto. intros [HD HF]. apply chunk_free; auto. Qed.
Lemma msgs_free xs ys : Forall2 (msg_rel own H) xs ys -> Forall2 (msg_rel (now own H' i Q) H') xs ys.
Proof. induction 1; constructor; auto. apply msg_free; auto. Qed.
Lemma loc_move j kl l RR DD n : (forall l, own j l -> l < length H -> now own H' i Q j l /\ look H' l = look H l) -> moves RR -> moves DD ->
  loc_rel own H RR DD (own j) n kl l -> loc_rel (now own H' i Q) H' RR DD (now own H' i Q j) n kl l.
Proof.
  intros HM HR HD. induction 1; constructor; auto.
  - eapply HR; eauto. apply sp.
  - apply msgs_free; auto.
  - apply msg_free; auto.
  - intros E. eapply HD; eauto. apply sp.
Qed.
Lemma loc_free j kl l RR DD n : j <> i -> moves RR -> moves DD -> loc_rel own H RR DD (own j) n kl l -> loc_rel (now own H' i Q) H' RR DD (now own H' i Q j) n kl l.
Proof.
  intros Hj HR HD. apply loc_move; auto.
  intros x Hx HL. split; [unfold now; destruct (Nat.eqb_spec j i); [contradiction|auto]|]. apply sp; auto. intros [HO|HO]; [apply Hj; eauto|lia].
Qed.
End Change.

Lemma node_moves j n mn : nth_error net j = Some n -> nth_error mnet j = Some mn -> moves (R j) /\ moves (D j).
Proof. intros E1 E2. destruct (nodes j n mn E1 E2) as [|? ? ? ? ? ? ? []]; auto. Qed.

(** Thread [i] has moved on. *)
Lemma change_ok own s H t i H' (Q : nat -> Prop) kl l qs qt : inv own s H t ->
  spares (may own H i) H H' -> (forall l, Q l -> may own H i l) ->
  i < length mnet -> length (fst s) = length mnet ->
  loc_rel (now own H' i Q) H' (R i) (D i) (now own H' i Q i) (nins i) kl l ->
  Forall2 (Forall2 (msg_rel (now own H' i Q) H')) qs qt ->
  inv (now own H' i Q) (set_nth i kl (fst s), qs) H' (set_nth i l (fst t), qt).
Proof.
  intros I sp sub Hi HL HLoc HQ. destruct I as [I1 I2 I3 I4 I5 I6 I7]. constructor; cbn [fst snd]; auto.
  - intros j x. unfold now. destruct (Nat.eqb_spec j i); [tauto|]. intros HO. specialize (I1 _ _ HO). destruct sp. lia.
  - intros j k x. unfold now. destruct (Nat.eqb_spec j i), (Nat.eqb_spec k i); subst; auto.
    + intros [HO _] HK. destruct (sub _ HO) as [HS|HS]; [symmetry; eauto|]. apply I1 in HK. lia.
    + intros HK [HO _]. destruct (sub _ HO) as [HS|HS]; [eauto|]. apply I1 in HK. lia.
    + eauto.
  - intros j x. unfold now. destruct (Nat.eqb_spec j i); [|apply I3]. intros [HO _] HF. destruct (sub _ HO) as [HS|HS]; [apply (I3 _ _ HS HF)|]. pose proof (ready_in _ _ I4 HF). lia.
  - eapply ready_same; [exact I4|apply sp|]. intros x HF. apply sp; [|eapply ready_in; eauto]. intros [HO|HO]; [apply (I3 _ _ HO HF)|]. pose proof (ready_in _ _ I4 HF). lia.
  - rewrite !set_nth_length. auto.
  - intros j kl' l' E1 E2. destruct (Nat.eq_dec j i) as [->|Hj].
    + rewrite nth_error_set_eq in E1 by lia. rewrite nth_error_set_eq in E2 by lia. injection E1 as <-. injection E2 as <-. auto.
    + rewrite nth_error_set_neq in E1 by auto. rewrite nth_error_set_neq in E2 by auto. assert (Hjm : j < length mnet) by (rewrite <- HL; apply nth_error_Some; congruence).
      destruct (nth_error mnet j) as [mn|] eqn:Em; [|apply nth_error_None in Em; lia].
      destruct (nth_error net j) as [n|] eqn:En; [|apply nth_error_None in En; lia].
      destruct (node_moves j n mn En Em). eapply loc_free; eauto.
Qed.

Lemma msgs_flags own H got' got : Forall2 (msg_rel own H) got' got ->
  existsb is_abort got' = existsb is_abort got /\ existsb is_done got' = existsb is_done got
  /\ Forall2 (fun mc c => ch_holds H mc c /\ forall i, ~ own i (vloc (snd mc))) (flat_map chunk_of got') (flat_map chunk_of got)
  /\ (existsb is_abort got = false -> existsb is_done got = false -> length (flat_map chunk_of got) = length got).
Proof.
  induction 1 as [|x y got' got HX _ (H1 & H2 & H3 & H4)]; [repeat split; constructor|].
  destruct x, y; cbn in HX |- *; try contradiction; repeat split; auto; try discriminate; try (constructor; auto).
  all: intros; f_equal; auto.
Qed.
Lemma queues_len own H qs qt q : Forall2 (Forall2 (msg_rel own H)) qs qt -> Forall2 (msg_rel own H) (nth q qs []) (nth q qt []).
Proof. intros HQ. revert q. induction HQ; intros [|q]; cbn; auto. Qed.
Lemma queues_set own H qs qt q x y : Forall2 (Forall2 (msg_rel own H)) qs qt -> Forall2 (msg_rel own H) x y -> Forall2 (Forall2 (msg_rel own H)) (set_nth q x qs) (set_nth q y qt).
Proof. intros HQ HX. revert q. induction HQ; intros [|q]; cbn; constructor; auto. Qed.

Lemma out_msg (own : nat -> nat -> Prop) H H' i (Q : nat -> Prop) mc c : (forall i l, own i l -> l < length H) -> (forall i j l, own i l -> own j l -> i = j) ->
  ch_holds H' mc c -> may own H i (vloc (snd mc)) -> ~ Q (vloc (snd mc)) -> msg_rel (now own H' i Q) H' (MChunk mc) (MChunk c).
Proof.
  intros B1 B2 HC HP HQ. split; auto. intros j. unfold now. destruct (Nat.eqb_spec j i); [tauto|]. intros HJ. destruct HP as [HP|HP]; [eauto|]. apply B1 in HJ. lia.
Qed.

Theorem step_ok (own : nat -> nat -> Prop) s H t i : inv own s H t -> length (fst s) = length mnet ->
  match mfire mnet i (s, H), fire (net_next net) bounded i t with
  | Some (s', H'), Some t' => exists Q : nat -> Prop, (forall l, Q l -> may own H i l) /\ spares (may own H i) H H' /\ inv (now own H' i Q) s' H' t'
  | None, None => True
  | _, _ => False
  end.
Proof.
  intros Inv HL. pose proof Inv as [I1 I2 I3 I4 I5 I6 I7]. unfold mfire, fire. cbn [fst snd].
  destruct (nth_error (fst s) i) as [kl|] eqn:Es; destruct (nth_error (fst t) i) as [l|] eqn:Et; auto.
  2,3: apply nth_error_None in Et || apply nth_error_None in Es; assert (i < length (fst s) \/ i < length (fst t)) by (left + right; apply nth_error_Some; congruence); try lia.
  assert (Hi : i < length mnet) by (rewrite <- HL; apply nth_error_Some; congruence).
  specialize (I6 i kl l Es Et). unfold mnext, net_next.
  destruct (nth_error mnet i) as [mn|] eqn:Em; [|apply nth_error_None in Em; lia].
  destruct (nth_error net i) as [n|] eqn:En; [|apply nth_error_None in En; lia].
  pose proof (nodes i n mn En Em) as HN. destruct (node_moves i n mn En Em) as [MR MD].
  assert (HO : outs_of n = mouts_of mn) by (destruct HN; auto).
  assert (HI : nins i = length (ins_of n)) by (unfold nins; rewrite En; auto).
  assert (S0 : spares (may own H i) H H) by apply spares_refl.
  assert (U0 : forall l, own i l -> may own H i l) by (intros; left; auto).
  assert (HM : forall l, own i l -> l < length H -> now own H i (own i) i l /\ look H l = look H l).
  { intros x Hx Hl. split; auto. unfold now. rewrite Nat.eqb_refl. auto. }
  assert (Q0 : Forall2 (Forall2 (msg_rel (now own H i (own i)) H)) (snd s) (snd t)).
  { eapply Forall2_impl; [|exact I7]. intros. eapply msgs_free; eauto. }
  destruct I6 as [mi it HIt HDn|st got' hist got HR HG HLn|x' x j k' k HX HK|ok st hist got HD]; cbn [mnode_next node_next].
  - (* a producer *)
    destruct HIt as [|mit it' mr r HIo HIr]; cbn [fst snd].
    + exists (own i). split; auto. split; auto. apply (change_ok own s H t i); auto. constructor; [exact I|]. constructor. auto.
    + pose proof (HIo H I4) as HD. unfold does in HD. destruct it' as [c|e].
      * destruct HD as (mc & H' & E & G & HC & HP). rewrite E. cbn [fst snd].
        assert (S1 : spares (may own H i) H H') by (apply grows_spares; auto).
        exists (own i). split; auto. split; auto. apply (change_ok own s H t i); auto.
        -- constructor; [|constructor; auto]. split; auto. intros j HJ. assert (HJ' : own j (vloc (snd mc))) by (unfold now in HJ; destruct (Nat.eqb_spec j i); subst; tauto).
           destruct HP as [HP|HP]; [apply I1 in HJ'; lia|apply (I3 _ _ HJ' HP)].
        -- eapply Forall2_impl; [|exact I7]. intros. eapply msgs_free; eauto.
      * destruct HD as (H' & E & G). rewrite E. cbn [fst snd].
        assert (S1 : spares (may own H i) H H') by (apply grows_spares; auto).
        exists (own i). split; auto. split; auto. apply (change_ok own s H t i); auto.
        -- constructor; [exact I|]. constructor. discriminate.
        -- eapply Forall2_impl; [|exact I7]. intros. eapply msgs_free; eauto.
  - (* a consumer *)
    destruct HN as [items mitems outs _ _ _ _|emit fin memit mfin st0 ins outs HC]; [cbn; auto|]. cbn [ins_of] in HI.
    rewrite (Forall2_length _ _ _ HG). destruct (nth_error ins (length got)) as [q|] eqn:Eq; cbn [fst snd].
    + pose proof (queues_len _ _ _ _ q I7) as HQ. destruct HQ as [|x' x r' r HX HQr]; auto.
      exists (own i). split; auto. split; auto. apply (change_ok own s H t i); auto.
      * constructor.
        -- eapply MR; [exact HR|auto|]. auto.
        -- apply Forall2_app; [eapply msgs_free; eauto|]. constructor; [eapply msg_free; eauto|constructor].
        -- rewrite app_length. cbn. assert (length got < length ins) by (apply nth_error_Some; congruence). lia.
      * apply queues_set; auto. eapply msgs_free; eauto.
    + apply nth_error_None in Eq. assert (HLg : length got = length ins) by lia.
      destruct (msgs_flags _ _ _ _ HG) as (F1 & F2 & F3 & F4). unfold mround, round. rewrite F1, F2.
      destruct (existsb is_abort got) eqn:Ea; cbn [fst snd].
      { exists (own i). split; auto. split; auto. apply (change_ok own s H t i); auto. constructor; [exact I|]. constructor. discriminate. }
      assert (W : wide (may own H i) H) by (intros x Hx; right; auto).
      assert (HR' : R i (may own H i) H st hist) by (eapply MR; [exact HR|auto|auto]).
      destruct (existsb is_done got) eqn:Ed.
      * pose proof (c_fin _ _ _ _ _ _ _ HC _ _ _ _ HR' W) as HF. destruct (fin hist) as [o|e].
        -- destruct HF as (mo & H' & Q & E & S1 & SQ & HDD & HOut). rewrite E. cbn [fst snd].
           exists Q. split; auto. split; auto. apply (change_ok own s H t i); auto.
           ++ assert (KK : loc_rel (now own H' i Q) H' (R i) (D i) (now own H' i Q i) (nins i) (KPut MDone 0 (KHalt true st)) (LPut MDone 0 (LHalt true hist got))).
              { constructor; [exact I|]. constructor. intros _. eapply MD; [exact HDD|auto|]. intros x Hx Hl. split; auto. unfold now. rewrite Nat.eqb_refl. auto. }
              destruct mo as [mc|], o as [c|]; cbn in HOut |- *; try contradiction; auto. constructor; auto. apply out_msg with (H := H); auto; tauto.
           ++ eapply Forall2_impl; [|exact I7]. intros. eapply msgs_free; eauto.
        -- destruct HF as (e' & H' & E & S1). rewrite E. cbn [fst snd].
           exists (own i). split; auto. split; auto. apply (change_ok own s H t i); auto.
           ++ constructor; [exact I|]. constructor. discriminate.
           ++ eapply Forall2_impl; [|exact I7]. intros. eapply msgs_free; eauto.
      * assert (HCS : Forall2 (fun mc c => ch_holds H mc c /\ ~ may own H i (vloc (snd mc))) (flat_map chunk_of got') (flat_map chunk_of got)).
        { eapply Forall2_impl; [|exact F3]. intros mc c [A B]. split; auto. intros [X|X]; [apply (B i X)|]. destruct A as [_ [A _]]. lia. }
        assert (HLc : length (flat_map chunk_of got) = length ins) by (rewrite F4; auto).
        pose proof (c_emit _ _ _ _ _ _ _ HC _ _ _ _ _ _ HR' W HCS HLc) as HF. cbv zeta. set (eo := emit (hist ++ [flat_map chunk_of got])) in *.
        change (match eo with Ok o => exists st' mo H' (Q : nat -> Prop), memit st (flat_map chunk_of got') H = (Ok (st', mo), H') /\ spares (may own H i) H H' /\ (forall l, Q l -> may own H i l)
              /\ R i Q H' st' (hist ++ [flat_map chunk_of got]) /\ out_rel (may own H i) Q H' mo o | Err _ => exists e H', memit st (flat_map chunk_of got') H = (Err e, H') /\ spares (may own H i) H H' end) in HF.
        destruct eo as [o|e].
        -- destruct HF as (st' & mo & H' & Q & E & S1 & SQ & HRR & HOut). rewrite E. cbn [fst snd].
           exists Q. split; auto. split; auto. apply (change_ok own s H t i); auto.
           ++ assert (KK : loc_rel (now own H' i Q) H' (R i) (D i) (now own H' i Q i) (nins i) (KGet st' []) (LGet (hist ++ [flat_map chunk_of got]) [])).
              { constructor; [|constructor|cbn; lia]. eapply MR; [exact HRR|auto|]. intros x Hx Hl. split; auto. unfold now. rewrite Nat.eqb_refl. auto. }
              destruct mo as [mc|], o as [c|]; cbn in HOut |- *; try contradiction; auto. constructor; auto. apply out_msg with (H := H); auto; tauto.
           ++ eapply Forall2_impl; [|exact I7]. intros. eapply msgs_free; eauto.
        -- destruct HF as (e' & H' & E & S1). rewrite E. cbn [fst snd].
           exists (own i). split; auto. split; auto. apply (change_ok own s H t i); auto.
           ++ constructor; [exact I|]. constructor. discriminate.
           ++ eapply Forall2_impl; [|exact I7]. intros. eapply msgs_free; eauto.
  - (* a put *)
    rewrite HO. destruct (nth_error (mouts_of mn) j) as [q|] eqn:Eq; cbn [fst snd].
    + rewrite (Forall2_length _ _ _ (queues_len _ _ _ _ q I7)). destruct (bounded (length (nth q (snd t) []))); auto.
      exists (own i). split; auto. split; auto. apply (change_ok own s H t i); auto.
      * constructor; [eapply msg_free; eauto|]. eapply loc_move; eauto.
      * apply queues_set; auto. apply Forall2_app; [apply queues_len; auto|]. constructor; [eapply msg_free; eauto|constructor].
    + exists (own i). split; auto. split; auto. apply (change_ok own s H t i); auto. eapply loc_move; eauto.
  - cbn. auto.
Qed.
End MemNet.
