(** MemNodes: every node of the engine, on memory, does what it does on values. *)
From Verif Require Import Base PySlice Keys NDArray Arrays Chunks Handlers Realise Lib GetBase Memory MemSpec MemLemmas MemReal Kahn Threads ThreadNodes MemThreads MemNet.

Section MemNodes.
Context {V : Type} (O : numops V).
Notation cell := (option V).
Notation barr := (@barr V).
Notation heap := (@heap V).
Notation chunk := (list key * nd cell)%type.
Implicit Types h H : heap.
Notation ch_holds := (ch_holds O).
Notation read := (read O).
Notation holds := (holds O).

Definition any : @rep V := fun _ _ _ _ => True.
Lemma any_moves : moves any. Proof. intros P Q H H' st hist; auto. Qed.
Lemma spares_less (P Q : nat -> Prop) H H' : (forall l, P l -> Q l) -> spares P H H' -> spares Q H H'.
Proof. intros HP [H1 H2]. split; auto. Qed.

(** ** Aggregations *)
Section Agg.
Context (mh : @mhandler V) (h : handler V) (Ow : owns O mh h) (axis n : nat).
Definition cur_own (P : nat -> Prop) (H : heap) (mcur : option (list key * list nat * mst mh)) (cur : option (list key * nd (hst h))) : Prop :=
  match mcur, cur with
  | None, None => True
  | Some (k, sh, st), Some (k', s) => k = k' /\ sh = nshape s /\ o_good O _ _ Ow P H st (nget s)
  | _, _ => False
  end.
Definition agg_rep : @rep V := fun P H st hist => exists cur last mcur,
  agg_run h axis n None None (concat hist) = Ok (cur, last) /\ st = SAgg mh mcur /\ cur_own P H mcur cur.
Lemma agg_moves : moves agg_rep.
Proof.
  intros P Q H H' st hist (cur & last & mcur & E & -> & HC) HL HM. exists cur, last, mcur. split; auto. split; auto.
  destruct mcur as [[[k sh] st]|], cur as [[k' s]|]; cbn in *; auto. destruct HC as (? & ? & G). split; auto. split; auto. eapply o_move; eauto.
Qed.
Lemma agg_consumes : consumes O agg_rep any (agg_emit h axis n) (agg_fin h axis n) (magg_emit axis n) (magg_fin n) 1.
Proof.
  constructor; [apply agg_moves|apply any_moves| |].
  - intros P H st hist mcs cs (cur & last & mcur & E & -> & HC) W HF HL.
    destruct cs as [|c [|]]; try discriminate HL. inversion HF as [|mc c0 ms cs0 [[Ek Hv] HP] HF']; subst. inversion HF'; subst. clear HF HF' HL.
    destruct mc as [mk v], c as [k d]. cbn [fst snd] in *. subst mk.
    unfold agg_emit. match goal with |- context [agg_run h axis n None None ?x] => set (all := x) end.
    assert (EE : agg_run h axis n None None all = agg_step h axis n cur (k, d)).
    { unfold all. rewrite concat_app. cbn [concat app]. rewrite agg_run_snoc, E. auto. }
    rewrite EE. pose proof (holds_shape O _ _ _ Hv) as Esh. destruct Hv as [Hv1 Hv2].
    cbn [magg_emit]. rewrite Esh.
    assert (PRE : exists (P1 : nat -> Prop) H1 out mout st sh s,
       (let same := match mcur with Some (k0, _, _) => keys_eqb (remove_at axis k) k0 | None => false end in
        bindM (match mcur with
             | Some (k0, sh, st) => if same then ret None else bindM (mfin mh sh n st) (fun v => ret (Some (k0, v)))
             | None => ret None
             end) (fun out =>
        bindM (match mcur with
             | Some (_, sh, st) => if same then ret (sh, st) else bindM (mboot mh (remove_at axis (nshape d))) (fun st => ret (remove_at axis (nshape d), st))
             | None => bindM (mboot mh (remove_at axis (nshape d))) (fun st => ret (remove_at axis (nshape d), st))
             end) (fun st0 => ret (out, st0)))) H = (Ok (mout, (sh, st)), H1)
       /\ spares P H H1 /\ (forall l, P1 l -> P l) /\ wide P1 H1 /\ out_rel O P P1 H1 mout out
       /\ sh = nshape s /\ o_good O _ _ Ow P1 H1 st (nget s)
       /\ s = (let same := match cur with Some (k0, _) => keys_eqb (remove_at axis k) k0 | None => false end in
          match cur with Some (_, st) => if same then st else agg_boot h axis d | None => agg_boot h axis d end)
       /\ out = (let same := match cur with Some (k0, _) => keys_eqb (remove_at axis k) k0 | None => false end in
          match cur with Some (k0, st) => if same then None else Some (agg_finalise h n k0 st) | None => None end)).
    { destruct mcur as [[[mk sh] st]|], cur as [[k0 s]|]; cbn in HC; try contradiction; cbv zeta.
      - destruct HC as (-> & -> & G). destruct (keys_eqb (remove_at axis k) k0).
        + exists P, H, None, None, st, (nshape s), s. split; [reflexivity|]. split; [apply spares_refl|]. split; auto. split; auto. split; [constructor|]. auto.
        + destruct (o_fin O _ _ Ow P H st (nget s) (nshape s) n G W) as (w & H1 & E1 & K1 & D1 & PW).
          destruct (o_boot O _ _ Ow (fun l => length H1 <= l) (remove_at axis (nshape d)) H1) as (st2 & H2 & E2 & K2 & G2); [intros l Hl; auto|].
          exists (fun l => length H1 <= l), H2, (Some (agg_finalise h n k0 s)), (Some (k0, w)), st2, (remove_at axis (nshape d)), (agg_boot h axis d).
          assert (Q1 : forall l, length H1 <= l -> P l) by (intros l Hl; apply W; destruct K1; lia).
          split; [unfold bindM, ret; rewrite E1, E2; reflexivity|]. split; [eapply spares_trans; [exact K1|]; apply grows_spares; auto|]. split; auto.
          split; [intros l Hl; destruct K2; lia|]. split; [split; [split; [auto|eapply holds_grows; eauto]|split; [auto|cbn; destruct D1; lia]]|]. auto.
      - destruct (o_boot O _ _ Ow P (remove_at axis (nshape d)) H W) as (st2 & H2 & E2 & K2 & G2).
        exists P, H2, None, None, st2, (remove_at axis (nshape d)), (agg_boot h axis d).
        split; [unfold bindM, ret; rewrite E2; reflexivity|]. split; [apply grows_spares; auto|]. split; auto. split; [eapply wide_spares; [exact W|apply grows_spares with (P := P); eauto]|]. split; [constructor|]. auto. }
    destruct PRE as (P1 & H1 & out & mout & st & sh & s & E1 & K1 & HP1 & W1 & D1 & -> & G1 & Es & Eo).
    assert (ES : agg_step h axis n cur (k, d) = (st1 <- agg_process h axis s d ;; Ok (Some (remove_at axis k, st1), out))) by (rewrite Es, Eo; reflexivity).
    rewrite ES in EE |- *. clear ES Es Eo. cbv zeta in E1.
    rewrite (run_bind_both _ _ _ _ _ _ _ E1). clear E1. cbv beta iota. unfold agg_process in *.
    destruct (negb (shape_eqb (nshape s) (remove_at axis (nshape d)))); [eexists _, H1; split; [reflexivity|exact K1]|].
    rewrite (o_bad O _ _ Ow). destruct (hbad h (nth axis (nshape d) 0) (prodn (nshape s) =? 0)) eqn:EB; [eexists _, H1; split; [reflexivity|exact K1]|]. cbn [bind fst snd] in *.
    destruct (o_step O _ _ Ow P1 H1 st (nget s) v d axis (prodn (nshape s) =? 0) G1 W1) as (st2 & H2 & E2 & K2 & G2); auto.
    { destruct K1; lia. }
    { eapply read_spares; eauto. }
    rewrite (run_bind _ _ _ _ _ E2). eexists _, mout, H2, P1. split; [reflexivity|]. split; [eapply spares_trans; [exact K1|eapply spares_less; eauto]|]. split; auto. split.
    + eexists _, _, _. split; [exact EE|]. split; [reflexivity|]. exact (conj eq_refl (conj eq_refl G2)).
    + destruct mout as [mc|], out as [c|]; cbn in D1 |- *; auto. destruct D1 as ([D1 D2] & D3 & D4). split; auto. split; auto. eapply holds_spares; eauto.
  - intros P H st hist (cur & last & mcur & E & -> & HC) W. unfold agg_fin. rewrite E. cbn [bind fst].
    destruct mcur as [[[mk sh] st]|], cur as [[k0 s]|]; cbn in HC; try contradiction; cbn [magg_fin]; [|eexists _, H; split; [reflexivity|apply spares_refl]].
    destruct HC as (-> & -> & G). destruct (o_fin O _ _ Ow P H st (nget s) (nshape s) n G W) as (w & H1 & E1 & K1 & D1 & PW).
    exists (Some (k0, w)), H1, (fun _ => False). split; [rewrite (run_bind _ _ _ _ _ E1); reflexivity|]. split; auto. split; [tauto|]. split; [exact I|].
    split; [split; auto|]. auto.
Qed.
End Agg.

(** ** Element by element *)
Lemma no_fin_ok : forall (P : nat -> Prop) H (st : @mstate V) hist, any P H st hist -> wide P H ->
  match no_fin hist with
  | Ok o => exists mo H' (Q : nat -> Prop), mno_fin st H = (Ok mo, H') /\ spares P H H' /\ (forall l, Q l -> P l) /\ any Q H' st hist /\ out_rel O P Q H' mo o
  | Err _ => exists e H', mno_fin st H = (Err e, H') /\ spares P H H'
  end.
Proof. intros P H st hist _ W. exists None, H, P. split; [reflexivity|]. split; [apply spares_refl|]. split; auto. split; exact I. Qed.
Lemma el1_consumes f : consumes O any any (el1_emit f) no_fin (mel1_emit O f) mno_fin 1.
Proof.
  constructor; [apply any_moves|apply any_moves| |apply no_fin_ok].
  intros P H st hist mcs cs _ W HF HL.
  destruct cs as [|c [|]]; try discriminate HL. inversion HF as [|mc c0 ms cs0 [[Ek Hv] HP] HF']; subst. inversion HF'; subst. clear HF HF' HL.
  unfold el1_emit. rewrite last_last. unfold mel1_emit, bindM at 1, look_at.
  destruct (fresh_own O (fun l => length H <= l) (nd_map f (read H (snd mc))) (nd_map f (snd c)) H) as (v & H' & E & K & D & PV); [intros l Hl; auto|apply same_map; apply Hv|].
  unfold bindM; rewrite E. exists st, (Some (fst mc, v)), H', (fun _ => False). split; [reflexivity|]. split; [eapply spares_less; [|exact K]; apply W|]. split; [tauto|]. split; [exact I|].
  split; [split; auto|]. split; [apply W; auto|tauto].
Qed.
Lemma el2_consumes f : consumes O any any (el2_emit f) no_fin (mel2_emit O f) mno_fin 2.
Proof.
  constructor; [apply any_moves|apply any_moves| |apply no_fin_ok].
  intros P H st hist mcs cs _ W HF HL.
  destruct cs as [|c [|c' [|]]]; try discriminate HL. inversion HF as [|mc c0 ms cs0 [[Ek Hv] HP] HF']; subst. inversion HF' as [|mc' c1 ms' cs1 [[Ek' Hv'] HP'] HF'']; subst. inversion HF''; subst. clear HF HF' HF'' HL.
  unfold el2_emit. rewrite last_last. unfold mel2_emit, bindM at 1, look_at.
  pose proof (op2_same f _ _ _ _ (proj2 Hv) (proj2 Hv')) as HO. unfold lift, bindM.
  destruct (np_op2 f (read H (snd mc)) (read H (snd mc'))) as [d|e], (np_op2 f (snd c) (snd c')) as [d'|e']; cbn in HO; try contradiction; cbn [bind].
  2:{ eexists _, H. split; [reflexivity|apply spares_refl]. }
  destruct (fresh_own O (fun l => length H <= l) d d' H) as (v & H' & E & K & D & PV); [intros l Hl; auto|auto|].
  rewrite E. exists st, (Some (fst mc, v)), H', (fun _ => False). split; [reflexivity|]. split; [eapply spares_less; [|exact K]; apply W|]. split; [tauto|]. split; [exact I|].
  split; [split; auto|]. split; [apply W; auto|tauto].
Qed.

(** ** Results *)
Section Sink.
Variable garbage : list nat -> cell.
Variables (sh : list nat) (l : nat).
Definition sink_rep : @rep V := fun P H st hist => st = SSink l /\ P l /\ l < length H
  /\ exists d, stored garbage sh hist = Ok d /\ nd_same (read H (whole l sh)) d.
Lemma sink_moves : moves sink_rep.
Proof.
  intros P Q H H' st hist (-> & HP & HL & d & E & HS) HLn HM. destruct (HM l HP HL) as [HQ HK]. split; auto. split; auto. split; [lia|]. exists d. split; auto.
  eapply same_trans; [|exact HS]. split; auto. intros i. cbn. rewrite HK. auto.
Qed.
Lemma sink_consumes : consumes O sink_rep sink_rep (sink_emit garbage sh) no_fin (msink_emit O sh) mno_fin 1.
Proof.
  constructor; [apply sink_moves|apply sink_moves| |].
  - intros P H st hist mcs cs (-> & HPl & HLl & d & E & HS) W HF HL.
    destruct cs as [|c [|]]; try discriminate HL. inversion HF as [|mc c0 ms cs0 [[Ek Hv] HP] HF']; subst. inversion HF'; subst. clear HF HF' HL.
    unfold sink_emit. match goal with |- context [stored garbage sh ?x] => set (all := x) end.
    assert (EE : stored garbage sh all = np_setitem d (fst c) (snd c)).
    { unfold all, stored. rewrite concat_app. cbn [concat app]. unfold stored in E. unfold np_setitems in *. rewrite foldM_app, E. cbn [foldM bind]. destruct (np_setitem d (fst c) (snd c)); auto. }
    rewrite EE. pose proof (setitem_same _ _ (fst c) _ _ HS (proj2 Hv)) as HR. unfold msink_emit, write, bindM, look_at, lift, put. rewrite Ek.
    destruct (np_setitem (read H (whole l sh)) (fst c) (read H (snd mc))) as [d1|e1] eqn:E1, (np_setitem d (fst c) (snd c)) as [d2|e2]; cbn in HR; try contradiction; cbn [bind].
    2:{ eexists _, H. split; [reflexivity|apply spares_refl]. }
    eexists _, None, _, P. split; [reflexivity|]. split; [apply set_spares; auto|]. split; auto. split; [|exact I].
    split; auto. split; auto. split; [rewrite set_nth_length; auto|]. exists d2. split; [exact EE|].
    eapply same_trans; [|exact HR]. split; [cbn; symmetry; apply (setitem_shape _ _ _ _ E1)|]. intros i. cbn. rewrite look_set, Nat.eqb_refl by auto. auto.
  - intros P H st hist HR W. exists None, H, P. split; [reflexivity|]. split; [apply spares_refl|]. split; auto. split; [exact HR|exact I].
Qed.
End Sink.

(** ** Sources *)
Section Items.
Variable garbage : list nat -> cell.
Variable place : @concrete V -> nat.
Variable copies : bool -> @concrete V -> bool.
Variables maxc fuel : nat.
Variable m : bool.
Variable srcs : list (@concrete V).
(** The memory of the sources. *)
Definition used_by (l : nat) : Prop := exists c, In c srcs /\ l = place c.
Definition all_in (H : heap) : Prop := forall c, In c srcs -> in_memory place copies H c.
Lemma used_same H H' : all_in H -> length H <= length H' -> (forall l, used_by l -> look H' l = look H l) -> all_in H'.
Proof using.
  clear fuel maxc m. intros HA HL HM c Hc. destruct (HA c Hc) as (H1 & H2 & H3). split; [lia|]. split; auto. intros i. rewrite HM; [auto|]. exists c. auto.
Qed.
Lemma used_in H l : all_in H -> used_by l -> l < length H.
Proof. intros HA (c & Hc & ->). apply HA. auto. Qed.
Lemma shared_source (a : barr) c : shared copies m a = Some c -> In c (sources a).
Proof.
  induction a as [sh v d|o c' ks|a na IH|a dict lead IH|a d IH|a v IH|a axes IH|ssh items IH|tiles axis IH|g a axis d IH|o a d IH|o a b' d IH1 IH2] using barr_ind2;
    cbn [shared sources]; try discriminate; auto.
  - destruct (_ && _ && _); [|discriminate]. intros E. injection E as ->. left. auto.
  - destruct m; auto. discriminate.
Qed.
Lemma source_item (a : barr) k : incl (sources a) srcs ->
  item_ok O used_by all_in (bindM (lift (getitem a k)) (fun b => bindM (mrealise O garbage place copies maxc fuel m b) (fun v => ret (k, v))))
    (b <- getitem a k ;; d <- realise O maxc garbage fuel m b ;; Ok (k, d)).
Proof.
  intros HI H HA. assert (HS : sources_in place copies H a) by (intros c Hc; apply HA, HI, Hc).
  destruct (getitem a k) as [b|e] eqn:EG; [|exists H; split; [reflexivity|apply grows_refl]]. cbn [bind].
  pose proof (sources_get place copies H a k b EG HS) as HSb.
  pose proof (mrealise_ok O garbage place copies maxc fuel m b H HSb) as D. unfold does in D |- *. unfold bindM at 1, lift.
  destruct (realise O maxc garbage fuel m b) as [d|e]; cbn [bind].
  - destruct D as (v & H' & E & G & HD). pose proof (mrealise_at O garbage place copies maxc fuel m b H v H' HSb E) as L.
    exists (k, v), H'. split; [unfold bindM; rewrite E; reflexivity|]. split; auto. split; [split; auto|]. cbn [snd]. unfold located in L.
    destruct (shared copies m b) as [c|] eqn:ES; [right|left; auto]. exists c. split; auto. apply HI. eapply getitem_sources; [exact EG|]. apply shared_source; auto.
  - destruct D as (H' & E & G). exists H'. split; auto. unfold bindM. rewrite E. reflexivity.
Qed.
End Items.
End MemNodes.
