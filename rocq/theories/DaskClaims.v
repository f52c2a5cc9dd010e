(** DaskClaims: when the dask engine's graph can be built and what it computes. *)
From Verif Require Import Base PySlice Keys NDArray Arrays Chunks Handlers Realise Spec Supported Lib SelLemmas KeyLemmas GetBase GetSimple GetItem ChunkLemmas HandlerLemmas Realisable RealiseOK KeyGrouper GroupSpec Kahn Threads ThreadSpec ThreadSem StreamLemmas RealOK Steady SteadyReal Dask GroupKeys DaskKeys DaskOK.
From Coq Require Import ZifyBool ZifyNat.

(** A task graph is worked off by any order of its tasks: no task fails, none
    waits for ever, the work ends, and each task has one value. *)
Definition done {V} (g : list (dtask V)) (s : @dmem V) : Prop := forall i, i < length g -> nth i s None <> None.
Record works {V} (O : numops V) garbage rz m (g : list (dtask V)) : Prop := mkWorks {
  w_safe : forall s i r, dask_runs O garbage rz m g s -> ready O garbage rz m g s i r -> exists v, r = Ok v;
  w_live : forall s, dask_runs O garbage rz m g s -> done g s \/ exists i v, ready O garbage rz m g s i (Ok v);
  w_ends : exists s, dask_runs O garbage rz m g s /\ done g s;
  w_same : forall s s' i v v', dask_runs O garbage rz m g s -> dask_runs O garbage rz m g s' ->
             nth i s None = Some v -> nth i s' None = Some v' -> v = v' }.
(** The chunks of the arrays at the leaves number at most [limit] per dimension. *)
Fixpoint few {V} (maxc limit : nat) (a : @barr V) : Prop :=
  match a with
  | AAgg _ c _ _ | AEl1 _ c _ => few maxc limit c
  | AEl2 _ c1 c2 _ => few maxc limit c1 /\ few maxc limit c2
  | a => Forall (fun ks => length ks <= limit) (all_slices maxc true (shape a))
  end.
(** The values of the requested tasks at the end. *)
Definition gives {V} (ids : list nat) (s : @dmem V) (ds : list (nd (option V))) : Prop :=
  Forall2 (fun id d => nth id s None = Some (VArr d)) ids ds.

Section Run.
Context {V : Type} (O : numops V).
Variable garbage : list nat -> option V.
Variable rz : @barr V -> res (nd (option V)).
Variable m : bool.
Notation dask_runs := (dask_runs O garbage rz m).
Notation ready := (ready O garbage rz m).
Variable g : list (dtask V).
Hypothesis HT : topo g.
Hypothesis HS : sound O garbage rz m g.

Definition todo (s : @dmem V) : nat := count_if (fun x => match x with None => true | Some _ => false end) s.
Lemma todo_set s i (v : dval V) : i < length s -> nth i s None = None -> todo (set_nth i (Some v) s) < todo s.
Proof.
  unfold todo. revert i. induction s as [|x s IH]; intros [|i] Hi Hn; simpl in Hi, Hn; try lia; cbn [set_nth]; rewrite !count_if_cons.
  - subst x. simpl. lia.
  - specialize (IH i ltac:(lia) Hn). lia.
Qed.
Lemma runs_end : forall n s, todo s <= n -> dask_runs g s -> exists s', dask_runs g s' /\ done g s'.
Proof.
  induction n as [|n IH]; intros s Hn Hs; (destruct (runs_progress O garbage rz m g HT HS s Hs) as [H|(i & v & Hr)]; [exists s; auto|]).
  - exfalso. destruct (ready_val O garbage rz m g HT s i _ (runs_agree O garbage rz m g HT s Hs) Hr) as [_ Hi]. destruct Hr as (t & vs & _ & Hnone & _).
    destruct (runs_agree O garbage rz m g HT s Hs) as [HL _]. pose proof (todo_set s i v ltac:(lia) Hnone). lia.
  - apply (IH (set_nth i (Some v) s)); [|econstructor; eauto].
    destruct (ready_val O garbage rz m g HT s i _ (runs_agree O garbage rz m g HT s Hs) Hr) as [_ Hi]. destruct Hr as (t & vs & _ & Hnone & _).
    destruct (runs_agree O garbage rz m g HT s Hs) as [HL _]. pose proof (todo_set s i v ltac:(lia) Hnone). lia.
Qed.
Lemma graph_works : works O garbage rz m g.
Proof.
  split.
  - intros s i r. apply runs_total; auto.
  - intros s. apply runs_progress; auto.
  - apply (runs_end _ (repeat None (length g)) (le_n _)). constructor.
  - intros s s' i v v' H H' E E'. pose proof (runs_agree O garbage rz m g HT s H) as [_ A]. pose proof (runs_agree O garbage rz m g HT s' H') as [_ A'].
    apply A in E. apply A' in E'. congruence.
Qed.
End Run.

Section Fine.
Context {V : Type} (O : numops V).
Variable maxc limit : nat.
Variable m : bool.
Variable HG : @agg V -> nat -> Prop.
Variable ints : bool.
Notation barr := (@barr V).

Lemma few_cuts (a : barr) : wf a -> few maxc limit a -> Forall (fun ks => length ks <= limit) (cuts maxc a).
Proof.
  induction a as [sh v d|o c ks|a na IH|a dict lead IH|a d IH|a v IH|a axes IH|ssh items IH|tiles axis IH
                  |g a axis d IH|o a d IH|o a b d IH1 IH2] using barr_ind2; intros Hw HF; auto.
  - destruct Hw as [Hw _]. cbn [Realisable.cuts]. specialize (IH Hw HF). unfold remove_at. rewrite Forall_forall in *. intros x Hx. apply IH.
    apply in_app_iff in Hx as [Hx|Hx]; [rewrite <- (firstn_skipn axis (cuts maxc a))|rewrite <- (firstn_skipn (S axis) (cuts maxc a))]; apply in_app_iff; auto.
  - apply IH1; [apply Hw|apply HF].
Qed.
Lemma norm_keyok arrs n k : chunk_key n k -> keyok ints arrs (KSlice (normalize_slice (kslice k) n)) n.
Proof.
  intros Hk. pose proof (piece_sel n k Hk) as E. pose proof (chunk_keyok (V:=V) HG ints arrs n k Hk) as HK. rewrite kpiece_norm in * by auto.
  destruct Hk as [->|(a & b & -> & H1 & H2)].
  - left. unfold piece, low, high. simpl kpiece. cbn [fst snd]. rewrite (Nat.eqb_refl n). auto.
  - right. split; [exact I|]. rewrite sel_key_sl in E by lia. cbn [sel_key] in E. destruct (slice_idx _ n) as [l|]; [|discriminate]. exists l. split; auto. intros ->.
    injection E as E. destruct (b - a) eqn:Eb; [lia|discriminate].
Qed.
Lemma norm_keysok arrs C sh r : good_cuts C sh -> In r (prodl C) -> Forall2 (keyok ints arrs) (map KSlice (nk sh r)) sh.
Proof.
  intros HC Hr. destruct (prodl_drawn _ _ _ HC Hr) as (_ & _ & HF). clear Hr HC. induction HF as [|n k sh r Hk HF IH]; [constructor|]. rewrite nk_cons. cbn [map]. constructor; auto. apply norm_keyok; auto.
Qed.
Lemma steady_fine h (a : barr) : forall arrs, wf a -> steady maxc m HG ints arrs true h a -> few maxc limit a -> dask_fine maxc limit a.
Proof.
  assert (Hcut : forall arrs (b : barr), wf b -> steady maxc m HG ints arrs true h b -> few maxc limit b -> cut_fine maxc limit b).
  { intros arrs b Hw Hs HF. split; [apply few_cuts; auto|]. intros k Hk. apply (steady_get O maxc m HG ints b arrs true h); auto.
    apply (norm_keysok arrs (cuts maxc b)); auto. apply cuts_good; auto. }
  induction a as [sh v d|o c ks|a na IH|a dict lead IH|a d IH|a v IH|a axes IH|ssh items IH|tiles axis IH
                  |g a axis d IH|o a d IH|o a b d IH1 IH2] using barr_ind2; intros arrs Hw Hs HF; try exact I.
  - split; [|eapply Hcut; eauto]. destruct Hw as [Hw _]. destruct Hs as [Hs _]. eapply IH; eauto.
  - split; [|eapply Hcut; eauto]. destruct Hs as [Hs _]. eapply IH; eauto.
  - split; [|split; [|eapply Hcut; eauto]]; destruct Hw as (Hw1 & Hw2 & _); destruct Hs as ((Hs1 & Hs2 & _) & _); destruct HF; [eapply IH1|eapply IH2]; eauto.
Qed.
End Fine.

Section Claim.
Context {V : Type} (O : numops V).
Variable maxc limit : nat.
Variable garbage : list nat -> option V.
Variable m : bool.
Variable HG : @agg V -> nat -> Prop.
Hypothesis HR : forall g, handler_right O m g (HG g).
Variable fuel : nat.
Notation rz := (realise O maxc garbage fuel m).
Notation R := (realisable maxc m HG fuel).

Theorem dask_claim dag roots : dag_ok dag roots ->
  (forall r, In r roots -> wf (expr O dag r) /\ streamable maxc m HG R (expr O dag r) /\ dask_fine maxc limit (expr O dag r)) ->
  exists ids g, dask_graph O maxc limit m dag roots = Ok (ids, g) /\ works O garbage rz m g
    /\ forall s, dask_runs O garbage rz m g s -> done g s -> exists ds, gives ids s ds
         /\ Forall2 (fun r d => nd_eq d (den O m (expr O dag r)) /\ exists d', engine_eval O maxc garbage rz m (expr O dag r) = Ok d' /\ nd_eq d d') roots ds.
Proof.
  intros (D1 & D2 & D3) HF.
  destruct (dask_graph_ok O maxc limit garbage rz m HG HR R (realise_ok O maxc garbage m HG HR fuel) dag D1 D2 roots) as (ids & g & E1 & E2 & E3 & E4).
  { intros r Hr. split; [auto|]. apply HF; auto. }
  exists ids, g. split; auto. split; [apply graph_works; auto|]. intros s Hs Hd. destruct (runs_agree O garbage rz m g E2 s Hs) as [HL HA].
  assert (HF' : Forall (fun r => wf (expr O dag r) /\ streamable maxc m HG R (expr O dag r)) roots). { apply Forall_forall. intros r Hr. split; apply HF; auto. }
  clear HF D3 E1. induction E4 as [|r id roots ids (H1 & d & H2 & H3) E4 IH]; [exists []; split; constructor|].
  inversion HF' as [|? ? [Hw HSt] HF2]; subst. destruct (IH HF2) as (ds & G1 & G2). exists (d :: ds). split.
  - constructor; auto. specialize (Hd id H1). destruct (nth id s None) as [v|] eqn:Ev; [|congruence]. apply HA in Ev. congruence.
  - constructor; auto. split; auto. destruct (engine_ok O maxc garbage m HG HR R rz (realise_ok O maxc garbage m HG HR fuel) (expr O dag r) Hw HSt) as (d' & Ed & Hd').
    exists d'. split; auto. eapply nd_eq_trans; [exact H3|]. apply nd_eq_sym. auto.
Qed.
End Claim.
