(** C64: aggregations operation by operation, in any arithmetic.

    The theorems of C21 - C26 assume that additions may be regrouped.  Floating
    point numbers do not allow that.  Here nothing is assumed of the arithmetic
    [O]; [vsum] is what np.sum gives, in whatever order NumPy adds.  The
    formulas are in ExactSpec.v. *)
From Verif Require Import Base PySlice Keys NDArray Arrays Chunks Handlers Realise Spec Supported Lib SelLemmas KeyLemmas GetBase GetSimple GetStack ChunkLemmas AssignLemmas HandlerLemmas RealOps Realisable StreamLemmas RealOK ClassClaims ChunkClaims SaveClaims Compose BuiltClaims PropAgg PropSources ExactSpec Exact Samples Threads ThreadSpec ThreadBuild ThreadNodes ThreadSem ThreadFail ThreadTree ThreadShare ThreadRun PropThreads.
From Coq Require Import ZifyBool ZifyNat.

Section C64.
Context {V : Type} (O : numops V).
Variable maxc : nat.
Variable garbage : list nat -> option V.
Variable fuel : nat.
Variable m : bool.
Notation source := (blocks_right O maxc garbage fuel m).

(** [made sh bs a f]: the expression [a], of shape [sh], is made of sources
    (arrays whose blocks read right, in whatever way they come to do so) by
    elementwise operations and aggregations of every kind; the engine gets it in
    the blocks [bs] of each dimension and [f] is the formula for its element at
    each position. *)
Inductive made : list nat -> list (list (list nat)) -> barr -> (list nat -> option V) -> Prop :=
| made_source a D : streamed a = false -> source a D -> made (shape a) (grid maxc (shape a)) a (nget D)
| made_el1 sh bs a f o d : has_op1 m o -> made sh bs a f -> made sh bs (AEl1 o a d) (fun i => op1_sem m o (f i))
| made_el2 sh bs a b f g o d : has_op2 m o -> made sh bs a f -> made sh bs b g ->
    made sh bs (AEl2 o a b d) (fun i => op2_sem m o (f i) (g i))
| made_agg sh bs a f g axis d : made sh bs a f -> axis < length sh -> (needs_item m g -> 1 <= nth axis sh 0) ->
    made (remove_at axis sh) (remove_at axis bs) (AAgg g a axis d)
         (fun o => in_pieces O m g (nth axis sh 0) (map (map (fun i => f (insert_at axis i o))) (nth axis bs []))).

Definition block_lists (cs : list (list key)) (sh : list nat) : list (list (list nat)) :=
  map (fun p => map (fun k => kpos k (snd p)) (fst p)) (combine cs sh).
Lemma block_lists_nth cs sh i : length cs = length sh -> i < length sh ->
  nth i (block_lists cs sh) [] = map (fun k => kpos k (nth i sh 0)) (nth i cs []).
Proof.
  revert cs i. induction sh as [|n sh IH]; intros [|c cs] i HL Hi; simpl in *; try lia. destruct i; auto. apply IH; lia.
Qed.
Lemma block_lists_remove axis : forall cs sh, length cs = length sh ->
  remove_at axis (block_lists cs sh) = block_lists (remove_at axis cs) (remove_at axis sh).
Proof.
  induction axis as [|axis IH]; intros [|c cs] [|n sh] HL; try discriminate; auto.
  unfold block_lists in *. cbn [combine map fst snd]. rewrite !remove_at_S. cbn [combine map fst snd]. rewrite IH; auto.
Qed.
Lemma key_block n k : chunk_key n k -> exists x len, kpos k n = seq x len.
Proof. intros H. destruct (chunk_key_sel _ _ H) as (x & len & E & _). unfold kpos. rewrite E. eauto. Qed.
Lemma blocks_nonempty cs sh axis : good_cuts cs sh -> axis < length sh -> 1 <= nth axis sh 0 ->
  forall k, In k (nth axis cs []) -> 1 <= length (kpos k (nth axis sh 0)).
Proof.
  intros HC Hax Hn k Hk. destruct (good_cuts_nth _ _ axis HC Hax) as (_ & HF & _). rewrite Forall_forall in HF.
  destruct (chunk_key_sel _ _ (HF k Hk)) as (x & len & E & _ & Hl). unfold kpos. rewrite E, seq_length. auto.
Qed.

Lemma made_streams sh bs a f : made sh bs a f ->
  streams O maxc garbage fuel m a (mkND sh f) /\ shape a = sh /\ bs = block_lists (cuts maxc a) sh.
Proof.
  induction 1 as [a D Ha HS|sh bs a f o d Ho H (S1 & S2 & S3)|sh bs a b f g o d Ho H1 (S1 & S2 & S3) H2 (T1 & T2 & T3)|sh bs a f g axis d H (S1 & S2 & S3) Hax Hn].
  - split; [|split; auto].
    + eapply streams_eq; [apply streams_source; eauto|]. split; [apply HS|auto].
    + rewrite grid_eq. destruct a; try discriminate; reflexivity.
  - split; [|split; auto]. eapply streams_eq; [apply streams_el1; eauto|]. split; auto.
  - split; [|split; auto]. eapply streams_eq; [apply streams_el2; eauto|]; [congruence| |split; auto].
    intros i Hi. pose proof (good_cuts_length _ _ (streams_cuts _ _ _ _ _ _ _ S1)) as L1. pose proof (good_cuts_length _ _ (streams_cuts _ _ _ _ _ _ _ T1)) as L2.
    rewrite S2 in *. rewrite T2 in *. rewrite <- !block_lists_nth by auto. congruence.
  - subst bs sh. pose proof (streams_cuts _ _ _ _ _ _ _ S1) as HC. pose proof (good_cuts_length _ _ HC) as HLc. split; [|split; auto].
    2:{ cbn [cuts]. apply block_lists_remove. auto. }
    destruct (good_cuts_nth _ _ axis HC Hax) as (Hcat & HF & HN & _).
    eapply streams_eq.
    + apply (streams_agg O maxc garbage fuel m g a axis d (mkND (shape a) f)); auto.
      intros l b Hl. unfold axis_pieces in Hl. apply in_map_iff in Hl as (k & <- & Hk).
      assert (HP : needs_item m g -> (length (kpos k (nth axis (shape a) 0)) =? 0) = false).
      { intros Hi. pose proof (blocks_nonempty _ _ axis HC Hax (Hn Hi) k Hk). lia. }
      destruct g, m; try reflexivity; cbn [handler_of hbad h_min h_min_m h_max h_max_m h_std h_var]; unfold no_ident, no_first; rewrite HP by exact I; auto.
    + split; [reflexivity|]. cbn [nshape nget]. intros o Ho. unfold cut_column. cbn [nshape nget]. rewrite block_lists_nth by auto. rewrite map_map.
      apply exact_run.
      * rewrite <- (map_map (fun k => kpos k (nth axis (shape a) 0)) (map (fun i => f (insert_at axis i o)))), <- concat_map, Hcat. rewrite map_length, seq_length. auto.
      * intros E. apply map_eq_nil in E. auto.
      * intros Hi. apply Forall_forall. intros p Hp. apply in_map_iff in Hp as (k & <- & Hk). pose proof (blocks_nonempty _ _ axis HC Hax (Hn Hi) k Hk) as Hl.
        intros E. apply map_eq_nil in E. rewrite E in Hl. simpl in Hl. lia.
Qed.

(** C64: the arrays the engine returns have exactly the elements of the formulas;
    in particular they do not depend on the content of fresh memory. *)
Theorem C64_values sh bs a f : made sh bs a f ->
  exists r, ndarrays O maxc garbage fuel m [a] = Ok [r] /\ nshape r = sh /\ forall i, inb sh i -> nget r i = f i.
Proof.
  intros H. destruct (made_streams _ _ _ _ H) as (S1 & _ & _). destruct (streams_engine O maxc garbage fuel m a _ S1) as (r & E & R1 & R2).
  exists r. split; [unfold ndarrays; cbn [mapM]; rewrite E; auto|]. split; auto. intros i Hi. apply R2. rewrite R1. auto.
Qed.
(** The same of [ndarray()]/[masked_array()] of an aggregation. *)
Theorem C64_method sh bs a f g axis d : made sh bs a f -> axis < length sh -> (needs_item m g -> 1 <= nth axis sh 0) ->
  exists r, realise O maxc garbage (S fuel) m (AAgg g a axis d) = Ok r /\ nshape r = remove_at axis sh
    /\ forall o, inb (remove_at axis sh) o ->
         nget r o = in_pieces O m g (nth axis sh 0) (map (map (fun i => f (insert_at axis i o))) (nth axis bs [])).
Proof.
  intros H Hax Hn. destruct (made_streams _ _ _ _ (made_agg _ _ _ _ g axis d H Hax Hn)) as (S1 & _).
  destruct (streams_agg_realise O maxc garbage fuel m g a axis d _ S1) as (r & E & R1 & R2). exists r. split; auto. split; auto.
  intros o Ho. apply R2. rewrite R1. auto.
Qed.
(** Whatever the schedule of the threads: several expressions that share no array
    object, evaluated together, end in these elements. *)
Theorem C64_schedules (l : list (barr * (list nat * list (list (list nat)) * (list nat -> option V)))) :
  Forall (fun x => let '(a, (sh, bs, f)) := x in made sh bs a f) l ->
  let dag := fst (forest 0 (map fst l)) in let roots := snd (forest 0 (map fst l)) in
  exists net, network O maxc garbage (realise O maxc garbage fuel m) m dag roots = Ok net /\
    (exists s, reached net dag roots s /\ ThreadSpec.over net s) /\
    forall s, reached net dag roots s -> ThreadSpec.over net s -> joined dag roots s /\
      exists ds, returned O garbage dag roots s = Ok ds
        /\ Forall2 (fun x d => let '(a, (sh, bs, f)) := x in nshape d = sh /\ forall i, inb sh i -> nget d i = f i) l ds.
Proof.
  intros HL dag roots. destruct (forest_graph O (map fst l)) as (D & U & E). fold dag roots in D, U, E.
  set (rz := realise O maxc garbage fuel m).
  assert (H : exists ds, Forall2 (fun a d => engine_eval O maxc garbage rz m a = Ok d) (map fst l) ds
    /\ Forall2 (fun x d => let '(a, (sh, bs, f)) := x in nshape d = sh /\ forall i, inb sh i -> nget d i = f i) l ds).
  { clear -HL. induction HL as [|[a [[sh bs] f]] l H HL (ds & H1 & H2)]; [exists []; split; constructor|].
    destruct (made_streams _ _ _ _ H) as (S1 & _ & _). destruct (streams_engine O maxc garbage fuel m a _ S1) as (r & E & R1 & R2).
    exists (r :: ds). split; constructor; auto. split; auto. intros i Hi. apply R2. rewrite R1. auto. }
  destruct H as (ds & H1 & H2).
  assert (H3 : Forall2 (fun r d => engine_eval O maxc garbage rz m (expr O dag r) = Ok d) roots ds).
  { rewrite <- E in H1. clear -H1. revert ds H1. induction roots as [|r rs IH]; intros ds H1; inversion H1; subst; constructor; auto. }
  destruct (network_ok O maxc garbage rz m dag roots D) as [net HN].
  { intros r Hr. clear -H3 Hr. induction H3; [destruct Hr|]. destruct Hr as [<-|Hr]; eauto. }
  exists net. split; auto. split. { destruct (C29_every_schedule_stops O maxc garbage rz m dag roots D net HN) as [b Hb]. destruct (Hb 0 _ (Kahn.steps_0 _ _ _)) as (_ & n & t & Ht & HF). exists t. split; auto. exists n. auto. }
  intros s Hs HF. pose proof (C29_no_sharing_partial O maxc garbage rz m dag roots D net HN s U Hs HF) as HJ. split; auto.
  exists ds. split; auto. apply (C28_sequential_partial O maxc garbage rz m dag roots D net HN ds s); auto. apply (unshared_consistent O dag roots U).
Qed.

(** Spelled out for an aggregation of one source [a] with the elements of [D]. *)
Definition blocks_of (D : nd (option V)) (axis : nat) (o : list nat) : list (list (option V)) :=
  map (map (fun i => nget D (insert_at axis i o))) (dim_blocks maxc (prodn (skipn (S axis) (nshape D))) (nth axis (nshape D) 0)).
Lemma grid_nth : forall sh axis, axis < length sh -> nth axis (grid maxc sh) [] = dim_blocks maxc (prodn (skipn (S axis) sh)) (nth axis sh 0).
Proof. induction sh as [|n sh IH]; intros axis H; simpl in H; [lia|]. destruct axis; auto. cbn [grid nth]. rewrite IH by lia. auto. Qed.
Theorem C64_source a D g axis d : streamed a = false -> source a D -> axis < length (nshape D) -> (needs_item m g -> 1 <= nth axis (nshape D) 0) ->
  exists r, realise O maxc garbage (S fuel) m (AAgg g a axis d) = Ok r /\ nshape r = remove_at axis (nshape D)
    /\ forall o, inb (remove_at axis (nshape D)) o -> nget r o = in_pieces O m g (nth axis (nshape D) 0) (blocks_of D axis o).
Proof.
  intros Ha HS Hax Hn. pose proof (proj1 HS) as Hsh. rewrite Hsh in *. destruct (C64_method _ _ _ _ g axis d (made_source a D Ha HS) Hax Hn) as (r & E1 & E2 & E3).
  exists r. split; auto. split; auto. intros o Ho. rewrite E3 by auto. unfold blocks_of. rewrite grid_nth, Hsh by auto. auto.
Qed.
End C64.
Print Assumptions C64_values.
Print Assumptions C64_method.
Print Assumptions C64_schedules.
Print Assumptions C64_source.

(** IEEE double precision (the standard library's SpecFloat, round to nearest),
    np.sum adding from left to right. *)
From Coq Require Import SpecFloat.
Definition dbl (z : Z) : spec_float := binary_normalize 53 1024 z 0 false.
Definition is_nan_sf (x : spec_float) : bool := match x with S754_nan => true | _ => false end.
Definition best_sf (better : spec_float -> spec_float -> bool) (a b : spec_float) : spec_float :=
  if is_nan_sf a then a else if is_nan_sf b || better b a then b else a.
Definition double_ops : numops spec_float :=
  mkOps spec_float (dbl 0) (SFadd 53 1024) (fun l => fold_left (SFadd 53 1024) l (dbl 0)) (SFsub 53 1024) (SFmul 53 1024) (SFdiv 53 1024)
        (fun n => dbl (Z.of_nat n)) (SFsqrt 53 1024) (best_sf SFltb) (best_sf (fun x y => SFltb y x)) SFeqb SFltb
        (fun _ v => v) (fun _ => dbl 100000000000000000000) (fun _ => 1) 0.
Definition doubles (l : list Z) : @concrete spec_float := mkC [length l] (fun i => Some (dbl (nth (nth 0 i 0) l 0%Z))) None 1.
Definition big := doubles [9007199254740992; 0; 1; 1]%Z.   (* 2^53, 0, 1, 1 *)
Definition nil_sf (i : list nat) : option spec_float := None.

(** A case of the theorem. *)
Example C64_hyp maxc : made double_ops maxc nil_sf 1 false [4] (grid maxc [4]) (AAdapt false big []) (nget (data_of double_ops false big)).
Proof. apply (made_source double_ops maxc nil_sf 1 false (AAdapt false big [])); auto. apply fresh_source; auto; [repeat constructor|]. right; left. discriminate. Qed.
(** The result depends on MAX_CHUNK_SIZE: in one chunk every 1 is lost when added
    to 2^53, in two chunks of two items the 1s are added first. *)
Example C64_chunk_size :
  (d <- realise double_ops 100 nil_sf 2 false (AAgg GSum (AAdapt false big []) 0 1) ;; Ok (nget d [])) = Ok (Some (dbl 9007199254740992)) /\
  (d <- realise double_ops 2 nil_sf 2 false (AAgg GSum (AAdapt false big []) 0 1) ;; Ok (nget d [])) = Ok (Some (dbl 9007199254740994)).
Proof. vm_compute. auto. Qed.
Example C64_chunk_size_blocks : blocks_of 2 (data_of double_ops false big) 0 [] = [[Some (dbl 9007199254740992); Some (dbl 0)]; [Some (dbl 1); Some (dbl 1)]]
  /\ blocks_of 100 (data_of double_ops false big) 0 [] = [[Some (dbl 9007199254740992); Some (dbl 0); Some (dbl 1); Some (dbl 1)]].
Proof. vm_compute. auto. Qed.
(** An aggregation of an aggregation of an elementwise operation: the mean over
    axis 0 of the sums over axis 1 of x + x, masked, seven elements at a time. *)
Example C64_nested : exists bs f,
  made z_ops 7 (fun _ => None) 1 true [2] bs (AAgg (GMean 1%Z) (AAgg GSum (AEl2 zadd2 (marr [2; 3; 4]) (marr [2; 3; 4]) 0) 1 0) 1 1) f
  /\ bs = [[[0]; [1]]] /\ f [0] = Some 24%Z.
Proof.
  eexists _, _. split.
  - pose proof (made_source z_ops 7 (fun _ => None) 1 true (marr [2; 3; 4]) (data_of z_ops true (thirds [2; 3; 4])) eq_refl) as H.
    assert (HS : blocks_right z_ops 7 (fun _ => None) 1 true (marr [2; 3; 4]) (data_of z_ops true (thirds [2; 3; 4]))) by (apply fresh_source; auto; repeat constructor).
    specialize (H HS). pose proof (made_el2 z_ops 7 (fun _ => None) 1 true _ _ _ _ _ _ zadd2 0 ltac:(discriminate) H H) as H2.
    pose proof (made_agg z_ops 7 (fun _ => None) 1 true _ _ _ _ GSum 1 0 H2 ltac:(vm_compute; lia) ltac:(intros [])) as H3.
    exact (made_agg z_ops 7 (fun _ => None) 1 true _ _ _ _ (GMean 1%Z) 1 1 H3 ltac:(vm_compute; lia) ltac:(intros [])).
  - vm_compute. auto.
Qed.
