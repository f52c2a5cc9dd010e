(** PropMemory: C61 and C62, memory. *)
From Verif Require Import Base PySlice Keys NDArray Arrays Chunks Handlers Realise Lib Memory MemSpec MemLemmas MemReal Samples.

Section Claims.
Context {V : Type} (O : numops V).
Variables (garbage : list nat -> option V) (maxc fuel : nat).
Variables (place : @concrete V -> nat) (copies : bool -> @concrete V -> bool).
Notation eval := (mrealise O garbage place copies maxc fuel).
Notation evals := (marrays O garbage place copies maxc fuel).
Notation sources_in := (sources_in place copies).
Implicit Types H : @heap V.

Lemma keeps_read H H' w : grows H H' -> exists_in H w -> read O H' w = read O H w.
Proof. intros [_ K] Hw. unfold read. rewrite K by exact Hw. reflexivity. Qed.
Lemma eval_grows m a H : sources_in H a -> grows H (snd (eval m a H)).
Proof.
  intros HS. pose proof (mrealise_ok O garbage place copies maxc fuel m a H HS) as D. unfold does in D.
  destruct (realise _ _ _ _ _ _); [destruct D as (x & H2 & E2 & G & _)|destruct D as (H2 & E2 & G)]; rewrite E2; exact G.
Qed.
Lemma evals_grow m l H : (forall a, In a l -> sources_in H a) -> grows H (snd (evals m l H)).
Proof.
  intros HS. pose proof (marrays_ok O garbage place copies maxc fuel m l H HS) as D. unfold does in D.
  destruct (ndarrays _ _ _ _ _ _); [destruct D as (x & H2 & E2 & G & _)|destruct D as (H2 & E2 & G)]; rewrite E2; exact G.
Qed.

(** C61: evaluating an array changes no array that already exists, whether it
    succeeds or raises. *)
Theorem C61_untouched m a H w : sources_in H a -> exists_in H w -> read O (snd (eval m a H)) w = read O H w.
Proof. intros HS Hw. apply keeps_read; auto. apply eval_grows. auto. Qed.
Theorem C61_untouched_all m l H w : (forall a, In a l -> sources_in H a) -> exists_in H w -> read O (snd (evals m l H)) w = read O H w.
Proof. intros HS Hw. apply keeps_read; auto. apply evals_grow. auto. Qed.

(** The updates in place, views and running totals give the values of the model
    without memory (about which the other properties are proved). *)
Theorem C61_values m a H : sources_in H a ->
  match eval m a H, realise O maxc garbage fuel m a with
  | (Ok v, H'), Ok d => same_values (read O H' v) d
  | (Err e, _), Err e' => e = e'
  | _, _ => False
  end.
Proof.
  intros HS. pose proof (mrealise_ok O garbage place copies maxc fuel m a H HS) as D. unfold does in D.
  destruct (realise _ _ _ _ _ _); [destruct D as (x & H2 & E2 & G & [_ D])|destruct D as (H2 & E2 & G)]; rewrite E2; auto.
Qed.
Theorem C61_values_all m l H : (forall a, In a l -> sources_in H a) ->
  match evals m l H, ndarrays O maxc garbage fuel m l with
  | (Ok vs, H'), Ok ds => Forall2 (fun v d => same_values (read O H' v) d) vs ds
  | (Err e, _), Err e' => e = e'
  | _, _ => False
  end.
Proof.
  intros HS. pose proof (marrays_ok O garbage place copies maxc fuel m l H HS) as D. unfold does in D.
  destruct (ndarrays _ _ _ _ _ _); [destruct D as (x & H2 & E2 & G & D)|destruct D as (H2 & E2 & G)]; rewrite E2; auto.
  eapply Forall2_impl; [|exact D]. intros v d [_ Dv]. exact Dv.
Qed.

(** Saving changes only the target, and stores what the model without memory says,
    if the target is not the memory of one of the array's own sources. *)
Theorem C61_save m a t sh H : sources_in H a -> (forall c, In c (sources a) -> place c <> t) -> t < length H ->
  let (r, H') := msave O garbage place copies maxc fuel m a t sh H in
  (forall w, exists_in H w -> vloc w <> t -> read O H' w = read O H w)
  /\ match r, save O maxc garbage fuel m a (read O H (whole t sh)) with
     | Ok _, Ok d => same_values (read O H' (whole t sh)) d
     | Err _, Err _ => True
     | _, _ => False
     end.
Proof.
  intros HS HP Ht. destruct (msave_keys_ok O garbage place copies maxc fuel m a t (save_keys maxc (shape a)) (read O H (whole t sh)) H HS HP Ht (same_refl _)) as (r & H' & E & L & F & D).
  unfold msave_keys in E. cbn [nshape nd_map read whole vix] in E. unfold msave. rewrite E. split.
  - intros w Hw Hn. unfold read. rewrite F; auto.
  - unfold save, save_writes. destruct (ws <- _ ;; _) as [d|e]; destruct r as [[]|e']; auto.
Qed.

(** Whatever a program does, an array that it never writes to keeps its values, and
    evaluating an array again gives the same values, as long as it does not write to
    the memory of the sources. *)
Lemma after_keeps x H l : (forall a, In a (used x) -> sources_in H a) -> (forall t, target x = Some t -> t < length H /\ forall a c, In a (used x) -> In c (sources a) -> place c <> t) ->
  l < length H -> target x <> Some l -> length H <= length (after O place copies garbage maxc fuel H x) /\ look (after O place copies garbage maxc fuel H x) l = look H l.
Proof.
  intros HU HT Hl Hn. destruct x as [m a|m l0|m a t sh|t b]; cbn [after used target] in *.
  - destruct (eval_grows m a H) as [G K]; [apply HU; left; auto|]. auto.
  - destruct (evals_grow m l0 H) as [G K]; auto.
  - destruct (HT t eq_refl) as [Ht HP].
    destruct (msave_keys_ok O garbage place copies maxc fuel m a t (save_keys maxc (shape a)) (read O H (whole t sh)) H) as (r & H' & E & L & F & D); [apply HU; left; auto|intros c Hc; eapply HP; [left; eauto|auto]|auto|apply same_refl|].
    unfold msave_keys in E. cbn [nshape nd_map read whole vix] in E. unfold msave. rewrite E. cbn [snd]. split; [auto|]. apply F; [auto|congruence].
  - destruct (HT t eq_refl) as [Ht _]. rewrite set_nth_length. split; auto. rewrite look_set by auto. destruct (Nat.eqb_spec l t); [congruence|auto].
Qed.
Definition history H (xs : list act) : @heap V := fold_left (after O place copies garbage maxc fuel) xs H.
(** Every action is on arrays from [L], and writes to existing memory outside the
    sources of [L]. *)
Definition allowed (L : list (@barr V)) H (xs : list (@act V)) : Prop :=
  forall x, In x xs -> incl (used x) L /\ forall t, target x = Some t -> t < length H /\ forall a c, In a L -> In c (sources a) -> place c <> t.
Lemma history_keeps L xs : forall H, allowed L H xs -> (forall a, In a L -> sources_in H a) ->
  length H <= length (history H xs) /\ (forall a, In a L -> sources_in (history H xs) a)
  /\ forall l, l < length H -> (forall x, In x xs -> target x <> Some l) -> look (history H xs) l = look H l.
Proof.
  induction xs as [|x xs IH]; intros H HA HS; [cbn; auto|]. unfold history. cbn [fold_left]. set (H1 := after O place copies garbage maxc fuel H x).
  destruct (HA x (or_introl eq_refl)) as [HU HT].
  assert (K : forall l, l < length H -> target x <> Some l -> length H <= length H1 /\ look H1 l = look H l).
  { intros l Hl Hn. apply after_keeps; auto. intros t Et. destruct (HT t Et) as [Ht HP]. split; auto. intros a c Ha. apply HP; auto. }
  assert (L1 : length H <= length H1).
  { destruct x as [m a|m l0|m a t sh|t b]; unfold H1; cbn [after].
    - apply eval_grows. apply HS, HU. left; auto.
    - apply evals_grow. intros a Ha. apply HS, HU. auto.
    - destruct (HT t eq_refl) as [Ht HP].
      destruct (msave_keys_ok O garbage place copies maxc fuel m a t (save_keys maxc (shape a)) (read O H (whole t sh)) H) as (r & H' & E & L1 & F & D); [apply HS, HU; left; auto|intros c Hc; eapply HP; [apply HU; left; eauto|auto]|auto|apply same_refl|].
      unfold msave_keys in E. cbn [nshape nd_map read whole vix] in E. unfold msave. rewrite E. exact L1.
    - rewrite set_nth_length. auto. }
  assert (S1 : forall a, In a L -> sources_in H1 a).
  { intros a Ha c Hc. destruct (HS a Ha c Hc) as (P1 & P2 & P3). split; [lia|]. split; auto. intros i. destruct (K (place c) P1) as [_ KE]; [|rewrite KE; auto].
    intros Et. destruct (HT _ Et) as [_ HP]. apply (HP a c Ha Hc). auto. }
  assert (A1 : allowed L H1 xs). { intros y Hy. destruct (HA y (or_intror Hy)) as [U T]. split; auto. intros t Et. destruct (T t Et). split; auto. lia. }
  destruct (IH H1 A1 S1) as (L2 & S2 & K2). split; [unfold history in L2; lia|]. split; auto. intros l Hl Hn.
  unfold history in K2. rewrite K2; [|lia|intros y Hy; apply Hn; right; auto]. apply K; auto. apply Hn. left; auto.
Qed.
Theorem C61_history L xs H w : allowed L H xs -> (forall a, In a L -> sources_in H a) ->
  exists_in H w -> (forall x, In x xs -> target x <> Some (vloc w)) -> read O (history H xs) w = read O H w.
Proof. intros HA HS Hw Hn. unfold read. rewrite (proj2 (proj2 (history_keeps L xs H HA HS))); auto. Qed.
Theorem C61_again L xs m a H : allowed L H xs -> (forall a, In a L -> sources_in H a) -> In a L ->
  match eval m a H, eval m a (history H xs) with
  | (Ok v, H1), (Ok w, H2) => same_values (read O H1 v) (read O H2 w)
  | (Err e, _), (Err e', _) => e = e'
  | _, _ => False
  end.
Proof.
  intros HA HS Ha. pose proof (C61_values m a H (HS a Ha)) as V1.
  pose proof (C61_values m a (history H xs) (proj1 (proj2 (history_keeps L xs H HA HS)) a Ha)) as V2.
  destruct (eval m a H) as [[v|e] H1], (eval m a (history H xs)) as [[w|e2] H2], (realise _ _ _ _ _ _) as [d|e3]; try contradiction; [|congruence].
  destruct V1 as [A1 A2], V2 as [B1 B2]. split; [congruence|]. intros i. rewrite A2, B2. auto.
Qed.

(** C62: the result of [ndarray()] or [masked_array()] is a view of a source exactly
    when the array is that source indexed by integers and slices, under new axes,
    broadcasting and transposing; otherwise it is memory of its own. *)
Theorem C62_view m a H v H' c : sources_in H a -> eval m a H = (Ok v, H') -> shared copies m a = Some c ->
  exists pos, forall H2 i, nget (read O H2 v) i = cellv O (look H2 (place c) (pos i)).
Proof.
  intros HS E EC. pose proof (mrealise_at O garbage place copies maxc fuel m a H v H' HS E) as HL. unfold located in HL. rewrite EC in HL.
  exists (nget (vix v)). intros H2 i. cbn. rewrite HL. auto.
Qed.
(** Writing to it changes no source and nothing else that existed before. *)
Theorem C62_own m a H v H' : sources_in H a -> eval m a H = (Ok v, H') -> shared copies m a = None ->
  forall H2, written v H' H2 -> (forall w, exists_in H w -> read O H2 w = read O H w) /\ sources_in H2 a.
Proof.
  intros HS E EC H2 [L F]. pose proof (mrealise_at O garbage place copies maxc fuel m a H v H' HS E) as HL. unfold located in HL. rewrite EC in HL.
  pose proof (eval_grows m a H HS) as [G K]. rewrite E in G, K. cbn [snd] in G, K.
  assert (KK : forall l, l < length H -> look H2 l = look H l). { intros l Hl. rewrite F by lia. apply K. auto. }
  split.
  - intros w Hw. unfold read. rewrite KK by exact Hw. auto.
  - intros c Hc. destruct (HS c Hc) as (P1 & P2 & P3). split; [lia|]. split; auto. intros i. rewrite KK; auto.
Qed.
(** The results of [ndarrays()] and [masked_arrays()] are always memory of their
    own, and different from one another. *)
Theorem C62_all m l H vs H' i j v w : (forall a, In a l -> sources_in H a) -> evals m l H = (Ok vs, H') ->
  nth_error vs i = Some v -> nth_error vs j = Some w -> i <> j ->
  forall H2, written v H' H2 -> read O H2 w = read O H' w
    /\ (forall u, exists_in H u -> read O H2 u = read O H u) /\ forall a, In a l -> sources_in H2 a.
Proof.
  intros HS E Ei Ej Hij H2 [L F]. destruct (marrays_at O garbage place copies maxc fuel m l H vs H' HS E) as (N & FA & [G K]).
  assert (Lv : length H <= vloc v < length H'). { rewrite Forall_forall in FA. apply FA. eapply nth_error_In; eauto. }
  assert (KK : forall l, l < length H -> look H2 l = look H l). { intros l1 Hl. rewrite F by lia. apply K. auto. }
  split; [|split].
  - unfold read. rewrite F; auto. intros EL. apply Hij. rewrite NoDup_nth_error in N. apply N.
    + rewrite map_length. apply nth_error_Some. congruence.
    + erewrite !map_nth_error by eassumption. congruence.
  - intros u Hu. unfold read. rewrite KK by exact Hu. auto.
  - intros a Ha c Hc. destruct (HS a Ha c Hc) as (P1 & P2 & P3). split; [lia|]. split; auto. intros k. rewrite KK; auto.
Qed.
End Claims.

(** Memory with the source [x = [0, 1, 2, 3]] at location 0 and an array of four
    nines at location 1. *)
Definition at0 : @concrete Z -> nat := fun _ => 0.
Definition nocopy : bool -> @concrete Z -> bool := fun _ _ => false.
Definition mem : @heap Z := [fun i => MV (c_cell (numbered [4]) i); fun _ => MV (Some 9%Z)].
Definition junk : list nat -> option Z := fun _ => Some 77%Z.
Definition xs_ : @barr Z := arr [4].
(** [x[::-1]], [x[1:]], [x.std()] *)
Definition rev_ : @barr Z := AAdapt false (numbered [4]) [KSlice (mkS None None (Some (-1)%Z))].
Definition tail_ : @barr Z := AAdapt false (numbered [4]) [KSlice (mkS (Some 1%Z) None None)].
Definition std_ : @barr Z := AAgg (GStd 0%Z) (arr [4]) 0 1.
Definition content (H : @heap Z) (l : nat) : list (option Z) := map (fun i => cellv z_ops (look H l [i])) (seq 0 4).
Lemma mem_sources (a : @barr Z) : (forall c, In c (sources a) -> c = numbered [4]) -> sources_in at0 nocopy mem a.
Proof. intros HC c Hc. rewrite (HC c Hc). split; [vm_compute; lia|]. split; [reflexivity|]. intros _ i. discriminate. Qed.
(** Evaluate [x.std()] in chunks of two, save [x[::-1]] into the second array, write to
    that array: [x] keeps its values. *)
Definition doing : list (@act Z) := [Realise false std_; RealiseAll false [rev_; std_]; Save false rev_ 1 [4]; Write 1 (fun _ => MV (Some 5%Z))].
Example C61_case : allowed at0 [rev_; std_] mem doing /\ (forall a, In a [rev_; std_] -> sources_in at0 nocopy mem a)
  /\ exists_in mem (whole 0 [4]) /\ (forall x, In x doing -> target x <> Some (vloc (whole 0 [4])))
  /\ content (history z_ops junk 2 3 at0 nocopy mem (firstn 3 doing)) 1 = [Some 3; Some 2; Some 1; Some 0]%Z
  /\ content (history z_ops junk 2 3 at0 nocopy mem doing) 0 = [Some 0; Some 1; Some 2; Some 3]%Z.
Proof.
  split; [|split; [|split; [|split; [|split]]]].
  - intros x Hx. split.
    + intros a Ha. cbn in Hx. destruct Hx as [<-|[<-|[<-|[<-|[]]]]]; cbn in *; tauto.
    + intros t Et. assert (t = 1) as -> by (cbn in Hx; destruct Hx as [<-|[<-|[<-|[<-|[]]]]]; cbn in Et; congruence). split; [vm_compute; lia|]. intros. discriminate.
  - intros a Ha. apply mem_sources. intros c Hc. destruct Ha as [<-|[<-|[]]]; cbn in Hc; intuition.
  - vm_compute. lia.
  - intros x Hx. cbn in Hx. destruct Hx as [<-|[<-|[<-|[<-|[]]]]]; cbn; discriminate.
  - vm_compute. reflexivity.
  - vm_compute. reflexivity.
Qed.
(** The condition on the target of [save]: saving [x[::-1]] into [x] itself in two
    chunks reads what the first chunk wrote. *)
Example C61_own_source : sources_in at0 nocopy mem rev_
  /\ flat (save z_ops 2 junk 3 false rev_ (read z_ops mem (whole 0 [4]))) = Ok ([4], [Some 3; Some 2; Some 1; Some 0]%Z)
  /\ content (snd (msave z_ops junk at0 nocopy 2 3 false rev_ 0 [4] mem)) 0 = [Some 3; Some 2; Some 2; Some 3]%Z.
Proof.
  split; [apply mem_sources; intros c Hc; cbn in Hc; intuition|]. split; vm_compute; reflexivity.
Qed.
(** [x[1:].ndarray()] is a view: writing to it changes [x].  The results of
    [ndarrays([x[1:], x])] are not. *)
Definition poked (H : @heap Z) (v : view) : @heap Z := set_nth (vloc v) (fun _ => MV (Some 5%Z)) H.
Example C62_case : sources_in at0 nocopy mem tail_ /\ shared nocopy false tail_ = Some (numbered [4])
  /\ match mrealise z_ops junk at0 nocopy 100 3 false tail_ mem with
     | (Ok v, H') => content (poked H' v) 0 = [Some 5; Some 5; Some 5; Some 5]%Z
     | _ => False
     end
  /\ match marrays z_ops junk at0 nocopy 100 3 false [tail_; xs_] mem with
     | (Ok vs, H') => map vloc vs = [3; 4] /\ content (poked H' (nth 0 vs (whole 0 []))) 0 = [Some 0; Some 1; Some 2; Some 3]%Z
     | _ => False
     end
  /\ shared nocopy false std_ = None
  /\ match mrealise z_ops junk at0 nocopy 100 3 false std_ mem with
     | (Ok v, H') => vloc v = 5 /\ content (poked H' v) 0 = [Some 0; Some 1; Some 2; Some 3]%Z
     | _ => False
     end.
Proof.
  split; [apply mem_sources; intros c Hc; cbn in Hc; intuition|]. split; [reflexivity|]. split; [vm_compute; reflexivity|]. split; [vm_compute; split; reflexivity|].
  split; [reflexivity|]. vm_compute; split; reflexivity.
Qed.
Print Assumptions C61_untouched.
Print Assumptions C61_untouched_all.
Print Assumptions C61_values.
Print Assumptions C61_values_all.
Print Assumptions C61_save.
Print Assumptions C61_history.
Print Assumptions C61_again.
Print Assumptions C62_view.
Print Assumptions C62_own.
Print Assumptions C62_all.
