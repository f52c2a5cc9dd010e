(** PropFootprint: C66, evaluation in bounded memory. *)
From Verif Require Import Base Lib PySlice Keys NDArray Arrays Chunks Handlers Realise Spec SelLemmas KeyLemmas ChunkLemmas StreamLemmas Compose Samples Kahn Threads ThreadSpec ThreadRun PropSources PropThreads FootSpec Footprint.

(** C66: at every moment of every schedule, whatever the sizes of the arrays: a
    queue holds at most three messages; no chunk in a queue or in the hands of a
    thread has more elements than the chunk limit; and there are at most ten such
    chunks per array object and requested array, so that all of them together
    have at most [10 * limit] elements for each.  (Result arrays not counted, nor
    what a source does to compute one of its blocks.) *)
Theorem C66_in_flight {V} (O : numops V) maxc garbage rz m dag roots net s :
  dag_ok dag roots -> sized O rz dag -> network O maxc garbage rz m dag roots = Ok net -> reached net dag roots s ->
  (forall q, length (nth q (snd s) []) <= 3)
  /\ Forall (fun c => size c <= Nat.max 1 maxc) (in_flight net s)
  /\ length (in_flight net s) <= 10 * (length dag + length roots)
  /\ fold_right (fun c n => size c + n) 0 (in_flight net s) <= 10 * (length dag + length roots) * Nat.max 1 maxc.
Proof.
  intros D HS HN HR. pose proof (flight_ok O maxc garbage rz m dag roots D HS net HN s HR) as HF.
  pose proof (flight_count O maxc garbage rz m dag roots D HS net HN s HR) as HC.
  split; [apply (queue_len O maxc garbage rz m dag roots D HS net HN s HR)|]. split; [exact HF|]. split; [exact HC|].
  assert (HX : fold_right (fun c n => size c + n) 0 (in_flight net s) <= length (in_flight net s) * Nat.max 1 maxc).
  { clear HC. induction HF as [|c l Hc HF IH]; cbn [fold_right length]; lia. }
  etransitivity; [exact HX|]. apply Nat.mul_le_mono_r. exact HC.
Qed.
(** The arrays in which an aggregation accumulates, given the chunks it has
    processed so far, have no more elements than the limit either. *)
Theorem C66_accumulators {V} (O : numops V) maxc garbage rz m dag roots net s i g src axis d l k st c :
  dag_ok dag roots -> sized O rz dag -> network O maxc garbage rz m dag roots = Ok net -> reached net dag roots s ->
  nth_error dag i = Some (EAgg g src axis d) -> nth_error (fst s) i = Some l ->
  agg_run (handler_of O m g) axis (nth axis (shape (expr O dag src)) 0) None None (concat (taken l)) = Ok (Some (k, st), c) ->
  prodn (nshape st) <= Nat.max 1 maxc.
Proof.
  intros D HS HN HR He Hl HA. rewrite (taken_eq (V := V) l) in HA. apply (state_ok O maxc garbage rz m dag roots D HS net HN s HR i g src axis d l k st He Hl c HA).
Qed.

(** Sources read correctly are honest. *)
Lemma block_sel ks sh : block ks sh -> sel_keys ks sh = Some (map (fun kn => DLs (kpos (fst kn) (snd kn))) (combine ks sh)).
Proof.
  induction 1 as [|k n ks sh Hk H IH]; [reflexivity|]. cbn [combine map fst snd]. destruct (chunk_key_sel _ _ Hk) as (a & len & E & _).
  assert (HE : kpos k n = seq a len) by (unfold kpos; rewrite E; auto). rewrite HE.
  assert (HK : k <> KNew) by (destruct Hk as [->|(x & y & -> & _)]; discriminate). destruct k; try congruence; cbn [sel_keys]; rewrite E, IH; auto.
Qed.
Lemma block_full ks sh : block ks sh -> fullk ks (length sh).
Proof.
  intros H. split.
  - induction H as [|k n ks sh Hk H IH]; [reflexivity|]. destruct Hk as [->|(x & y & -> & _)]; simpl in *; auto.
  - induction H as [|k n ks sh Hk H IH]; [reflexivity|]. unfold n_real in *. rewrite count_if_cons. cbn [length]. destruct Hk as [->|(x & y & -> & _)]; simpl; lia.
Qed.
Theorem C66_honest {V} (O : numops V) maxc garbage fuel m (a : @barr V) D :
  blocks_right O maxc garbage fuel m a D -> honest (realise O maxc garbage fuel m) a.
Proof.
  intros [HS HB] ks b d Hk Eb Ed. destruct (HB ks Hk) as (b' & d' & Eb' & Ed' & Hd). rewrite Eb in Eb'. injection Eb' as <-. rewrite Ed in Ed'. injection Ed' as <-.
  destruct Hd as [Hd _]. rewrite Hd. unfold oindex, oselect. rewrite HS, np_expand_id by (apply block_full; auto). rewrite (block_sel _ _ Hk).
  cbn [nd_sel nshape]. clear. induction (combine ks (shape a)) as [|x l IH]; [reflexivity|]. cbn [map]. simpl. f_equal; auto.
Qed.

(** [ndarrays([sum(x, axis=0), -x])] for seven rows of three, in chunks of at most
    three elements. *)
Definition tall : list (@entry Z) := [EArr (arr [7; 3]); EAgg GSum 0 0 0; EEl1 zneg1 0 0].
Example C66_case : dag_ok tall [1; 2] /\ sized z_ops (zrz 3 false) tall
  /\ network z_ops 3 filler (zrz 3 false) false tall [1; 2] = Ok (znet 3 false tall [1; 2]).
Proof.
  split; [apply dag_check; vm_compute; reflexivity|]. split; [|apply znet_ok; vm_compute; reflexivity].
  intros i e He. destruct i as [|[|[|i]]]; cbn in He; try (injection He as <-); [|cbn; lia|exact I|destruct i; discriminate].
  split; [cbn; repeat constructor|]. apply (C66_honest z_ops 3 filler 3 false _ (data_of z_ops false (numbered [7; 3]))).
  apply fresh_source; [lia|cbn; repeat constructor|right; left; cbn; discriminate].
Qed.
(** After fifteen steps of one schedule: two queues are full, nine chunks exist. *)
Definition zat k maxc m dag roots := run (net_next (znet maxc m dag roots)) bounded k (net0 (znet maxc m dag roots) (queues dag roots)).
Lemma zat_reached k maxc m dag roots : reached (znet maxc m dag roots) dag roots (zat k maxc m dag roots).
Proof. apply run_steps. Qed.
Example C66_moment : map (@length _) (snd (zat 15 3 false tall [1; 2])) = [0; 0; 3; 0; 3; 0; 0; 0; 0; 0]
  /\ map size (in_flight (znet 3 false tall [1; 2]) (zat 15 3 false tall [1; 2])) = [3; 3; 3; 3; 3; 3; 3; 3; 3].
Proof. split; vm_compute; reflexivity. Qed.

(** A dimension of length zero defeats the limit: a source without elements is one
    chunk, and its sum over that dimension another, of any size. *)
Definition hollow (n : nat) : list (@entry Z) := [EArr (arr [n; 0]); EAgg GSum 0 1 0].
Theorem C66_empty_refuted : exists (dag : list (@entry Z)) roots net s,
  dag_ok dag roots /\ (forall i a, nth_error dag i = Some (EArr a) -> honest (zrz 1 false) a)
  /\ network z_ops 1 filler (zrz 1 false) false dag roots = Ok net /\ reached net dag roots s
  /\ exists c, In c (in_flight net s) /\ Nat.max 1 1 < size c.
Proof.
  exists (hollow 5), [1], (znet 1 false (hollow 5) [1]), (zat 10 1 false (hollow 5) [1]).
  split; [apply dag_check; vm_compute; reflexivity|]. split.
  - intros i a Ha. destruct i as [|[|[|i]]]; cbn in Ha; try discriminate. injection Ha as <-.
    intros ks b d Hk Eb Ed. inversion Hk as [|k1 ? ks1 ? H1 Hk1]; subst. inversion Hk1 as [|k2 ? ks2 ? H2 Hk2]; subst. inversion Hk2; subst.
    assert (k2 = KFull) as -> by (destruct H2 as [->|(x & y & -> & Hx & Hy)]; [reflexivity|cbn in Hy; lia]).
    assert (HX : forall k, k = KFull \/ (exists x y, k = sl x y /\ x < y /\ y <= 5) ->
      match (b <- getitem (arr [5; 0]) [k; KFull] ;; d <- zrz 1 false b ;; Ok (nshape d)) with
      | Ok sh => sh = map (fun kn => length (kpos (fst kn) (snd kn))) (combine [k; KFull] [5; 0]) | Err _ => True end).
    { intros k [->|(x & y & -> & Hx & Hy)]; [vm_compute; reflexivity|]. destruct y as [|[|[|[|[|[|y]]]]]]; try lia;
        destruct x as [|[|[|[|[|x]]]]]; try lia; vm_compute; reflexivity. }
    specialize (HX k1 H1). rewrite Eb in HX. cbn [bind] in HX. rewrite Ed in HX. exact HX.
  - split; [apply znet_ok; vm_compute; reflexivity|]. split; [apply zat_reached|].
    assert (H : existsb (fun c => 1 <? size c) (in_flight (znet 1 false (hollow 5) [1]) (zat 10 1 false (hollow 5) [1])) = true) by (vm_compute; reflexivity).
    apply existsb_exists in H as (c & Hc & H). exists c. split; auto. apply Nat.ltb_lt in H. exact H.
Qed.
Print Assumptions C66_in_flight.
Print Assumptions C66_accumulators.
Print Assumptions C66_honest.
Print Assumptions C66_empty_refuted.
