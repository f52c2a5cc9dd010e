(** C65: how accurate the sums and means of rounded arithmetic are.

    Over the real numbers, with additions and divisions that have a relative error
    of at most [u] (Rounding.v).  NumPy may add up the elements of a chunk in any
    order and grouping, provided that none goes through more than [h] additions. *)
From Verif Require Import Base PySlice Keys NDArray Arrays Chunks Handlers Realise Spec Supported Lib SelLemmas KeyLemmas GetBase GetStack ChunkLemmas HandlerLemmas Realisable StreamLemmas Compose PropAgg PropSources ExactSpec Exact Samples PropExact Rounding.
From Coq Require Import Reals Lra ZifyBool ZifyNat.
Open Scope R_scope.

Section C65.
Variables (O : numops R) (u : R).
Variable maxc : nat.
Variable garbage : list nat -> option R.
Variable fuel : nat.
Notation made := (made O maxc garbage fuel).
Notation realise := (realise O maxc garbage (S fuel)).

(** The values an aggregation of a column ranges over. *)
Definition values_of (m : bool) (l : list (option R)) : list R := if m then obs l else map (plain_val O) l.
(** Adding up as many numbers as a block of the axis has takes at most [h]
    additions for each number. *)
Definition depth_at (bs : list (list (list nat))) (axis h : nat) : Prop :=
  forall b l, In b (nth axis bs []) -> length l = length b -> exists k, (k <= h)%nat /\ adds O k l (vsum O l).
(** The bound: every element goes through [h] additions in its chunk and one for
    each chunk; [extra] more roundings. *)
Definition bound (bs : list (list (list nat))) (axis h extra : nat) : R := (1 + u) ^ (h + length (nth axis bs []) + extra) - 1.

Lemma made_line m sh bs a f axis o : made m sh bs a f -> (axis < length sh)%nat ->
  concat (map (map (fun i => f (insert_at axis i o))) (nth axis bs [])) = line f axis (nth axis sh 0%nat) o.
Proof.
  intros H Hax. destruct (made_streams O maxc garbage fuel m _ _ _ _ H) as (S1 & S2 & S3). pose proof (streams_cuts _ _ _ _ _ _ _ S1) as HC. rewrite S2 in HC.
  destruct (good_cuts_nth _ _ axis HC Hax) as (Hcat & _). rewrite S3, block_lists_nth by (auto; apply (good_cuts_length _ _ HC)).
  rewrite <- concat_map, Hcat. auto.
Qed.
Lemma zeros (l : list (option R)) : v0 O = 0 -> rsum (map (plain_val O) l) = rsum (obs l) /\ mass (map (plain_val O) l) = mass (obs l).
Proof.
  intros H0. induction l as [|[x|] l [IH1 IH2]]; auto; unfold mass, rsum in *; cbn [map plain_val obs fold_right].
  - rewrite IH1, IH2. auto.
  - rewrite IH1, IH2, H0, Rabs_R0. split; lra.
Qed.
Lemma running_near m sh bs a f axis h o : rounds O u -> made m sh bs a f -> (axis < length sh)%nat -> depth_at bs axis h ->
  let t := running O (map (map (fun i => f (insert_at axis i o))) (nth axis bs [])) in
  let xs := values_of m (line f axis (nth axis sh 0%nat) o) in
  Rabs (t - rsum xs) <= grow u (h + length (nth axis bs [])) * mass xs.
Proof.
  intros HR H Hax HD t xs. set (ps := map (map (plain_val O)) (map (map (fun i => f (insert_at axis i o))) (nth axis bs []))).
  assert (Et : t = fold_left (vadd O) (map (vsum O) ps) (v0 O)) by (unfold t, running, ps; rewrite !map_map; auto).
  assert (EC : concat ps = map (plain_val O) (line f axis (nth axis sh 0%nat) o)) by (unfold ps; rewrite <- concat_map; f_equal; apply (made_line m sh bs a f axis o H Hax)).
  pose proof (running_error O u HR h ps) as HE. rewrite EC, <- Et in HE.
  replace (length ps) with (length (nth axis bs [])) in HE by (unfold ps; rewrite !map_length; auto).
  assert (EX : rsum xs = rsum (map (plain_val O) (line f axis (nth axis sh 0%nat) o)) /\ mass xs = mass (map (plain_val O) (line f axis (nth axis sh 0%nat) o))).
  { destruct (zeros (line f axis (nth axis sh 0%nat) o) (r_zero O u HR)). unfold xs, values_of. destruct m; split; auto. }
  destruct EX as [-> ->]. apply HE. intros p Hp. unfold ps in Hp. rewrite map_map in Hp. apply in_map_iff in Hp as (b & <- & Hb).
  apply (HD b); auto. rewrite !map_length. auto.
Qed.

(** Sums: the error is at most ((1+u)^(h+c) - 1) times the sum of the absolute
    values, [c] the number of chunks along the axis.  A masked sum is missing
    exactly when there is no value. *)
Theorem C65_sum m sh bs a f axis d h : rounds O u -> made m sh bs a f -> (axis < length sh)%nat -> depth_at bs axis h ->
  exists r, realise m (AAgg GSum a axis d) = Ok r /\ nshape r = remove_at axis sh
    /\ forall o, inb (remove_at axis sh) o ->
         let xs := values_of m (line f axis (nth axis sh 0%nat) o) in
         match nget r o with
         | Some s => Rabs (s - rsum xs) <= bound bs axis h 0 * mass xs /\ (m = true -> xs <> [])
         | None => m = true /\ xs = []
         end.
Proof.
  intros HR H Hax HD. destruct (C64_method O maxc garbage fuel m sh bs a f GSum axis d H Hax) as (r & E1 & E2 & E3).
  { intros []. }
  exists r. split; auto. split; auto. intros o Ho xs. rewrite E3 by auto. clear E3.
  pose proof (running_near m sh bs a f axis h o HR H Hax HD) as HN. cbv zeta in HN. fold xs in HN.
  assert (HB : Rabs (running O (map (map (fun i => f (insert_at axis i o))) (nth axis bs [])) - rsum xs) <= bound bs axis h 0 * mass xs).
  { unfold bound. rewrite Nat.add_0_r. exact HN. }
  cbn [in_pieces]. destruct m; [|split; [exact HB|discriminate]]. rewrite (made_line true sh bs a f axis o H Hax). fold (values_of true (line f axis (nth axis sh 0%nat) o)). fold xs.
  destruct (Nat.eqb_spec (length xs) 0) as [E|E]; [|split; [exact HB|intros _ X; rewrite X in E; auto]]. split; auto. apply length_zero_iff_nil. auto.
Qed.
(** Means: one more rounding.  The number of values must be exact in [O].  A masked
    mean may also be hidden because of mdtol (C25). *)
Theorem C65_mean m sh bs a f axis d h mdtol : rounds O u -> made m sh bs a f -> (axis < length sh)%nat -> depth_at bs axis h ->
  (forall n, (n <= nth axis sh 0)%nat -> vofn O n = INR n) -> (1 <= nth axis sh 0)%nat ->
  exists r, realise m (AAgg (GMean mdtol) a axis d) = Ok r /\ nshape r = remove_at axis sh
    /\ forall o, inb (remove_at axis sh) o ->
         let xs := values_of m (line f axis (nth axis sh 0%nat) o) in let n := INR (length xs) in
         match nget r o with
         | Some s => Rabs (s - rsum xs / n) <= bound bs axis h 1 * (mass xs / n) /\ xs <> []
         | None => m = true
         end.
Proof.
  intros HR H Hax HD HV H1. destruct (C64_method O maxc garbage fuel m sh bs a f (GMean mdtol) axis d H Hax) as (r & E1 & E2 & E3).
  { intros []. }
  exists r. split; auto. split; auto. intros o Ho xs n. rewrite E3 by auto. clear E3.
  pose proof (running_near m sh bs a f axis h o HR H Hax HD) as HN. cbv zeta in HN. fold xs in HN.
  assert (HL : (length xs <= nth axis sh 0)%nat).
  { unfold xs, values_of. destruct m; [etransitivity; [apply obs_length|]|rewrite map_length]; unfold line; rewrite map_length, seq_length; lia. }
  assert (HB : length xs <> 0%nat -> Rabs (vdiv O (running O (map (map (fun i => f (insert_at axis i o))) (nth axis bs []))) n - rsum xs / n) <= bound bs axis h 1 * (mass xs / n)).
  { intros Hx. unfold bound. replace (h + length (nth axis bs []) + 1)%nat with (S (h + length (nth axis bs []))) by lia.
    assert (Hn : 0 < n) by (apply lt_0_INR; lia). apply (div_error O u HR); auto; [lra|apply rsum_mass]. }
  cbn [in_pieces]. destruct m.
  - rewrite (made_line true sh bs a f axis o H Hax). change (obs (line f axis (nth axis sh 0%nat) o)) with xs.
    destruct (Nat.eqb_spec (length xs) 0) as [E|E]; auto. match goal with |- context [if ?c then _ else _] => destruct c end; auto.
    rewrite (HV (length xs) HL). split; [apply HB; auto|intros X; rewrite X in E; auto].
  - assert (EL : length xs = nth axis sh 0%nat) by (unfold xs, values_of, line; rewrite !map_length, seq_length; auto).
    rewrite HV by lia. rewrite <- EL. split; [apply HB; lia|intros X; rewrite X in EL; simpl in EL; lia].
Qed.

(** Adding up from left to right, starting with 0. *)
Lemma fold_adds l : adds O (length l) l (fold_left (vadd O) l (v0 O)).
Proof.
  assert (G : forall r k l t, adds O k l t -> adds O (k + length r) (l ++ r) (fold_left (vadd O) r t)).
  { induction r as [|x r IH]; intros k l' t Ht; [rewrite app_nil_r, Nat.add_0_r; auto|]. cbn [fold_left length].
    replace (k + S (length r))%nat with (S k + length r)%nat by lia. replace (l' ++ x :: r) with ((l' ++ [x]) ++ r) by (rewrite <- app_assoc; auto).
    apply IH. apply adds_two; auto. constructor. }
  apply (G l 0%nat [] (v0 O)). constructor.
Qed.
End C65.

(** Results with two chunk limits differ by no more than the two errors. *)
Theorem C65_limits O u maxc maxc' garbage fuel m sh bs bs' a f axis d h h' : rounds O u ->
  made O maxc garbage fuel m sh bs a f -> made O maxc' garbage fuel m sh bs' a f -> (axis < length sh)%nat ->
  depth_at O bs axis h -> depth_at O bs' axis h' ->
  exists r r', realise O maxc garbage (S fuel) m (AAgg GSum a axis d) = Ok r /\ realise O maxc' garbage (S fuel) m (AAgg GSum a axis d) = Ok r'
    /\ forall o, inb (remove_at axis sh) o ->
         match nget r o, nget r' o with
         | Some s, Some s' => Rabs (s - s') <= (bound u bs axis h 0 + bound u bs' axis h' 0) * mass (values_of O m (line f axis (nth axis sh 0%nat) o))
         | None, None => True
         | _, _ => False
         end.
Proof.
  intros HR H H' Hax HD HD'. destruct (C65_sum O u maxc garbage fuel m sh bs a f axis d h HR H Hax HD) as (r & E1 & E2 & E3).
  destruct (C65_sum O u maxc' garbage fuel m sh bs' a f axis d h' HR H' Hax HD') as (r' & F1 & F2 & F3).
  exists r, r'. split; auto. split; auto. intros o Ho. specialize (E3 o Ho). specialize (F3 o Ho). cbv zeta in E3, F3.
  set (xs := values_of _ _ _) in *. destruct (nget r o) as [s|], (nget r' o) as [s'|]; try tauto. destruct E3 as [E3 _], F3 as [F3 _].
  replace (s - s') with ((s - rsum xs) + - (s' - rsum xs)) by ring. pose proof (Rabs_triang (s - rsum xs) (- (s' - rsum xs))) as HT. rewrite Rabs_Ropp in HT. lra.
Qed.
Print Assumptions C65_sum.
Print Assumptions C65_mean.
Print Assumptions C65_limits.

(** Rounding to nearest with 53 bits (Flocq), np.sum adding from left to right. *)
From Flocq Require Import Core Relative.
Definition near (x : R) : R := round radix2 (FLX_exp 53) ZnearestE x.
Definition flx_ops : numops R :=
  mkOps R 0 (fun a b => near (a + b)) (fun l => fold_left (fun a b => near (a + b)) l 0) (fun a b => near (a - b)) (fun a b => near (a * b))
        (fun a b => near (a / b)) INR (fun a => near (sqrt a)) Rmin Rmax (fun a b => if Req_EM_T a b then true else false)
        (fun a b => if Rlt_dec a b then true else false) (fun _ v => v) (fun _ => 100) (fun _ => 1%nat) 0%nat.
Example C65_rounds : rounds flx_ops (/ 2 * bpow radix2 (-53 + 1)).
Proof.
  constructor.
  - apply Rmult_le_pos; [lra|apply bpow_ge_0].
  - reflexivity.
  - intros a b. apply relative_error_N_FLX. reflexivity.
  - intros a b _. apply relative_error_N_FLX. reflexivity.
Qed.
Definition tenths : @concrete R := mkC [4%nat] (fun i => Some (INR (nth 0 i 0%nat) / 10)) None 1.
Definition nil_r (i : list nat) : option R := None.
Example C65_made maxc : made flx_ops maxc nil_r 1 false [4%nat] (grid maxc [4%nat]) (AAdapt false tenths []) (nget (data_of flx_ops false tenths)).
Proof. apply (made_source flx_ops maxc nil_r 1 false (AAdapt false tenths [])); auto. apply fresh_source; auto; [repeat constructor|]. right; left. discriminate. Qed.
(** Two chunks of two elements: two additions in a chunk. *)
Example C65_depth : depth_at flx_ops (grid 2 [4%nat]) 0 2.
Proof. intros b l Hb E. exists 2%nat. split; auto. replace 2%nat with (length l); [apply (fold_adds flx_ops)|]. rewrite E. vm_compute in Hb. destruct Hb as [<-|[<-|[]]]; auto. Qed.
(** 0.0 + 0.1 + 0.2 + 0.3, summed by biggus in two chunks, is 0.6 but for four
    roundings. *)
Example C65_case : exists r s, realise flx_ops 2 nil_r 2 false (AAgg GSum (AAdapt false tenths []) 0 1) = Ok r /\ nget r [] = Some s
  /\ Rabs (s - 6 / 10) <= ((1 + / 2 * bpow radix2 (-53 + 1)) ^ 4 - 1) * (6 / 10).
Proof.
  destruct (C65_sum flx_ops _ 2 nil_r 1 false _ _ _ _ 0 1 2 C65_rounds (C65_made 2) ltac:(simpl; lia) C65_depth) as (r & E1 & E2 & E3).
  specialize (E3 [] ltac:(constructor)). cbv zeta in E3. destruct (nget r []) as [s|] eqn:Es; [|destruct E3; discriminate]. destruct E3 as [E3 _].
  exists r, s. split; auto. split; auto.
  assert (X : values_of flx_ops false (line (nget (data_of flx_ops false tenths)) 0 4 []) = [INR 0 / 10; INR 1 / 10; INR 2 / 10; INR 3 / 10]) by reflexivity.
  change (nth 0 [4%nat] 0%nat) with 4%nat in E3. rewrite X in E3.
  assert (Y : rsum [INR 0 / 10; INR 1 / 10; INR 2 / 10; INR 3 / 10] = 6 / 10) by (unfold rsum; simpl; lra).
  assert (Z : mass [INR 0 / 10; INR 1 / 10; INR 2 / 10; INR 3 / 10] = 6 / 10).
  { unfold mass. cbn [map]. rewrite !Rabs_pos_eq by (simpl; lra). exact Y. }
  rewrite Y, Z in E3. exact E3.
Qed.
