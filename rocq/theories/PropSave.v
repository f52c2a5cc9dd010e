(** C20 and C55: [save], complete and interrupted.  [save_run a target] is the
    content of the target when save returns or raises, and the error;
    [save_keys maxc sh] are the pieces in the order in which they are visited and
    [positions sh k] the positions of a piece (PropChunks.v). *)
From Verif Require Import Base PySlice Keys NDArray Arrays Chunks Handlers Realise Spec Supported Lib SelLemmas KeyLemmas GetBase GetStack ChunkLemmas AssignLemmas HandlerLemmas Realisable IndexClaims ClassClaims ChunkClaims SaveClaims SaveLoop Samples Steady SteadyReal SteadyClaims PropBounds.
From Coq Require Import Permutation.

Section Save.
Context {V : Type} (O : numops V).
Variable maxc : nat.
Variable garbage : list nat -> option V.
Variable fuel : nat.
Variable m : bool.
Notation realise := (realise O maxc garbage fuel m).
Notation save_run := (save_run O maxc garbage fuel m).
Notation save_loop := (save_loop O maxc garbage fuel m).

(** C20: any array [a] and chunk limit; if indexing [a] with each piece reads as
    that piece of [ndarray()] (or [masked_array()]) of [a], then save succeeds and
    the target holds that array, whatever it held before; each position belongs
    to exactly one of the pieces written. *)
Theorem C20_save a D target : realise a = Ok D -> nshape D = shape a -> nshape target = shape a ->
  (forall k, In k (save_keys maxc (shape a)) -> exists b d, getitem a k = Ok b /\ realise b = Ok d /\ nd_eq d (oindex D k)) ->
  exists r, save_run a target = (r, None) /\ nd_eq r D
    /\ Permutation (flat_map (positions (shape a)) (save_keys maxc (shape a))) (ndindex (shape a)).
Proof.
  intros _ HD Ht HP. destruct (loop_state O maxc garbage fuel m a D HD (save_keys maxc (shape a)) target Ht) as (dn & rest & E1 & E2 & E3 & E4); auto.
  { intros k b d Hk Eb Ed. destruct (HP k Hk) as (b' & d' & Eb' & Ed' & H). congruence. }
  unfold SaveLoop.save_run. destruct (save_loop a (save_keys maxc (shape a)) target) as [r e]. cbn [fst snd] in *. exists r.
  destruct e as [e|].
  { exfalso. destruct E4 as (k & rest' & -> & Hk). destruct (HP k) as (b & d & Eb & Ed & _); [rewrite E1; apply in_elt|].
    destruct Hk as [Hk|(b' & Hb & Hk)]; congruence. }
  subst rest. rewrite app_nil_r in E1. subst dn. split; auto. split; [|apply save_perm]. split; [congruence|].
  intros i Hi. rewrite E2 in Hi. rewrite E3 by auto. rewrite save_covered by auto. auto.
Qed.

(** C55: save may fail at any piece (the source raises), or be interrupted after
    any number of pieces; assume only that pieces which can be read are read
    right.  Then the target holds the right value at every position of the pieces
    finished so far and its previous content at every other position; save fails
    only with an error raised by reading the next piece. *)
Theorem C55_failing_save a D target : nshape D = shape a -> nshape target = shape a ->
  never_wrong O maxc garbage fuel m a D (save_keys maxc (shape a)) ->
  exists r e dn rest, save_run a target = (r, e) /\ save_keys maxc (shape a) = dn ++ rest /\ nshape r = shape a
    /\ (forall i, inb (shape a) i -> In i (flat_map (positions (shape a)) dn) -> nget r i = nget D i)
    /\ (forall i, inb (shape a) i -> ~ In i (flat_map (positions (shape a)) dn) -> nget r i = nget target i)
    /\ match e with
       | None => rest = []
       | Some e => exists k rest', rest = k :: rest'
                     /\ (getitem a k = Err e \/ exists b, getitem a k = Ok b /\ realise b = Err e)
       end.
Proof.
  intros HD Ht HW. destruct (loop_state O maxc garbage fuel m a D HD (save_keys maxc (shape a)) target Ht) as (dn & rest & E1 & E2 & E3 & E4); auto.
  unfold SaveLoop.save_run. destruct (save_loop a (save_keys maxc (shape a)) target) as [r e]. cbn [fst snd] in *. exists r, e, dn, rest.
  assert (HI : forall k, In k dn -> In k (save_keys maxc (shape a))) by (intros k Hk; rewrite E1; apply in_or_app; auto).
  split; auto. split; auto. split; auto. split; [|split; auto]; intros i Hi Hin; rewrite E3 by auto.
  - apply (covered_positions maxc (shape a) i dn HI Hi) in Hin. rewrite Hin. auto.
  - destruct (existsb (covers (shape a) i) dn) eqn:Ex; auto. exfalso. apply Hin. apply (covered_positions maxc (shape a) i dn HI Hi). auto.
Qed.
Theorem C55_interrupted_save a D target n : nshape D = shape a -> nshape target = shape a ->
  (forall k, In k (save_keys maxc (shape a)) -> exists b d, getitem a k = Ok b /\ realise b = Ok d /\ nd_eq d (oindex D k)) ->
  exists r, save_loop a (firstn n (save_keys maxc (shape a))) target = (r, None) /\ nshape r = shape a
    /\ (forall i, inb (shape a) i -> In i (flat_map (positions (shape a)) (firstn n (save_keys maxc (shape a)))) -> nget r i = nget D i)
    /\ (forall i, inb (shape a) i -> ~ In i (flat_map (positions (shape a)) (firstn n (save_keys maxc (shape a)))) -> nget r i = nget target i).
Proof.
  intros HD Ht HP. assert (HI : forall k, In k (firstn n (save_keys maxc (shape a))) -> In k (save_keys maxc (shape a))).
  { intros k Hk. rewrite <- (firstn_skipn n (save_keys maxc (shape a))). apply in_or_app; auto. }
  destruct (loop_state O maxc garbage fuel m a D HD (firstn n (save_keys maxc (shape a))) target Ht) as (dn & rest & E1 & E2 & E3 & E4); auto.
  { intros k b d Hk Eb Ed. destruct (HP k (HI k Hk)) as (b' & d' & Eb' & Ed' & H). congruence. }
  destruct (save_loop a (firstn n (save_keys maxc (shape a))) target) as [r e]. cbn [fst snd] in *. exists r.
  destruct e as [e|].
  { exfalso. destruct E4 as (k & rest' & -> & Hk). destruct (HP k) as (b & d & Eb & Ed & _); [apply HI; rewrite E1; apply in_elt|].
    destruct Hk as [Hk|(b' & Hb & Hk)]; congruence. }
  subst rest. rewrite app_nil_r in E1. subst dn. split; auto. split; auto. split; intros i Hi Hin; rewrite E3 by auto.
  - apply (covered_positions maxc (shape a) i _ HI Hi) in Hin. rewrite Hin. auto.
  - destruct (existsb (covers (shape a) i) _) eqn:Ex; auto. exfalso. apply Hin. apply (covered_positions maxc (shape a) i _ HI Hi). auto.
Qed.
(** After a failed or interrupted save, another one that succeeds leaves the
    whole array in the target (C20 with the remains as previous content). *)
Theorem C55_again a D target r e : realise a = Ok D -> nshape D = shape a -> nshape r = shape a -> save_run a target = (r, e) ->
  (forall k, In k (save_keys maxc (shape a)) -> exists b d, getitem a k = Ok b /\ realise b = Ok d /\ nd_eq d (oindex D k)) ->
  exists r', save_run a r = (r', None) /\ nd_eq r' D.
Proof. intros H1 H2 H3 _ H4. destruct (C20_save a D r H1 H2 H3 H4) as (r' & E & Hr & _). eauto. Qed.
End Save.

(** Steady arrays (Steady.v) satisfy the condition on pieces. *)
Lemma steady_pieces {V} (O : numops V) maxc garbage fuel m arrs (a : @barr V) : wf a -> steady maxc m (exact O) true arrs false fuel a ->
  exists D, realise O maxc garbage fuel m a = Ok D /\ nshape D = shape a /\
    forall k, In k (save_keys maxc (shape a)) -> exists b d, getitem a k = Ok b /\ realise O maxc garbage fuel m b = Ok d /\ nd_eq d (oindex D k).
Proof.
  intros Hw Hs. pose proof (steady_usable O maxc m (exact O) true arrs fuel a Hw Hs) as HU.
  destruct (usable_reads O maxc garbage m (exact O) fuel (exact_right O m) a HU) as (D & ED & DD). exists D. split; [exact ED|].
  split; [exact (reads_shape O maxc garbage m (exact O) fuel (exact_right O m) a D HU ED)|]. intros k Hk. apply (save_cutting maxc arrs) in Hk.
  destruct (steady_index O maxc garbage m (exact O) (exact_right O m) true arrs fuel a k Hw Hs) as (b & D' & d & E1 & E2 & E3 & E4 & _).
  - exists k. split; auto. eapply keysok_expand; eauto.
  - exists b, d. split; auto. split; auto. unfold reads in E2. rewrite ED in E2. injection E2 as <-. auto.
Qed.

Print Assumptions C20_save.
Print Assumptions C55_failing_save.
Print Assumptions C55_interrupted_save.
Print Assumptions C55_again.

(** ** The hypotheses are met *)
Definition quilt2 : @barr Z := AStack [2] [AMosaic [arr [3; 4]; arr [2; 4]] 0; AMosaic [oarr [1; 4]; arr [4; 4]] 0].
Example quilt2_wf : wf quilt2.
Proof. unfold quilt2, arr, oarr. wfs. Qed.
Ltac sts := repeat first [progress cbn [steady fold_right nolead leafy] | apply conj | apply Forall_cons | apply Forall_nil
  | reflexivity | exact I | discriminate | exact z_laws | exact (laws_orders _ z_laws) | (right; discriminate) | (intros; discriminate) | (vm_compute; lia)
  | (left; reflexivity) | (left; discriminate) | (right; left; apply conj; [reflexivity|right; left; reflexivity])
  | (right; left; apply conj; [reflexivity|right; right; vm_compute; lia])
  | (right; left; intros; discriminate) | (right; left; apply conj; [reflexivity|left; reflexivity]) | (intros _; right; exact I)].
Example quilt2_steady : steady 3 false (exact z_ops) true false false 1 quilt2.
Proof. unfold quilt2, arr, oarr. sts. Qed.
Example C20_case garbage g : exists r D, realise z_ops 3 garbage 1 false quilt2 = Ok D
  /\ save_run z_ops 3 garbage 1 false quilt2 (mkND [2; 5; 4] g) = (r, None) /\ nd_eq r D /\ nget r [1; 4; 2] = Some 14%Z.
Proof.
  destruct (steady_pieces z_ops 3 garbage 1 false false quilt2 quilt2_wf quilt2_steady) as (D & E1 & E2 & E3).
  destruct (C20_save z_ops 3 garbage 1 false quilt2 D (mkND [2; 5; 4] g) E1 E2 eq_refl E3) as (r & R1 & R2 & _).
  exists r, D. split; auto. split; auto. split; auto. rewrite (proj2 R2) by (rewrite (proj1 R2), E2; repeat constructor).
  clear -E1. assert (ED : realise z_ops 3 garbage 1 false quilt2 = Ok D) by exact E1. revert E1.
  vm_compute. intros E. injection E as <-. vm_compute. reflexivity.
Qed.
(** A mosaic whose second tile has no masked equivalent: saving it with
    [masked=True] in pieces of two elements writes the first piece and raises. *)
Definition half : @barr Z := AMosaic [arr [2]; AEl1 (mkOp1 Z.opp None (fun d => d)) (arr [2]) 0] 0.
Definition half_data : nd (option Z) := mkND [4] (fun i => Some (Z.of_nat (nth 0 i 0))).
Example C55_case garbage g : exists r, save_run z_ops 2 garbage 2 true half (mkND [4] g) = (r, Some TypeError)
  /\ nget r [1] = Some 1%Z /\ nget r [3] = g [3].
Proof. eexists. split; [vm_compute; reflexivity|]. split; vm_compute; reflexivity. Qed.
Example C55_hyp garbage : never_wrong z_ops 2 garbage 2 true half half_data (save_keys 2 (shape half)).
Proof.
  intros k b d Hk Eb Ed. vm_compute in Hk. destruct Hk as [<-|[<-|[]]]; vm_compute in Eb; injection Eb as <-; vm_compute in Ed; try discriminate.
  injection Ed as <-. split; [vm_compute; reflexivity|]. intros i Hi. cbn in Hi. apply inb_cons_inv in Hi as (j & o & -> & Hj & Ho).
  apply inb_nil in Ho. subst o. destruct j as [|[|j]]; [| |lia]; vm_compute; reflexivity.
Qed.
Example C55_failing_case garbage g := C55_failing_save z_ops 2 garbage 2 true half half_data (mkND [4] g) eq_refl eq_refl (C55_hyp garbage).
