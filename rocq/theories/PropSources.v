(** Aggregations over arbitrary sources (C21 - C26) and [save] (C20).

    The theorems of PropAgg.v and PropSteady.v are about arrays whose construction
    is known.  Here an array is a [source] when every block of it (a slice or the
    whole of each dimension) reads as that block of some array [D]; how it comes
    to do so is not restricted.  [over sh cs a f]: the expression [a] of shape [sh]
    is made from sources by elementwise operations and aggregations, [f] is its
    element at each position and [cs] the slices in which the engine gets each
    dimension.  The chunk limit [maxc] and the content [garbage] of fresh memory
    are arbitrary. *)
From Verif Require Import Base PySlice Keys NDArray Arrays Chunks Handlers Realise Spec Supported Lib SelLemmas KeyLemmas GetBase GetSimple GetStack ChunkLemmas AssignLemmas HandlerLemmas RealOps Realisable StreamLemmas RealOK ClassClaims ChunkClaims SaveClaims Compose BuiltClaims PropAgg.
From Coq Require Import ZifyBool ZifyNat Permutation Reals Lra.

Section Over.
Context {V : Type} (O : numops V).
Variable maxc : nat.
Variable garbage : list nat -> option V.
Variable fuel : nat.
Variable m : bool.
Notation source := (blocks_right O maxc garbage fuel m).

(** The cells of [f] along [axis], of length [n], at position [o] of the other
    dimensions. *)
Definition line (f : list nat -> option V) (axis n : nat) (o : list nat) : list (option V) :=
  map (fun i => f (insert_at axis i o)) (seq 0 n).

Inductive over (G : agg -> Prop) : list nat -> list (list key) -> barr -> (list nat -> option V) -> Prop :=
| over_source a D : streamed a = false -> source a D -> over G (shape a) (all_slices maxc true (shape a)) a (nget D)
| over_el1 sh cs a f o d : has_op1 m o -> over G sh cs a f -> over G sh cs (AEl1 o a d) (fun i => op1_sem m o (f i))
| over_el2 sh cs a b f g o d : has_op2 m o -> over G sh cs a f -> over G sh cs b g ->
    over G sh cs (AEl2 o a b d) (fun i => op2_sem m o (f i) (g i))
| over_agg sh cs a f g axis d : G g -> over G sh cs a f -> axis < length sh ->
    over G (remove_at axis sh) (remove_at axis cs) (AAgg g a axis d) (fun o => agg_spec O m g (line f axis (nth axis sh 0) o)).

Definition always_right (G : agg -> Prop) : Prop :=
  forall g, G g -> handler_right O m g (fun _ => True) /\ forall lens, pieces_fine m g lens.

Lemma kpos_lt n k i : chunk_key n k -> In i (kpos k n) -> i < n.
Proof.
  intros Hk Hi. destruct (chunk_key_sel _ _ Hk) as (x & len & E & H & _). unfold kpos in Hi. rewrite E in Hi. apply in_seq in Hi. lia.
Qed.
Lemma pieces_line f axis n cs o : concat (map (fun k => kpos k n) cs) = seq 0 n ->
  concat (map (fun k => map (fun i => f (insert_at axis i o)) (kpos k n)) cs) = line f axis n o.
Proof. intros H. unfold line. rewrite <- H, concat_map, map_map. auto. Qed.

Lemma over_streams G (HG : always_right G) sh cs a f : over G sh cs a f ->
  streams O maxc garbage fuel m a (mkND sh f) /\ shape a = sh /\ cuts maxc a = cs.
Proof.
  induction 1 as [a D Ha HS|sh cs a f o d Ho H (S1 & S2 & S3)|sh cs a b f g o d Ho H1 (S1 & S2 & S3) H2 (T1 & T2 & T3)|sh cs a f g axis d Hg H (S1 & S2 & S3) Hax].
  - split; [|split; auto; destruct a; try discriminate; auto].
    eapply streams_eq; [apply streams_source; eauto|]. split; [apply HS|auto].
  - split; [|split; auto]. eapply streams_eq; [apply streams_el1; eauto|]. split; auto.
  - split; [|split; auto]. eapply streams_eq; [apply streams_el2; eauto; [congruence|intros i _; congruence]|]. split; auto.
  - subst cs sh. split; [|split; auto].
    destruct (HG g Hg) as [HR HP]. pose proof (streams_cuts _ _ _ _ _ _ _ S1) as HC.
    eapply streams_eq.
    + apply (streams_agg O maxc garbage fuel m g a axis d (mkND (shape a) f)); auto.
      intros l b Hl. eapply pieces_not_bad; eauto.
    + split; [reflexivity|]. cbn [nshape nget]. intros o Ho. unfold cut_column. cbn [nshape nget].
      destruct (good_cuts_nth _ _ axis HC Hax) as (Hcat & _).
      pose proof (pieces_line f axis _ _ o Hcat) as E. rewrite <- E.
      rewrite <- HR; auto. f_equal. rewrite E. unfold line. rewrite map_length, seq_length. auto.
Qed.

(** An aggregation of any kind over such an expression. *)
Lemma over_run G (HG : always_right G) sh cs a f g axis d : over G sh cs a f -> axis < length sh ->
  (forall k b, In k (nth axis cs []) -> hbad (handler_of O m g) (length (kpos k (nth axis sh 0))) b = false) ->
  exists r, realise O maxc garbage (S fuel) m (AAgg g a axis d) = Ok r /\ nshape r = remove_at axis sh
    /\ forall o, inb (remove_at axis sh) o ->
         nget r o = run_handler (handler_of O m g) (nth axis sh 0)
                      (map (fun k => map (fun i => f (insert_at axis i o)) (kpos k (nth axis sh 0))) (nth axis cs [])).
Proof.
  intros H Hax Hb. destruct (over_streams G HG _ _ _ _ H) as (S1 & S2 & S3). subst sh cs.
  destruct (streams_agg_realise O maxc garbage fuel m g a axis d _ (streams_agg O maxc garbage fuel m g a axis d _ S1 Hax
    ltac:(intros l b Hl; apply in_map_iff in Hl as (k & <- & Hk); auto))) as (r & E & R1 & R2).
  exists r. split; auto. split; auto. intros o Ho. apply R2. rewrite R1. auto.
Qed.
Lemma over_agg_claim G (HG : always_right G) sh cs a f g axis d : G g -> over G sh cs a f -> axis < length sh ->
  exists r, realise O maxc garbage (S fuel) m (AAgg g a axis d) = Ok r /\ nshape r = remove_at axis sh
    /\ forall o, inb (remove_at axis sh) o -> nget r o = agg_spec O m g (line f axis (nth axis sh 0) o).
Proof.
  intros Hg H Hax. destruct (over_streams G HG _ _ _ _ (over_agg G _ _ _ _ g axis d Hg H Hax)) as (S1 & _).
  destruct (streams_agg_realise O maxc garbage fuel m g a axis d _ S1) as (r & E & R1 & R2).
  exists r. split; auto. split; auto. intros o Ho. apply R2. rewrite R1. auto.
Qed.
Lemma over_cuts G (HG : always_right G) sh cs a f : over G sh cs a f -> good_cuts cs sh.
Proof. intros H. destruct (over_streams G HG _ _ _ _ H) as (S1 & S2 & S3). rewrite <- S2, <- S3. eapply streams_cuts; eauto. Qed.
End Over.

(** Which arrays are sources: in particular all that are steady (Steady.v). *)
From Verif Require Import Steady SteadyReal SteadyClaims Samples PropBounds.
Lemma steady_source {V} (O : numops V) maxc garbage fuel m HG arrs (a : @barr V) : (forall g, handler_right O m g (HG g)) ->
  wf a -> steady maxc m HG false arrs false fuel a ->
  exists D, realise O maxc garbage fuel m a = Ok D /\ nd_eq D (den O m a) /\ blocks_right O maxc garbage fuel m a D.
Proof.
  intros HR Hw Hs. pose proof (steady_usable O maxc m HG false arrs fuel a Hw Hs) as HU.
  destruct (usable_reads O maxc garbage m HG fuel HR a HU) as (D & ED & DD). exists D. split; [exact ED|]. split; [exact DD|].
  split; [exact (reads_shape O maxc garbage m HG fuel HR a D HU ED)|]. intros ks Hb.
  assert (HK : Forall2 (keyok false arrs) ks (shape a)).
  { eapply Forall2_impl; [|exact Hb]. intros k n. apply (@chunk_keyok unit (fun _ _ => True) false arrs). }
  destruct (steady_index O maxc garbage m HG HR false arrs fuel a ks Hw Hs) as (b & D' & d & E1 & E2 & E3 & E4 & _).
  - exists ks. split; auto. eapply keysok_expand; eauto.
  - exists b, d. split; auto. split; auto. unfold reads in E2. rewrite ED in E2. injection E2 as <-. auto.
Qed.
Lemma blocks_right_eq {V} (O : numops V) maxc garbage fuel m (a : @barr V) D D' : nd_eq D D' ->
  blocks_right O maxc garbage fuel m a D -> blocks_right O maxc garbage fuel m a D'.
Proof.
  intros HD [B1 B2]. split; [rewrite <- (proj1 HD); exact B1|]. intros ks Hk. destruct (B2 ks Hk) as (b & d & E1 & E2 & E3). exists b, d. split; auto. split; auto.
  eapply nd_eq_trans; [exact E3|]. unfold oindex. rewrite <- (proj1 HD). destruct (oselect ks (nshape D)) as [s|] eqn:Es; auto.
  apply nd_sel_eq; auto. eapply oselect_valid; eauto.
Qed.
(** A new adapter over any data of positive shape: masked elements stay masked
    with masked_array() and are filled with ndarray(). *)
Definition data_of {V} (O : numops V) (m : bool) (c : @concrete V) : nd (option V) :=
  mkND (c_shape c) (fun i => match c_cell c i with
                             | Some v => Some v
                             | None => if m then None else Some (match c_fill c with Some x => x | None => vdfill O (c_dtype c) end)
                             end).
Lemma fresh_source {V} (O : numops V) maxc garbage fuel m o c : 1 <= fuel -> Forall (fun n => 1 <= n) (c_shape c) ->
  m = true \/ c_shape c <> [] \/ (forall i, c_cell c i <> None) ->
  blocks_right O maxc garbage fuel m (AAdapt o c []) (data_of O m c).
Proof.
  intros Hf Hp Hd. destruct (shape_fresh O m o c) as [Hw Hs].
  destruct (steady_source O maxc garbage fuel m (fun _ _ => False) false (AAdapt o c [])) as (D & E & HD & HB); auto.
  - intros g pieces [].
  - cbn [steady]. rewrite Hs. split; auto. split; auto. split; [constructor|]. split; [right; left; auto|]. tauto.
  - eapply blocks_right_eq; [|exact HB]. eapply nd_eq_trans; [exact HD|]. exact (den_fresh O m o c).
Qed.
Lemma fresh_over {V} (O : numops V) maxc garbage fuel m G o c : 1 <= fuel -> Forall (fun n => 1 <= n) (c_shape c) ->
  m = true \/ c_shape c <> [] \/ (forall i, c_cell c i <> None) ->
  over O maxc garbage fuel m G (c_shape c) (all_slices maxc true (c_shape c)) (AAdapt o c []) (nget (data_of O m c)).
Proof.
  intros Hf Hp Hd. destruct (shape_fresh O m o c) as [_ Hs].
  pose proof (over_source O maxc garbage fuel m G (AAdapt o c []) (data_of O m c) eq_refl (fresh_source O maxc garbage fuel m o c Hf Hp Hd)) as H.
  rewrite Hs in H. exact H.
Qed.

(** The aggregations that do not depend on the pieces. *)
Definition linear {V} (O : numops V) (g : @agg V) : Prop :=
  match g with GCount => True | GSum | GMean _ => laws O | _ => False end.
Lemma linear_right {V} (O : numops V) m : always_right O m (linear O).
Proof.
  intros g Hg. split.
  - intros pieces _ Hp. destruct g; try contradiction; [apply right_count|apply right_sum|apply right_mean]; auto.
  - intros lens. destruct g; simpl in *; auto; contradiction.
Qed.
Definition none {V} (g : @agg V) : Prop := False.
Lemma none_right {V} (O : numops V) m : always_right O m none.
Proof. intros g []. Qed.

(** The rule for a masked mean, spelled out. *)
Lemma mean_rule {V} (O : numops V) mdtol l n : length l = n ->
  let xs := obs l in
  let hidden := xs = [] \/ (vltb O mdtol (vofn O 1) = true
                             /\ vltb O mdtol (vdiv O (vofn O (n - length xs)) (vofn O n)) = true) in
  (hidden -> agg_spec O true (GMean mdtol) l = None)
  /\ (~ hidden -> agg_spec O true (GMean mdtol) l = Some (vdiv O (fold_right (vadd O) (v0 O) xs) (vofn O (length xs)))).
Proof.
  intros HL. cbn [agg_spec]. unfold frac_masked, mean_of, total. rewrite HL. cbv zeta. set (xs := obs l).
  destruct (Nat.eqb_spec (length xs) 0) as [E|E]; cbn [orb].
  - apply length_zero_iff_nil in E. split; auto. intros H0; exfalso; apply H0; auto.
  - assert (xs <> []) by (intros E0; apply E; rewrite E0; reflexivity). split.
    + intros [H'|[-> ->]]; [congruence|]. reflexivity.
    + intros H'. destruct (vltb O mdtol (vofn O 1)) eqn:L1, (vltb O mdtol (vdiv O (vofn O (n - length xs)) (vofn O n))) eqn:L2;
        try reflexivity. exfalso. apply H'. auto.
Qed.

Section Claims.
Context {V : Type} (O : numops V).
Variable maxc : nat.
Variable garbage : list nat -> option V.
Variable fuel : nat.
Notation over := (over O maxc garbage fuel).
Notation realise := (realise O maxc garbage (S fuel)).

(** C21 *)
Theorem C21_sum sh cs a f axis d : laws O -> over false (linear O) sh cs a f -> axis < length sh ->
  exists r, realise false (AAgg GSum a axis d) = Ok r /\ nshape r = remove_at axis sh
    /\ forall o, inb (remove_at axis sh) o ->
         nget r o = Some (fold_right (vadd O) (v0 O) (map (plain_val O) (line f axis (nth axis sh 0) o))).
Proof. intros L H Hax. exact (over_agg_claim O maxc garbage fuel false (linear O) (linear_right O false) sh cs a f GSum axis d L H Hax). Qed.
Theorem C21_count sh cs a f axis d : over false (linear O) sh cs a f -> axis < length sh ->
  exists r, realise false (AAgg GCount a axis d) = Ok r /\ nshape r = remove_at axis sh
    /\ forall o, inb (remove_at axis sh) o -> nget r o = Some (vofn O (nth axis sh 0)).
Proof.
  intros H Hax. destruct (over_agg_claim O maxc garbage fuel false (linear O) (linear_right O false) sh cs a f GCount axis d I H Hax) as (r & E1 & E2 & E3).
  exists r. split; auto. split; auto. intros o Ho. rewrite E3 by auto. cbn [agg_spec]. unfold line. rewrite !map_length, seq_length. auto.
Qed.
Theorem C21_mean sh cs a f axis d mdtol : laws O -> over false (linear O) sh cs a f -> axis < length sh ->
  exists r, realise false (AAgg (GMean mdtol) a axis d) = Ok r /\ nshape r = remove_at axis sh
    /\ forall o, inb (remove_at axis sh) o ->
         nget r o = Some (vdiv O (fold_right (vadd O) (v0 O) (map (plain_val O) (line f axis (nth axis sh 0) o))) (vofn O (nth axis sh 0))).
Proof.
  intros L H Hax. destruct (over_agg_claim O maxc garbage fuel false (linear O) (linear_right O false) sh cs a f (GMean mdtol) axis d L H Hax) as (r & E1 & E2 & E3).
  exists r. split; auto. split; auto. intros o Ho. rewrite E3 by auto. cbn [agg_spec]. unfold mean_of, total, line. rewrite !map_length, seq_length. auto.
Qed.

(** C25 *)
Theorem C25_masked_mean sh cs a f axis d mdtol : laws O -> over true (linear O) sh cs a f -> axis < length sh ->
  exists r, realise true (AAgg (GMean mdtol) a axis d) = Ok r /\ nshape r = remove_at axis sh
    /\ forall o, inb (remove_at axis sh) o ->
         let n := nth axis sh 0 in let xs := obs (line f axis n o) in
         let hidden := xs = [] \/ (vltb O mdtol (vofn O 1) = true
                                    /\ vltb O mdtol (vdiv O (vofn O (n - length xs)) (vofn O n)) = true) in
         (hidden -> nget r o = None)
         /\ (~ hidden -> nget r o = Some (vdiv O (fold_right (vadd O) (v0 O) xs) (vofn O (length xs)))).
Proof.
  intros L H Hax. destruct (over_agg_claim O maxc garbage fuel true (linear O) (linear_right O true) sh cs a f (GMean mdtol) axis d L H Hax) as (r & E1 & E2 & E3).
  exists r. split; auto. split; auto. intros o Ho. rewrite E3 by auto. apply mean_rule. unfold line. rewrite map_length, seq_length. auto.
Qed.

(** C26 *)
Theorem C26_masked_sum sh cs a f axis d : laws O -> over true (linear O) sh cs a f -> axis < length sh ->
  exists r, realise true (AAgg GSum a axis d) = Ok r /\ nshape r = remove_at axis sh
    /\ forall o, inb (remove_at axis sh) o ->
         nget r o = match obs (line f axis (nth axis sh 0) o) with [] => None | xs => Some (fold_right (vadd O) (v0 O) xs) end.
Proof.
  intros L H Hax. destruct (over_agg_claim O maxc garbage fuel true (linear O) (linear_right O true) sh cs a f GSum axis d L H Hax) as (r & E1 & E2 & E3).
  exists r. split; auto. split; auto. intros o Ho. rewrite E3 by auto. cbn [agg_spec]. destruct (obs _); auto.
Qed.
Theorem C26_masked_count sh cs a f axis d : over true (linear O) sh cs a f -> axis < length sh ->
  exists r, realise true (AAgg GCount a axis d) = Ok r /\ nshape r = remove_at axis sh
    /\ forall o, inb (remove_at axis sh) o -> nget r o = Some (vofn O (length (obs (line f axis (nth axis sh 0) o)))).
Proof. intros H Hax. exact (over_agg_claim O maxc garbage fuel true (linear O) (linear_right O true) sh cs a f GCount axis d I H Hax). Qed.

(** Elementwise operations read directly: operands may be cut differently. *)
Theorem C27_unary m sh cs a f o d : has_op1 m o -> over m (linear O) sh cs a f ->
  exists r, realise m (AEl1 o a d) = Ok r /\ nshape r = sh /\ forall i, inb sh i -> nget r i = op1_sem m o (f i).
Proof.
  intros Ho H. destruct (over_streams O maxc garbage fuel m (linear O) (linear_right O m) _ _ _ _ H) as (S1 & _).
  destruct (streams_el1_realise O maxc garbage fuel m o a d _ Ho S1) as (r & E & R1 & R2). exists r. split; auto. split; auto.
  intros i Hi. apply R2. rewrite R1. auto.
Qed.
Theorem C27_binary m sh cs cs' a b f g o d : has_op2 m o -> over m (linear O) sh cs a f -> over m (linear O) sh cs' b g ->
  exists r, realise m (AEl2 o a b d) = Ok r /\ nshape r = sh /\ forall i, inb sh i -> nget r i = op2_sem m o (f i) (g i).
Proof.
  intros Ho H1 H2. destruct (over_streams O maxc garbage fuel m (linear O) (linear_right O m) _ _ _ _ H1) as (S1 & T1 & _).
  destruct (over_streams O maxc garbage fuel m (linear O) (linear_right O m) _ _ _ _ H2) as (S2 & T2 & _).
  destruct (streams_el2_realise O maxc garbage fuel m o a b d _ _ Ho S1 S2 ltac:(congruence)) as (r & E & R1 & R2). exists r. split; auto. split; auto.
  intros i Hi. apply R2. rewrite R1. auto.
Qed.
End Claims.

(** ** In terms of the operand's own values
    [streams a D] (Compose.v): the engine can stream [a], which may contain any
    aggregations, also min, max, std and var; the only conditions are that the
    sources read right, that aggregations do not raise and that operands of inner
    elementwise operations are cut alike.  Whatever the engine gives for [a] (right
    or wrong), the aggregations below are those of that array [x]. *)
Section Values.
Context {V : Type} (O : numops V).
Variable maxc : nat.
Variable garbage : list nat -> option V.
Variable fuel : nat.
Notation streams := (streams O maxc garbage fuel).
Notation ndarrays := (ndarrays O maxc garbage fuel).

Lemma insert_remove {A} axis : forall (l : list A) d, axis < length l -> insert_at axis (nth axis l d) (remove_at axis l) = l.
Proof.
  induction axis as [|axis IH]; intros [|x l] d H; simpl in H; try lia.
  - rewrite remove_at_0, insert_at_0. auto.
  - rewrite remove_at_S, insert_at_S. cbn [nth]. rewrite IH by lia. auto.
Qed.
Lemma line_eq (f f' : list nat -> option V) axis sh o : axis < length sh -> inb (remove_at axis sh) o ->
  (forall i, inb sh i -> f i = f' i) -> line f axis (nth axis sh 0) o = line f' axis (nth axis sh 0) o.
Proof.
  intros Hax Ho H. unfold line. apply map_ext_in. intros i Hi. apply in_seq in Hi. apply H.
  rewrite <- (insert_remove axis sh 0 Hax). apply insert_at_inb; auto; [rewrite remove_at_length by auto; lia|lia].
Qed.
Lemma values m a D g axis d : handler_right O m g (fun _ => True) -> (forall lens, pieces_fine m g lens) ->
  streams m a D -> axis < ndim a ->
  exists x r, ndarrays m [a] = Ok [x] /\ ndarrays m [AAgg g a axis d] = Ok [r] /\ nshape x = shape a /\ nshape r = remove_at axis (shape a)
    /\ realise O maxc garbage (S fuel) m (AAgg g a axis d) = Ok r
    /\ forall o, inb (remove_at axis (shape a)) o -> nget r o = agg_spec O m g (line (nget x) axis (nth axis (shape a) 0) o).
Proof.
  intros HR HP HS Hax. destruct (streams_engine O maxc garbage fuel m a D HS) as (x & Ex & Dx).
  assert (HA : streams m (AAgg g a axis d) (mkND (remove_at axis (shape a))
    (fun o => run_handler (handler_of O m g) (nth axis (shape a) 0) (cut_column D axis (nth axis (cuts maxc a) []) o)))).
  { apply streams_agg; auto. intros l b Hl. eapply pieces_not_bad; eauto. }
  destruct (streams_engine O maxc garbage fuel m _ _ HA) as (r & Er & R1 & R2).
  pose proof (streams_shape _ _ _ _ _ _ _ HS) as Hsh.
  exists x, r. unfold Realise.ndarrays. cbn [mapM]. rewrite Ex, Er. cbn [bind]. split; auto. split; auto.
  split; [rewrite (proj1 Dx); auto|]. split; [exact R1|]. split; [exact Er|]. intros o Ho. rewrite R2 by (rewrite R1; auto). cbn [nget].
  pose proof (streams_cuts _ _ _ _ _ _ _ HS) as HC. destruct (good_cuts_nth _ _ axis HC Hax) as (Hcat & _).
  rewrite (line_eq (nget x) (nget D) axis (shape a) o Hax Ho) by (intros i Hi; apply (proj2 Dx); rewrite (proj1 Dx), Hsh; auto).
  pose proof (pieces_line (nget D) axis _ _ o Hcat) as E. rewrite <- E. rewrite <- HR; auto.
  rewrite E. unfold line. rewrite map_length, seq_length. unfold cut_column. rewrite Hsh. auto.
Qed.

Theorem C21_values a D axis d mdtol : laws O -> streams false a D -> axis < ndim a ->
  exists x s c v, ndarrays false [a] = Ok [x] /\ ndarrays false [AAgg GSum a axis d] = Ok [s]
    /\ ndarrays false [AAgg GCount a axis d] = Ok [c] /\ ndarrays false [AAgg (GMean mdtol) a axis d] = Ok [v]
    /\ nshape x = shape a /\ nshape s = remove_at axis (shape a) /\ nshape c = remove_at axis (shape a) /\ nshape v = remove_at axis (shape a)
    /\ forall o, inb (remove_at axis (shape a)) o -> let n := nth axis (shape a) 0 in let t := fold_right (vadd O) (v0 O) (map (plain_val O) (line (nget x) axis n o)) in
         nget s o = Some t /\ nget c o = Some (vofn O n) /\ nget v o = Some (vdiv O t (vofn O n)).
Proof.
  intros L HS Hax. destruct (linear_right O false GSum L) as [R1 P1]. destruct (linear_right O false GCount I) as [R2 P2].
  destruct (linear_right O false (GMean mdtol) L) as [R3 P3].
  destruct (values false a D GSum axis d R1 P1 HS Hax) as (x & s & Ex & Es & Sx & Ss & _ & Hs).
  destruct (values false a D GCount axis d R2 P2 HS Hax) as (x' & c & Ex' & Ec & _ & Sc & _ & Hc). assert (x' = x) by congruence. subst x'.
  destruct (values false a D (GMean mdtol) axis d R3 P3 HS Hax) as (x' & v & Ex'' & Ev & _ & Sv & _ & Hv). assert (x' = x) by congruence. subst x'.
  exists x, s, c, v. do 8 (split; auto). intros o Ho. rewrite Hs, Hc, Hv by auto. cbn [agg_spec].
  unfold mean_of, total, line. rewrite !map_length, seq_length. auto.
Qed.
Theorem C25_values a D axis d mdtol : laws O -> streams true a D -> axis < ndim a ->
  exists x v, ndarrays true [a] = Ok [x] /\ ndarrays true [AAgg (GMean mdtol) a axis d] = Ok [v]
    /\ nshape x = shape a /\ nshape v = remove_at axis (shape a)
    /\ forall o, inb (remove_at axis (shape a)) o ->
         let n := nth axis (shape a) 0 in let xs := obs (line (nget x) axis n o) in
         let hidden := xs = [] \/ (vltb O mdtol (vofn O 1) = true
                                    /\ vltb O mdtol (vdiv O (vofn O (n - length xs)) (vofn O n)) = true) in
         (hidden -> nget v o = None)
         /\ (~ hidden -> nget v o = Some (vdiv O (fold_right (vadd O) (v0 O) xs) (vofn O (length xs)))).
Proof.
  intros L HS Hax. destruct (linear_right O true (GMean mdtol) L) as [R3 P3].
  destruct (values true a D (GMean mdtol) axis d R3 P3 HS Hax) as (x & v & Ex & Ev & Sx & Sv & _ & Hv).
  exists x, v. do 4 (split; auto). intros o Ho. rewrite Hv by auto. apply mean_rule. unfold line. rewrite map_length, seq_length. auto.
Qed.
Theorem C26_values a D axis d : laws O -> streams true a D -> axis < ndim a ->
  exists x s c, ndarrays true [a] = Ok [x] /\ ndarrays true [AAgg GSum a axis d] = Ok [s] /\ ndarrays true [AAgg GCount a axis d] = Ok [c]
    /\ nshape x = shape a /\ nshape s = remove_at axis (shape a) /\ nshape c = remove_at axis (shape a)
    /\ forall o, inb (remove_at axis (shape a)) o -> let xs := obs (line (nget x) axis (nth axis (shape a) 0) o) in
         nget s o = (match xs with [] => None | _ => Some (fold_right (vadd O) (v0 O) xs) end)
         /\ nget c o = Some (vofn O (length xs)).
Proof.
  intros L HS Hax. destruct (linear_right O true GSum L) as [R1 P1]. destruct (linear_right O true GCount I) as [R2 P2].
  destruct (values true a D GSum axis d R1 P1 HS Hax) as (x & s & Ex & Es & Sx & Ss & _ & Hs).
  destruct (values true a D GCount axis d R2 P2 HS Hax) as (x' & c & Ex' & Ec & _ & Sc & _ & Hc). assert (x' = x) by congruence. subst x'.
  exists x, s, c. do 6 (split; auto). intros o Ho. rewrite Hs, Hc by auto. cbn [agg_spec]. split; auto. destruct (obs _); auto.
Qed.

(** C27 at the root of an expression, without any condition on the operands:
    whatever the engine gives for them is combined position by position. *)
Theorem C27_root1 m o a d x : has_op1 m o -> ndarrays m [a] = Ok [x] ->
  realise O maxc garbage (S fuel) m (AEl1 o a d) = Ok (mkND (nshape x) (fun i => op1_sem m o (nget x i))).
Proof.
  intros Ho E. apply bind_ok in E as (x' & E1 & E). injection E as <-.
  change (realise O maxc garbage (S fuel) m (AEl1 o a d)) with (g <- op1_fun m o ;; d <- engine_eval O maxc garbage (Realise.realise O maxc garbage fuel m) m a ;; Ok (nd_map g d)).
  rewrite (op1_ok m o Ho). cbn [bind]. rewrite E1. auto.
Qed.
Theorem C27_root2 m o a b d x y : has_op2 m o -> ndarrays m [a] = Ok [x] -> ndarrays m [b] = Ok [y] -> nshape x = nshape y ->
  exists r, realise O maxc garbage (S fuel) m (AEl2 o a b d) = Ok r /\ nshape r = nshape x
    /\ forall i, inb (nshape x) i -> nget r i = op2_sem m o (nget x i) (nget y i).
Proof.
  intros Ho E F Hs. apply bind_ok in E as (x' & E1 & E). injection E as <-.
  apply bind_ok in F as (y' & F1 & F). injection F as <-.
  destruct (np_op2_same (op2_sem m o) x' y' Hs) as (r & Er & Sr & Gr). exists r. split; auto.
  change (realise O maxc garbage (S fuel) m (AEl2 o a b d)) with
    (g <- op2_fun m o ;; x <- engine_eval O maxc garbage (Realise.realise O maxc garbage fuel m) m a ;; y <- engine_eval O maxc garbage (Realise.realise O maxc garbage fuel m) m b ;; np_op2 g x y).
  rewrite (op2_ok m o Ho). cbn [bind]. rewrite E1. cbn [bind]. rewrite F1. cbn [bind]. auto.
Qed.
(** Without a masked equivalent, masked_array() raises TypeError whatever the
    operands; ndarray() never does.  For operations inside an expression see
    C27_refused. *)
Theorem C27_refused1 o a d : o1_ma o = None -> realise O maxc garbage (S fuel) true (AEl1 o a d) = Err TypeError.
Proof.
  intros Ho. change (realise O maxc garbage (S fuel) true (AEl1 o a d)) with (g <- op1_fun true o ;; d <- engine_eval O maxc garbage (Realise.realise O maxc garbage fuel true) true a ;; Ok (nd_map g d)).
  unfold op1_fun. rewrite Ho. auto.
Qed.
Theorem C27_refused2 o a b d : o2_ma o = None -> realise O maxc garbage (S fuel) true (AEl2 o a b d) = Err TypeError.
Proof.
  intros Ho. change (realise O maxc garbage (S fuel) true (AEl2 o a b d)) with
    (g <- op2_fun true o ;; x <- engine_eval O maxc garbage (Realise.realise O maxc garbage fuel true) true a ;; y <- engine_eval O maxc garbage (Realise.realise O maxc garbage fuel true) true b ;; np_op2 g x y).
  unfold op2_fun. rewrite Ho. auto.
Qed.
End Values.

(** ** Exactly what the piecewise aggregations compute
    [last_from maxc n r]: where the last piece of an axis of length [n] begins when
    one item of it holds [r] elements. *)
Definition last_from (maxc n r : nat) : nat :=
  if n * r <=? maxc then 0 else if maxc <? r then n - 1 else (n - 1) / (maxc / r) * (maxc / r).

Lemma last_map {A B} (f : A -> B) l d d' : l <> [] -> last (map f l) d' = f (last l d).
Proof.
  induction l as [|x l IH]; [congruence|]. intros _. destruct l as [|y l]; auto.
  change (last (map f (y :: l)) d' = f (last (y :: l) d)). apply IH. discriminate.
Qed.
Lemma last_seq a n : 1 <= n -> last (seq a n) 0 = a + n - 1.
Proof. intros H. destruct n as [|n]; [lia|]. rewrite seq_S, last_last. lia. Qed.
Lemma last_piece maxc n r : 1 <= n -> kpos (last (dim_slices maxc true r n) KBad) n = seq (last_from maxc n r) (n - last_from maxc n r)
  /\ last_from maxc n r < n.
Proof.
  intros Hn. unfold dim_slices, last_from. destruct (Nat.leb_spec (n * r) maxc) as [H1|H1].
  { cbn [last]. unfold kpos. rewrite sel_key_full, Nat.sub_0_r. split; auto. }
  destruct (Nat.ltb_spec maxc r) as [H2|H2].
  - rewrite (last_map _ _ 0) by (destruct n; [lia|discriminate]). rewrite last_seq by lia. unfold kpos.
    rewrite sel_key_sl by lia. split; [|lia]. f_equal; lia.
  - pose proof (step_pos _ _ _ H1 H2) as Hs. set (q := maxc / r) in *.
    assert (Ec : (n + q - 1) / q = S ((n - 1) / q)).
    { replace (n + q - 1) with (n - 1 + 1 * q) by lia. rewrite Nat.div_add by lia. lia. }
    rewrite Ec. rewrite (last_map _ _ 0) by discriminate. rewrite last_seq by lia.
    replace (0 + S ((n - 1) / q) - 1) with ((n - 1) / q) by lia. set (p := (n - 1) / q) in *.
    pose proof (Nat.div_mod (n - 1) q ltac:(lia)) as HD. pose proof (Nat.mod_upper_bound (n - 1) q ltac:(lia)) as HM. fold p in HD.
    assert (p * q < n) by nia. assert (n <= p * q + q) by nia. unfold kpos. rewrite sel_key_sl by lia.
    split; [|lia]. f_equal. lia.
Qed.
(** The whole axis is one piece when it has one item or fits into a chunk. *)
Lemma last_from_0 maxc n r : 1 <= n -> last_from maxc n r = 0 <-> n = 1 \/ n * r <= maxc.
Proof.
  intros Hn. unfold last_from. destruct (Nat.leb_spec (n * r) maxc) as [H1|H1]; [tauto|]. destruct (Nat.ltb_spec maxc r) as [H2|H2]; [lia|].
  pose proof (step_pos _ _ _ H1 H2) as Hs. assert (Hr : r <> 0) by (intros ->; lia).
  assert (Hq : maxc / r < n) by (apply Nat.div_lt_upper_bound; lia). split; [|intros [->|H]; [|lia]].
  - intros H. apply Nat.mul_eq_0 in H as [H|H]; [|lia]. apply Nat.div_small_iff in H; lia.
  - replace (maxc / r) with 0 in Hs by lia. lia.
Qed.

Lemma fold_last {A B} (f : A -> B) l d : forall x, l <> [] -> fold_left (fun _ y => f y) l x = f (last l d).
Proof.
  induction l as [|y l IH]; [congruence|]. intros x _. cbn [fold_left]. destruct l as [|z l]; auto.
  rewrite IH by discriminate. auto.
Qed.
Lemma skipn_seq k : forall a n, skipn k (seq a n) = seq (a + k) (n - k).
Proof.
  induction k as [|k IH]; intros a n; [rewrite Nat.add_0_r, Nat.sub_0_r; auto|]. destruct n as [|n]; auto.
  cbn [seq skipn]. rewrite IH. f_equal. lia.
Qed.

Section Pieces.
Context {V : Type} (O : numops V).
Variable maxc : nat.
Variable garbage : list nat -> option V.
Variable fuel : nat.
Notation over := (over O maxc garbage fuel).
Notation realise := (realise O maxc garbage (S fuel)).

Lemma over_none m sh cs a f : over m none sh cs a f -> cs = all_slices maxc true sh.
Proof. induction 1; auto. contradiction. Qed.
Lemma over_some_piece m sh cs a f axis : over m none sh cs a f -> axis < length sh -> 1 <= nth axis sh 0 ->
  nth axis cs [] <> [] /\ forall k, In k (nth axis cs []) -> 1 <= length (kpos k (nth axis sh 0)).
Proof.
  intros H Hax Hn. pose proof (over_cuts O maxc garbage fuel m none (none_right O m) _ _ _ _ H) as HC.
  destruct (good_cuts_nth _ _ axis HC Hax) as (_ & HF & HN & _). split; auto. intros k Hk. rewrite Forall_forall in HF.
  destruct (chunk_key_sel _ _ (HF k Hk)) as (x & len & E & _ & Hl). unfold kpos. rewrite E, seq_length. auto.
Qed.

(** The values a minimum or maximum ranges over. *)
Definition seen (m : bool) (l : list (option V)) : list V := if m then obs l else map (plain_val O) l.

Lemma extreme_last m sh cs a f axis d g pick : orders O -> (g = GMin /\ pick = vmin O) \/ (g = GMax /\ pick = vmax O) ->
  over m none sh cs a f -> axis < length sh -> 1 <= nth axis sh 0 ->
  exists r, realise m (AAgg g a axis d) = Ok r /\ nshape r = remove_at axis sh
    /\ forall o, inb (remove_at axis sh) o ->
         nget r o = best pick (seen m (skipn (last_from maxc (nth axis sh 0) (prodn (skipn (S axis) sh))) (line f axis (nth axis sh 0) o))).
Proof.
  intros L Hg H Hax Hn. destruct (over_some_piece m sh cs a f axis H Hax Hn) as [HN HP].
  destruct (over_run O maxc garbage fuel m none (none_right O m) sh cs a f g axis d H Hax) as (r & E1 & E2 & E3).
  { intros k b Hk. specialize (HP k Hk). assert (Eb : (length (kpos k (nth axis sh 0)) =? 0) = false) by lia.
    destruct Hg as [[-> _]|[-> _]]; destruct m; cbn [handler_of h_min h_max h_min_m h_max_m hbad]; unfold no_ident; rewrite Eb; auto. }
  exists r. split; auto. split; auto. intros o Ho. rewrite E3 by auto. clear E1 E2 E3.
  pose proof (over_none m sh cs a f H) as ->. rewrite all_slices_nth in * by auto.
  set (n := nth axis sh 0) in *. set (q := prodn (skipn (S axis) sh)) in *. destruct (last_piece maxc n q Hn) as [HL _].
  assert (EL : skipn (last_from maxc n q) (line f axis n o) = map (fun i => f (insert_at axis i o)) (kpos (last (dim_slices maxc true q n) KBad) n)).
  { rewrite HL. unfold line. rewrite skipn_map, skipn_seq. auto. }
  rewrite EL. unfold seen, run_handler. set (ps := map _ (dim_slices maxc true q n)).
  assert (Hps : ps <> []) by (unfold ps; intros E; apply map_eq_nil in E; auto).
  assert (Elast : last ps [] = map (fun i => f (insert_at axis i o)) (kpos (last (dim_slices maxc true q n) KBad) n)).
  { unfold ps. rewrite (last_map _ _ KBad) by auto. auto. }
  rewrite <- Elast. destruct Hg as [[-> ->]|[-> ->]]; destruct m; cbn [handler_of h_min h_max h_min_m h_max_m hfin hboot hstep].
  - rewrite (fold_last (fun l => vmin_list O (somes l)) ps []), somes_obs by auto. apply vmin_list_best; auto.
  - rewrite (fold_last (fun l => vmin_list O (map (val0 O) l)) ps []) by auto. apply vmin_list_best; auto.
  - rewrite (fold_last (fun l => vmax_list O (somes l)) ps []), somes_obs by auto. apply vmax_list_best; auto.
  - rewrite (fold_last (fun l => vmax_list O (map (val0 O) l)) ps []) by auto. apply vmax_list_best; auto.
Qed.

(** C22, exactly: a minimum or maximum is that of the last piece of the axis
    only; so it is right whenever the axis has one item or fits into a chunk. *)
Theorem C22_min_last m sh cs a f axis d : orders O -> over m none sh cs a f -> axis < length sh -> 1 <= nth axis sh 0 ->
  exists r, realise m (AAgg GMin a axis d) = Ok r /\ nshape r = remove_at axis sh
    /\ forall o, inb (remove_at axis sh) o ->
         nget r o = best (vmin O) (seen m (skipn (last_from maxc (nth axis sh 0) (prodn (skipn (S axis) sh))) (line f axis (nth axis sh 0) o))).
Proof. intros L H Hax Hn. apply (extreme_last m sh cs a f axis d GMin (vmin O) L); auto. Qed.
Theorem C22_max_last m sh cs a f axis d : orders O -> over m none sh cs a f -> axis < length sh -> 1 <= nth axis sh 0 ->
  exists r, realise m (AAgg GMax a axis d) = Ok r /\ nshape r = remove_at axis sh
    /\ forall o, inb (remove_at axis sh) o ->
         nget r o = best (vmax O) (seen m (skipn (last_from maxc (nth axis sh 0) (prodn (skipn (S axis) sh))) (line f axis (nth axis sh 0) o))).
Proof. intros L H Hax Hn. apply (extreme_last m sh cs a f axis d GMax (vmax O) L); auto. Qed.
Theorem C22_whole_partial m sh cs a f axis d : orders O -> over m none sh cs a f -> axis < length sh ->
  nth axis sh 0 = 1 \/ (1 <= nth axis sh 0 /\ nth axis sh 0 * prodn (skipn (S axis) sh) <= maxc) ->
  exists lo hi, realise m (AAgg GMin a axis d) = Ok lo /\ realise m (AAgg GMax a axis d) = Ok hi
    /\ nshape lo = remove_at axis sh /\ nshape hi = remove_at axis sh
    /\ forall o, inb (remove_at axis sh) o ->
         nget lo o = best (vmin O) (seen m (line f axis (nth axis sh 0) o)) /\ nget hi o = best (vmax O) (seen m (line f axis (nth axis sh 0) o)).
Proof.
  intros L H Hax HW. assert (Hn : 1 <= nth axis sh 0) by lia.
  destruct (C22_min_last m sh cs a f axis d L H Hax Hn) as (lo & E1 & E2 & E3). destruct (C22_max_last m sh cs a f axis d L H Hax Hn) as (hi & F1 & F2 & F3).
  exists lo, hi. split; [exact E1|]. split; [exact F1|]. split; [exact E2|]. split; [exact F2|]. intros o Ho. rewrite E3, F3 by auto.
  replace (last_from maxc (nth axis sh 0) (prodn (skipn (S axis) sh))) with 0 by (symmetry; apply last_from_0; tauto). auto.
Qed.
End Pieces.

(** C22 fails for every shape, axis and chunk limit that split the axis: some
    data of that shape have a wrong minimum and a wrong maximum everywhere. *)
Definition rising (sh : list nat) (axis : nat) : @concrete Z := mkC sh (fun i => Some (Z.of_nat (nth axis i 0))) None 0.
Definition falling (sh : list nat) (axis : nat) : @concrete Z := mkC sh (fun i => Some (Z.opp (Z.of_nat (nth axis i 0)))) None 0.

Lemma line_rising sh axis (h : nat -> Z) o : axis < length sh -> inb (remove_at axis sh) o ->
  line (fun i => Some (h (nth axis i 0))) axis (nth axis sh 0) o = map (fun i => Some (h i)) (seq 0 (nth axis sh 0)).
Proof.
  intros Hax Ho. unfold line. apply map_ext. intros i. do 2 f_equal. apply nth_insert_at.
  pose proof (inb_length _ _ Ho) as HL. rewrite remove_at_length in HL by auto. lia.
Qed.
Lemma obs_some {V W} (h : W -> V) l : obs (map (fun i => Some (h i)) l) = map h l.
Proof. induction l; simpl; auto. f_equal; auto. Qed.
Lemma seen_some {V W} (O : numops V) m (h : W -> V) l : seen O m (map (fun i => Some (h i)) l) = map h l.
Proof. unfold seen. destruct m; [apply obs_some|]. rewrite map_map. auto. Qed.
Lemma best_first {W} (pick : Z -> Z -> Z) (h : W -> Z) x l : (forall y, In y l -> pick (h x) (h y) = h x) ->
  (forall a b c, pick (pick a b) c = pick a (pick b c)) -> best pick (map h (x :: l)) = Some (h x).
Proof.
  intros H A. cbn [map]. rewrite best_fold by auto. f_equal. induction l as [|y l IH]; auto. cbn [map fold_left]. rewrite H by (simpl; auto).
  apply IH. intros z Hz. apply H. simpl; auto.
Qed.
Lemma best_from (pick : Z -> Z -> Z) (h : nat -> Z) a n : (forall i j, i <= j -> pick (h i) (h j) = h i) -> 1 <= n ->
  (forall a b c, pick (pick a b) c = pick a (pick b c)) -> best pick (map h (seq a n)) = Some (h a).
Proof.
  intros H Hn A. destruct n as [|n]; [lia|]. cbn [seq]. apply (best_first pick h a (seq (S a) n)); auto.
  intros y Hy. apply in_seq in Hy. apply H. lia.
Qed.

Theorem C22_split_refuted maxc garbage fuel m sh axis : 1 <= fuel -> Forall (fun n => 1 <= n) sh -> axis < length sh ->
  2 <= nth axis sh 0 -> maxc < nth axis sh 0 * prodn (skipn (S axis) sh) ->
  let x := AAdapt false (rising sh axis) [] in let y := AAdapt false (falling sh axis) [] in
  over z_ops maxc garbage fuel m none sh (all_slices maxc true sh) x (fun i => Some (Z.of_nat (nth axis i 0)))
  /\ over z_ops maxc garbage fuel m none sh (all_slices maxc true sh) y (fun i => Some (Z.opp (Z.of_nat (nth axis i 0))))
  /\ exists lo hi, realise z_ops maxc garbage (S fuel) m (AAgg GMin x axis 0) = Ok lo
       /\ realise z_ops maxc garbage (S fuel) m (AAgg GMax y axis 0) = Ok hi
       /\ forall o, inb (remove_at axis sh) o ->
            best Z.min (seen z_ops m (line (fun i => Some (Z.of_nat (nth axis i 0))) axis (nth axis sh 0) o)) = Some 0%Z
            /\ best Z.max (seen z_ops m (line (fun i => Some (Z.opp (Z.of_nat (nth axis i 0)))) axis (nth axis sh 0) o)) = Some 0%Z
            /\ nget lo o <> Some 0%Z /\ nget hi o <> Some 0%Z.
Proof.
  intros Hf Hp Hax Hn Hm x y.
  assert (Hsh : sh <> []) by (intros ->; simpl in Hax; lia).
  pose proof (fresh_over z_ops maxc garbage fuel m none false (rising sh axis) Hf Hp (or_intror (or_introl Hsh))) as Ox.
  pose proof (fresh_over z_ops maxc garbage fuel m none false (falling sh axis) Hf Hp (or_intror (or_introl Hsh))) as Oy.
  change (nget (data_of z_ops m (rising sh axis))) with (fun i : list nat => Some (Z.of_nat (nth axis i 0))) in Ox.
  change (nget (data_of z_ops m (falling sh axis))) with (fun i : list nat => Some (Z.opp (Z.of_nat (nth axis i 0)))) in Oy.
  cbn [c_shape rising falling] in Ox, Oy. split; [exact Ox|]. split; [exact Oy|].
  destruct (C22_min_last z_ops maxc garbage fuel m _ _ _ _ axis 0 (laws_orders _ z_laws) Ox Hax ltac:(lia)) as (lo & E1 & E2 & E3).
  destruct (C22_max_last z_ops maxc garbage fuel m _ _ _ _ axis 0 (laws_orders _ z_laws) Oy Hax ltac:(lia)) as (hi & F1 & F2 & F3).
  exists lo, hi. split; [exact E1|]. split; [exact F1|]. intros o Ho. rewrite E3, F3 by auto.
  pose proof (line_rising sh axis Z.of_nat o Hax Ho) as L1. pose proof (line_rising sh axis (fun i => Z.opp (Z.of_nat i)) o Hax Ho) as L2.
  cbv beta in L1, L2. rewrite L1, L2. rewrite !skipn_map, !skipn_seq. change (0 + ?k) with k.
  set (n := nth axis sh 0) in *. set (q := prodn (skipn (S axis) sh)) in *.
  pose proof (proj2 (last_piece maxc n q ltac:(lia))) as Hlt.
  assert (H0 : last_from maxc n q <> 0) by (rewrite last_from_0 by lia; lia).
  rewrite !(seen_some z_ops m Z.of_nat), !(seen_some z_ops m (fun i => Z.opp (Z.of_nat i))).
  change (vmin z_ops) with Z.min. change (vmax z_ops) with Z.max.
  rewrite !(best_from Z.min Z.of_nat) by (intros; lia). rewrite !(best_from Z.max (fun i => Z.opp (Z.of_nat i))) by (intros; lia).
  split; [reflexivity|]. split; [reflexivity|]. split; intros E; injection E; lia.
Qed.

(** ** Deviations of real data *)
Section RealClaims.
Variables (cast : nat -> R -> R) (dfill : nat -> R) (dtf : nat -> nat) (dti : nat).
Notation O := (real_ops cast dfill dtf dti).
Variable maxc : nat.
Variable garbage : list nat -> option R.
Variable fuel : nat.
Notation over := (over O maxc garbage fuel).
Notation realise := (realise O maxc garbage (S fuel)).

Definition not_extreme (g : @agg R) : Prop := match g with GMin | GMax => False | _ => True end.
Lemma not_extreme_right : always_right O true not_extreme.
Proof.
  intros g Hg. split.
  - intros pieces _ Hp. apply (right_real cast dfill dtf dti true g); auto. destruct g; simpl; auto.
  - intros lens. destruct g; simpl in *; auto; contradiction.
Qed.

(** C24 *)
Theorem C24_masked_var sh cs a f axis d ddof : over true not_extreme sh cs a f -> axis < length sh ->
  exists r, realise true (AAgg (GVar ddof) a axis d) = Ok r /\ nshape r = remove_at axis sh
    /\ forall o, inb (remove_at axis sh) o -> let xs := obs (line f axis (nth axis sh 0) o) in
         (xs = [] \/ INR (length xs) = ddof \/ (rvar ddof xs < 0)%R -> nget r o = None)
         /\ (xs <> [] -> INR (length xs) <> ddof -> (0 <= rvar ddof xs)%R -> nget r o = Some (rvar ddof xs)).
Proof.
  intros H Hax. destruct (over_agg_claim O maxc garbage fuel true not_extreme not_extreme_right sh cs a f (GVar ddof) axis d I H Hax) as (r & E1 & E2 & E3).
  exists r. split; auto. split; auto. intros o Ho. rewrite E3 by auto. apply masked_var_spec.
Qed.
Theorem C24_masked_std sh cs a f axis d ddof : over true not_extreme sh cs a f -> axis < length sh ->
  exists r, realise true (AAgg (GStd ddof) a axis d) = Ok r /\ nshape r = remove_at axis sh
    /\ forall o, inb (remove_at axis sh) o -> let xs := obs (line f axis (nth axis sh 0) o) in
         (xs = [] \/ INR (length xs) = ddof \/ (rvar ddof xs < 0)%R -> nget r o = None)
         /\ (xs <> [] -> INR (length xs) <> ddof -> (0 <= rvar ddof xs)%R -> nget r o = Some (sqrt (rvar ddof xs))).
Proof.
  intros H Hax. destruct (over_agg_claim O maxc garbage fuel true not_extreme not_extreme_right sh cs a f (GStd ddof) axis d I H Hax) as (r & E1 & E2 & E3).
  exists r. split; auto. split; auto. intros o Ho. rewrite E3 by auto. cbn [agg_spec]. unfold masked_std.
  destruct (masked_var_spec cast dfill dtf dti ddof (obs (line f axis (nth axis sh 0) o))) as [M1 M2]. split.
  - intros Hx. rewrite M1; auto.
  - intros Ha Hb Hc. rewrite M2; auto.
Qed.

Theorem C24_values a D axis d ddof : streams O maxc garbage fuel true a D -> axis < ndim a ->
  exists x v s, ndarrays O maxc garbage fuel true [a] = Ok [x] /\ ndarrays O maxc garbage fuel true [AAgg (GVar ddof) a axis d] = Ok [v]
    /\ ndarrays O maxc garbage fuel true [AAgg (GStd ddof) a axis d] = Ok [s]
    /\ nshape x = shape a /\ nshape v = remove_at axis (shape a) /\ nshape s = remove_at axis (shape a)
    /\ forall o, inb (remove_at axis (shape a)) o -> let xs := obs (line (nget x) axis (nth axis (shape a) 0%nat) o) in
         (xs = [] \/ INR (length xs) = ddof \/ (rvar ddof xs < 0)%R -> nget v o = None /\ nget s o = None)
         /\ (xs <> [] -> INR (length xs) <> ddof -> (0 <= rvar ddof xs)%R -> nget v o = Some (rvar ddof xs) /\ nget s o = Some (sqrt (rvar ddof xs))).
Proof.
  intros HS Hax. destruct (not_extreme_right (GVar ddof) I) as [R1 P1]. destruct (not_extreme_right (GStd ddof) I) as [R2 P2].
  destruct (values O maxc garbage fuel true a D (GVar ddof) axis d R1 P1 HS Hax) as (x & v & Ex & Ev & Sx & Sv & _ & Hv).
  destruct (values O maxc garbage fuel true a D (GStd ddof) axis d R2 P2 HS Hax) as (x' & s & Ex' & Es & _ & Ss & _ & Hs).
  assert (x' = x) by congruence. subst x'. exists x, v, s. do 6 (split; auto). intros o Ho. rewrite Hv, Hs by auto. cbv zeta.
  cbn [agg_spec]. unfold masked_std. destruct (masked_var_spec cast dfill dtf dti ddof (obs (line (nget x) axis (nth axis (shape a) 0%nat) o))) as [M1 M2].
  split.
  - intros Hx. rewrite M1; auto.
  - intros Ha Hb Hc. rewrite M2; auto.
Qed.

(** C23: right unless the engine gets the axis item by item, that is unless the
    axis has several items, they do not fit into a chunk together and no two of
    them do. *)
Lemma whole_pieces m sh cs a f axis g : over m none sh cs a f -> axis < length sh -> 1 <= nth axis sh 0 ->
  piecewise maxc m g (nth axis sh 0) (prodn (skipn (S axis) sh)) ->
  forall d, ddof_ok m g (nth axis sh 0) ->
  exists r, realise m (AAgg g a axis d) = Ok r /\ nshape r = remove_at axis sh
    /\ forall o, inb (remove_at axis sh) o -> nget r o = agg_spec O m g (line f axis (nth axis sh 0) o).
Proof.
  intros H Hax Hn HP d Hd. pose proof (over_none O maxc garbage fuel m sh cs a f H) as Ecs.
  pose proof (pieces_ok maxc m (fun _ _ => True) g _ _ HP) as HF. rewrite <- (all_slices_nth maxc true sh axis Hax), <- Ecs in HF.
  destruct (over_run O maxc garbage fuel m none (none_right O m) sh cs a f g axis d H Hax) as (r & E1 & E2 & E3).
  { intros k b Hk. eapply pieces_not_bad; [exact HF|]. apply in_map_iff. eauto. }
  exists r. split; auto. split; auto. intros o Ho. rewrite E3 by auto.
  pose proof (over_cuts O maxc garbage fuel m none (none_right O m) _ _ _ _ H) as HC. destruct (good_cuts_nth _ _ axis HC Hax) as (Hcat & _).
  pose proof (pieces_line f axis _ _ o Hcat) as E.
  assert (EL : length (line f axis (nth axis sh 0) o) = nth axis sh 0) by (unfold line; rewrite map_length, seq_length; auto).
  rewrite <- E. rewrite <- (right_real cast dfill dtf dti m g).
  - rewrite E, EL. auto.
  - rewrite E, EL. auto.
  - rewrite map_map. erewrite map_ext; [exact HF|]. intros k. apply map_length.
Qed.

Theorem C23_var_fits_partial sh cs a f axis d ddof : over false none sh cs a f -> axis < length sh -> 1 <= nth axis sh 0 ->
  (ddof < INR (nth axis sh 0%nat))%R ->
  nth axis sh 0 = 1 \/ nth axis sh 0 * prodn (skipn (S axis) sh) <= maxc \/ 2 * prodn (skipn (S axis) sh) <= maxc ->
  exists r, realise false (AAgg (GVar ddof) a axis d) = Ok r /\ nshape r = remove_at axis sh
    /\ forall o, inb (remove_at axis sh) o -> nget r o = Some (rvar ddof (map (plain_val O) (line f axis (nth axis sh 0) o))).
Proof.
  intros H Hax Hn Hd HP. apply (whole_pieces false sh cs a f axis (GVar ddof) H Hax Hn); [|right; exact Hd]. cbn [piecewise]. right. lia.
Qed.
Theorem C23_std_fits_partial sh cs a f axis d ddof : over false none sh cs a f -> axis < length sh -> 1 <= nth axis sh 0 ->
  (ddof < INR (nth axis sh 0%nat))%R ->
  nth axis sh 0 = 1 \/ nth axis sh 0 * prodn (skipn (S axis) sh) <= maxc \/ 2 * prodn (skipn (S axis) sh) <= maxc ->
  exists r, realise false (AAgg (GStd ddof) a axis d) = Ok r /\ nshape r = remove_at axis sh
    /\ forall o, inb (remove_at axis sh) o -> nget r o = Some (sqrt (rvar ddof (map (plain_val O) (line f axis (nth axis sh 0) o)))).
Proof.
  intros H Hax Hn Hd HP. apply (whole_pieces false sh cs a f axis (GStd ddof) H Hax Hn); [|right; exact Hd]. cbn [piecewise]. right. lia.
Qed.

Lemma unit_pieces n r : maxc < n * r -> maxc < 2 * r -> forall k, In k (dim_slices maxc true r n) -> length (kpos k n) = 1.
Proof.
  intros H1 H2 k Hk. assert (Hl : In (length (kpos k n)) (map (fun k => length (kpos k n)) (dim_slices maxc true r n))) by (apply in_map_iff; eauto).
  rewrite (@dim_pieces unit maxc (fun _ _ => True)) in Hl. replace (n * r <=? maxc) with false in Hl by lia. destruct (Nat.ltb_spec maxc r) as [H3|H3].
  - apply repeat_spec in Hl. auto.
  - assert (E : maxc / r = 1). { symmetry. apply (Nat.div_unique maxc r 1 (maxc - r)); lia. }
    rewrite E in Hl. apply in_map_iff in Hl as (i & <- & Hi). apply in_seq in Hi. rewrite Nat.div_1_r in Hi. lia.
Qed.
Lemma std_units (ps : list (list (option R))) : (forall p, In p ps -> length p = 1) -> forall x : R,
  exists y, fold_left (std_step O) ps (1, x, 0%R) = (1, y, 0%R).
Proof.
  induction ps as [|p ps IH]; intros H x; [exists x; auto|]. cbn [fold_left].
  assert (Hp : length p = 1) by (apply H; simpl; auto). destruct p as [|c [|c' p]]; try discriminate.
  cbn [std_step]. cbn. apply IH. intros q Hq. apply H. simpl; auto.
Qed.
Lemma std_units_0 ddof n (ps : list (list (option R))) : (forall p, In p ps -> length p = 1) ->
  run_handler (handler_of O false (GStd ddof)) n ps = Some 0%R.
Proof.
  intros H. unfold run_handler. cbn [handler_of h_std hfin hboot hstep v0 real_ops].
  match goal with |- context [fold_left ?g ps ?s] => change (fold_left g ps s) with (fold_left (std_step O) ps (1, 0%R, 0%R)) end.
  destruct (std_units ps H 0%R) as (y & ->). cbn [vsqrt vdiv vsub vofn real_ops]. unfold Rdiv. rewrite Rmult_0_l, sqrt_0. auto.
Qed.
Lemma var_units ddof n (ps : list (list (option R))) : (forall p, In p ps -> length p = 1) ->
  run_handler (handler_of O false (GVar ddof)) n ps = Some 0%R.
Proof.
  intros H. pose proof (std_units_0 ddof n ps H) as E. unfold run_handler in *.
  change (sq O (hfin (handler_of O false (GStd ddof)) n (fold_left (hstep (handler_of O false (GStd ddof))) ps (hboot (handler_of O false (GStd ddof))))) = Some 0%R).
  rewrite E. cbn [sq vmul real_ops]. rewrite Rmult_0_l. auto.
Qed.
(** Otherwise every variance and deviation is reported as 0, whatever the data. *)
Theorem C23_items_refuted sh cs a f axis d ddof : over false none sh cs a f -> axis < length sh -> 1 <= nth axis sh 0 ->
  ddof <> 1%R ->
  maxc < nth axis sh 0 * prodn (skipn (S axis) sh) -> maxc < 2 * prodn (skipn (S axis) sh) ->
  exists v s, realise false (AAgg (GVar ddof) a axis d) = Ok v /\ realise false (AAgg (GStd ddof) a axis d) = Ok s
    /\ nshape v = remove_at axis sh /\ nshape s = remove_at axis sh
    /\ forall o, inb (remove_at axis sh) o -> nget v o = Some 0%R /\ nget s o = Some 0%R.
Proof.
  intros H Hax Hn Hd H1 H2. pose proof (over_none O maxc garbage fuel false sh cs a f H) as Ecs.
  assert (HU : forall k, In k (nth axis cs []) -> length (kpos k (nth axis sh 0)) = 1).
  { rewrite Ecs, all_slices_nth by auto. apply unit_pieces; auto. }
  destruct (over_run O maxc garbage fuel false none (none_right O false) sh cs a f (GVar ddof) axis d H Hax) as (v & E1 & E2 & E3).
  { intros k b Hk. cbn. unfold no_first. rewrite HU by auto. auto. }
  destruct (over_run O maxc garbage fuel false none (none_right O false) sh cs a f (GStd ddof) axis d H Hax) as (s & F1 & F2 & F3).
  { intros k b Hk. cbn. unfold no_first. rewrite HU by auto. auto. }
  exists v, s. split; [exact E1|]. split; [exact F1|]. split; [exact E2|]. split; [exact F2|]. intros o Ho. rewrite E3, F3 by auto.
  assert (HP : forall p, In p (map (fun k => map (fun i => f (insert_at axis i o)) (kpos k (nth axis sh 0))) (nth axis cs [])) -> length p = 1).
  { intros p Hp. apply in_map_iff in Hp as (k & <- & Hk). rewrite map_length. auto. }
  split; [apply var_units|apply std_units_0]; exact HP.
Qed.
End RealClaims.

Print Assumptions C21_sum.
Print Assumptions C21_count.
Print Assumptions C21_mean.
Print Assumptions C21_values.
Print Assumptions C22_min_last.
Print Assumptions C22_max_last.
Print Assumptions C22_whole_partial.
Print Assumptions C22_split_refuted.
Print Assumptions C25_masked_mean.
Print Assumptions C25_values.
Print Assumptions C26_masked_sum.
Print Assumptions C26_masked_count.
Print Assumptions C26_values.
Print Assumptions C27_unary.
Print Assumptions C27_binary.
Print Assumptions C27_root1. Print Assumptions C27_refused1. Print Assumptions C27_refused2.
Print Assumptions C27_root2.
(* the following list the axioms of the reals *)
Print Assumptions C24_masked_var.
Print Assumptions C24_masked_std.
Print Assumptions C24_values.
Print Assumptions C23_var_fits_partial.
Print Assumptions C23_std_fits_partial.
Print Assumptions C23_items_refuted.

(** ** The hypotheses are met
    [x + x.sum(axis=0)] summed again, with [x] of shape (4, 5) read in pieces of at
    most 7 elements; and with masked elements. *)
Definition nested : @barr Z := AAgg GSum (AEl2 zadd2 (arr [4; 5]) (oarr [4; 5]) 0) 0 0.
Lemma pos_4_5 : Forall (fun n => 1 <= n) [4; 5].
Proof. repeat constructor; lia. Qed.
Definition nested_at : list nat -> option Z :=
  fun o => agg_spec z_ops false GSum (line (fun i => op2_sem false zadd2 (nget (data_of z_ops false (numbered [4; 5])) i)
    (nget (data_of z_ops false (numbered [4; 5])) i)) 0 (nth 0 [4; 5] 0) o).
Example nested_over maxc garbage :
  over z_ops maxc garbage 1 false (linear z_ops) (remove_at 0 [4; 5]) (remove_at 0 (all_slices maxc true [4; 5])) nested nested_at.
Proof.
  apply (over_agg z_ops maxc garbage 1 false (linear z_ops) [4; 5] (all_slices maxc true [4; 5])); [exact z_laws| |simpl; lia].
  apply over_el2; [discriminate| |].
  - apply (fresh_over z_ops maxc garbage 1 false (linear z_ops) false (numbered [4; 5])); auto using pos_4_5. right. left. discriminate.
  - apply (fresh_over z_ops maxc garbage 1 false (linear z_ops) true (numbered [4; 5])); auto using pos_4_5. right. left. discriminate.
Qed.
Example C21_case maxc garbage : exists r, realise z_ops maxc garbage 2 false (AAgg GSum nested 0 0) = Ok r /\ nshape r = [] /\ nget r [] = Some 380%Z.
Proof.
  destruct (C21_sum z_ops maxc garbage 1 _ _ _ _ 0 0 z_laws (nested_over maxc garbage) ltac:(simpl; lia)) as (r & E1 & E2 & E3).
  exists r. split; [exact E1|]. split; [exact E2|]. rewrite (E3 [] ltac:(constructor)). vm_compute. reflexivity.
Qed.
Example C21_values_case maxc garbage := C21_values z_ops maxc garbage 1 nested _ 0 0 0%Z z_laws
  (proj1 (over_streams z_ops maxc garbage 1 false (linear z_ops) (linear_right z_ops false) _ _ _ _ (nested_over maxc garbage))) (le_n 1).
Example marr_over maxc garbage : over z_ops maxc garbage 1 true (linear z_ops) [4; 5] (all_slices maxc true [4; 5]) (marr [4; 5]) (nget (data_of z_ops true (thirds [4; 5]))).
Proof. apply (fresh_over z_ops maxc garbage 1 true (linear z_ops) false (thirds [4; 5])); auto using pos_4_5. Qed.
Example C25_case maxc garbage := C25_masked_mean z_ops maxc garbage 1 _ _ _ _ 0 0 1%Z z_laws (marr_over maxc garbage) (le_S _ _ (le_n 1)).
Example C26_case maxc garbage : exists r, realise z_ops maxc garbage 2 true (AAgg GSum (marr [4; 5]) 1 0) = Ok r /\ nget r [1] = Some 20%Z.
Proof.
  destruct (C26_masked_sum z_ops maxc garbage 1 _ _ _ _ 1 0 z_laws (marr_over maxc garbage) (le_n 2)) as (r & E1 & _ & E3).
  exists r. split; [exact E1|]. rewrite (E3 [1]) by (repeat constructor; lia). vm_compute. reflexivity.
Qed.
Example C27_case maxc garbage := C27_binary z_ops maxc garbage 1 false _ _ _ _ _ _ _ zadd2 0 ltac:(discriminate)
  (fresh_over z_ops maxc garbage 1 false (linear z_ops) false (numbered [5]) (le_n 1) ltac:(repeat constructor; lia) ltac:(right; left; discriminate))
  (nested_over maxc garbage).
(** The shape (4, 5) read in pieces of at most 7 elements: axis 0 item by item, so
    minima along it are wrong and deviations 0; axis 1 in one piece. *)
Example C22_case garbage := C22_split_refuted 7 garbage 1 false [4; 5] 0 (le_n 1) pos_4_5 ltac:(simpl; lia) ltac:(simpl; lia) ltac:(simpl; lia).
Example C22_whole_case garbage := C22_whole_partial z_ops 7 garbage 1 true [4; 5] _ _ _ 1 0 (laws_orders _ z_laws)
  (fresh_over z_ops 7 garbage 1 true none false (thirds [4; 5]) (le_n 1) pos_4_5 (or_introl eq_refl)) (le_n 2) ltac:(right; simpl; lia).
Definition real_data : @concrete R := mkC [4; 5] (fun i => Some (INR (nth 0 i 0 + nth 1 i 0))) None 0.
Example C23_items_case cast dfill dtf dti garbage := C23_items_refuted cast dfill dtf dti 7 garbage 1 [4; 5] _ _ _ 0 0 0%R
  (fresh_over (real_ops cast dfill dtf dti) 7 garbage 1 false none false real_data (le_n 1) pos_4_5 ltac:(right; left; discriminate))
  ltac:(simpl; lia) ltac:(simpl; lia) ltac:(intros E; symmetry in E; exact (R1_neq_R0 E)) ltac:(simpl; lia) ltac:(simpl; lia).
Example C23_fits_case cast dfill dtf dti garbage := C23_var_fits_partial cast dfill dtf dti 7 garbage 1 [4; 5] _ _ _ 1 0 0%R
  (fresh_over (real_ops cast dfill dtf dti) 7 garbage 1 false none false real_data (le_n 1) pos_4_5 ltac:(right; left; discriminate))
  ltac:(simpl; lia) ltac:(simpl; lia) ltac:(simpl; lra) ltac:(simpl; lia).
Example C24_case cast dfill dtf dti maxc garbage := C24_masked_var cast dfill dtf dti maxc garbage 1 [4; 5] _ _ _ 0 0 1%R
  (fresh_over (real_ops cast dfill dtf dti) maxc garbage 1 true not_extreme false real_data (le_n 1) pos_4_5 ltac:(left; reflexivity)) ltac:(simpl; lia).
