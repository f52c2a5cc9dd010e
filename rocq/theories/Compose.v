(** Compose: the streaming engine over arbitrary sources.  A source is any array
    whose blocks read right; nothing is assumed about how it is built. *)
From Verif Require Import Base PySlice Keys NDArray Arrays Chunks Handlers Realise Spec Supported Lib SelLemmas KeyLemmas GetBase GetStack ChunkLemmas AssignLemmas HandlerLemmas Realisable StreamLemmas RealOK ChunkClaims SaveClaims.
From Coq Require Import ZifyBool ZifyNat Permutation.

Section Compose.
Context {V : Type} (O : numops V).
Notation cell := (option V).
Notation barr := (@barr V).
Variable maxc : nat.
Variable garbage : list nat -> cell.
Variable fuel : nat.
Variable m : bool.
Notation rz := (realise O maxc garbage fuel m).

(** Arrays the engine streams through handlers; all others are sources. *)
Definition streamed (a : barr) : bool :=
  match a with AAgg _ _ _ _ | AEl1 _ _ _ | AEl2 _ _ _ _ => true | _ => false end.

(** [k] selects the whole of a dimension of length [n] or some consecutive
    positions of it. *)
Definition block (ks : list key) (sh : list nat) : Prop := Forall2 (fun k n => chunk_key n k) ks sh.
(** Every block of [a] reads as that block of [D]. *)
Definition blocks_right (a : barr) (D : nd cell) : Prop :=
  nshape D = shape a
  /\ forall ks, block ks (shape a) -> exists b d, getitem a ks = Ok b /\ rz b = Ok d /\ nd_eq d (oindex D ks).

(** Two ways to cut the dimensions that give the same blocks. *)
Definition alike (sh : list nat) (cs cs' : list (list key)) : Prop :=
  forall i, i < length sh -> map (fun k => kpos k (nth i sh 0)) (nth i cs []) = map (fun k => kpos k (nth i sh 0)) (nth i cs' []).

Inductive streams : barr -> nd cell -> Prop :=
| streams_source a D : streamed a = false -> blocks_right a D -> streams a D
| streams_agg g c axis d D : streams c D -> axis < ndim c ->
    (forall l b, In l (axis_pieces maxc c axis) -> hbad (handler_of O m g) l b = false) ->
    streams (AAgg g c axis d)
            (mkND (remove_at axis (shape c))
                  (fun o => run_handler (handler_of O m g) (nth axis (shape c) 0) (cut_column D axis (nth axis (cuts maxc c) []) o)))
| streams_el1 o c d D : has_op1 m o -> streams c D -> streams (AEl1 o c d) (nd_map (op1_sem m o) D)
| streams_el2 o a b d D1 D2 : has_op2 m o -> streams a D1 -> streams b D2 -> shape a = shape b -> alike (shape a) (cuts maxc a) (cuts maxc b) ->
    streams (AEl2 o a b d) (mkND (nshape D1) (fun i => op2_sem m o (nget D1 i) (nget D2 i)))
| streams_eq a D D' : streams a D -> nd_eq D D' -> streams a D'.

Lemma streams_shape a D : streams a D -> nshape D = shape a.
Proof.
  induction 1 as [a D H [H1 _]|g c axis d D H IH Hax Hb|o c d D Ho H IH|o a b d D1 D2 Ho H1 IH1 H2 IH2 Hs Hc|a D D' H IH [E _]]; simpl; auto.
  congruence.
Qed.
Lemma streams_cuts a D : streams a D -> good_cuts (cuts maxc a) (shape a).
Proof.
  induction 1 as [a D H [H1 _]|g c axis d D H IH Hax Hb|o c d D Ho H IH|o a b d D1 D2 Ho H1 IH1 H2 IH2 Hs Hc|a D D' H IH [E _]]; auto.
  - destruct a; try discriminate; apply all_slices_good.
  - simpl. apply Forall2_remove; auto.
Qed.

Lemma drawn_block cs sh ks : good_cuts cs sh -> length ks = length sh ->
  (forall i, i < length sh -> In (nth i ks KBad) (nth i cs [])) -> block ks sh.
Proof.
  intros HC HL HI. apply Forall2_nth_intro with (da := KBad) (db := 0); auto. intros i Hi.
  destruct (good_cuts_nth _ _ i HC ltac:(lia)) as (_ & H & _). rewrite Forall_forall in H. apply H. apply HI. lia.
Qed.

Lemma source_ok (a : barr) D order : blocks_right a D -> perm order (ndim a) ->
  exists cs, producer maxc rz a order = Ok cs /\ map fst cs = gen_keys (all_slices maxc true (shape a)) order
    /\ Forall (chunk_of D) cs.
Proof.
  intros [Hsh HB] HP. unfold producer, chunk_index_gen.
  set (ks := gen_keys (all_slices maxc true (shape a)) order).
  pose proof (all_slices_good maxc (shape a)) as HC.
  destruct (mapM_exists (fun k => b <- getitem a k ;; d <- rz b ;; Ok (k, d)) (fun k ch => fst ch = k /\ chunk_of D ch) ks)
    as (cs & E & F).
  - intros k Hk. destruct (gen_keys_drawn maxc garbage _ _ _ HC HP k Hk) as (H1 & H2 & H3).
    destruct (drawn_lists _ _ k HC H1 H2) as (_ & _ & s & S1 & S1' & _).
    destruct (HB k (drawn_block _ _ _ HC H1 H2)) as (b & d & Eb & Ed & Hd).
    exists (k, d). rewrite Eb. cbn [bind]. rewrite Ed. cbn [bind]. split; auto. split; auto. exists s. cbn [fst snd].
    rewrite Hsh. split; auto. unfold oindex in Hd. rewrite Hsh, S1' in Hd. auto.
  - exists cs. split; [exact E|]. clear -F. induction F as [|k ch ks cs [<- H] F IH]; simpl; auto.
    destruct IH as [<- IH]. auto.
Qed.

Lemma chunk_of_eq D D' (ch : @chunk V) : nd_eq D D' -> chunk_of D ch -> chunk_of D' ch.
Proof.
  intros E (s & Es & Hd). exists s. rewrite <- (proj1 E). split; auto. eapply nd_eq_trans; [exact Hd|].
  apply nd_sel_eq; auto. eapply sel_keys_valid; eauto.
Qed.

Lemma alike_keys cs cs' sh order : good_cuts cs sh -> good_cuts cs' sh -> alike sh cs cs' -> perm order (length sh) ->
  Forall2 (fun k k' => sel_keys k sh = sel_keys k' sh) (gen_keys cs order) (gen_keys cs' order).
Proof.
  intros HC HC' HA HP. pose proof (good_cuts_length _ _ HC) as HL. pose proof (good_cuts_length _ _ HC') as HL'.
  assert (HLen : forall i, i < length sh -> length (nth i cs []) = length (nth i cs' [])).
  { intros i Hi. specialize (HA i Hi). apply (f_equal (@length (list nat))) in HA. rewrite !map_length in HA. auto. }
  assert (Hin : forall c, good_cuts c sh -> length c = length sh -> forall k, In k (gen_keys c order) -> length k = length sh /\ forall i, i < length sh -> In (nth i k KBad) (nth i c [])).
  { intros c Hc Hl k Hk. destruct (gen_keys_drawn maxc garbage _ _ _ Hc HP k Hk) as (H1 & H2 & _). auto. }
  pose proof (Hin cs HC HL) as I1. pose proof (Hin cs' HC' HL') as I2.
  rewrite (gen_keys_eq cs) in I1 |- * by (rewrite HL; auto). rewrite (gen_keys_eq cs') in I2 |- * by (rewrite HL'; auto).
  assert (HO : map (fun i => length (nth i cs [])) order = map (fun i => length (nth i cs' [])) order).
  { apply map_ext_in. intros i Hi. apply HLen. destruct HP as (_ & _ & HF). rewrite Forall_forall in HF. auto. }
  rewrite <- HO in *. set (L := ndindex _) in *.
  assert (HI : forall x, In x L -> In (key_at cs order x) (map (key_at cs order) L) /\ In (key_at cs' order x) (map (key_at cs' order) L)) by (intros x Hx; split; apply in_map; auto).
  assert (HE : forall x, In x L -> sel_keys (key_at cs order x) sh = sel_keys (key_at cs' order x) sh).
  { intros x Hx. destruct (HI x Hx) as [J1 J2]. destruct (I1 _ J1) as [A1 A2], (I2 _ J2) as [B1 B2].
    destruct (drawn_lists _ _ _ HC A1 A2) as (_ & _ & s & S1 & _ & S3 & _ & _ & S6). destruct (drawn_lists _ _ _ HC' B1 B2) as (_ & _ & t & T1 & _ & T3 & _ & _ & T6).
    rewrite S1, T1. f_equal. apply (nth_ext _ _ DNew DNew); [lia|]. intros i Hi. rewrite S6, T6 by lia. f_equal.
    unfold key_at. rewrite HL, HL'. rewrite !(nth_map_seq (fun d => nth (nth (pos_in order d) x 0) _ KBad)) by lia. cbn [Nat.add].
    specialize (HA i ltac:(lia)). specialize (HLen i ltac:(lia)). set (j := nth (pos_in order i) x 0).
    destruct (Nat.lt_ge_cases j (length (nth i cs []))) as [Hj|Hj].
    - rewrite <- (nth_map (fun k => kpos k (nth i sh 0)) (nth i cs []) j [] KBad) by auto. rewrite HA. apply (nth_map (fun k => kpos k (nth i sh 0)) (nth i cs' []) j [] KBad). lia.
    - rewrite (nth_overflow (nth i cs [])), (nth_overflow (nth i cs' [])) by lia. reflexivity. }
  clear -HE. induction L as [|x L IH]; constructor; auto. { apply HE. simpl; auto. } apply IH. intros y Hy. apply HE. simpl; auto.
Qed.
Lemma zip_alike (f : cell -> cell -> cell) (D1 D2 : nd cell) : nshape D1 = nshape D2 -> forall cs1 cs2 : list (@chunk V),
  Forall2 (fun k k' => sel_keys k (nshape D1) = sel_keys k' (nshape D1)) (map fst cs1) (map fst cs2) -> Forall (chunk_of D1) cs1 -> Forall (chunk_of D2) cs2 ->
  exists cs, zip_stream f cs1 cs2 = Ok cs /\ map fst cs = map fst cs1
    /\ Forall (chunk_of (mkND (nshape D1) (fun i => f (nget D1 i) (nget D2 i)))) cs.
Proof.
  intros HS cs1 cs2 HK H1 H2.
  assert (E : zip_stream f cs1 cs2 = zip_stream f cs1 (map (fun p => (fst (fst p), snd (snd p))) (combine cs1 cs2))).
  { clear -HK. revert cs2 HK. induction cs1 as [|[k x] cs1 IH]; intros [|[k' y] cs2] HK; auto. inversion HK; subst. cbn [combine map fst snd zip_stream].
    rewrite <- IH by auto. auto. }
  rewrite E. apply zip_stream_ok; auto.
  - clear -HK. revert cs2 HK. induction cs1 as [|[k x] cs1 IH]; intros [|[k' y] cs2] HK; auto; inversion HK; subst. cbn [combine map fst snd]. f_equal. auto.
  - clear -HK H2 HS. revert cs2 HK H2. induction cs1 as [|[k x] cs1 IH]; intros [|[k' y] cs2] HK H2; inversion HK; subst; constructor.
    + cbn [fst snd]. inversion H2 as [|? ? (s & Es & Hd) _]; subst. exists s. cbn [fst snd] in *. split; auto. rewrite <- HS in *. cbn [fst] in *. congruence.
    + inversion H2; subst. apply IH; auto.
Qed.

Lemma streams_ok a D : streams a D -> forall order, perm order (ndim a) ->
  exists cs, stream O maxc rz m a order = Ok cs /\ map fst cs = gen_keys (cuts maxc a) order /\ Forall (chunk_of D) cs.
Proof.
  induction 1 as [a D H HB|g c axis d D H IH Hax Hb|o c d D Ho H IH|o a b d D1 D2 Ho H1 IH1 H2 IH2 Hs Hc|a D D' H IH HE]; intros order HP.
  - destruct (source_ok a D order HB HP) as (cs & E1 & E2 & E3). exists cs. destruct a; try discriminate; auto.
  - pose proof (streams_shape _ _ H) as Hsh. pose proof (streams_cuts _ _ H) as HC.
    assert (Hnd : ndim (AAgg g c axis d) = pred (length (shape c))) by (unfold ndim; simpl; apply remove_at_length; auto).
    rewrite Hnd in HP.
    destruct (IH (input_order axis order)) as (cs & E1 & E2 & E3).
    { unfold ndim in *. replace (length (shape c)) with (S (pred (length (shape c)))) by lia. apply input_order_perm; auto. lia. }
    cbn [stream]. rewrite E1. cbn [bind].
    destruct (agg_stream_gen (handler_of O m g) D (cuts maxc c) axis order cs) as (out & O1 & O2 & O3); auto; rewrite ?Hsh; auto.
    exists out. rewrite Hsh in O1, O3. auto.
  - destruct (IH order HP) as (cs & E1 & E2 & E3).
    cbn [stream]. rewrite (op1_ok m o Ho). cbn [bind]. rewrite E1. cbn [bind].
    destruct (map_stream_ok (op1_sem m o) _ _ E3) as [F1 F2]. eexists; split; [reflexivity|]. split; [etransitivity; [exact F1|exact E2]|exact F2].
  - destruct (IH1 order HP) as (xs & E1 & E2 & E3).
    destruct (IH2 order) as (ys & F1 & F2 & F3). { unfold ndim in *. rewrite <- Hs. auto. }
    cbn [stream]. rewrite (op2_ok m o Ho). cbn [bind]. rewrite E1. cbn [bind]. rewrite F1. cbn [bind].
    destruct (zip_alike (op2_sem m o) D1 D2) with (cs1 := xs) (cs2 := ys) as (cs & G1 & G2 & G3); auto.
    { rewrite (streams_shape _ _ H1), (streams_shape _ _ H2). auto. }
    { eapply eq_rect with (P := fun l => Forall2 _ l _); [|symmetry; exact E2]. eapply eq_rect with (P := fun l => Forall2 _ _ l); [|symmetry; exact F2].
      rewrite (streams_shape _ _ H1). apply alike_keys; auto; [apply (streams_cuts _ _ H1)|rewrite Hs; apply (streams_cuts _ _ H2)]. }
    exists cs. split; auto. split; [etransitivity; [exact G2|exact E2]|]. exact G3.
  - destruct (IH order HP) as (cs & E1 & E2 & E3). exists cs. split; auto. split; auto.
    eapply Forall_impl; [|exact E3]. intros ch. apply chunk_of_eq; auto.
Qed.

Lemma streams_engine a D : streams a D -> exists d, engine_eval O maxc garbage rz m a = Ok d /\ nd_eq d D.
Proof.
  intros HS. destruct (streams_ok a D HS (seq 0 (ndim a)) (perm_seq _)) as (cs & E1 & E2 & E3).
  unfold engine_eval. rewrite E1. cbn [bind]. pose proof (streams_cuts a D HS) as HC. pose proof (streams_shape a D HS) as Hsh.
  apply setitems_cover; auto.
  - apply Forall_forall. intros ch Hch. rewrite Forall_forall in E3. destruct (E3 ch Hch) as (s & Es & Hd).
    rewrite Hsh in Es. exists s. split; auto. apply assign_sels_ok; auto.
    assert (Hk : In (fst ch) (gen_keys (cuts maxc a) (seq 0 (ndim a)))) by (rewrite <- E2; apply in_map; auto).
    destruct (gen_keys_drawn maxc garbage _ _ _ HC (perm_seq _) _ Hk) as (H1 & H2 & _).
    destruct (drawn_lists _ _ _ HC H1 H2) as (_ & Hp & _). auto.
  - intros idx Hidx. pose proof (gen_keys_cover _ _ (seq 0 (ndim a)) idx (good_cuts_ok _ _ HC) (perm_seq _) Hidx) as Hc.
    destruct (existsb (covers (shape a) idx) (gen_keys (cuts maxc a) (seq 0 (ndim a)))) eqn:Ex.
    2:{ apply count_if_0 in Ex. lia. }
    apply existsb_exists in Ex as (k & Hk & Hcov). pose proof Hk as Hk'. rewrite <- E2 in Hk'. apply in_map_iff in Hk' as (ch & <- & Hch).
    destruct (gen_keys_drawn maxc garbage _ _ _ HC (perm_seq _) _ Hk) as (H1 & H2 & _).
    destruct (drawn_lists _ _ _ HC H1 H2) as (_ & Hp & s & S1 & S2 & _).
    unfold covers in Hcov. rewrite S2 in Hcov. exists ch, s. split; auto. split; auto. apply assign_sels_ok; auto.
Qed.

(** [ndarray()]/[masked_array()] of an aggregation over a streamed expression. *)
Lemma streams_agg_realise g c axis d D : streams (AAgg g c axis d) D ->
  exists r, realise O maxc garbage (S fuel) m (AAgg g c axis d) = Ok r /\ nd_eq r D.
Proof. intros H. exact (streams_engine _ _ H). Qed.
Lemma streams_el1_realise o c d D : has_op1 m o -> streams c D ->
  exists r, realise O maxc garbage (S fuel) m (AEl1 o c d) = Ok r /\ nd_eq r (nd_map (op1_sem m o) D).
Proof.
  intros Ho H. destruct (streams_engine _ _ H) as (x & Ex & Dx). exists (nd_map (op1_sem m o) x). split; [|apply nd_map_eq; auto].
  change (realise O maxc garbage (S fuel) m (AEl1 o c d)) with (g <- op1_fun m o ;; d <- engine_eval O maxc garbage rz m c ;; Ok (nd_map g d)).
  rewrite (op1_ok m o Ho). cbn [bind]. rewrite Ex. auto.
Qed.
Lemma streams_el2_realise o a b d D1 D2 : has_op2 m o -> streams a D1 -> streams b D2 -> shape a = shape b ->
  exists r, realise O maxc garbage (S fuel) m (AEl2 o a b d) = Ok r
    /\ nd_eq r (mkND (nshape D1) (fun i => op2_sem m o (nget D1 i) (nget D2 i))).
Proof.
  intros Ho H1 H2 Hs. destruct (streams_engine _ _ H1) as (x & Ex & Dx), (streams_engine _ _ H2) as (y & Ey & Dy).
  assert (Hxy : nshape x = nshape y) by (rewrite (proj1 Dx), (proj1 Dy), (streams_shape _ _ H1), (streams_shape _ _ H2); auto).
  destruct (np_op2_same (op2_sem m o) x y Hxy) as (r & Er & Sr & Gr). exists r. split.
  - change (realise O maxc garbage (S fuel) m (AEl2 o a b d)) with
      (g <- op2_fun m o ;; x <- engine_eval O maxc garbage rz m a ;; y <- engine_eval O maxc garbage rz m b ;; np_op2 g x y).
    rewrite (op2_ok m o Ho). cbn [bind]. rewrite Ex. cbn [bind]. rewrite Ey. cbn [bind]. auto.
  - split; [cbn [nshape]; rewrite Sr; apply Dx|]. rewrite Sr. intros i Hi. rewrite Gr by auto. cbn [nget].
    rewrite (proj2 Dx), (proj2 Dy); auto. rewrite <- Hxy; auto.
Qed.
End Compose.
