(** RealOK: the streaming engine and [ndarray()]/[masked_array()] compute the
    array an expression denotes. *)
From Verif Require Import Base PySlice Keys NDArray Arrays Chunks Handlers Realise Spec Supported Lib SelLemmas KeyLemmas NewAxLemmas GetBase GetSimple GetBcast GetTrans GetStack GetMosaic GetItem ChunkLemmas AssignLemmas HandlerLemmas Realisable NumpyApply StreamLemmas.
From Coq Require Import ZifyBool ZifyNat.

Lemma bshape_rev_same l : bshape_rev l l = Some l.
Proof. induction l as [|x l IH]; simpl; auto. unfold bdim. rewrite Nat.eqb_refl, IH. auto. Qed.
Lemma np_bshape_same sh : np_bshape sh sh = Some sh.
Proof. unfold np_bshape. rewrite bshape_rev_same, rev_involutive. auto. Qed.

Lemma np_op2_same {W X Y} (f : W -> X -> Y) (x : nd W) (y : nd X) : nshape x = nshape y ->
  exists r, np_op2 f x y = Ok r /\ nshape r = nshape x
    /\ forall o, inb (nshape x) o -> nget r o = f (nget x o) (nget y o).
Proof.
  intros H. unfold np_op2. rewrite <- H, np_bshape_same. eexists; split; [reflexivity|]. split; auto.
  intros o Ho. simpl. rewrite bc_idx_id by auto. auto.
Qed.

Lemma Forall_forall2 {A} (P : A -> Prop) l : Forall P l <-> forall x, In x l -> P x.
Proof. apply Forall_forall. Qed.

Section Engine.
Context {V : Type} (O : numops V).
Notation cell := (option V).
Notation barr := (@barr V).
Variable maxc : nat.
Variable garbage : list nat -> cell.
Variable m : bool.
Variable HG : @agg V -> nat -> Prop.
Hypothesis HR : forall g, handler_right O m g (HG g).

Lemma op1_ok o : has_op1 m o -> op1_fun m o = Ok (@op1_sem V m o).
Proof using. clear HR. unfold has_op1, op1_fun, op1_sem. destruct m; auto. destruct (o1_ma o); auto. intros H. destruct (H eq_refl eq_refl). Qed.
Lemma op2_ok o : has_op2 m o -> op2_fun m o = Ok (@op2_sem V m o).
Proof using. clear HR. unfold has_op2, op2_fun, op2_sem. destruct m; auto. destruct (o2_ma o); auto. intros H. destruct (H eq_refl eq_refl). Qed.

Lemma cuts_good (a : barr) : wf a -> good_cuts (cuts maxc a) (shape a).
Proof using.
  induction a as [sh v d|o c ks|a na IH|a dict lead IH|a d IH|a v IH|a axes IH|ssh items IH|tiles axis IH
                  |g a axis d IH|o a d IH|o a b d IH1 IH2] using barr_ind2; intros Hw; try apply all_slices_good.
  - destruct Hw as [Hw Hax]. simpl. apply Forall2_remove. apply IH; auto.
  - simpl. apply IH; auto.
  - destruct Hw as (Hw & _). simpl. apply IH1; auto.
Qed.

Lemma gen_keys_drawn ks sh order : good_cuts ks sh -> perm order (length sh) -> forall k, In k (gen_keys ks order) ->
  length k = length sh /\ (forall i, i < length sh -> In (nth i k KBad) (nth i ks [])) /\ Forall2 (@In key) k ks.
Proof.
  intros HC HP k Hk. pose proof (good_cuts_length _ _ HC) as HL. rewrite <- HL in HP.
  destruct (gen_keys_In _ _ _ HP Hk) as [H1 H2]. split; [lia|]. split; [intros; apply H2; lia|].
  apply Forall2_nth_intro with (da := KBad) (db := []); auto. intros i Hi. apply H2. lia.
Qed.

Section Stream.
  Variable R : barr -> Prop.
  Variable rz : barr -> res (nd cell).
  Hypothesis HRz : forall b, wf b -> R b -> exists d, rz b = Ok d /\ nd_eq d (den O m b).

  Lemma producer_ok (a : barr) order : wf a -> perm order (ndim a) ->
    (forall k, Forall2 (@In key) k (all_slices maxc true (shape a)) -> okk a k /\ (forall b, getitem a k = Ok b -> R b)) ->
    exists cs, producer maxc rz a order = Ok cs /\ map fst cs = gen_keys (all_slices maxc true (shape a)) order
      /\ Forall (chunk_of (den O m a)) cs.
  Proof.
    intros Hw HP HS. unfold producer, chunk_index_gen.
    set (ks := gen_keys (all_slices maxc true (shape a)) order).
    pose proof (all_slices_good maxc (shape a)) as HC.
    destruct (mapM_exists (fun k => b <- getitem a k ;; d <- rz b ;; Ok (k, d)) (fun k ch => fst ch = k /\ chunk_of (den O m a) ch) ks)
      as (cs & E & F).
    - intros k Hk. destruct (gen_keys_drawn _ _ _ HC HP k Hk) as (H1 & H2 & H3).
      destruct (drawn_lists _ _ k HC H1 H2) as (_ & _ & s & S1 & _). destruct (HS k H3) as [Hok HRb].
      destruct (Pget_full O a k s (getitem_all O a) Hw S1 Hok) as (b & Eb & Gb).
      destruct (HRz b (g_wf _ _ _ _ Gb) (HRb b Eb)) as (d & Ed & Hd).
      exists (k, d). rewrite Eb. simpl. rewrite Ed. simpl. split; auto. split; auto. exists s. cbn [fst snd].
      rewrite den_shape by auto. split; auto. eapply nd_eq_trans; [apply Hd|]. apply Gb.
    - exists cs. split; [exact E|]. clear -F. induction F as [|k ch ks cs [<- H] F IH]; simpl; auto.
      destruct IH as [<- IH]. auto.
  Qed.

  Lemma map_stream_ok (f : cell -> cell) (D : nd cell) (cs : list (@chunk V)) : Forall (chunk_of D) cs ->
    map fst (map (fun ch => (fst ch, nd_map f (snd ch))) cs) = map fst cs
    /\ Forall (chunk_of (nd_map f D)) (map (fun ch => (fst ch, nd_map f (snd ch))) cs).
  Proof.
    intros H. split; [rewrite map_map; auto|]. apply Forall_map. eapply Forall_impl; [|apply H].
    intros ch (s & E & Hd). exists s. cbn [fst snd]. split; auto.
    eapply nd_eq_trans; [apply nd_map_eq; eauto|]. apply nd_map_sel.
  Qed.

  Lemma zip_stream_ok (f : cell -> cell -> cell) (D1 D2 : nd cell) : nshape D1 = nshape D2 -> forall cs1 cs2 : list (@chunk V),
    map fst cs1 = map fst cs2 -> Forall (chunk_of D1) cs1 -> Forall (chunk_of D2) cs2 ->
    exists cs, zip_stream f cs1 cs2 = Ok cs /\ map fst cs = map fst cs1
      /\ Forall (chunk_of (mkND (nshape D1) (fun i => f (nget D1 i) (nget D2 i)))) cs.
  Proof.
    intros HS. induction cs1 as [|[k x] cs1 IH]; intros [|[k' y] cs2] HK H1 H2; simpl in HK; try discriminate.
    - exists []. auto.
    - injection HK as <- HK. inversion H1 as [|? ? (s & Es & Hx) H1']; subst. inversion H2 as [|? ? (s' & Es' & Hy) H2']; subst.
      cbn [fst snd] in *. rewrite <- HS in Es'. replace s' with s in * by congruence.
      destruct (np_op2_same f x y) as (r & Er & Sr & Gr).
      { destruct Hx as [Hx _], Hy as [Hy _]. simpl in Hx, Hy. congruence. }
      destruct (IH cs2 HK H1' H2') as (cs & E1 & E2 & E3).
      exists ((k, r) :: cs). simpl. rewrite Er. simpl. rewrite E1. simpl. split; auto. split; [congruence|]. constructor; auto.
      exists s. cbn [fst snd nshape]. split; auto. destruct Hx as [Hx1 Hx2], Hy as [Hy1 Hy2]. simpl in Hx1, Hy1. split.
      + simpl. congruence.
      + rewrite Sr. intros o Ho. rewrite Gr, Hx2, Hy2 by (auto; congruence). auto.
  Qed.

  Lemma stream_ok (a : barr) : wf a -> streamable maxc m HG R a -> forall order, perm order (ndim a) ->
    exists cs, stream O maxc rz m a order = Ok cs /\ map fst cs = gen_keys (cuts maxc a) order
      /\ Forall (chunk_of (den O m a)) cs.
  Proof.
    induction a as [sh v d|o c ks|a na IH|a dict lead IH|a d IH|a v IH|a axes IH|ssh items IH|tiles axis IH
                    |g a axis d IH|o a d IH|o a b d IH1 IH2] using barr_ind2; intros Hw HS order HP;
      try (apply producer_ok; auto; fail).
    - destruct Hw as [Hw Hax]. destruct HS as (HS & Hg & Hpf). pose proof (cuts_good a Hw) as HC.
      assert (Hnd : ndim (AAgg g a axis d) = pred (length (shape a))) by (unfold ndim; simpl; apply remove_at_length; auto).
      rewrite Hnd in HP.
      destruct (IH Hw HS (input_order axis order)) as (cs & E1 & E2 & E3).
      { unfold ndim in *. replace (length (shape a)) with (S (pred (length (shape a)))) by lia. apply input_order_perm; auto. lia. }
      cbn [stream]. rewrite E1. cbn [bind].
      destruct (agg_stream_ok O m g (HG g) (den O m a) (cuts maxc a) axis order cs) as (out & O1 & O2 & O3); auto;
        rewrite ?den_shape; auto.
      exists out. rewrite den_shape in O1 by auto. split; auto.
    - simpl in Hw. destruct HS as (Hop & HS). destruct (IH Hw HS order HP) as (cs & E1 & E2 & E3).
      cbn [stream]. rewrite (op1_ok o Hop). cbn [bind]. rewrite E1. cbn [bind].
      destruct (map_stream_ok (op1_sem m o) _ _ E3) as [F1 F2]. eexists; split; [reflexivity|]. split; [etransitivity; [exact F1|exact E2]|exact F2].
    - destruct Hw as (Hwa & Hwb & Hsh). destruct HS as (Hop & HSa & HSb & Hcut).
      destruct (IH1 Hwa HSa order HP) as (xs & E1 & E2 & E3).
      destruct (IH2 Hwb HSb order) as (ys & F1 & F2 & F3).
      { unfold ndim in *. simpl in HP. rewrite <- Hsh. auto. }
      cbn [stream]. rewrite (op2_ok o Hop). cbn [bind]. rewrite E1. cbn [bind]. rewrite F1. cbn [bind].
      destruct (zip_stream_ok (op2_sem m o) (den O m a) (den O m b)) with (cs1 := xs) (cs2 := ys) as (cs & G1 & G2 & G3); auto.
      { rewrite !den_shape by auto. auto. } { congruence. }
      exists cs. split; auto. split; [etransitivity; [exact G2|exact E2]|]. exact G3.
  Qed.

  Lemma engine_ok (a : barr) : wf a -> streamable maxc m HG R a ->
    exists d, engine_eval O maxc garbage rz m a = Ok d /\ nd_eq d (den O m a).
  Proof.
    intros Hw HS. destruct (stream_ok a Hw HS (seq 0 (ndim a)) (perm_seq _)) as (cs & E1 & E2 & E3).
    unfold engine_eval. rewrite E1. cbn [bind]. pose proof (cuts_good a Hw) as HC.
    apply setitems_cover; [apply den_shape; auto| |].
    - apply Forall_forall. intros ch Hch. rewrite Forall_forall in E3. destruct (E3 ch Hch) as (s & Es & Hd).
      rewrite den_shape in Es by auto. exists s. split; auto. apply assign_sels_ok; auto.
      assert (Hk : In (fst ch) (gen_keys (cuts maxc a) (seq 0 (ndim a)))) by (rewrite <- E2; apply in_map; auto).
      destruct (gen_keys_drawn _ _ _ HC (perm_seq _) _ Hk) as (H1 & H2 & _).
      destruct (drawn_lists _ _ _ HC H1 H2) as (_ & Hp & _). auto.
    - intros idx Hidx. pose proof (gen_keys_cover _ _ (seq 0 (ndim a)) idx (good_cuts_ok _ _ HC) (perm_seq _) Hidx) as Hc.
      destruct (existsb (covers (shape a) idx) (gen_keys (cuts maxc a) (seq 0 (ndim a)))) eqn:Ex.
      2:{ apply count_if_0 in Ex. lia. }
      apply existsb_exists in Ex as (k & Hk & Hcov). pose proof Hk as Hk'. rewrite <- E2 in Hk'. apply in_map_iff in Hk' as (ch & <- & Hch).
      destruct (gen_keys_drawn _ _ _ HC (perm_seq _) _ Hk) as (H1 & H2 & _).
      destruct (drawn_lists _ _ _ HC H1 H2) as (_ & Hp & s & S1 & S2 & _).
      unfold covers in Hcov. rewrite S2 in Hcov. exists ch, s. split; auto. split; auto. apply assign_sels_ok; auto.
  Qed.
End Stream.
End Engine.
