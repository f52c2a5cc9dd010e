(** Fuel: [realise] has enough fuel as soon as the fuel reaches the nesting of the
    expression; the theorems that name a fuel do not depend on its choice. *)
From Verif Require Import Base PySlice Keys NDArray Arrays Chunks Handlers Realise Lib GetBase BuiltClaims.
From Coq Require Import ZifyBool ZifyNat.

Section Fuel.
Context {V : Type} (O : numops V).
Notation barr := (@barr V).
Variable maxc : nat.
Variable garbage : list nat -> option V.
Variable m : bool.
Notation rz f := (realise O maxc garbage f m).

(** Aggregations and elementwise operations on the deepest path, plus one. *)
Fixpoint depth (a : barr) : nat :=
  match a with
  | AConst _ _ _ | AAdapt _ _ _ => 1
  | ANewAx c _ | ABcast c _ _ | AAsTy c _ | AMaskV c _ | ATrans c _ => depth c
  | AStack _ items => fold_right (fun it n => Nat.max (depth it) n) 1 items
  | AMosaic tiles _ => fold_right (fun it n => Nat.max (depth it) n) 1 tiles
  | AAgg _ c _ _ | AEl1 _ c _ => S (depth c)
  | AEl2 _ c1 c2 _ => S (Nat.max (depth c1) (depth c2))
  end.
Definition depths (l : list barr) : nat := fold_right (fun it n => Nat.max (depth it) n) 1 l.
Lemma depths_le l n : depths l <= n <-> 1 <= n /\ forall x, In x l -> depth x <= n.
Proof.
  induction l as [|x l IH]; cbn; [split; [intros; split; auto; tauto|tauto]|]. rewrite Nat.max_lub_iff. unfold depths in IH. rewrite IH. split.
  - intros (H1 & H2 & H3). split; auto. intros y [<-|Hy]; auto.
  - intros [H1 H2]. split; auto.
Qed.
Lemma depth_pos a : 1 <= depth a.
Proof.
  induction a as [sh v d|o c ks|a na IH|a dict lead IH|a d IH|a v IH|a axes IH|ssh items IH|tiles axis IH|g a axis d IH|o a d IH|o a b d IH1 IH2]
    using barr_ind2; cbn [depth]; auto; try lia.
  - change (1 <= depths items). pose proof (proj1 (depths_le items _) (le_n _)). lia.
  - change (1 <= depths tiles). pose proof (proj1 (depths_le tiles _) (le_n _)). lia.
Qed.
Lemma depth_bcast a dict lead b : mk_bcast a dict lead = Ok b -> depth b = depth a.
Proof.
  unfold mk_bcast. intros E. destruct a; apply bind_ok in E as (u & _ & E); destruct (existsb _ _); try discriminate; injection E as <-; auto.
Qed.
Lemma depth_bcast_one a full off b : broadcast_one a full off = Ok b -> depth b = depth a.
Proof. unfold broadcast_one. destruct (firstn off full), (bdict _ _); intros E; try (injection E as <-; auto); eapply depth_bcast; eauto. Qed.
Lemma depth_pair a b x y : broadcast_arrays a b = Ok (x, y) -> depth x = depth a /\ depth y = depth b.
Proof.
  unfold broadcast_arrays. intros E. apply bind_ok in E as (full & _ & E). apply bind_ok in E as (a' & Ea & E). apply bind_ok in E as (b' & Eb & E).
  injection E as <- <-. split; eapply depth_bcast_one; eauto.
Qed.
Lemma depth_base gfk nd keys (b : barr) n : base_getitem gfk nd keys = Ok b ->
  (forall k c, existsb is_new k = false -> gfk k = Ok c -> depth c <= n) -> depth b <= n.
Proof.
  intros E H. apply base_getitem_inv in E as [(k & _ & N & E)|(_ & k & c' & N & E & na' & [->|(bd & ->)])]; cbn [depth]; eauto.
Qed.

(** Indexing never nests deeper. *)
Lemma depth_getitem a : forall keys b, getitem a keys = Ok b -> depth b <= depth a.
Proof.
  induction a as [sh v d|o c ks|a na IH|a dict lead IH|a d IH|a v IH|a axes IH|ssh items IH|tiles axis IH|g a axis d IH|o a d IH|o a b' d IH1 IH2]
    using barr_ind2; intros keys b E; cbn [getitem] in E.
  - apply bind_ok in E as (sh' & _ & E). injection E as <-. auto.
  - eapply depth_base; [exact E|]. intros k x _ Ex. apply bind_ok in Ex as (k' & _ & Ex). unfold mk_adapter in Ex.
    destruct (_ <? _); [discriminate|]. apply bind_ok in Ex as (_ & _ & Ex). injection Ex as <-. auto.
  - apply newax_getitem_inv in E as (k & c' & E & na' & [->|(bd & ->)]); cbn [depth]; eauto.
  - eapply depth_base; [exact E|]. intros k x _ Ex. apply bind_ok in Ex as (l' & _ & Ex). apply bind_ok in Ex as (r & _ & Ex).
    apply bind_ok in Ex as (bb & _ & Ex). apply bind_ok in Ex as (sub & Es & Ex). rewrite (depth_bcast _ _ _ _ Ex).
    destruct bb; [injection Es as <-; auto|]. cbn [depth]. eauto.
  - apply bind_ok in E as (c' & E1 & E). injection E as <-. cbn [depth]. eauto.
  - apply bind_ok in E as (c' & E1 & E). injection E as <-. cbn [depth]. eauto.
  - eapply depth_base; [exact E|]. intros k x _ Ex. cbv zeta in Ex. apply bind_ok in Ex as (y & Ey & Ex). apply trans_inv in Ex as (ax & ->). cbn [depth]. eauto.
  - rewrite Forall_forall in IH. pose proof (proj1 (depths_le items _) (le_n _)) as [D1 D2]. change (depth (AStack ssh items)) with (depths items).
    eapply depth_base; [exact E|]. intros k x _ Ex. eapply stack_get in Ex as [(it & Hi & Ei)|(ssh' & its & Es & Hx)]; [| |reflexivity].
    + etransitivity; [eapply IH; eauto|apply D2; auto].
    + apply stack_inv in Es as (-> & _). cbn [depth]. change (depths its <= depths items). apply depths_le. split; auto.
      intros y Hy. destruct (Hx y Hy) as (it & Hi & Ei). etransitivity; [eapply IH; eauto|apply D2; auto].
  - rewrite Forall_forall in IH. pose proof (proj1 (depths_le tiles _) (le_n _)) as [D1 D2]. change (depth (AMosaic tiles axis)) with (depths tiles).
    eapply depth_base; [exact E|]. intros k x N Ex. eapply mosaic_get in Ex as [(it & k' & Hi & _ & Ei)|(ax & its & Es & Hx)]; auto.
    + etransitivity; [eapply IH; eauto|apply D2; auto].
    + apply mosaic_inv in Es as (-> & _). cbn [depth]. change (depths its <= depths tiles). apply depths_le. split; auto.
      intros y Hy. destruct (Hx y Hy) as (it & k' & Hi & _ & Ei). etransitivity; [eapply IH; eauto|apply D2; auto].
  - eapply depth_base; [exact E|]. intros k x _ Ex. cbv zeta in Ex. apply bind_ok in Ex as (y & Ey & Ex). injection Ex as <-. cbn [depth].
    apply le_n_S. eauto.
  - eapply depth_base; [exact E|]. intros k x _ Ex. apply bind_ok in Ex as (y & Ey & Ex). injection Ex as <-. cbn [depth mk_el1]. apply le_n_S. eauto.
  - eapply depth_base; [exact E|]. intros k x _ Ex. apply bind_ok in Ex as (y & Ey & Ex). apply bind_ok in Ex as (z & Ez & Ex).
    unfold mk_el2 in Ex. apply bind_ok in Ex as ([x' y'] & Eb & Ex). injection Ex as <-. destruct (depth_pair _ _ _ _ Eb) as [D1 D2]. cbn [depth].
    apply IH1 in Ey. apply IH2 in Ez. lia.
Qed.

(** ** More fuel changes nothing once there is enough *)
Lemma mapM_ext_in {A B} (f g : A -> res B) l : (forall x, In x l -> f x = g x) -> mapM f l = mapM g l.
Proof. induction l as [|x l IH]; intros H; cbn [mapM]; auto. rewrite H by (left; auto). rewrite IH by (intros; apply H; right; auto). auto. Qed.
Lemma producer_depth (r r' : barr -> res (nd (option V))) a order : (forall b, depth b <= depth a -> r b = r' b) ->
  producer maxc r a order = producer maxc r' a order.
Proof.
  intros H. unfold producer. apply mapM_ext_in. intros k _. destruct (getitem a k) as [b|] eqn:E; cbn [bind]; auto.
  rewrite H; auto. eapply depth_getitem; eauto.
Qed.
Lemma stream_depth (r r' : barr -> res (nd (option V))) a : (forall b, depth b <= depth a -> r b = r' b) ->
  forall order, stream O maxc r m a order = stream O maxc r' m a order.
Proof.
  induction a as [sh v d|o c ks|a na IH|a dict lead IH|a d IH|a v IH|a axes IH|ssh items IH|tiles axis IH|g a axis d IH|o a d IH|o a b d IH1 IH2]
    using barr_ind2; intros H order; cbn [stream]; try (apply producer_depth; exact H).
  - rewrite IH; auto. intros b Hb. apply H. cbn [depth]. lia.
  - rewrite IH; auto. intros b Hb. apply H. cbn [depth]. lia.
  - rewrite IH1, IH2; auto; intros x Hx; apply H; cbn [depth]; lia.
Qed.
Lemma engine_depth (r r' : barr -> res (nd (option V))) a : (forall b, depth b <= depth a -> r b = r' b) ->
  engine_eval O maxc garbage r m a = engine_eval O maxc garbage r' m a.
Proof. intros H. unfold engine_eval. rewrite (stream_depth r r' a H). auto. Qed.

Lemma realise_step f : forall a, depth a <= f -> rz f a = rz (S f) a.
Proof.
  induction f as [|f IHf]; intros a Hd; [pose proof (depth_pos a); lia|].
  assert (HE : forall c, depth c <= f -> engine_eval O maxc garbage (rz f) m c = engine_eval O maxc garbage (rz (S f)) m c).
  { intros c Hc. apply engine_depth. intros b Hb. apply IHf. lia. }
  assert (HS : forall c order, depth c <= f -> stream O maxc (rz f) m c order = stream O maxc (rz (S f)) m c order).
  { intros c order Hc. apply stream_depth. intros b Hb. apply IHf. lia. }
  clear IHf. revert Hd.
  induction a as [sh v d|o c ks|a na IH|a dict lead IH|a d IH|a v IH|a axes IH|ssh items IH|tiles axis IH|g a axis d IH|o a d IH|o a b d IH1 IH2]
    using barr_ind2; intros Hd; cbn [depth] in Hd; auto.
  - specialize (IH Hd). change (rz (S f) (ANewAx a na)) with (d <- rz (S f) a ;; np_index d (newax_layout KNew (repeat KFull (ndim a)) na)). rewrite IH. reflexivity.
  - specialize (IH Hd). change (rz (S f) (ABcast a dict lead)) with (d <- rz (S f) a ;; bcast_numpy d dict lead). rewrite IH. reflexivity.
  - specialize (IH Hd). change (rz (S f) (AAsTy a d)) with (x <- rz (S f) a ;; Ok (nd_map (lift1 (vcast O d)) x)). rewrite IH. reflexivity.
  - specialize (IH Hd). change (rz (S f) (AMaskV a v)) with (x <- rz (S f) a ;; Ok (nd_map (mask_equal O m v) x)). rewrite IH. reflexivity.
  - specialize (IH Hd). change (rz (S f) (ATrans a axes)) with (x <- rz (S f) a ;; Ok (np_transpose x axes)). rewrite IH. reflexivity.
  - change (depths items <= S f) in Hd. apply depths_le in Hd as [_ Hd]. rewrite Forall_forall in IH.
    assert (E : mapM (rz (S f)) items = mapM (rz (S (S f))) items) by (apply mapM_ext_in; auto).
    change (rz (S f) (AStack ssh items)) with (ds <- mapM (rz (S f)) items ;; np_setitems (mkND (shape (AStack ssh items)) garbage) (combine (map (map (fun i => KInt (Z.of_nat i))) (ndindex ssh)) ds)).
    rewrite E. reflexivity.
  - change (depths tiles <= S f) in Hd. apply depths_le in Hd as [_ Hd]. rewrite Forall_forall in IH.
    assert (E : mapM (rz (S f)) tiles = mapM (rz (S (S f))) tiles) by (apply mapM_ext_in; auto).
    change (rz (S f) (AMosaic tiles axis)) with (ds <- mapM (rz (S f)) tiles ;; np_setitems (mkND (shape (AMosaic tiles axis)) garbage) (mosaic_writes (ndim (AMosaic tiles axis)) axis (map (fun t => nth axis (shape t) 0) tiles) ds)).
    rewrite E. reflexivity.
  - change (engine_eval O maxc garbage (rz f) m (AAgg g a axis d) = engine_eval O maxc garbage (rz (S f)) m (AAgg g a axis d)).
    unfold engine_eval. cbn [stream]. rewrite HS by lia. reflexivity.
  - change (rz (S f) (AEl1 o a d)) with (g <- op1_fun m o ;; x <- engine_eval O maxc garbage (rz f) m a ;; Ok (nd_map g x)). rewrite HE by lia. reflexivity.
  - change (rz (S f) (AEl2 o a b d)) with (g <- op2_fun m o ;; x <- engine_eval O maxc garbage (rz f) m a ;; y <- engine_eval O maxc garbage (rz f) m b ;; np_op2 g x y).
    rewrite !HE by lia. reflexivity.
Qed.
Lemma realise_enough k : forall f a, depth a <= f -> rz f a = rz (k + f) a.
Proof.
  induction k as [|k IH]; intros f a Hd; auto. rewrite (IH f a Hd). apply realise_step. lia.
Qed.

(** ** A result obtained with little fuel is kept with more *)
Lemma mapM_keep {A B} (f g : A -> res B) l r : (forall x y, In x l -> f x = Ok y -> g x = Ok y) -> mapM f l = Ok r -> mapM g l = Ok r.
Proof.
  revert r. induction l as [|x l IH]; intros r H; cbn [mapM]; auto. intros E. apply bind_ok in E as (y & E1 & E). apply bind_ok in E as (ys & E2 & E).
  rewrite (H x y (or_introl eq_refl) E1). cbn [bind]. rewrite (IH ys) by (auto; intros; apply H; auto; right; auto). auto.
Qed.
Lemma stream_keep (r r' : barr -> res (nd (option V))) : (forall b d, r b = Ok d -> r' b = Ok d) ->
  forall a order cs, stream O maxc r m a order = Ok cs -> stream O maxc r' m a order = Ok cs.
Proof.
  intros H. assert (HP : forall a order cs, producer maxc r a order = Ok cs -> producer maxc r' a order = Ok cs).
  { intros a order cs. unfold producer. apply mapM_keep. intros k y _ E. apply bind_ok in E as (b & E1 & E). apply bind_ok in E as (d & E2 & E).
    rewrite E1. cbn [bind]. rewrite (H b d E2). auto. }
  induction a as [sh v d|o c ks|a na IH|a dict lead IH|a d IH|a v IH|a axes IH|ssh items IH|tiles axis IH|g a axis d IH|o a d IH|o a b d IH1 IH2]
    using barr_ind2; intros order cs E; cbn [stream] in *; auto.
  - apply bind_ok in E as (xs & E1 & E). rewrite (IH _ _ E1). auto.
  - apply bind_ok in E as (g & E0 & E). apply bind_ok in E as (xs & E1 & E). rewrite E0. cbn [bind]. rewrite (IH _ _ E1). auto.
  - apply bind_ok in E as (g & E0 & E). apply bind_ok in E as (xs & E1 & E). apply bind_ok in E as (ys & E2 & E).
    rewrite E0. cbn [bind]. rewrite (IH1 _ _ E1). cbn [bind]. rewrite (IH2 _ _ E2). auto.
Qed.
Lemma engine_keep (r r' : barr -> res (nd (option V))) a d : (forall b d, r b = Ok d -> r' b = Ok d) ->
  engine_eval O maxc garbage r m a = Ok d -> engine_eval O maxc garbage r' m a = Ok d.
Proof. intros H. unfold engine_eval. intros E. apply bind_ok in E as (cs & E1 & E). rewrite (stream_keep r r' H _ _ _ E1). auto. Qed.
Lemma realise_keep f : forall a d, rz f a = Ok d -> rz (S f) a = Ok d.
Proof.
  induction f as [|f IHf]; [intros a d E; destruct a; discriminate|].
  assert (HE : forall c d, engine_eval O maxc garbage (rz f) m c = Ok d -> engine_eval O maxc garbage (rz (S f)) m c = Ok d).
  { intros c d. apply engine_keep; auto. }
  induction a as [sh v t|o c ks|a na IH|a dict lead IH|a t IH|a v IH|a axes IH|ssh items IH|tiles axis IH|g a axis t IH|o a t IH|o a b t IH1 IH2]
    using barr_ind2; intros d E; auto.
  - change (x <- rz (S f) a ;; np_index x (newax_layout KNew (repeat KFull (ndim a)) na) = Ok d) in E. apply bind_ok in E as (x & E1 & E).
    change (x <- rz (S (S f)) a ;; np_index x (newax_layout KNew (repeat KFull (ndim a)) na) = Ok d). rewrite (IH _ E1). auto.
  - change (x <- rz (S f) a ;; bcast_numpy x dict lead = Ok d) in E. apply bind_ok in E as (x & E1 & E).
    change (x <- rz (S (S f)) a ;; bcast_numpy x dict lead = Ok d). rewrite (IH _ E1). auto.
  - change (x <- rz (S f) a ;; Ok (nd_map (lift1 (vcast O t)) x) = Ok d) in E. apply bind_ok in E as (x & E1 & E).
    change (x <- rz (S (S f)) a ;; Ok (nd_map (lift1 (vcast O t)) x) = Ok d). rewrite (IH _ E1). auto.
  - change (x <- rz (S f) a ;; Ok (nd_map (mask_equal O m v) x) = Ok d) in E. apply bind_ok in E as (x & E1 & E).
    change (x <- rz (S (S f)) a ;; Ok (nd_map (mask_equal O m v) x) = Ok d). rewrite (IH _ E1). auto.
  - change (x <- rz (S f) a ;; Ok (np_transpose x axes) = Ok d) in E. apply bind_ok in E as (x & E1 & E).
    change (x <- rz (S (S f)) a ;; Ok (np_transpose x axes) = Ok d). rewrite (IH _ E1). auto.
  - rewrite Forall_forall in IH.
    change (ds <- mapM (rz (S f)) items ;; np_setitems (mkND (shape (AStack ssh items)) garbage) (combine (map (map (fun i => KInt (Z.of_nat i))) (ndindex ssh)) ds) = Ok d) in E.
    apply bind_ok in E as (ds & E1 & E).
    change (ds <- mapM (rz (S (S f))) items ;; np_setitems (mkND (shape (AStack ssh items)) garbage) (combine (map (map (fun i => KInt (Z.of_nat i))) (ndindex ssh)) ds) = Ok d).
    rewrite (mapM_keep (rz (S f)) (rz (S (S f))) items ds); auto.
  - rewrite Forall_forall in IH.
    change (ds <- mapM (rz (S f)) tiles ;; np_setitems (mkND (shape (AMosaic tiles axis)) garbage) (mosaic_writes (ndim (AMosaic tiles axis)) axis (map (fun t => nth axis (shape t) 0) tiles) ds) = Ok d) in E.
    apply bind_ok in E as (ds & E1 & E).
    change (ds <- mapM (rz (S (S f))) tiles ;; np_setitems (mkND (shape (AMosaic tiles axis)) garbage) (mosaic_writes (ndim (AMosaic tiles axis)) axis (map (fun t => nth axis (shape t) 0) tiles) ds) = Ok d).
    rewrite (mapM_keep (rz (S f)) (rz (S (S f))) tiles ds); auto.
  - exact (HE _ _ E).
  - change (g <- op1_fun m o ;; x <- engine_eval O maxc garbage (rz f) m a ;; Ok (nd_map g x) = Ok d) in E.
    apply bind_ok in E as (g & E0 & E). apply bind_ok in E as (x & E1 & E).
    change (g <- op1_fun m o ;; x <- engine_eval O maxc garbage (rz (S f)) m a ;; Ok (nd_map g x) = Ok d). rewrite E0. cbn [bind]. rewrite (HE _ _ E1). auto.
  - change (g <- op2_fun m o ;; x <- engine_eval O maxc garbage (rz f) m a ;; y <- engine_eval O maxc garbage (rz f) m b ;; np_op2 g x y = Ok d) in E.
    apply bind_ok in E as (g & E0 & E). apply bind_ok in E as (x & E1 & E). apply bind_ok in E as (y & E2 & E).
    change (g <- op2_fun m o ;; x <- engine_eval O maxc garbage (rz (S f)) m a ;; y <- engine_eval O maxc garbage (rz (S f)) m b ;; np_op2 g x y = Ok d).
    rewrite E0. cbn [bind]. rewrite (HE _ _ E1). cbn [bind]. rewrite (HE _ _ E2). auto.
Qed.
Lemma realise_more k f a d : rz f a = Ok d -> rz (k + f) a = Ok d.
Proof. intros E. induction k as [|k IH]; auto. apply (realise_keep (k + f)). auto. Qed.
(** So the value is that obtained with as much fuel as the expression is deep. *)
Lemma realise_value f a d : rz f a = Ok d -> rz (depth a) a = Ok d.
Proof.
  intros E. destruct (Nat.le_ge_cases (depth a) f) as [H|H].
  - rewrite (realise_enough (f - depth a) (depth a) a) by auto. replace (f - depth a + depth a) with f by lia. auto.
  - replace (depth a) with (depth a - f + f) by lia. apply realise_more. auto.
Qed.
End Fuel.
