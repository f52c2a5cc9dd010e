(** KindClaims: how the finer model of MaskKinds.v relates to Realise.v: which
    aggregations it computes alike, and which it cannot compute. *)
From Verif Require Import Base PySlice Keys NDArray Arrays Chunks Handlers Realise Spec Supported Lib SelLemmas KeyLemmas GetBase GetSimple GetTrans GetStack ChunkLemmas AssignLemmas HandlerLemmas Realisable NumpyApply StreamLemmas RealOK ChunkClaims SaveClaims Compose BuiltClaims Fuel MaskKinds.
From Coq Require Import ZifyBool ZifyNat Permutation.

(** Nothing but the mask attribute raises AttributeError. *)
Definition NA {A} (r : res A) : Prop := r <> Err AttrErr.
Lemma NA_bind {A B} (r : res A) (f : A -> res B) : NA r -> (forall x, NA (f x)) -> NA (bind r f).
Proof. unfold NA. destruct r; cbn [bind]; auto. intros H _ E. injection E as ->. apply H; auto. Qed.
Lemma NA_mapM {A B} (f : A -> res B) l : (forall x, In x l -> NA (f x)) -> NA (mapM f l).
Proof. induction l as [|x l IH]; intros H; cbn [mapM]; [discriminate|]. apply NA_bind; [apply H; left; auto|]. intros y. apply NA_bind; [apply IH; intros; apply H; right; auto|]. discriminate. Qed.
Lemma NA_foldM {A B} (f : A -> B -> res A) l : (forall a b, NA (f a b)) -> forall a, NA (foldM f a l).
Proof. intros H. induction l as [|x l IH]; intros a; cbn [foldM]; [discriminate|]. apply NA_bind; auto. Qed.
Ltac na := repeat first [discriminate | apply NA_bind | match goal with |- forall _, NA _ => intro end | match goal with |- NA (match ?x with _ => _ end) => destruct x end].
Lemma NA_slice s n : NA (slice_idx s n).
Proof. unfold slice_idx, slice_indices. na. Qed.
Lemma NA_expand ks n : NA (np_expand ks n).
Proof. unfold np_expand. na. Qed.
Lemma NA_isel k n : NA (np_isel k n).
Proof. unfold np_isel. destruct k; try (apply NA_bind; [apply NA_slice|discriminate]); na. Qed.
Lemma NA_isels ks : forall sh, NA (np_isels ks sh).
Proof.
  induction ks as [|k ks IH]; intros sh; cbn [np_isels]; [discriminate|].
  assert (H : NA (match sh with [] => Err IndexError | n :: sh' => s <- np_isel k n ;; r <- np_isels ks sh' ;; Ok (s :: r) end)).
  { destruct sh; [discriminate|]. apply NA_bind; [apply NA_isel|]. intros. apply NA_bind; auto. discriminate. }
  destruct k; auto. apply NA_bind; auto. discriminate.
Qed.
Lemma NA_adv s : NA (adv_len s).
Proof. induction s as [|x s IH]; cbn [adv_len]; [discriminate|]. destruct x; auto. apply NA_bind; auto. na. Qed.
Lemma NA_index {W} (a : nd W) ks : NA (np_index a ks).
Proof.
  unfold np_index. apply NA_bind; [apply NA_expand|]. intros. apply NA_bind; [apply NA_isels|]. intros s. destruct (existsb _ _); [|discriminate].
  apply NA_bind; [apply NA_adv|]. discriminate.
Qed.
Lemma NA_take {W} (a : nd W) l ax : NA (np_take a l ax).
Proof. unfold np_take. na. Qed.
Lemma NA_assign ks : forall sh, NA (assign_sels ks sh).
Proof.
  induction ks as [|k ks IH]; intros sh; cbn [assign_sels]; [discriminate|]. destruct k, sh; try discriminate.
  - destruct (norm_int _ _); [|discriminate]. apply NA_bind; auto. discriminate.
  - apply NA_bind; [apply NA_slice|]. intros. apply NA_bind; auto. discriminate.
Qed.
Lemma NA_setitems {W} ws : forall a : nd W, NA (np_setitems a ws).
Proof. unfold np_setitems. apply NA_foldM. intros a b. unfold np_setitem. apply NA_bind; [apply NA_assign|]. intros. unfold nd_assign. na. Qed.
Lemma NA_dsel k n : NA (key_dsel k n).
Proof. unfold key_dsel. destruct k; try (apply NA_bind; [apply NA_slice|discriminate]); na. Qed.
Lemma NA_dsels ks : forall sh, NA (keys_dsel ks sh).
Proof. induction ks as [|k ks IH]; intros [|n sh]; cbn [keys_dsel]; try discriminate. apply NA_bind; [apply NA_dsel|]. intros. apply NA_bind; auto. discriminate. Qed.
Lemma NA_adapter {V} (O : numops V) m o c ks : NA (realise_adapter O m o c ks).
Proof.
  unfold realise_adapter. apply NA_bind; [|discriminate]. destruct o.
  - unfold apply_ortho. apply NA_bind; [apply NA_dsels|discriminate].
  - unfold apply_numpy. destruct (_ <? _); [|apply NA_index]. apply NA_bind; [destruct (_ =? _); apply NA_index|]. intros. apply NA_foldM. intros. apply NA_take.
Qed.
Lemma NA_dict sh dict : NA (shape_from_dict sh dict).
Proof. unfold shape_from_dict. apply NA_foldM. intros s [ax n]. na. Qed.
Lemma NA_bcast {V} (a : nd (option V)) dict lead : NA (bcast_numpy a dict lead).
Proof. unfold bcast_numpy. apply NA_bind; [apply NA_dict|discriminate]. Qed.

Section Kinds.
Context {V : Type} (O : numops V).
Notation cell := (option V).
Notation barr := (@barr V).
Variable maxc : nat.
Variable garbage : list nat -> cell.
Variable T : @traits V.
Notation rz := (realise O maxc garbage).
Notation krz := (krealise O maxc garbage T).

(** ** Arrays without computation *)
Lemma mapM_kinds {A B} (f : A -> res B) (g : A -> res (B * mkind)) l :
  (forall x, In x l -> exists k, k <> Plain /\ g x = (d <- f x ;; Ok (d, k))) ->
  exists ks, length ks = length l /\ mapM g l = (ds <- mapM f l ;; Ok (combine ds ks)).
Proof.
  induction l as [|x l IH]; intros H; [exists []; auto|].
  destruct (H x (or_introl eq_refl)) as (k & _ & E). destruct IH as (ks & L & E'); [intros; apply H; right; auto|].
  exists (k :: ks). split; [cbn; lia|]. cbn [mapM]. rewrite E. destruct (f x) as [d|e]; cbn [bind]; auto. rewrite E'.
  destruct (mapM f l); cbn [bind]; auto.
Qed.
Lemma combine_fsts {A B} (xs : list A) (ys : list B) : length xs = length ys -> map fst (combine xs ys) = xs.
Proof. revert ys. induction xs as [|x xs IH]; intros [|y ys] H; cbn in *; try lia; auto. rewrite IH; auto. Qed.
Lemma combine_snds {A B} (xs : list A) (ys : list B) : length xs = length ys -> map snd (combine xs ys) = ys.
Proof. revert ys. induction xs as [|x xs IH]; intros [|y ys] H; cbn in *; try lia; auto. rewrite IH; auto. Qed.
Lemma mapM_len {A B} (f : A -> res B) l r : mapM f l = Ok r -> length r = length l.
Proof. intros E. apply mapM_ok in E. symmetry. clear -E. induction E; cbn; auto. Qed.
Lemma depth_items l : depths l = 1 -> forall x : barr, In x l -> depth x = 1.
Proof. intros H x Hx. destruct (proj1 (depths_le l 1) ltac:(lia)) as [_ H1]. specialize (H1 x Hx). pose proof (depth_pos garbage x). lia. Qed.

Lemma plain_kind f m a : depth a = 1 -> NA (rz (S f) m a) /\ exists k, k <> Plain /\ krz (S f) m a = (d <- rz (S f) m a ;; Ok (d, k)).
Proof.
  induction a as [sh v d|o c ks|a na IH|a dict lead IH|a d IH|a v IH|a axes IH|ssh items IH|tiles axis IH|g a axis d IH|o a d IH|o a b d IH1 IH2]
    using barr_ind2; intros Hd; cbn [depth] in Hd.
  - split; [discriminate|]. exists Bare. split; [discriminate|]. reflexivity.
  - change (rz (S f) m (AAdapt o c ks)) with (realise_adapter O m o c ks). split; [apply NA_adapter|].
    change (krz (S f) m (AAdapt o c ks)) with (d <- realise_adapter O m o c ks ;; Ok (d, adapt_kind T c d)).
    destruct (realise_adapter O m o c ks) as [d|e]; [exists (adapt_kind T c d)|exists Bare]; split; auto; try discriminate.
    unfold adapt_kind. destruct (t_bare T c), (zero_d d), (seen (nget d [])); discriminate.
  - destruct (IH Hd) as (N & k & Hk & E).
    change (rz (S f) m (ANewAx a na)) with (d <- rz (S f) m a ;; np_index d (newax_layout KNew (repeat KFull (ndim a)) na)).
    change (krz (S f) m (ANewAx a na)) with
      (dk <- match krz (S f) m a with Err AttrErr => if m then (r <- krz (S f) false a ;; Ok (fst r, Bare)) else Err AttrErr | r => r end ;;
       d <- np_index (fst dk) (newax_layout KNew (repeat KFull (ndim a)) na) ;; Ok (d, snd dk)).
    split; [apply NA_bind; auto; intros; apply NA_index|]. exists k. split; auto. rewrite E. destruct (rz (S f) m a) as [d|e]; cbn [bind]; auto.
    destruct e; auto. destruct (N eq_refl).
  - destruct (IH Hd) as (N & k & Hk & E).
    change (rz (S f) m (ABcast a dict lead)) with (d <- rz (S f) m a ;; bcast_numpy d dict lead).
    change (krz (S f) m (ABcast a dict lead)) with
      (dk <- match krz (S f) m a with Err AttrErr => if m then (r <- krz (S f) false a ;; Ok (fst r, Bare)) else Err AttrErr | r => r end ;;
       match m, snd dk with true, Plain => Err AttrErr | _, k => d <- bcast_numpy (fst dk) dict lead ;; Ok (d, k) end).
    split; [apply NA_bind; auto; intros; apply NA_bcast|]. exists k. split; auto. rewrite E. destruct (rz (S f) m a) as [d|e]; cbn [bind fst snd].
    + destruct m, k; auto. destruct Hk; auto.
    + destruct e; auto. destruct (N eq_refl).
  - destruct (IH Hd) as (N & k & Hk & E).
    change (rz (S f) m (AAsTy a d)) with (x <- rz (S f) m a ;; Ok (nd_map (lift1 (vcast O d)) x)).
    change (krz (S f) m (AAsTy a d)) with
      (dk <- match krz (S f) m a with Err AttrErr => if m then (r <- krz (S f) false a ;; Ok (fst r, Bare)) else Err AttrErr | r => r end ;;
       Ok (nd_map (lift1 (vcast O d)) (fst dk), snd dk)).
    split; [apply NA_bind; auto; discriminate|]. exists k. split; auto. rewrite E. destruct (rz (S f) m a) as [x|e]; cbn [bind]; auto.
    destruct e; auto. destruct (N eq_refl).
  - destruct (IH Hd) as (N & k & Hk & E).
    change (rz (S f) m (AMaskV a v)) with (x <- rz (S f) m a ;; Ok (nd_map (mask_equal O m v) x)).
    change (krz (S f) m (AMaskV a v)) with
      (dk <- match krz (S f) m a with Err AttrErr => if m then (r <- krz (S f) false a ;; Ok (fst r, Bare)) else Err AttrErr | r => r end ;;
       let d := nd_map (mask_equal O m v) (fst dk) in Ok (d, maskv_kind m (snd dk) d)).
    split; [apply NA_bind; auto; discriminate|]. rewrite E. destruct (rz (S f) m a) as [x|e]; cbn [bind fst snd].
    + eexists. split; [|reflexivity]. unfold maskv_kind. destruct (is_full k); [discriminate|]. match goal with |- (if ?x then _ else _) <> _ => destruct x; discriminate end.
    + exists Bare. split; [discriminate|]. destruct e; auto. destruct (N eq_refl).
  - destruct (IH Hd) as (N & k & Hk & E).
    change (rz (S f) m (ATrans a axes)) with (x <- rz (S f) m a ;; Ok (np_transpose x axes)).
    change (krz (S f) m (ATrans a axes)) with
      (dk <- match krz (S f) m a with Err AttrErr => if m then (r <- krz (S f) false a ;; Ok (fst r, Bare)) else Err AttrErr | r => r end ;;
       Ok (np_transpose (fst dk) axes, snd dk)).
    split; [apply NA_bind; auto; discriminate|]. exists k. split; auto. rewrite E. destruct (rz (S f) m a) as [x|e]; cbn [bind]; auto.
    destruct e; auto. destruct (N eq_refl).
  - change (depths items = 1) in Hd. pose proof (depth_items items Hd) as HI. rewrite Forall_forall in IH.
    change (rz (S f) m (AStack ssh items)) with (ds <- mapM (rz (S f) m) items ;; np_setitems (mkND (shape (AStack ssh items)) garbage) (combine (map (map (fun i => KInt (Z.of_nat i))) (ndindex ssh)) ds)).
    change (krz (S f) m (AStack ssh items)) with (ds <- mapM (krz (S f) m) items ;; d <- np_setitems (mkND (shape (AStack ssh items)) garbage) (combine (map (map (fun i => KInt (Z.of_nat i))) (ndindex ssh)) (map fst ds)) ;; Ok (d, store_kind (map snd ds))).
    split. { apply NA_bind; [apply NA_mapM; intros x Hx; apply (IH x Hx (HI x Hx))|]. intros. apply NA_setitems. }
    destruct (mapM_kinds (rz (S f) m) (krz (S f) m) items) as (ks & Lk & E); [intros x Hx; apply (IH x Hx (HI x Hx))|].
    exists (store_kind ks). split; [unfold store_kind; destruct (existsb _ _); discriminate|]. rewrite E.
    destruct (mapM (rz (S f) m) items) as [ds|e] eqn:Em; cbn [bind]; auto. apply mapM_len in Em.
    rewrite combine_fsts, combine_snds by lia. reflexivity.
  - change (depths tiles = 1) in Hd. pose proof (depth_items tiles Hd) as HI. rewrite Forall_forall in IH.
    change (rz (S f) m (AMosaic tiles axis)) with (ds <- mapM (rz (S f) m) tiles ;; np_setitems (mkND (shape (AMosaic tiles axis)) garbage) (mosaic_writes (ndim (AMosaic tiles axis)) axis (map (fun t => nth axis (shape t) 0) tiles) ds)).
    change (krz (S f) m (AMosaic tiles axis)) with (ds <- mapM (krz (S f) m) tiles ;; d <- np_setitems (mkND (shape (AMosaic tiles axis)) garbage) (mosaic_writes (ndim (AMosaic tiles axis)) axis (map (fun t => nth axis (shape t) 0) tiles) (map fst ds)) ;; Ok (d, store_kind (map snd ds))).
    split. { apply NA_bind; [apply NA_mapM; intros x Hx; apply (IH x Hx (HI x Hx))|]. intros. apply NA_setitems. }
    destruct (mapM_kinds (rz (S f) m) (krz (S f) m) tiles) as (ks & Lk & E); [intros x Hx; apply (IH x Hx (HI x Hx))|].
    exists (store_kind ks). split; [unfold store_kind; destruct (existsb _ _); discriminate|]. rewrite E.
    destruct (mapM (rz (S f) m) tiles) as [ds|e] eqn:Em; cbn [bind]; auto. apply mapM_len in Em.
    rewrite combine_fsts, combine_snds by lia. reflexivity.
  - pose proof (depth_pos garbage a). lia.
  - pose proof (depth_pos garbage a). lia.
  - pose proof (depth_pos garbage a). pose proof (depth_pos garbage b). lia.
Qed.

(** ** Expressions whose sources are without computation *)
Fixpoint shallow (a : barr) : bool :=
  match a with
  | AAgg _ c _ _ | AEl1 _ c _ => shallow c
  | AEl2 _ c1 c2 _ => shallow c1 && shallow c2
  | _ => depth a =? 1
  end.

Lemma last_kinds_len {h : handler V} axis n cs : forall (cur : option (list key * nd (hst h))) ck out,
  match cur, ck with Some (k, _), Some (k', _) => k = k' | None, None => True | _, _ => False end ->
  agg_loop h axis n cur (map fst cs) = Ok out -> length (last_kinds axis ck cs) = length out.
Proof.
  induction cs as [|[[key d] k] cs IH]; intros cur ck out Hc E; cbn [map fst agg_loop last_kinds] in *.
  - destruct cur as [[k0 st]|], ck as [[k1 kk]|]; try contradiction; try discriminate. injection E as <-. auto.
  - apply bind_ok in E as (st1 & E1 & E). apply bind_ok in E as (r & E2 & E). injection E as <-.
    pose proof (IH (Some (remove_at axis key, st1)) (Some (remove_at axis key, k)) r eq_refl E2) as H.
    destruct cur as [[k0 st]|], ck as [[k1 kk]|]; try contradiction; auto. subst k1.
    destruct (keys_eqb _ _); cbn [length]; lia.
Qed.
Lemma last_kinds_in axis cs : forall ck x, In x (last_kinds axis ck cs) ->
  (exists k0, ck = Some (k0, x)) \/ In x (map (@snd (@chunk V) mkind) cs).
Proof.
  induction cs as [|[[key d] k] cs IH]; intros ck x H; cbn [last_kinds map] in *.
  - destruct ck as [[k0 kk]|]; [|destruct H]. destruct H as [<-|[]]. left. eauto.
  - destruct ck as [[k0 kk]|].
    + assert (H' : In x (last_kinds axis (Some (remove_at axis key, k)) cs) \/ kk = x) by (destruct (keys_eqb _ _); [auto|destruct H; auto]).
      destruct H' as [H'|<-]; [|left; eauto]. apply IH in H' as [(k1 & E)|H']; [injection E as _ <-; right; left; auto|right; right; auto].
    + apply IH in H as [(k1 & E)|H]; [injection E as _ <-; right; left; auto|right; right; auto].
Qed.

Lemma map_fst_pairs {A B C} (f : A * B -> C) (r : list A) (ks : list B) : length r = length ks ->
  map fst (map (fun p => (fst p, f p)) (combine r ks)) = r.
Proof. intros L. rewrite map_map. cbn [fst]. apply combine_fsts; auto. Qed.
Lemma mapM_fst {A B} (f : A -> res B) (g : A -> res (B * mkind)) l :
  (forall x y, g x = Ok y -> f x = Ok (fst y)) -> forall r, mapM g l = Ok r -> mapM f l = Ok (map fst r).
Proof.
  intros H. induction l as [|x l IH]; intros r E; cbn [mapM] in *; [injection E as <-; auto|].
  apply bind_ok in E as (y & E1 & E). apply bind_ok in E as (ys & E2 & E). injection E as <-. rewrite (H _ _ E1). cbn [bind]. rewrite (IH _ E2). auto.
Qed.

Lemma zip_len f xs : forall ys (r : list (@chunk V)), zip_stream f xs ys = Ok r -> length r = Nat.min (length xs) (length ys).
Proof.
  induction xs as [|[k x] xs IH]; intros [|[k' y] ys] r E; cbn [zip_stream length Nat.min] in *; try (injection E as <-; auto).
  apply bind_ok in E as (d & _ & E). apply bind_ok in E as (q & E1 & E). injection E as <-. cbn [length]. rewrite (IH _ _ E1). auto.
Qed.

(** What the finer model computes, the other computes too. *)
Lemma kstream_same f m a : shallow a = true -> forall order cs,
  kstream O maxc T (krz (S f) m) m a order = Ok cs -> stream O maxc (rz (S f) m) m a order = Ok (map fst cs).
Proof.
  assert (HP : forall a order cs, depth a = 1 -> kproducer maxc (krz (S f) m) a order = Ok cs -> producer maxc (rz (S f) m) a order = Ok (map fst cs)).
  { clear a. intros a order cs Hd. unfold kproducer, producer. apply mapM_fst. intros k y E. apply bind_ok in E as (b & E1 & E). rewrite E1. cbn [bind].
    apply depth_getitem in E1. destruct (plain_kind f m b) as (_ & kk & _ & E2). { pose proof (depth_pos garbage b). lia. }
    rewrite E2 in E. destruct (rz (S f) m b) as [d|e]; cbn [bind fst snd] in *; [injection E as <-; auto|discriminate]. }
  induction a as [sh v d|o c ks|a na IH|a dict lead IH|a d IH|a v IH|a axes IH|ssh items IH|tiles axis IH|g a axis d IH|o a d IH|o a b d IH1 IH2]
    using barr_ind2; intros Hf order cs E; try (apply HP; [apply Nat.eqb_eq; exact Hf|exact E]).
  - cbn [shallow] in Hf. cbn [kstream stream] in *. apply bind_ok in E as (xs & E1 & E). apply bind_ok in E as (u & E2 & E). apply bind_ok in E as (r & E3 & E).
    rewrite (IH Hf _ _ E1). cbn [bind]. rewrite E3. injection E as <-. rewrite map_fst_pairs; auto. symmetry. eapply last_kinds_len; [|exact E3]. exact I.
  - cbn [shallow] in Hf. cbn [kstream stream] in *. apply bind_ok in E as (g & E0 & E). apply bind_ok in E as (xs & E1 & E). injection E as <-. rewrite E0. cbn [bind].
    rewrite (IH Hf _ _ E1). cbn [bind]. rewrite !map_map. reflexivity.
  - cbn [shallow] in Hf. apply andb_true_iff in Hf as [H1 H2]. cbn [kstream stream] in *.
    apply bind_ok in E as (g & E0 & E). apply bind_ok in E as (xs & E1 & E). apply bind_ok in E as (ys & E2 & E). apply bind_ok in E as (r & E3 & E).
    injection E as <-. rewrite E0. cbn [bind]. rewrite (IH1 H1 _ _ E1), (IH2 H2 _ _ E2). cbn [bind]. rewrite E3. rewrite map_fst_pairs; auto.
    apply zip_len in E3. rewrite !map_length in E3. rewrite combine_length, !map_length. auto.
Qed.
Lemma kengine_same f m a d k : shallow a = true ->
  kengine O maxc garbage T (krz (S f) m) m a = Ok (d, k) -> engine_eval O maxc garbage (rz (S f) m) m a = Ok d.
Proof.
  intros Hf. unfold kengine, engine_eval. intros E. destruct (bind (kstream _ _ _ _ _ _ _) _) as [r|] eqn:Eb; [|discriminate]. injection E as ->.
  apply bind_ok in Eb as (cs & E1 & E). apply bind_ok in E as (x & E2 & E). injection E as <- <-. rewrite (kstream_same f m a Hf _ _ E1). auto.
Qed.
Lemma krealise_same f m a d k : shallow a = true -> krz (S (S f)) m a = Ok (d, k) -> rz (S (S f)) m a = Ok d.
Proof.
  intros Hf E. destruct (streamed a) eqn:Hs.
  - destruct a; try discriminate; cbn [shallow] in Hf.
    + eapply kengine_same; [|exact E]. auto.
    + change ((g <- op1_fun m o ;; dk <- kengine O maxc garbage T (krz (S f) m) m a ;; let d := nd_map g (fst dk) in Ok (d, el_kind (t_dom1 T o) [snd dk] d)) = Ok (d, k)) in E.
      apply bind_ok in E as (g & E0 & E). apply bind_ok in E as ([x kx] & E1 & E). injection E as <- _. apply kengine_same in E1; auto.
      change (g <- op1_fun m o ;; x <- engine_eval O maxc garbage (rz (S f) m) m a ;; Ok (nd_map g x) = Ok (nd_map g x)). rewrite E0. cbn [bind]. rewrite E1. auto.
    + apply andb_true_iff in Hf as [H1 H2].
      change (g <- op2_fun m o ;; x <- kengine O maxc garbage T (krz (S f) m) m a1 ;; y <- kengine O maxc garbage T (krz (S f) m) m a2 ;;
              d <- np_op2 g (fst x) (fst y) ;; Ok (d, el_kind (t_dom2 T o) [snd x; snd y] d) = Ok (d, k)) in E.
      apply bind_ok in E as (g & E0 & E). apply bind_ok in E as ([x kx] & E1 & E). apply bind_ok in E as ([y ky] & E2 & E). apply bind_ok in E as (z & E3 & E).
      injection E as <- _. apply kengine_same in E1; auto. apply kengine_same in E2; auto.
      change (g <- op2_fun m o ;; x <- engine_eval O maxc garbage (rz (S f) m) m a1 ;; y <- engine_eval O maxc garbage (rz (S f) m) m a2 ;; np_op2 g x y = Ok z).
      rewrite E0. cbn [bind]. rewrite E1. cbn [bind]. rewrite E2. auto.
  - assert (Hd : depth a = 1) by (apply Nat.eqb_eq; destruct a; try discriminate; exact Hf).
    destruct (plain_kind (S f) m a Hd) as (_ & k' & _ & E'). rewrite E' in E. destruct (rz (S (S f)) m a) as [x|]; [|discriminate]. injection E as <- _. auto.
Qed.

(** ** Sources and streams with a guaranteed kind *)
Definition atleast (q k : mkind) : bool :=
  match q, k with Plain, _ => true | Bare, Plain => false | Bare, _ => true | Full, Full => true | Full, _ => false end.
Definition out_atleast (g : @agg V) (n : nat) (q : mkind) : mkind :=
  match g with GCount => Plain | GMin | GMax => if n =? 0 then Bare else q | _ => Full end.
Definition el_atleast (dom : bool) (n : nat) (qs : list mkind) : mkind :=
  if n =? 0 then Plain else if dom || existsb is_full qs then Full else Bare.

Section Streams.
Variable f : nat.
Variable m : bool.
(** Every block of [a] reads as that block of [D], with a result of kind [q] or
    better. *)
Definition kblocks (a : barr) (D : nd cell) (q : mkind) : Prop :=
  nshape D = shape a
  /\ forall ks, block ks (shape a) -> exists b d k, getitem a ks = Ok b /\ krz f m b = Ok (d, k) /\ nd_eq d (oindex D ks) /\ atleast q k = true.

Inductive kstreams : barr -> nd cell -> mkind -> Prop :=
| kstreams_source a D q : streamed a = false -> kblocks a D q -> kstreams a D q
| kstreams_agg g c axis d D q : kstreams c D q -> axis < ndim c ->
    (forall l b, In l (axis_pieces maxc c axis) -> hbad (handler_of O m g) l b = false) ->
    process_check T m g axis (dtype c) q = Ok tt ->
    kstreams (AAgg g c axis d)
            (mkND (remove_at axis (shape c))
                  (fun o => run_handler (handler_of O m g) (nth axis (shape c) 0) (cut_column D axis (nth axis (cuts maxc c) []) o)))
            (out_atleast g (pred (ndim c)) q)
| kstreams_el1 o c d D q : has_op1 m o -> kstreams c D q -> kstreams (AEl1 o c d) (nd_map (op1_sem m o) D) (el_atleast (t_dom1 T o) (ndim c) [q])
| kstreams_el2 o a b d D1 D2 q1 q2 : has_op2 m o -> kstreams a D1 q1 -> kstreams b D2 q2 -> shape a = shape b -> alike (shape a) (cuts maxc a) (cuts maxc b) ->
    kstreams (AEl2 o a b d) (mkND (nshape D1) (fun i => op2_sem m o (nget D1 i) (nget D2 i))) (el_atleast (t_dom2 T o) (ndim a) [q1; q2])
| kstreams_eq a D D' q : kstreams a D q -> nd_eq D D' -> kstreams a D' q.

Lemma kstreams_shape a D q : kstreams a D q -> nshape D = shape a.
Proof.
  induction 1 as [a D q H [H1 _]|g c axis d D q H IH Hax Hb Hq|o c d D q Ho H IH|o a b d D1 D2 q1 q2 Ho H1 IH1 H2 IH2 Hs Hc|a D D' q H IH [E _]]; simpl; auto.
  congruence.
Qed.
Lemma kstreams_cuts a D q : kstreams a D q -> good_cuts (cuts maxc a) (shape a).
Proof.
  induction 1 as [a D q H [H1 _]|g c axis d D q H IH Hax Hb Hq|o c d D q Ho H IH|o a b d D1 D2 q1 q2 Ho H1 IH1 H2 IH2 Hs Hc|a D D' q H IH [E _]]; auto.
  - destruct a; try discriminate; apply all_slices_good.
  - simpl. apply Forall2_remove; auto.
Qed.

Lemma check_mono g axis dt q k : process_check T m g axis dt q = Ok tt -> atleast q k = true -> process_check T m g axis dt k = Ok tt.
Proof. unfold process_check. destruct g; auto; destruct m, q, k; cbn; auto; try discriminate; destruct (axis =? 0), (t_cls T dt); auto; discriminate. Qed.

Lemma sel_ndim s : Forall (fun d => d <> DNew) s -> Forall (fun d => is_pt_sel d = false) s -> length (sel_shape s) = length s.
Proof.
  intros H1 H2. induction s as [|d s IH]; auto. apply Forall_cons_iff in H1 as [A1 A2]. apply Forall_cons_iff in H2 as [B1 B2].
  destruct d; cbn in *; try discriminate; try congruence; f_equal; auto.
Qed.
Lemma chunk_ndim cs sh order D (ch : @chunk V) : good_cuts cs sh -> perm order (length sh) -> nshape D = sh ->
  In (fst ch) (gen_keys cs order) -> chunk_of D ch -> length (nshape (snd ch)) = length sh.
Proof.
  intros HC HP Hsh Hk (s & Es & Hd). destruct (gen_keys_drawn maxc garbage _ _ _ HC HP _ Hk) as (H1 & H2 & _).
  destruct (drawn_lists _ _ _ HC H1 H2) as (_ & _ & s' & S1 & _ & S3 & S4 & S5 & _). rewrite Hsh, S1 in Es. injection Es as <-.
  rewrite (proj1 Hd). cbn [nd_sel nshape]. rewrite sel_ndim; auto.
Qed.
Lemma zero_d_ndim {W} (d : nd W) n : length (nshape d) = n -> zero_d d = (n =? 0).
Proof. intros <-. unfold zero_d. destruct (nshape d); auto. Qed.
Lemma out_atleast_ok g n q (d : nd cell) k : atleast q k = true -> length (nshape d) = n -> atleast (out_atleast g n q) (out_kind g d k) = true.
Proof.
  intros Hq Hn. apply zero_d_ndim in Hn. unfold out_atleast, out_kind. destruct g; auto; rewrite Hn; destruct (n =? 0); auto; destruct (seen _); auto.
Qed.
Lemma existsb_mono qs : forall ks, Forall2 (fun q k => atleast q k = true) qs ks -> existsb is_full qs = true -> existsb is_full ks = true.
Proof. intros ks H. induction H as [|q k qs ks H1 H IH]; auto. cbn. rewrite !orb_true_iff. intros [E|E]; auto. left. destruct q, k; auto; discriminate. Qed.
Lemma el_atleast_ok dom n qs ks (d : nd cell) : Forall2 (fun q k => atleast q k = true) qs ks -> length (nshape d) = n ->
  atleast (el_atleast dom n qs) (el_kind dom ks d) = true.
Proof.
  intros Hq Hn. apply zero_d_ndim in Hn. unfold el_atleast, el_kind. rewrite Hn. destruct (n =? 0); auto. pose proof (existsb_mono _ _ Hq) as He.
  destruct dom; auto. cbn [orb]. destruct (existsb is_full qs); [rewrite He; auto|]. destruct (existsb _ ks); auto.
Qed.

Lemma ksource_ok (a : barr) D q order : kblocks a D q -> perm order (ndim a) ->
  exists cs, kproducer maxc (krz f m) a order = Ok cs /\ map (fun c => fst (fst c)) cs = gen_keys (all_slices maxc true (shape a)) order
    /\ Forall (fun c => chunk_of D (fst c) /\ atleast q (snd c) = true) cs.
Proof.
  intros [Hsh HB] HP. unfold kproducer, chunk_index_gen.
  set (ks := gen_keys (all_slices maxc true (shape a)) order).
  pose proof (all_slices_good maxc (shape a)) as HC.
  destruct (mapM_exists (fun k => b <- getitem a k ;; dk <- krz f m b ;; Ok ((k, fst dk), snd dk)) (fun k c => fst (fst c) = k /\ chunk_of D (fst c) /\ atleast q (snd c) = true) ks)
    as (cs & E & F).
  - intros k Hk. destruct (gen_keys_drawn maxc garbage _ _ _ HC HP k Hk) as (H1 & H2 & H3).
    destruct (drawn_lists _ _ k HC H1 H2) as (_ & _ & s & S1 & S1' & _).
    destruct (HB k (drawn_block garbage _ _ _ HC H1 H2)) as (b & d & kk & Eb & Ed & Hd & Hk').
    exists ((k, d), kk). rewrite Eb. cbn [bind]. rewrite Ed. cbn [bind]. split; auto. split; auto. split; auto. exists s. cbn [fst snd].
    rewrite Hsh. split; auto. unfold oindex in Hd. rewrite Hsh, S1' in Hd. auto.
  - exists cs. split; [exact E|]. clear -F. induction F as [|k ch ks cs [<- H] F IH]; simpl; auto.
    destruct IH as [<- IH]. auto.
Qed.

Lemma mapM_tt {A} (g : A -> res unit) l : Forall (fun x => g x = Ok tt) l -> exists r, mapM g l = Ok r.
Proof. induction 1 as [|x l H1 H (r & E)]; cbn [mapM]; eauto. rewrite H1. cbn [bind]. rewrite E. cbn [bind]. eauto. Qed.
Lemma Forall_combine {A B} (P : A -> Prop) (Q : B -> Prop) xs : forall ys, Forall P xs -> Forall Q ys -> Forall (fun p => P (fst p) /\ Q (snd p)) (combine xs ys).
Proof. induction xs as [|x xs IH]; intros [|y ys] H1 H2; cbn; auto. inversion H1; subst. inversion H2; subst. constructor; auto. Qed.

Lemma kstreams_ok a D q : kstreams a D q -> forall order, perm order (ndim a) ->
  exists cs, kstream O maxc T (krz f m) m a order = Ok cs /\ map (fun c => fst (fst c)) cs = gen_keys (cuts maxc a) order
    /\ Forall (fun c => chunk_of D (fst c) /\ atleast q (snd c) = true) cs.
Proof.
  induction 1 as [a D q H HB|g c axis d D q H IH Hax Hb Hq|o c d D q Ho H IH|o a b d D1 D2 q1 q2 Ho H1 IH1 H2 IH2 Hs Hc|a D D' q H IH HE]; intros order HP.
  - destruct (ksource_ok a D q order HB HP) as (cs & E1 & E2 & E3). exists cs. destruct a; try discriminate; auto.
  - pose proof (kstreams_shape _ _ _ H) as Hsh. pose proof (kstreams_cuts _ _ _ H) as HC.
    assert (Hnd : ndim (AAgg g c axis d) = pred (length (shape c))) by (unfold ndim; simpl; apply remove_at_length; auto).
    rewrite Hnd in HP.
    destruct (IH (input_order axis order)) as (cs & E1 & E2 & E3).
    { unfold ndim in *. replace (length (shape c)) with (S (pred (length (shape c)))) by lia. apply input_order_perm; auto. lia. }
    cbn [kstream]. rewrite E1. cbn [bind].
    destruct (mapM_tt (fun ch => process_check T m g axis (dtype c) (snd ch)) cs) as (u & Eu).
    { eapply Forall_impl; [|exact E3]. intros ch [_ Hk]. eapply check_mono; eauto. }
    rewrite Eu. cbn [bind].
    destruct (agg_stream_gen (handler_of O m g) D (cuts maxc c) axis order (map fst cs)) as (out & O1 & O2 & O3); rewrite ?Hsh; auto.
    { rewrite map_map. auto. } { apply Forall_map. eapply Forall_impl; [|exact E3]. intros ch []; auto. }
    rewrite Hsh in O1, O3. rewrite O1. cbn [bind]. pose proof (last_kinds_len axis _ cs None None out I O1) as HL.
    eexists. split; [reflexivity|]. split.
    + rewrite map_map. cbn [fst]. rewrite <- (map_map fst fst), combine_fsts; auto.
    + apply Forall_map. cbn [fst snd].
      assert (HK : Forall (fun k => atleast q k = true) (last_kinds axis None cs)).
      { apply Forall_forall. intros x Hx. apply last_kinds_in in Hx as [(k0 & E)|Hx]; [discriminate|]. apply in_map_iff in Hx as (ch & <- & Hch).
        rewrite Forall_forall in E3. apply (E3 ch Hch). }
      assert (HO : Forall (fun ch : @chunk V => chunk_of (mkND (remove_at axis (shape c)) (fun o => run_handler (handler_of O m g) (nth axis (shape c) 0) (cut_column D axis (nth axis (cuts maxc c) []) o))) ch
                                  /\ length (nshape (snd ch)) = pred (ndim c)) out).
      { apply Forall_forall. intros ch Hch. rewrite Forall_forall in O3. split; [apply (O3 ch Hch)|].
        unfold ndim. rewrite <- (remove_at_length axis (shape c)) by auto.
        eapply (chunk_ndim (remove_at axis (cuts maxc c)) _ order); [apply Forall2_remove; eauto| | |rewrite <- O2; apply in_map; auto|apply (O3 ch Hch)].
        - rewrite remove_at_length by auto. auto.
        - reflexivity. }
      eapply Forall_impl; [|exact (Forall_combine _ _ _ _ HO HK)]. intros [ch k] ((G1 & G2) & G3). cbn [fst snd] in *. split; auto.
      apply out_atleast_ok; auto.
  - destruct (IH order HP) as (cs & E1 & E2 & E3).
    cbn [kstream]. rewrite (op1_ok m o Ho). cbn [bind]. rewrite E1. cbn [bind].
    destruct (map_stream_ok (op1_sem m o) D (map fst cs)) as [F1 F2]. { apply Forall_map. eapply Forall_impl; [|exact E3]. intros ch []; auto. }
    eexists; split; [reflexivity|]. split; [rewrite map_map; cbn [fst]; exact E2|].
    rewrite Forall_map in F2. rewrite Forall_map in F2. apply Forall_map. cbn [fst snd]. apply Forall_forall. intros ch Hch. rewrite Forall_forall in E3, F2. split; [apply (F2 ch Hch)|].
    apply el_atleast_ok; [constructor; auto; apply (E3 ch Hch)|]. cbn [nd_map nshape].
    eapply (chunk_ndim (cuts maxc c) (shape c) order); [eapply kstreams_cuts; eauto|exact HP|eapply kstreams_shape; eauto| |apply (E3 ch Hch)].
    change (cuts maxc (AEl1 o c d)) with (cuts maxc c) in E2. rewrite <- E2. apply (in_map (fun c => fst (fst c))). auto.
  - destruct (IH1 order HP) as (xs & E1 & E2 & E3).
    destruct (IH2 order) as (ys & F1 & F2 & F3). { unfold ndim in *. rewrite <- Hs. auto. }
    change (cuts maxc (AEl2 o a b d)) with (cuts maxc a) in *.
    cbn [kstream]. rewrite (op2_ok m o Ho). cbn [bind]. rewrite E1. cbn [bind]. rewrite F1. cbn [bind].
    assert (HKs : Forall2 (fun k k' => sel_keys k (shape a) = sel_keys k' (shape a)) (map (fun c => fst (fst c)) xs) (map (fun c => fst (fst c)) ys)).
    { eapply eq_rect with (P := fun l => Forall2 _ l _); [|symmetry; exact E2]. eapply eq_rect with (P := fun l => Forall2 _ _ l); [|symmetry; exact F2].
      apply (alike_keys maxc garbage); auto; [eapply kstreams_cuts; eauto|rewrite Hs; eapply kstreams_cuts; eauto]. }
    destruct (zip_alike (op2_sem m o) D1 D2) with (cs1 := map fst xs) (cs2 := map fst ys) as (cs & G1 & G2 & G3); auto.
    { rewrite (kstreams_shape _ _ _ H1), (kstreams_shape _ _ _ H2). auto. } { rewrite !map_map, (kstreams_shape _ _ _ H1). exact HKs. }
    { apply Forall_map. eapply Forall_impl; [|exact E3]. intros ch []; auto. } { apply Forall_map. eapply Forall_impl; [|exact F3]. intros ch []; auto. }
    rewrite G1. cbn [bind]. rewrite map_map in G2.
    assert (Lxy : length xs = length ys) by (apply Forall2_length in HKs; rewrite !map_length in HKs; exact HKs).
    assert (Lc : length cs = length xs) by (pose proof (f_equal (@length _) G2) as L1; rewrite !map_length in L1; exact L1).
    eexists. split; [reflexivity|]. split.
    + rewrite map_map. cbn [fst]. rewrite <- (map_map fst fst), combine_fsts by (rewrite combine_length, !map_length; etransitivity; [exact Lc|]; symmetry; apply Nat.min_l; apply Nat.eq_le_incl; exact Lxy). etransitivity; [exact G2|exact E2].
    + apply Forall_map. cbn [fst snd].
      assert (HO : Forall (fun ch : @chunk V => chunk_of (mkND (nshape D1) (fun i => op2_sem m o (nget D1 i) (nget D2 i))) ch /\ length (nshape (snd ch)) = ndim a) cs).
      { apply Forall_forall. intros ch Hch. rewrite Forall_forall in G3. split; [apply (G3 ch Hch)|].
        eapply (chunk_ndim (cuts maxc a) (shape a) order); [eapply kstreams_cuts; eauto|exact HP| | |apply (G3 ch Hch)].
        - exact (kstreams_shape _ _ _ H1).
        - rewrite <- (eq_trans G2 E2). apply in_map. auto. }
      assert (HK : Forall (fun p => atleast q1 (fst p) = true /\ atleast q2 (snd p) = true) (combine (map snd xs) (map snd ys))).
      { apply (Forall_combine (fun k => atleast q1 k = true) (fun k => atleast q2 k = true)); apply Forall_map; [eapply Forall_impl; [|exact E3]|eapply Forall_impl; [|exact F3]]; intros ch []; auto. }
      eapply Forall_impl; [|exact (Forall_combine _ _ _ _ HO HK)]. intros [ch [k1 k2]] ((A1 & A2) & A3 & A4). cbn [fst snd] in *. split; auto.
      apply el_atleast_ok; auto.
  - destruct (IH order HP) as (cs & E1 & E2 & E3). exists cs. split; auto. split; auto.
    eapply Forall_impl; [|exact E3]. intros ch [G1 G2]. split; auto. eapply chunk_of_eq; eauto.
Qed.

Lemma kstreams_engine a D q : kstreams a D q -> exists d k, kengine O maxc garbage T (krz f m) m a = Ok (d, k) /\ nd_eq d D.
Proof.
  intros HS. destruct (kstreams_ok a D q HS (seq 0 (ndim a)) (perm_seq _)) as (cs & E1 & E2 & E3).
  unfold kengine. rewrite E1. cbn [bind]. pose proof (kstreams_cuts a D q HS) as HC. pose proof (kstreams_shape a D q HS) as Hsh.
  assert (E2' : map fst (map fst cs) = gen_keys (cuts maxc a) (seq 0 (ndim a))) by (rewrite map_map; exact E2).
  assert (E3' : Forall (chunk_of D) (map fst cs)) by (apply Forall_map; eapply Forall_impl; [|exact E3]; intros ch []; auto).
  enough (H : exists d, np_setitems (mkND (shape a) garbage) (map fst cs) = Ok d /\ nd_eq d D).
  { destruct H as (d & E & Hd). exists d, (store_kind (map snd cs)). rewrite E. auto. }
  clear E1 E2 E3. revert E2' E3'. generalize (map fst cs). clear cs. intros cs E2 E3.
  apply setitems_cover; auto.
  - apply Forall_forall. intros ch Hch. rewrite Forall_forall in E3. destruct (E3 ch Hch) as (s & Es & Hd).
    rewrite Hsh in Es. exists s. split; auto. apply assign_sels_ok; auto.
    assert (Hk : In (fst ch) (gen_keys (cuts maxc a) (seq 0 (ndim a)))) by (rewrite <- E2; apply in_map; auto).
    destruct (gen_keys_drawn maxc garbage _ _ _ HC (perm_seq _) _ Hk) as (H1 & H2 & _).
    destruct (drawn_lists _ _ _ HC H1 H2) as (_ & Hp & _). auto.
  - intros idx Hidx. pose proof (gen_keys_cover _ _ (seq 0 (ndim a)) idx (good_cuts_ok _ _ HC) (perm_seq _) Hidx) as Hc.
    destruct (existsb (covers (shape a) idx) (gen_keys (cuts maxc a) (seq 0 (ndim a)))) eqn:Ex.
    2:{ apply count_if_0 in Ex. lia. }
    apply existsb_exists in Ex as (k & Hk & Hcov). pose proof Hk as Hk'. rewrite <- E2 in Hk'. apply in_map_iff in Hk' as (ch & <- & Hch).
    destruct (gen_keys_drawn maxc garbage _ _ _ HC (perm_seq _) _ Hk) as (H1 & H2 & _).
    destruct (drawn_lists _ _ _ HC H1 H2) as (_ & Hp & s & S1 & S2 & _).
    unfold covers in Hcov. rewrite S2 in Hcov. exists ch, s. split; auto. split; auto. apply assign_sels_ok; auto.
Qed.
(** [ndarray()]/[masked_array()] of a computed expression. *)
Lemma kstreams_realise a D q : streamed a = true -> kstreams a D q -> exists d k, krz (S f) m a = Ok (d, k) /\ nd_eq d D.
Proof.
  intros Hs H. induction H as [a D q Hn HB|g c axis d D q H IH Hax Hb Hq|o c d D q Ho H IH|o a b d D1 D2 q1 q2 Ho H1 IH1 H2 IH2 Hsh Hc|a D D' q H IH HE].
  - congruence.
  - exact (kstreams_engine _ _ _ (kstreams_agg g c axis d D q H Hax Hb Hq)).
  - destruct (kstreams_engine _ _ _ H) as (x & k & Ex & Dx). exists (nd_map (op1_sem m o) x). eexists. split; [|apply nd_map_eq; eauto].
    change (krz (S f) m (AEl1 o c d)) with (g <- op1_fun m o ;; dk <- kengine O maxc garbage T (krz f m) m c ;; let d := nd_map g (fst dk) in Ok (d, el_kind (t_dom1 T o) [snd dk] d)).
    rewrite (op1_ok m o Ho). cbn [bind]. rewrite Ex. cbn [bind fst snd]. reflexivity.
  - destruct (kstreams_engine _ _ _ H1) as (x & kx & Ex & Dx), (kstreams_engine _ _ _ H2) as (y & ky & Ey & Dy).
    assert (Hxy : nshape x = nshape y) by (rewrite (proj1 Dx), (proj1 Dy), (kstreams_shape _ _ _ H1), (kstreams_shape _ _ _ H2); auto).
    destruct (np_op2_same (op2_sem m o) x y Hxy) as (r & Er & Sr & Gr). exists r. eexists. split.
    + change (krz (S f) m (AEl2 o a b d)) with (g <- op2_fun m o ;; x <- kengine O maxc garbage T (krz f m) m a ;; y <- kengine O maxc garbage T (krz f m) m b ;;
              d <- np_op2 g (fst x) (fst y) ;; Ok (d, el_kind (t_dom2 T o) [snd x; snd y] d)).
      rewrite (op2_ok m o Ho). cbn [bind]. rewrite Ex. cbn [bind]. rewrite Ey. cbn [bind fst snd]. rewrite Er. cbn [bind]. reflexivity.
    + split; [cbn [nshape]; rewrite Sr; apply Dx|]. rewrite Sr. intros i Hi. rewrite Gr by auto. cbn [nget].
      rewrite (proj2 Dx), (proj2 Dy); auto. rewrite <- Hxy; auto.
  - destruct (IH Hs) as (x & k & E & Hd). exists x, k. split; auto. eapply nd_eq_trans; eauto.
Qed.
End Streams.

(** ** Which kinds are guaranteed *)
(** A NumPy source with a mask array, possibly cast or with values masked. *)
Fixpoint masked_source (a : barr) : bool :=
  match a with AAdapt _ c _ => negb (t_bare T c) | AAsTy c _ | AMaskV c _ => masked_source c | _ => false end.
Lemma masked_depth a : masked_source a = true -> depth a = 1.
Proof. induction a; intros H; try discriminate; auto. Qed.
Lemma masked_getitem a : forall ks b, nonew ks -> masked_source a = true -> getitem a ks = Ok b -> masked_source b = true.
Proof.
  induction a as [sh v d|o c ks0|a IH na|a IH dict lead|a IH d|a IH v|a IH axes|ssh items|tiles axis|g a IH axis d|o a IH d|o a IH1 b' IH2 d]; intros ks b N H E; try discriminate; cbn [getitem] in E.
  - apply base_getitem_inv in E as [(k & F & N' & E)|((k & F & N') & _)]; [|rewrite (full_keys_new _ _ _ F) in N'; unfold nonew in N; congruence].
    apply bind_ok in E as (k' & _ & E). unfold mk_adapter in E. destruct (_ <? _); [discriminate|]. apply bind_ok in E as (_ & _ & E). injection E as <-. auto.
  - apply bind_ok in E as (c & E1 & E). injection E as <-. cbn [masked_source] in *. eauto.
  - apply bind_ok in E as (c & E1 & E). injection E as <-. cbn [masked_source] in *. eauto.
Qed.
Lemma masked_kind f m a : masked_source a = true -> forall d k, krz (S f) m a = Ok (d, k) -> zero_d d = false -> k = Full.
Proof.
  induction a as [sh v d|o c ks0|a IH na|a IH dict lead|a IH d|a IH v|a IH axes|ssh items|tiles axis|g a IH axis d|o a IH d|o a IH1 b' IH2 d]; intros H x k E Z; try discriminate; cbn [masked_source] in H.
  - change ((d <- realise_adapter O m o c ks0 ;; Ok (d, adapt_kind T c d)) = Ok (x, k)) in E. apply bind_ok in E as (d & _ & E). injection E as <- <-.
    unfold adapt_kind. rewrite Z. destruct (t_bare T c); auto. discriminate.
  - destruct (plain_kind f m a (masked_depth a H)) as (N & k' & Hk & E'). 
    change ((dk <- match krz (S f) m a with Err AttrErr => if m then (r <- krz (S f) false a ;; Ok (fst r, Bare)) else Err AttrErr | r => r end ;;
       Ok (nd_map (lift1 (vcast O d)) (fst dk), snd dk)) = Ok (x, k)) in E. rewrite E' in *.
    destruct (rz (S f) m a) as [y|e]; cbn [bind] in E. 
    + injection E as <- <-. cbn [snd]. eapply IH; [auto|reflexivity|exact Z].
    + destruct e; try discriminate E. destruct (N eq_refl).
  - destruct (plain_kind f m a (masked_depth a H)) as (N & k' & Hk & E'). 
    change ((dk <- match krz (S f) m a with Err AttrErr => if m then (r <- krz (S f) false a ;; Ok (fst r, Bare)) else Err AttrErr | r => r end ;;
       let d := nd_map (mask_equal O m v) (fst dk) in Ok (d, maskv_kind m (snd dk) d)) = Ok (x, k)) in E. rewrite E' in *.
    destruct (rz (S f) m a) as [y|e]; cbn [bind fst snd] in E. 
    + injection E as <- <-. rewrite (IH H y k' eq_refl Z). auto.
    + destruct e; try discriminate E. destruct (N eq_refl).
Qed.

Lemma block_ndim ks sh (D : nd cell) : nshape D = sh -> block ks sh -> length (nshape (oindex D ks)) = length sh /\ nonew ks.
Proof.
  intros Hsh HB. assert (HN : nonew ks).
  { unfold nonew. clear Hsh. induction HB as [|k n ks sh H HB IH]; auto. cbn. rewrite IH. destruct H as [->|(x & y & -> & _)]; auto. }
  split; auto. unfold oindex. destruct (oselect ks (nshape D)) as [s|] eqn:E; [|rewrite Hsh; auto]. cbn [nd_sel nshape]. unfold oselect in E. rewrite Hsh in E.
  assert (L : length ks = length sh) by (clear -HB; induction HB; cbn; auto).
  assert (E' : sel_keys ks sh = Some s).
  { assert (HE : existsb is_ell ks = false) by (clear -HB; induction HB as [|k n ks sh H HB IH]; auto; cbn; rewrite IH; destruct H as [->|(x & y & -> & _)]; auto).
    rewrite np_expand_id in E; auto. split; auto. rewrite nonew_nreal; auto. }
  clear -HB E'. revert s E'. induction HB as [|k n ks sh H HB IH]; intros s E; [injection E as <-; auto|].
  destruct (chunk_key_sel n k H) as (x & len & Ek & _). destruct H as [->|(x' & y & -> & _)]; cbn [sel_keys] in E; rewrite Ek in E; destruct (sel_keys ks sh) as [s'|]; try discriminate; injection E as <-; cbn; f_equal; auto.
Qed.

Definition source_kind (a : barr) : mkind := if masked_source a && (0 <? ndim a) then Full else Bare.
Lemma plain_blocks f m a D : depth a = 1 -> blocks_right O maxc garbage (S f) m a D -> kblocks (S f) m a D (source_kind a).
Proof.
  intros Hd [Hsh HB]. split; auto. intros ks Hks. destruct (HB ks Hks) as (b & d & E1 & E2 & E3).
  destruct (plain_kind f m b) as (_ & k & Hk & Ek). { pose proof (depth_getitem a ks b E1). pose proof (depth_pos garbage b). lia. }
  rewrite E2 in Ek. exists b, d, k. split; auto. split; auto. split; auto. unfold source_kind. destruct (masked_source a) eqn:Hm; [|destruct k; auto; congruence].
  destruct (Nat.ltb_spec 0 (ndim a)) as [Hn|Hn]; cbn [andb]; [|destruct k; auto; congruence].
  destruct (block_ndim ks (shape a) D Hsh Hks) as [Hl HN]. rewrite (masked_kind f m b (masked_getitem _ _ _ HN Hm E1) d k Ek); auto.
  rewrite (zero_d_ndim d (length (shape a))) by (rewrite (proj1 E3); auto). apply Nat.eqb_neq. unfold ndim in Hn. lia.
Qed.

(** The kind guaranteed for the chunks of an expression, if it can be computed. *)
Fixpoint guaranteed (m : bool) (a : barr) : option mkind :=
  match a with
  | AAgg g c axis _ =>
      match guaranteed m c with
      | Some q => match process_check T m g axis (dtype c) q with Ok _ => Some (out_atleast g (pred (ndim c)) q) | Err _ => None end
      | None => None
      end
  | AEl1 o c _ => option_map (fun q => el_atleast (t_dom1 T o) (ndim c) [q]) (guaranteed m c)
  | AEl2 o c1 c2 _ =>
      match guaranteed m c1, guaranteed m c2 with
      | Some q1, Some q2 => Some (el_atleast (t_dom2 T o) (ndim c1) [q1; q2])
      | _, _ => None
      end
  | _ => if depth a =? 1 then Some (source_kind a) else None
  end.
Lemma guaranteed_streams f m a D : streams O maxc garbage (S f) m a D -> forall q, guaranteed m a = Some q -> kstreams (S f) m a D q.
Proof.
  induction 1 as [a D H HB|g c axis d D H IH Hax Hb|o c d D Ho H IH|o a b d D1 D2 Ho H1 IH1 H2 IH2 Hs Hc|a D D' H IH HE]; intros q E.
  - apply kstreams_source; auto. assert (E' : depth a = 1 /\ q = source_kind a).
    { destruct a; try discriminate; cbn [guaranteed] in E; match type of E with (if ?x =? 1 then _ else _) = _ => destruct (Nat.eqb_spec x 1) as [Hd|]; [|discriminate] end; injection E as <-; auto. }
    destruct E' as [Hd ->]. apply plain_blocks; auto.
  - cbn [guaranteed] in E. destruct (guaranteed m c) as [q'|]; [|discriminate]. destruct (process_check _ _ _ _ _ _) as [[]|] eqn:Ep; [|discriminate]. injection E as <-.
    apply kstreams_agg; auto.
  - cbn [guaranteed] in E. destruct (guaranteed m c) as [q'|]; [|discriminate]. injection E as <-. apply kstreams_el1; auto.
  - cbn [guaranteed] in E. destruct (guaranteed m a) as [q1|]; [|discriminate]. destruct (guaranteed m b) as [q2|]; [|discriminate]. injection E as <-. apply kstreams_el2; auto.
  - eapply kstreams_eq; eauto.
Qed.

(** ** What cannot be computed *)
Lemma kengine_err rzk m a : (forall cs, kstream O maxc T rzk m a (seq 0 (ndim a)) <> Ok cs) -> kengine O maxc garbage T rzk m a = Err EvalError.
Proof. intros H. unfold kengine. destruct (kstream _ _ _ _ _ _ _) as [cs|e]; auto. destruct (H cs eq_refl). Qed.
Lemma agg_err f m g c axis d : (forall order cs, kstream O maxc T (krz f m) m c order = Ok cs -> cs <> [] -> exists ch, In ch cs /\ process_check T m g axis (dtype c) (snd ch) <> Ok tt) ->
  krz (S f) m (AAgg g c axis d) = Err EvalError.
Proof.
  intros H. change (kengine O maxc garbage T (krz f m) m (AAgg g c axis d) = Err EvalError). apply kengine_err. intros cs E. cbn [kstream] in E.
  apply bind_ok in E as (xs & E1 & E). apply bind_ok in E as (u & E2 & E). apply bind_ok in E as (r & E3 & E).
  destruct xs as [|x xs]; [discriminate E3|]. destruct (H _ _ E1 ltac:(discriminate)) as (ch & Hch & Hp). apply Hp.
  apply mapM_ok in E2. clear -E2 Hch. induction E2 as [|y [] ys us E E2 IH]; [destruct Hch|]. destruct Hch as [<-|Hch]; auto.
Qed.
Lemma bool_err f m g c axis d : match g with GSum | GMean _ => True | _ => False end -> t_cls T (dtype c) = DBool ->
  krz (S f) m (AAgg g c axis d) = Err EvalError.
Proof.
  intros Hg Hc. apply agg_err. intros order cs _ Hn. destruct cs as [|ch cs]; [congruence|]. exists ch. split; [left; auto|].
  unfold process_check. rewrite Hc. destruct g; try contradiction; destruct m; try discriminate. destruct (snd ch), (axis =? 0); discriminate.
Qed.
Lemma unsigned_err f mdtol c axis d : t_cls T (dtype c) = DUInt -> krz (S f) true (AAgg (GMean mdtol) c axis d) = Err EvalError.
Proof.
  intros Hc. apply agg_err. intros order cs _ Hn. destruct cs as [|ch cs]; [congruence|]. exists ch. split; [left; auto|]. unfold process_check. rewrite Hc. discriminate.
Qed.
Lemma count_sum_err f c axis d axis' d' : krz (S f) true (AAgg GSum (AAgg GCount c axis d) axis' d') = Err EvalError.
Proof.
  apply agg_err. intros order cs E Hn. destruct cs as [|ch cs]; [congruence|]. exists ch. split; [left; auto|].
  cbn [kstream] in E. apply bind_ok in E as (xs & _ & E). apply bind_ok in E as (u & _ & E). apply bind_ok in E as (r & _ & E).
  destruct (combine r _) as [|p ps]; [discriminate|]. injection E as <- _. cbn [snd out_kind]. discriminate.
Qed.

(** Arrays whose NumPy sources have no mask, with nothing masked by biggus. *)
Fixpoint unmasked (a : barr) : bool :=
  match a with
  | AConst _ _ _ => true
  | AAdapt _ c _ => t_bare T c
  | ANewAx c _ | ABcast c _ _ | AAsTy c _ | ATrans c _ => unmasked c
  | AStack _ items => forallb unmasked items
  | AMosaic tiles _ => forallb unmasked tiles
  | _ => false
  end.
Lemma unmasked_depth a : unmasked a = true -> depth a = 1.
Proof.
  induction a as [sh v d|o c ks|a na IH|a dict lead IH|a d IH|a v IH|a axes IH|ssh items IH|tiles axis IH|g a axis d IH|o a d IH|o a b d IH1 IH2]
    using barr_ind2; cbn [unmasked]; intros H; try discriminate; auto; rewrite forallb_forall in H; rewrite Forall_forall in IH.
  - change (depths items = 1). pose proof (proj1 (depths_le items _) (le_n _)) as [D1 _]. apply Nat.le_antisymm; auto. apply depths_le. split; auto. intros x Hx. rewrite (IH x Hx); auto.
  - change (depths tiles = 1). pose proof (proj1 (depths_le tiles _) (le_n _)) as [D1 _]. apply Nat.le_antisymm; auto. apply depths_le. split; auto. intros x Hx. rewrite (IH x Hx); auto.
Qed.
Lemma unmasked_base gfk nd keys (b : barr) : base_getitem gfk nd keys = Ok b ->
  (forall k c, existsb is_new k = false -> gfk k = Ok c -> unmasked c = true) -> unmasked b = true.
Proof.
  intros E H. apply base_getitem_inv in E as [(k & _ & N & E)|(_ & k & c' & N & E & na' & [->|(bd & ->)])]; cbn [unmasked]; eauto.
Qed.
Lemma unmasked_bcast a dict lead b : mk_bcast a dict lead = Ok b -> unmasked b = unmasked a.
Proof. unfold mk_bcast. intros E. destruct a; apply bind_ok in E as (u & _ & E); destruct (existsb _ _); try discriminate; injection E as <-; auto. Qed.
Lemma unmasked_getitem a : unmasked a = true -> forall keys b, getitem a keys = Ok b -> unmasked b = true.
Proof.
  induction a as [sh v d|o c ks|a na IH|a dict lead IH|a d IH|a v IH|a axes IH|ssh items IH|tiles axis IH|g a axis d IH|o a d IH|o a b' d IH1 IH2]
    using barr_ind2; intros H keys b E; cbn [unmasked] in H; try discriminate; cbn [getitem] in E.
  - apply bind_ok in E as (sh' & _ & E). injection E as <-. auto.
  - eapply unmasked_base; [exact E|]. intros k x _ Ex. apply bind_ok in Ex as (k' & _ & Ex). unfold mk_adapter in Ex.
    destruct (_ <? _); [discriminate|]. apply bind_ok in Ex as (_ & _ & Ex). injection Ex as <-. auto.
  - apply newax_getitem_inv in E as (k & c' & E & na' & [->|(bd & ->)]); cbn [unmasked]; eauto.
  - eapply unmasked_base; [exact E|]. intros k x _ Ex. apply bind_ok in Ex as (l' & _ & Ex). apply bind_ok in Ex as (r & _ & Ex).
    apply bind_ok in Ex as (bb & _ & Ex). apply bind_ok in Ex as (sub & Es & Ex). rewrite (unmasked_bcast _ _ _ _ Ex).
    destruct bb; [injection Es as <-; auto|]. eauto.
  - apply bind_ok in E as (c' & E1 & E). injection E as <-. cbn [unmasked]. eauto.
  - eapply unmasked_base; [exact E|]. intros k x _ Ex. cbv zeta in Ex. apply bind_ok in Ex as (y & Ey & Ex). apply trans_inv in Ex as (ax & ->). cbn [unmasked]. eauto.
  - rewrite Forall_forall in IH. rewrite forallb_forall in H. eapply unmasked_base; [exact E|]. intros k x _ Ex. eapply stack_get in Ex as [(it & Hi & Ei)|(ssh' & its & Es & Hx)]; [| |reflexivity].
    + eapply IH; eauto.
    + apply stack_inv in Es as (-> & _). cbn [unmasked]. apply forallb_forall. intros y Hy. destruct (Hx y Hy) as (it & Hi & Ei). eapply IH; eauto.
  - rewrite Forall_forall in IH. rewrite forallb_forall in H. eapply unmasked_base; [exact E|]. intros k x N Ex. eapply mosaic_get in Ex as [(it & k' & Hi & _ & Ei)|(ax & its & Es & Hx)]; auto.
    + eapply IH; eauto.
    + apply mosaic_inv in Es as (-> & _). cbn [unmasked]. apply forallb_forall. intros y Hy. destruct (Hx y Hy) as (it & k' & Hi & _ & Ei). eapply IH; eauto.
Qed.

Lemma unmasked_kind f m a : unmasked a = true -> forall d k, krz (S f) m a = Ok (d, k) -> k = Bare.
Proof.
  induction a as [sh v d|o c ks|a na IH|a dict lead IH|a d IH|a v IH|a axes IH|ssh items IH|tiles axis IH|g a axis d IH|o a d IH|o a b d IH1 IH2]
    using barr_ind2; cbn [unmasked]; intros H x k E; try discriminate.
  - injection E as _ <-. auto.
  - change ((d <- realise_adapter O m o c ks ;; Ok (d, adapt_kind T c d)) = Ok (x, k)) in E. apply bind_ok in E as (d & _ & E). injection E as _ <-.
    unfold adapt_kind. rewrite H. auto.
  - destruct (plain_kind f m a (unmasked_depth a H)) as (N & k' & _ & E').
    change ((dk <- match krz (S f) m a with Err AttrErr => if m then (r <- krz (S f) false a ;; Ok (fst r, Bare)) else Err AttrErr | r => r end ;;
       d <- np_index (fst dk) (newax_layout KNew (repeat KFull (ndim a)) na) ;; Ok (d, snd dk)) = Ok (x, k)) in E.
    rewrite E' in *. destruct (rz (S f) m a) as [y|e]; cbn [bind fst snd] in E.
    + apply bind_ok in E as (z & _ & E). injection E as _ <-. apply (IH H y k' eq_refl).
    + destruct e; try discriminate E. destruct (N eq_refl).
  - destruct (plain_kind f m a (unmasked_depth a H)) as (N & k' & _ & E').
    change ((dk <- match krz (S f) m a with Err AttrErr => if m then (r <- krz (S f) false a ;; Ok (fst r, Bare)) else Err AttrErr | r => r end ;;
       match m, snd dk with true, Plain => Err AttrErr | _, k => d <- bcast_numpy (fst dk) dict lead ;; Ok (d, k) end) = Ok (x, k)) in E.
    rewrite E' in *. destruct (rz (S f) m a) as [y|e]; cbn [bind fst snd] in E.
    + assert (Hk : k' = Bare) by (apply (IH H y k' eq_refl)). subst k'.
      assert (E2 : (d <- bcast_numpy y dict lead ;; Ok (d, Bare)) = Ok (x, k)) by (destruct m; exact E). apply bind_ok in E2 as (z & _ & E2). injection E2 as _ <-. auto.
    + destruct e; try discriminate E. destruct (N eq_refl).
  - destruct (plain_kind f m a (unmasked_depth a H)) as (N & k' & _ & E').
    change ((dk <- match krz (S f) m a with Err AttrErr => if m then (r <- krz (S f) false a ;; Ok (fst r, Bare)) else Err AttrErr | r => r end ;;
       Ok (nd_map (lift1 (vcast O d)) (fst dk), snd dk)) = Ok (x, k)) in E.
    rewrite E' in *. destruct (rz (S f) m a) as [y|e]; cbn [bind fst snd] in E.
    + injection E as _ <-. apply (IH H y k' eq_refl).
    + destruct e; try discriminate E. destruct (N eq_refl).
  - destruct (plain_kind f m a (unmasked_depth a H)) as (N & k' & _ & E').
    change ((dk <- match krz (S f) m a with Err AttrErr => if m then (r <- krz (S f) false a ;; Ok (fst r, Bare)) else Err AttrErr | r => r end ;;
       Ok (np_transpose (fst dk) axes, snd dk)) = Ok (x, k)) in E.
    rewrite E' in *. destruct (rz (S f) m a) as [y|e]; cbn [bind fst snd] in E.
    + injection E as _ <-. apply (IH H y k' eq_refl).
    + destruct e; try discriminate E. destruct (N eq_refl).
  - rewrite Forall_forall in IH. rewrite forallb_forall in H.
    change ((ds <- mapM (krz (S f) m) items ;; d <- np_setitems (mkND (shape (AStack ssh items)) garbage) (combine (map (map (fun i => KInt (Z.of_nat i))) (ndindex ssh)) (map fst ds)) ;; Ok (d, store_kind (map snd ds))) = Ok (x, k)) in E.
    apply bind_ok in E as (ds & E1 & E). apply bind_ok in E as (z & _ & E). injection E as _ <-.
    assert (HK : forall q, In q (map snd ds) -> q = Bare).
    { intros q Hq. apply in_map_iff in Hq as ([y q'] & <- & Hy). destruct (mapM_in _ _ _ E1 _ Hy) as (it & Hi & Ei). eapply IH; eauto. }
    unfold store_kind. destruct (existsb is_full _) eqn:Ex; auto. apply existsb_exists in Ex as (q & Hq & Fq). rewrite (HK q Hq) in Fq. discriminate.
  - rewrite Forall_forall in IH. rewrite forallb_forall in H.
    change ((ds <- mapM (krz (S f) m) tiles ;; d <- np_setitems (mkND (shape (AMosaic tiles axis)) garbage) (mosaic_writes (ndim (AMosaic tiles axis)) axis (map (fun t => nth axis (shape t) 0) tiles) (map fst ds)) ;; Ok (d, store_kind (map snd ds))) = Ok (x, k)) in E.
    apply bind_ok in E as (ds & E1 & E). apply bind_ok in E as (z & _ & E). injection E as _ <-.
    assert (HK : forall q, In q (map snd ds) -> q = Bare).
    { intros q Hq. apply in_map_iff in Hq as ([y q'] & <- & Hy). destruct (mapM_in _ _ _ E1 _ Hy) as (it & Hi & Ei). eapply IH; eauto. }
    unfold store_kind. destruct (existsb is_full _) eqn:Ex; auto. apply existsb_exists in Ex as (q & Hq & Fq). rewrite (HK q Hq) in Fq. discriminate.
Qed.

(** The keys of the chunks the engine reads from the source [c] of an aggregation
    over [axis]. *)
Definition chunks_read (c : barr) (axis : nat) : list (list key) :=
  chunk_index_gen maxc (shape c) (input_order axis (seq 0 (pred (ndim c)))).
Definition chunk_kind f (c : barr) (ks : list key) (k : mkind) : Prop :=
  exists b d, getitem c ks = Ok b /\ krz (S f) true b = Ok (d, k).

Lemma producer_kind f m a order cs : kproducer maxc (krz f m) a order = Ok cs ->
  Forall2 (fun ks c => fst (fst c) = ks /\ exists b, getitem a ks = Ok b /\ krz f m b = Ok (snd (fst c), snd c)) (chunk_index_gen maxc (shape a) order) cs.
Proof.
  unfold kproducer. intros E. apply mapM_ok in E. eapply Forall2_impl; [|exact E]. intros ks c H. apply bind_ok in H as (b & E1 & H).
  apply bind_ok in H as ([d k] & E2 & H). injection H as <-. cbn [fst snd]. split; auto. eauto.
Qed.

Lemma sum_exact f c axis d D : depth c = 1 -> blocks_right O maxc garbage (S f) true c D -> axis < ndim c ->
  ((exists r k, krz (S (S f)) true (AAgg GSum c axis d) = Ok (r, k))
   <-> t_cls T (dtype c) <> DBool /\ (axis = 0 \/ forall ks, In ks (chunks_read c axis) -> chunk_kind f c ks Full)).
Proof.
  intros Hd HB Hax.
  assert (Hs : streamed c = false) by (destruct c; auto; cbn [depth] in Hd; [pose proof (depth_pos garbage c)|pose proof (depth_pos garbage c)|pose proof (depth_pos garbage c1); pose proof (depth_pos garbage c2)]; lia).
  assert (Hks : forall order, kstream O maxc T (krz (S f) true) true c order = kproducer maxc (krz (S f) true) c order) by (destruct c; try discriminate; auto).
  assert (Hnd : seq 0 (ndim (AAgg GSum c axis d)) = seq 0 (pred (ndim c))) by (unfold ndim; cbn [shape]; rewrite remove_at_length by auto; auto).
  split.
  - intros (r & k & E). split.
    { intros Hc. rewrite bool_err in E; auto. discriminate. }
    destruct (Nat.eq_dec axis 0) as [|Hn]; [left; auto|right]. intros ks Hin.
    change (kengine O maxc garbage T (krz (S f) true) true (AAgg GSum c axis d) = Ok (r, k)) in E. unfold kengine in E.
    destruct (bind _ _) as [q|] eqn:Eb; [|discriminate]. clear E. apply bind_ok in Eb as (cs & E & _). cbn [kstream] in E.
    apply bind_ok in E as (xs & E1 & E). apply bind_ok in E as (u & E2 & E). rewrite Hnd, Hks in E1.
    pose proof (producer_kind _ _ _ _ _ E1) as HF. fold (chunks_read c axis) in HF. apply mapM_ok in E2.
    assert (HK : Forall (fun ch => snd ch = Full) xs).
    { clear -E2 Hn. induction E2 as [|y [] ys us E E2 IH]; constructor; auto. unfold process_check in E. destruct (snd y); auto; try discriminate.
      destruct (Nat.eqb_spec axis 0); [congruence|discriminate]. }
    clear -HF HK Hin. induction HF as [|y z ys zs (_ & b & H1 & H2) HF IH]; [destruct Hin|]. apply Forall_cons_iff in HK as [K1 K2]. destruct Hin as [<-|Hin]; auto.
    exists b, (snd (fst z)). rewrite <- K1. auto.
  - intros [Hc HF].
    destruct (ksource_ok (S f) true c D Bare (input_order axis (seq 0 (pred (ndim c))))) as (cs & E1 & E2 & E3).
    { destruct (plain_blocks f true c D Hd HB) as [B1 B2]. split; auto. intros ks Hb. destruct (B2 ks Hb) as (b & x & k & G1 & G2 & G3 & G4). exists b, x, k. repeat split; auto; try apply G3.
      unfold source_kind in G4. destruct (_ && _); auto. destruct k; auto; discriminate. }
    { replace (ndim c) with (S (pred (ndim c))) at 2 by lia. apply input_order_perm; [apply perm_seq|lia]. }
    pose proof (producer_kind _ _ _ _ _ E1) as HP. fold (chunks_read c axis) in HP.
    assert (HK : Forall (fun ch => process_check T true GSum axis (dtype c) (snd ch) = Ok tt) cs).
    { apply Forall_forall. intros ch Hch. rewrite Forall_forall in E3. destruct (E3 ch Hch) as [_ G]. unfold process_check.
      destruct HF as [->|HF].
      - destruct (snd ch); [discriminate| |]; cbn [Nat.eqb]; destruct (t_cls T (dtype c)); auto; congruence.
      - assert (HFull : snd ch = Full).
        { clear -HP HF Hch. induction HP as [|y z ys zs (_ & b & H1 & H2) HP IH]; [destruct Hch|]. destruct Hch as [<-|Hch].
          - destruct (HF y (or_introl eq_refl)) as (b' & d' & A1 & A2). rewrite H1 in A1. injection A1 as <-. rewrite H2 in A2. injection A2 as _ <-. auto.
          - apply IH; auto. intros ks Hk. apply HF. right; auto. }
        rewrite HFull. destruct (t_cls T (dtype c)); auto; congruence. }
    destruct (mapM_tt _ _ HK) as (u & Eu).
    change (exists r k, kengine O maxc garbage T (krz (S f) true) true (AAgg GSum c axis d) = Ok (r, k)).
    destruct (streams_engine O maxc garbage (S f) true (AAgg GSum c axis d) _ (streams_agg O maxc garbage (S f) true GSum c axis d D (streams_source O maxc garbage (S f) true c D Hs HB) Hax (fun _ _ _ => eq_refl))) as (r & Er & _).
    unfold engine_eval in Er. apply bind_ok in Er as (out & Eo & Er). cbn [stream] in Eo. apply bind_ok in Eo as (xs & Ex & Eo).
    assert (Exs : xs = map fst cs).
    { assert (Hf : shallow c = true) by (destruct c; try discriminate; apply Nat.eqb_eq; exact Hd).
      pose proof (kstream_same f true c Hf (input_order axis (seq 0 (pred (ndim c)))) cs) as HS. rewrite Hks in HS. specialize (HS E1).
      rewrite Hnd, HS in Ex. congruence. }
    subst xs. unfold kengine. cbn [kstream]. rewrite Hnd, Hks, E1. cbn [bind]. rewrite Eu. cbn [bind]. rewrite Eo. cbn [bind].
    rewrite map_fst_pairs. 2:{ symmetry. eapply last_kinds_len; [|exact Eo]. exact I. }
    rewrite Er. cbn [bind]. eauto.
Qed.

(** masked_equal over unmasked data: whether a chunk has a mask depends on the
    values in it. *)
Lemma maskv_chunk f c v D ks : unmasked c = true -> blocks_right O maxc garbage (S f) true (AMaskV c v) D -> block ks (shape c) ->
  (chunk_kind f (AMaskV c v) ks Full <-> exists i, inb (nshape (oindex D ks)) i /\ nget (oindex D ks) i = None).
Proof.
  intros Hu [Hsh HB] Hks. destruct (HB ks Hks) as (b & d & E1 & E2 & E3). pose proof E1 as E1'. cbn [getitem] in E1. apply bind_ok in E1 as (c' & Ec & E1). injection E1 as <-.
  assert (Hu' : unmasked c' = true) by (eapply unmasked_getitem; eauto).
  destruct (plain_kind f true c' (unmasked_depth c' Hu')) as (N & k' & _ & E').
  change ((x <- rz (S f) true c' ;; Ok (nd_map (mask_equal O true v) x)) = Ok d) in E2. apply bind_ok in E2 as (x & Ex & E2). injection E2 as <-.
  rewrite Ex in E'. cbn [bind] in E'. pose proof (unmasked_kind f true c' Hu' _ _ E') as ->.
  set (dx := nd_map (mask_equal O true v) x) in *.
  assert (EK : krz (S f) true (AMaskV c' v) = Ok (dx, maskv_kind true Bare dx)).
  { change (krz (S f) true (AMaskV c' v)) with
      (dk <- match krz (S f) true c' with Err AttrErr => (r <- krz (S f) false c' ;; Ok (fst r, Bare)) | r => r end ;;
       let d := nd_map (mask_equal O true v) (fst dk) in Ok (d, maskv_kind true (snd dk) d)). rewrite E'. reflexivity. }
  assert (HX : existsb (fun i => negb (seen (nget dx i))) (ndindex (nshape dx)) = true <-> exists i, inb (nshape (oindex D ks)) i /\ nget (oindex D ks) i = None).
  { rewrite existsb_exists, <- (proj1 E3). split; intros (i & Hi & Hn); exists i.
    - apply ndindex_In in Hi. split; auto. rewrite <- (proj2 E3 i Hi). destruct (nget dx i); auto. discriminate.
    - split; [apply ndindex_In; auto|]. rewrite (proj2 E3 i Hi), Hn. auto. }
  rewrite <- HX. unfold maskv_kind in EK. cbn [is_full andb] in EK. split.
  - intros (b & y & F1 & F2). rewrite E1' in F1. injection F1 as <-. rewrite EK in F2. destruct (existsb _ _); auto. discriminate.
  - intros Hx. rewrite Hx in EK. exists (AMaskV c' v), dx. auto.
Qed.
End Kinds.
