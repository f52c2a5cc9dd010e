(** Laziness: building and indexing arrays commutes with forgetting the data. *)
From Verif Require Import Base PySlice Keys NDArray Arrays Lib GetBase Skeleton.

Section Laziness.
Context {V : Type}.
Notation barr := (@barr V).

Lemma skel_shape (a : barr) : shape (skeleton a) = shape a.
Proof.
  induction a as [sh v d|o c ks|a na IH|a dict lead IH|a d IH|a v IH|a axes IH|ssh items IH|tiles axis IH
                  |g a axis d IH|o a d IH|o a b d IH1 IH2] using barr_ind2; cbn [skeleton shape]; auto; try congruence.
  - destruct items as [|it items]; auto. cbn [map]. inversion IH; subst. congruence.
  - destruct tiles as [|t tiles]; auto. cbn [map]. inversion IH as [|x l H1 H2]; subst. rewrite H1. f_equal. f_equal.
    rewrite map_map. clear - H2. induction H2; cbn [map]; auto. rewrite H, IHForall. auto.
Qed.
Lemma skel_dtype (a : barr) : dtype (skeleton a) = dtype a.
Proof.
  induction a as [sh v d|o c ks|a na IH|a dict lead IH|a d IH|a v IH|a axes IH|ssh items IH|tiles axis IH
                  |g a axis d IH|o a d IH|o a b d IH1 IH2] using barr_ind2; cbn [skeleton dtype]; auto; try congruence.
  - destruct items as [|it items]; auto. cbn [map]. inversion IH; subst. congruence.
  - destruct tiles as [|t tiles]; auto. cbn [map]. inversion IH; subst. congruence.
Qed.
Lemma skel_ndim (a : barr) : ndim (skeleton a) = ndim a.
Proof. unfold ndim. rewrite skel_shape. auto. Qed.

Lemma skel_bind {A} (r : res A) (f : A -> res barr) (g : A -> res (@Arrays.barr unit)) :
  (forall x, skel_res (f x) = g x) -> skel_res (bind r f) = bind r g.
Proof. intros H. destruct r; cbn [bind]; auto. Qed.
Lemma skel_bind2 (r : res barr) (f : barr -> res barr) (g : @Arrays.barr unit -> res (@Arrays.barr unit)) :
  (forall x, skel_res (f x) = g (skeleton x)) -> skel_res (bind r f) = bind (skel_res r) g.
Proof. intros H. destruct r; cbn [bind skel_res]; auto. Qed.

Lemma skel_newax (a : barr) na : skel_res (mk_newax a na) = mk_newax (skeleton a) na.
Proof. unfold mk_newax. rewrite skel_ndim. destruct (_ =? _); auto. Qed.
Lemma skel_bcast (a : barr) dict lead : skel_res (mk_bcast a dict lead) = mk_bcast (skeleton a) dict lead.
Proof.
  unfold mk_bcast.
  destruct a; cbn [skeleton]; try (rewrite <- skel_shape; cbn [skeleton]; apply skel_bind; intros; destruct (existsb _ _); auto; fail).
Qed.
Lemma skel_trans (a : barr) axes : skel_res (mk_trans a axes) = mk_trans (skeleton a) axes.
Proof. unfold mk_trans. rewrite skel_ndim. destruct axes; auto. destruct (_ =? _); auto. Qed.
Lemma skel_stack ssh (items : list barr) : skel_res (mk_stack ssh items) = mk_stack ssh (map skeleton items).
Proof.
  unfold mk_stack. destruct items as [|it items]; auto. cbn [map].
  assert (E : forall l : list barr, forallb (fun x : @Arrays.barr unit => shape_eqb (shape x) (shape (skeleton it)) && (dtype x =? dtype (skeleton it))) (map skeleton l)
          = forallb (fun x => shape_eqb (shape x) (shape it) && (dtype x =? dtype it)) l).
  { induction l; cbn [map forallb]; auto. rewrite IHl, !skel_shape, !skel_dtype. auto. }
  rewrite (E (it :: items) : forallb _ (skeleton it :: map skeleton items) = _). destruct (forallb _ _); auto.
Qed.
Lemma skel_mosaic (tiles : list barr) axis : skel_res (mk_mosaic tiles axis) = mk_mosaic (map skeleton tiles) axis.
Proof.
  unfold mk_mosaic. destruct tiles as [|t tiles]; auto. cbn [map]. rewrite skel_ndim. destruct (negb _); auto.
  rewrite skel_shape, skel_dtype.
  assert (E : forall (l : list barr) f g, (forall x, f (skeleton x) = g x :> res unit) -> mapM f (map skeleton l) = mapM g l).
  { induction l; intros; cbn [map mapM]; auto. rewrite H. rewrite (IHl f g) by auto. auto. }
  rewrite (E tiles _ (fun x => if ndim x <=? Z.to_nat axis then Err IndexError
      else if negb (shape_eqb (remove_at (Z.to_nat axis) (shape x)) (remove_at (Z.to_nat axis) (shape t))) then Err ValueError
      else if negb (dtype x =? dtype t) then Err ValueError else Ok tt)).
  - apply skel_bind. auto.
  - intros x. rewrite skel_ndim, skel_shape, skel_dtype. auto.
Qed.
Lemma skel_adapter o (c : @concrete V) ks : skel_res (mk_adapter o c ks) = mk_adapter o (skel_concrete c) ks.
Proof. unfold mk_adapter. cbn [skel_concrete c_shape]. destruct (_ <? _); auto. apply skel_bind. auto. Qed.

Lemma skel_broadcast_one (a : barr) full off : skel_res (broadcast_one a full off) = broadcast_one (skeleton a) full off.
Proof.
  unfold broadcast_one. rewrite skel_shape. destruct (firstn off full), (bdict (skipn off full) (shape a)); auto using skel_bcast.
Qed.
Lemma skel_el2 o (a b : barr) py : skel_res (mk_el2 o a b py) = mk_el2 (skel_op2 o) (skeleton a) (skeleton b) py.
Proof.
  unfold mk_el2, broadcast_arrays. rewrite !skel_shape, !skel_ndim.
  destruct (compute_bshape (shape a) (shape b)) as [full|]; auto. cbn [bind].
  rewrite <- !skel_broadcast_one. destruct (broadcast_one a _ _) as [a'|]; cbn [bind skel_res]; auto.
  destruct (broadcast_one b _ _) as [b'|]; cbn [bind skel_res]; auto. cbn [skeleton]. rewrite !skel_dtype. destruct py; auto.
Qed.
Lemma skel_el1 o (a : barr) : skeleton (mk_el1 o a) = mk_el1 (skel_op1 o) (skeleton a).
Proof. unfold mk_el1. cbn [skeleton]. rewrite skel_dtype. auto. Qed.

Lemma skel_newax_getitem (child : list key -> res barr) child' nd na keys :
  (forall ks, skel_res (child ks) = child' ks) ->
  skel_res (newax_getitem child nd na keys) = newax_getitem child' nd na keys.
Proof.
  intros H. unfold newax_getitem. apply skel_bind; intros ks. apply skel_bind; intros [[[na' comb] ckeys] bd].
  rewrite <- H. destruct (child ckeys) as [a|]; cbn [bind skel_res]; auto.
  rewrite <- skel_newax. destruct (mk_newax a _) as [r|]; cbn [bind skel_res]; auto.
  destruct bd; auto using skel_bcast.
Qed.
Lemma skel_base_getitem (gfk : list key -> res barr) gfk' nd keys :
  (forall ks, skel_res (gfk ks) = gfk' ks) ->
  skel_res (base_getitem gfk nd keys) = base_getitem gfk' nd keys.
Proof.
  intros H. unfold base_getitem. apply skel_bind; intros ks. destruct (existsb is_new ks); auto.
  apply skel_newax_getitem. intros ks'. apply skel_bind; intros ks''. destruct (existsb is_new ks''); auto.
Qed.
Lemma skel_mapM {A} (f : A -> res barr) f' (k : list barr -> res barr) k' l :
  (forall x, In x l -> skel_res (f x) = f' x) -> (forall ts, skel_res (k ts) = k' (map skeleton ts)) ->
  skel_res (bind (mapM f l) k) = bind (mapM f' l) k'.
Proof.
  intros H HK.
  assert (E : mapM f' l = match mapM f l with Ok ts => Ok (map skeleton ts) | Err e => Err e end).
  { clear k k' HK. induction l as [|x l IH]; auto. cbn [mapM]. rewrite <- H by (left; auto).
    destruct (f x); cbn [skel_res]; auto. rewrite IH by (intros; apply H; right; auto). destruct (mapM f l); auto. }
  rewrite E. destruct (mapM f l); cbn [bind]; auto.
Qed.
Lemma skel_gets (items : list barr) n ks :
  Forall (fun it => forall ks, skel_res (getitem it ks) = getitem (skeleton it) ks) items ->
  skel_res (nth n (map (fun it => getitem it) items) (fun _ => Err IndexError) ks)
  = nth n (map (fun it => getitem it) (map skeleton items)) (fun _ => Err IndexError) ks.
Proof.
  intros H. revert n. induction H as [|it items H1 H2 IH]; intros [|n]; cbn [map nth]; auto.
Qed.

Lemma skel_getitem (a : barr) : forall keys, skel_res (getitem a keys) = getitem (skeleton a) keys.
Proof.
  induction a as [sh v d|o c ks|a na IH|a dict lead IH|a d IH|a v IH|a axes IH|ssh items IH|tiles axis IH
                  |g a axis d IH|o a d IH|o a b d IH1 IH2] using barr_ind2; intros keys.
  - cbn [skeleton getitem]. apply skel_bind. auto.
  - pose proof (skel_ndim (AAdapt o c ks)) as N. cbn [skeleton getitem] in *. rewrite N. apply skel_base_getitem. intros k.
    apply skel_bind. intros ks'. apply skel_adapter.
  - cbn [skeleton getitem]. rewrite skel_ndim. apply skel_newax_getitem. auto.
  - pose proof (skel_ndim (ABcast a dict lead)) as N. pose proof (skel_shape (ABcast a dict lead)) as S.
    cbn [skeleton getitem] in *. rewrite N, S. apply skel_base_getitem. intros k.
    apply skel_bind; intros lead'. apply skel_bind; intros r. apply skel_bind; intros b.
    destruct b; cbn [bind]; [apply skel_bcast|]. rewrite <- IH. apply skel_bind2. intros; apply skel_bcast.
  - cbn [skeleton getitem]. rewrite <- IH. apply skel_bind2. auto.
  - cbn [skeleton getitem]. rewrite <- IH. apply skel_bind2. auto.
  - pose proof (skel_ndim (ATrans a axes)) as N. cbn [skeleton getitem] in *. rewrite N. apply skel_base_getitem. intros k.
    cbv zeta. rewrite <- IH. apply skel_bind2. intros; apply skel_trans.
  - pose proof (skel_ndim (AStack ssh items)) as N. cbn [skeleton getitem] in *. rewrite N. apply skel_base_getitem. intros k.
    cbv zeta. apply skel_bind; intros ssh'. apply skel_bind; intros st. destruct ssh' as [|n ssh']; [apply skel_gets; auto|].
    destruct (shape_eqb _ _); auto. apply skel_mapM; [|intros; apply skel_stack]. intros. apply skel_gets; auto.
  - pose proof (skel_ndim (AMosaic tiles axis)) as N. cbn [skeleton getitem] in *. rewrite N. apply skel_base_getitem. intros k.
    cbv zeta. rewrite !map_map. rewrite (map_ext (fun x => nth axis (shape (skeleton x)) 0) (fun t => nth axis (shape t) 0)) by (intros; rewrite skel_shape; auto).
    apply skel_bind; intros [ks ax|t ks|parts ax].
    + 

      assert (E1 : mapM (fun g => g ks) (map (fun t => getitem t) tiles) = mapM (fun t => getitem t ks) tiles).
      { clear. induction tiles; cbn [map mapM]; auto. rewrite IHtiles. auto. }
      assert (E2 : mapM (fun g => g ks) (map (fun t => getitem (skeleton t)) tiles) = mapM (fun t => getitem (skeleton t) ks) tiles).
      { clear. induction tiles; cbn [map mapM]; auto. rewrite IHtiles. auto. }
      rewrite E1, E2. apply skel_mapM; [|intros; apply skel_mosaic]. intros x Hx. rewrite Forall_forall in IH. auto.
    + rewrite <- (map_map skeleton (fun t => getitem t)). apply skel_gets; auto.
    + rewrite <- (map_map skeleton (fun t => getitem t)). apply skel_mapM; [|intros; apply skel_mosaic]. intros. apply skel_gets; auto.
  - pose proof (skel_ndim (AAgg g a axis d)) as N. cbn [skeleton getitem] in *. rewrite N. apply skel_base_getitem. intros k.
    cbv zeta. rewrite <- IH. apply skel_bind2. auto.
  - pose proof (skel_ndim (AEl1 o a d)) as N. cbn [skeleton getitem] in *. rewrite N. apply skel_base_getitem. intros k.
    rewrite <- IH. apply skel_bind2. intros x. cbn [skel_res]. rewrite skel_el1. auto.
  - pose proof (skel_ndim (AEl2 o a b d)) as N. cbn [skeleton getitem] in *. rewrite N. apply skel_base_getitem. intros k.
    rewrite <- IH1. apply skel_bind2. intros x. rewrite <- IH2. apply skel_bind2. intros y. apply skel_el2.
Qed.
End Laziness.
