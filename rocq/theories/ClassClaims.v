(** ClassClaims: what each kind of array realises to, in terms of the arrays its
    parts realise to, and how indexing acts on it. *)
From Verif Require Import Base PySlice Keys NDArray Arrays Chunks Handlers Realise Spec Supported Lib SelLemmas KeyLemmas NewAxLemmas GetBase GetSimple GetBcast GetTrans GetStack GetMosaic GetItem ChunkLemmas AssignLemmas HandlerLemmas Realisable NumpyApply StreamLemmas RealOK RealiseOK IndexClaims.
From Coq Require Import ZifyBool ZifyNat.

(** Aggregations allowed over an arbitrary value type: counts always, minima and
    maxima when they associate (so for floating-point numbers too), sums and means
    when its arithmetic obeys [laws]; no statistics. *)
Definition exact {V} (O : numops V) (g : @agg V) (n : nat) : Prop :=
  match g with GCount => True | GMin | GMax => orders O | GSum | GMean _ => laws O | GStd _ | GVar _ => False end.
Lemma exact_right {V} (O : numops V) m g : handler_right O m g (exact O g).
Proof.
  intros ps R H. destruct g; try contradiction; [apply right_count|apply right_min|apply right_max|apply right_sum|apply right_mean]; auto.
Qed.

Section Class.
Context {V : Type} (O : numops V).
Notation cell := (option V).
Notation barr := (@barr V).
Variable maxc : nat.
Variable garbage : list nat -> cell.
Variable m : bool.
Variable HG : @agg V -> nat -> Prop.
Variable fuel : nat.

(** A well-formed array whose evaluation stays within the claims. *)
Definition usable (a : barr) : Prop := wf a /\ realisable maxc m HG fuel a.
(** [a.ndarray()] ([m = false]) or [a.masked_array()] ([m = true]) returns [d]. *)
Definition reads (a : barr) (d : nd cell) : Prop := realise O maxc garbage fuel m a = Ok d.

(** Indexing then realising is realising then indexing orthogonally. *)
Definition commutes (a : barr) : Prop :=
  forall keys, valid_keys keys (shape a) -> supported a keys ->
    (forall b, getitem a keys = Ok b -> realisable maxc m HG fuel b) ->
    exists b da db, getitem a keys = Ok b /\ reads a da /\ reads b db /\ nd_eq db (oindex da keys).

Hypothesis HR : forall g, handler_right O m g (HG g).

Lemma usable_reads a : usable a -> exists d, reads a d /\ nd_eq d (den O m a).
Proof. intros [H1 H2]. exact (realise_ok O maxc garbage m HG HR fuel a H1 H2). Qed.
Lemma usable_commutes a : usable a -> commutes a.
Proof. intros [H1 H2] keys HV HS HB. exact (index_commutes O maxc garbage m HG HR fuel a keys H1 HV HS H2 HB). Qed.
Lemma reads_den a d : usable a -> reads a d -> nd_eq d (den O m a).
Proof. intros H E. destruct (usable_reads a H) as (d' & E' & H'). unfold reads in *. congruence. Qed.
Lemma reads_shape a d : usable a -> reads a d -> nshape d = shape a.
Proof. intros H E. rewrite (proj1 (reads_den a d H E)). apply den_shape, H. Qed.
Lemma fuel_pos a : usable a -> exists f, fuel = S f.
Proof. intros [_ H]. destruct fuel; [destruct H|eauto]. Qed.

(** ** Constant arrays *)
Lemma const_claim sh v d keys s : fuel <> 0 -> oselect keys sh = Some s -> existsb is_list keys = false ->
  reads (AConst sh v d) (mkND sh (fun _ => Some v))
  /\ getitem (AConst sh v d) keys = Ok (AConst (sel_shape s) v d).
Proof using.
  intros Hf Hs Hl. split.
  - unfold reads. destruct fuel; [congruence|reflexivity].
  - cbn [getitem]. rewrite (sliced_shape_ok _ _ _ Hs Hl). reflexivity.
Qed.

(** ** Transposition *)
Lemma trans_claim a axes : usable a -> NoDup axes -> length axes = ndim a -> Forall (fun x => x < ndim a) axes ->
  exists t, mk_trans a (Some axes) = Ok t /\ usable t
    /\ exists da dt, reads a da /\ reads t dt
       /\ nshape dt = map (fun ax => nth ax (nshape da) 0) axes
       /\ forall idx, inb (nshape da) idx -> nget dt (map (fun ax => nth ax idx 0) axes) = nget da idx.
Proof.
  intros Hu H1 H2 H3. destruct Hu as [Hw Hr]. exists (ATrans a axes). unfold mk_trans. rewrite H2, Nat.eqb_refl.
  split; auto. assert (Ht : usable (ATrans a axes)).
  { split; [repeat split; auto|]. destruct fuel; auto. }
  split; auto. destruct (usable_reads a (conj Hw Hr)) as (da & Ea & Da). destruct (usable_reads _ Ht) as (dt & Et & Dt).
  exists da, dt. split; auto. split; auto. pose proof (den_shape O m a Hw) as Hd. split.
  - rewrite (proj1 Dt). cbn [den nd_transpose nshape]. rewrite (proj1 Da). auto.
  - intros idx Hi. pose proof (inb_length _ _ Hi) as Hl. rewrite (proj1 Da), Hd in *.
    assert (HT : inb (nshape dt) (map (fun ax => nth ax idx 0) axes)).
    { rewrite (proj1 Dt). cbn [den nd_transpose nshape]. rewrite Hd. unfold inb. rewrite Forall_forall in H3.
      clear - H3 Hi Hl. induction axes as [|ax axes IH]; constructor.
      - apply inb_nth; auto. rewrite <- Hl. rewrite Hl. apply H3. left; auto.
      - apply IH. intros; apply H3; right; auto. }
    rewrite (proj2 Dt) by auto. rewrite (proj2 Da) by (rewrite (proj1 Da), Hd; auto). cbn [den nd_transpose nget]. f_equal.
    apply (nth_error_ext_nth 0).
    { rewrite map_length, seq_length, H2. auto. }
    intros i Hi'. rewrite map_length, seq_length in Hi'.
    rewrite (nth_map_seq (fun ax => match index_of ax axes with Some d => nth d (map (fun ax0 => nth ax0 idx 0) axes) 0 | None => 0 end)) by auto.
    assert (Hin : In i axes) by (eapply perm_In; [split; [|split]; eauto|lia]).
    destruct (index_of_In _ _ Hin) as (d & Ed). rewrite Ed. apply index_of_Some in Ed as [E1 E2].
    rewrite (nth_map (fun ax0 => nth ax0 idx 0) axes d 0 0) by auto. congruence.
Qed.
Lemma map_nth_rev {A} (d : A) l : map (fun ax => nth ax l d) (rev (seq 0 (length l))) = rev l.
Proof using.
  rewrite map_rev. f_equal. induction l as [|x l IH]; simpl; auto. f_equal. rewrite <- seq_shift, map_map. auto.
Qed.
Lemma trans_default a : usable a -> exists t, mk_trans a None = Ok t /\ usable t
    /\ exists da dt, reads a da /\ reads t dt /\ nshape dt = rev (nshape da)
       /\ forall idx, inb (nshape da) idx -> nget dt (rev idx) = nget da idx.
Proof.
  intros Hu. set (axes := rev (seq 0 (ndim a))). destruct (trans_claim a axes) as (t & Et & Ht & da & dt & Ra & Rt & Sh & Get); auto.
  - apply NoDup_rev, seq_NoDup.
  - unfold axes. rewrite rev_length, seq_length. auto.
  - apply Forall_forall. intros x Hx. apply in_rev, in_seq in Hx. lia.
  - exists t. split.
    + unfold mk_trans in *. destruct (length axes =? ndim a); [exact Et|discriminate].
    + split; auto. exists da, dt. assert (Hn : ndim a = length (nshape da)) by (unfold ndim; rewrite (reads_shape a da Hu Ra); auto).
      split; auto. split; auto. unfold axes in Sh, Get. rewrite Hn in Sh, Get. split; [rewrite Sh; apply map_nth_rev|].
      intros idx Hi. rewrite <- (Get idx Hi). f_equal. rewrite <- (inb_length _ _ Hi). symmetry. apply map_nth_rev.
Qed.

(** ** Broadcasting *)
Lemma mk_bcast_usable (a b : barr) dict lead : usable a -> wf b -> mk_bcast a dict lead = Ok b -> usable b.
Proof using.
  intros [Hw Hr] Hb E. split; auto. unfold mk_bcast in E.
  assert (G : forall a0 d l, realisable maxc m HG fuel a0 -> realisable maxc m HG fuel (ABcast a0 d l)).
  { intros. destruct fuel; auto. }
  destruct a; (match type of E with context [shape_from_dict ?x ?y] => destruct (shape_from_dict x y) end; [|discriminate]);
    cbn [bind] in E; (match type of E with context [existsb ?x ?y] => destruct (existsb x y) end; [discriminate|]); injection E as <-; apply G; auto.
  destruct fuel; auto.
Qed.

Lemma bcast_claim a dict lead : usable a -> NoDup (map fst dict) ->
  Forall (fun p => fst p < ndim a /\ nth (fst p) (shape a) 0 = 1) dict -> Forall (fun n => 1 <= n) lead ->
  (dict = [] \/ nolead a) ->
  exists b, mk_bcast a dict lead = Ok b /\ usable b
    /\ exists da db, reads a da /\ reads b db
       /\ length (nshape db) = length lead + length (nshape da)
       /\ (forall i, i < length lead -> nth i (nshape db) 0 = nth i lead 0)
       /\ (forall i, i < length (nshape da) ->
             nth (length lead + i) (nshape db) 0 = match dict_find i dict with Some n => n | None => nth i (nshape da) 0 end)
       /\ forall o idx, length o = length lead -> length idx = length (nshape da) -> inb (nshape db) (o ++ idx) ->
             nget db (o ++ idx)
             = nget da (map (fun i => match dict_find i dict with Some _ => 0 | None => nth i idx 0 end) (seq 0 (length idx))).
Proof.
  intros Hu HN HF HL Hc. pose proof (proj1 Hu) as Hw. destruct (sfd_fits (shape a) dict HN HF) as (sh' & Es).
  destruct (mk_bcast_ok O a dict lead sh' Hw HN Es HL Hc) as (b & Eb & Wb & Db & _).
  exists b. split; auto. assert (Hb : usable b) by (eapply mk_bcast_usable; eauto). split; auto.
  destruct (usable_reads a Hu) as (da & Ea & Da). destruct (usable_reads b Hb) as (db & Edb & Ddb).
  exists da, db. split; auto. split; auto. pose proof (den_shape O m a Hw) as Hd.
  pose proof (nd_eq_trans _ _ _ Ddb (Db m)) as D. clear Ddb Db. cbn [den] in D. rewrite Hd, Es in D. cbn [get_ok] in D.
  apply sfd_char in Es as (S1 & S2 & S3); auto.
  assert (Hda : nshape da = shape a) by (rewrite (proj1 Da); auto). assert (Hdb : nshape db = lead ++ sh') by exact (proj1 D).
  rewrite Hda, Hdb. split; [rewrite app_length; lia|]. split; [|split].
  - intros i Hi. apply app_nth1; auto.
  - intros i Hi. rewrite app_nth2 by lia. replace (length lead + i - length lead) with i by lia. apply S3; auto.
  - intros o idx Ho Hi Hin. rewrite (proj2 D) by (rewrite Hdb; auto). cbn [nget].
    assert (Hin2 : inb sh' idx) by (apply inb_app in Hin; tauto).
    rewrite bc_idx_app by lia. assert (Hb0 : inb (shape a) (bidx (shape a) idx)).
    { eapply (bidx_dict (shape a) dict sh'); eauto. apply sfd_char; auto. }
    symmetry. rewrite (proj2 Da).
    + f_equal. symmetry. apply (nth_error_ext_nth 0).
      { rewrite bidx_length, map_length, seq_length by lia. lia. }
      intros i Hi'. rewrite bidx_length in Hi' by lia.
      rewrite (nth_map_seq (fun i => match dict_find i dict with Some _ => 0 | None => nth i idx 0 end)) by lia.
      rewrite nth_bidx by lia. pose proof (inb_nth _ _ i Hin2 ltac:(lia)) as Hb1. rewrite S3 in Hb1 by auto.
      destruct (dict_find i dict) eqn:Ef.
      * apply dict_find_In in Ef. rewrite Forall_forall in HF. apply HF in Ef. cbn [fst] in Ef. rewrite (proj2 Ef). reflexivity.
      * destruct (nth i (shape a) 0 =? 1) eqn:E1; auto. apply Nat.eqb_eq in E1. lia.
    + rewrite Hda. apply inb_ext; [rewrite map_length, seq_length; lia|]. intros i Hi'. 
      rewrite (nth_map_seq (fun i => match dict_find i dict with Some _ => 0 | None => nth i idx 0 end)) by lia.
      pose proof (inb_nth _ _ i Hin2 ltac:(lia)) as Hb1. rewrite S3 in Hb1 by auto.
      destruct (dict_find i dict) eqn:Ef; auto. apply dict_find_In in Ef. rewrite Forall_forall in HF. apply HF in Ef. cbn [fst] in Ef. lia.
Qed.

(** ** Stacks *)
Lemma reads_all (l : list barr) : Forall usable l -> exists ds, Forall2 reads l ds
  /\ Forall2 (fun a d => nd_eq d (den O m a)) l ds.
Proof.
  induction 1 as [|a l H Hl (ds & I1 & I2)]; [exists []; auto|].
  destruct (usable_reads a H) as (d & E & D). exists (d :: ds). auto.
Qed.

Lemma stack_usable ssh items : items <> [] -> length items = prodn ssh -> Forall usable items -> Forall dt_stable items ->
  Forall (fun it => shape it = shape (hd it items) /\ dtype it = dtype (hd it items)) items ->
  mk_stack ssh items = Ok (AStack ssh items) /\ usable (AStack ssh items).
Proof using.
  intros Hne HL Hu Ht HF. assert (Hw : wf (AStack ssh items)).
  { split; auto. split; auto. split; auto. apply wf_items. rewrite Forall_forall in *. intros x Hx. split; [apply Hu|apply Ht]; auto. }
  split; [|split]; auto.
  - unfold mk_stack. destruct items as [|it items]; [congruence|].
    replace (forallb _ (it :: items)) with true; auto. symmetry. apply forallb_forall. intros x Hx. rewrite Forall_forall in HF.
    destruct (HF x Hx) as [E1 E2]. cbn [hd] in *. rewrite E1, E2, shape_eqb_refl, Nat.eqb_refl. auto.
  - assert (Hr : Forall (realisable maxc m HG fuel) items) by (eapply Forall_impl; [|apply Hu]; intros x Hx; apply Hx).
    clear Hu. destruct items as [|i0 items]; [congruence|]. pose proof (Forall_inv Hr) as H0. destruct fuel as [|f]; [destruct H0|].
    change (fold_right (fun it P => realisable maxc m HG (S f) it /\ P) True (i0 :: items)).
    apply fold_right_and_Forall. auto.
Qed.

Lemma stack_claim ssh items it0 : length items = prodn ssh -> Forall usable items -> Forall dt_stable items ->
  In it0 items -> Forall (fun it => shape it = shape it0 /\ dtype it = dtype it0) items ->
  exists st, mk_stack ssh items = Ok st /\ usable st
    /\ exists ds d, Forall2 reads items ds /\ reads st d
       /\ nshape d = ssh ++ shape it0
       /\ forall i idx d0, inb ssh i -> inb (shape it0) idx ->
            nget d (i ++ idx) = nget (nth (ravel ssh i) ds d0) idx.
Proof.
  intros HL Hu Ht Hin HF. assert (Hne : items <> []) by (intros ->; destruct Hin).
  assert (HF' : Forall (fun it => shape it = shape (hd it items) /\ dtype it = dtype (hd it items)) items).
  { destruct items as [|x items]; [congruence|]. rewrite Forall_forall in *. intros y Hy. cbn [hd].
    destruct (HF y Hy), (HF x (or_introl eq_refl)). split; congruence. }
  destruct (stack_usable ssh items Hne HL Hu Ht HF') as [E1 E2]. exists (AStack ssh items). split; auto. split; auto.
  destruct (reads_all items Hu) as (ds & R1 & R2). destruct (usable_reads _ E2) as (d & Ed & Dd).
  exists ds, d. split; auto. split; auto.
  assert (Hsh : nshape d = ssh ++ shape it0).
  { rewrite (proj1 Dd). rewrite den_shape by apply E2. destruct items as [|x items]; [congruence|]. cbn [shape].
    rewrite Forall_forall in HF. destruct (HF x (or_introl eq_refl)) as [-> _]. auto. }
  split; auto. intros i idx d0 Hi Hx. pose proof (inb_length _ _ Hi) as Li.
  rewrite (proj2 Dd). 2:{ rewrite Hsh. apply inb_app; auto. }
  cbn [den nd_stack nget]. rewrite firstn_app, <- Li, Nat.sub_diag, firstn_all, firstn_O, app_nil_r.
  rewrite skipn_app, Nat.sub_diag, skipn_all, skipn_O. cbn [app].
  pose proof (ravel_lt _ _ Hi) as Hr. rewrite <- HL in Hr.
  pose proof (Forall2_nth _ _ _ it0 d0 (ravel ssh i) R2 Hr) as Hn.
  rewrite (nth_map (den O m) items (ravel ssh i) _ it0) by auto. symmetry. apply Hn.
  rewrite (proj1 Hn). rewrite Forall_forall in Hu, HF. assert (HI : In (nth (ravel ssh i) items it0) items) by (apply nth_In; auto).
  rewrite den_shape by (apply Hu; auto). destruct (HF _ HI) as [-> _]. auto.
Qed.

(** ** Mosaics *)
Lemma app_inj {A} (x y x' y' : list A) : length x = length x' -> x ++ y = x' ++ y' -> x = x' /\ y = y'.
Proof using.
  revert x'. induction x as [|a x IH]; intros [|a' x'] HL E; simpl in *; try discriminate; auto.
  injection E as -> E. destruct (IH x') as [-> ->]; auto.
Qed.

Lemma mosaic_usable tiles axis : tiles <> [] -> Forall usable tiles -> Forall dt_stable tiles ->
  Forall (fun t => axis < ndim t /\ remove_at axis (shape t) = remove_at axis (shape (hd t tiles))
                   /\ dtype t = dtype (hd t tiles)) tiles ->
  mk_mosaic tiles (Z.of_nat axis) = Ok (AMosaic tiles axis) /\ usable (AMosaic tiles axis).
Proof using.
  intros Hne Hu Ht HF. assert (Hw : wf (AMosaic tiles axis)).
  { split; auto. split; auto. apply wf_items. rewrite Forall_forall in *. intros x Hx. split; [apply Hu|apply Ht]; auto. }
  split; [|split]; auto.
  - unfold mk_mosaic. destruct tiles as [|t ts]; [congruence|]. cbn [hd] in HF. pose proof (Forall_inv HF) as H0.
    replace ((0 <=? Z.of_nat axis) && (Z.of_nat axis <? Z.of_nat (ndim t)))%Z with true by (destruct H0; lia). cbn [negb].
    rewrite Nat2Z.id. apply Forall_inv_tail in HF.
    match goal with |- context [mapM ?f ts] => assert (Em : mapM f ts = Ok (map (fun _ => tt) ts)) end.
    { clear - HF. induction ts as [|x ts IH]; auto. pose proof (Forall_inv HF) as (H1 & H2 & H3). cbn [mapM map].
      replace (ndim x <=? axis) with false by lia. rewrite H2, shape_eqb_refl, H3, Nat.eqb_refl. cbn [negb].
      rewrite IH by (inversion HF; auto). auto. }
    rewrite Em. auto.
  - assert (Hr : Forall (realisable maxc m HG fuel) tiles) by (eapply Forall_impl; [|apply Hu]; intros x Hx; apply Hx).
    clear Hu. destruct tiles as [|i0 tiles]; [congruence|]. pose proof (Forall_inv Hr) as H0. destruct fuel as [|f]; [destruct H0|].
    change (fold_right (fun it P => realisable maxc m HG (S f) it /\ P) True (i0 :: tiles)).
    apply fold_right_and_Forall. auto.
Qed.

Lemma mosaic_claim tiles axis t0 : Forall usable tiles -> Forall dt_stable tiles -> In t0 tiles ->
  axis < ndim t0 ->
  Forall (fun t => ndim t = ndim t0 /\ remove_at axis (shape t) = remove_at axis (shape t0) /\ dtype t = dtype t0) tiles ->
  exists b, mk_mosaic tiles (Z.of_nat axis) = Ok b /\ usable b
    /\ exists ds d, Forall2 reads tiles ds /\ reads b d
       /\ length (nshape d) = ndim t0
       /\ remove_at axis (nshape d) = remove_at axis (shape t0)
       /\ nth axis (nshape d) 0 = list_sum (map (fun t => nth axis (nshape t) 0) ds)
       /\ forall p idx d0, p < length ds -> inb (nshape (nth p ds d0)) idx ->
            nget d (set_nth axis (list_sum (map (fun t => nth axis (nshape t) 0) (firstn p ds)) + nth axis idx 0) idx)
            = nget (nth p ds d0) idx.
Proof.
  intros Hu Ht Hin Hax HF. assert (Hne : tiles <> []) by (intros ->; destruct Hin).
  assert (HF' : Forall (fun t => axis < ndim t /\ remove_at axis (shape t) = remove_at axis (shape (hd t tiles))
                   /\ dtype t = dtype (hd t tiles)) tiles).
  { destruct tiles as [|x tiles]; [congruence|]. rewrite Forall_forall in *. intros y Hy. cbn [hd].
    destruct (HF y Hy) as (A1 & A2 & A3), (HF x (or_introl eq_refl)) as (B1 & B2 & B3). repeat split; congruence || lia. }
  destruct (mosaic_usable tiles axis Hne Hu Ht HF') as [E1 E2]. exists (AMosaic tiles axis). split; auto. split; auto.
  destruct (reads_all tiles Hu) as (ds & R1 & R2). destruct (usable_reads _ E2) as (d & Ed & Dd).
  exists ds, d. split; auto. split; auto.
  assert (Hlens : map (fun t => nth axis (nshape t) 0) ds = map (fun t => nth axis (shape t) 0) tiles).
  { clear - R2 Hu. induction R2 as [|a d l ds H Hl IH]; auto. cbn [map]. rewrite IH by (inversion Hu; auto). f_equal.
    rewrite (proj1 H), den_shape by (apply (Forall_inv Hu)). auto. }
  assert (Hsh : nshape d = set_nth axis (list_sum (map (fun t => nth axis (shape t) 0) tiles)) (shape (hd t0 tiles))).
  { rewrite (proj1 Dd). rewrite den_shape by apply E2. destruct tiles as [|x tiles]; [congruence|]. cbn [shape hd map list_sum].
    rewrite fold_left_add_acc. auto. }
  assert (Hhd : In (hd t0 tiles) tiles) by (destruct tiles; [congruence|left; auto]).
  rewrite Forall_forall in HF. destruct (HF _ Hhd) as (A1 & A2 & A3). rewrite Hsh, Hlens, set_nth_length.
  split; [exact A1|]. split; [rewrite remove_set_nth; auto|]. split; [apply nth_set_nth_eq; fold (ndim (hd t0 tiles)); lia|].
  intros p idx d0 Hp Hi. assert (Hp' : p < length tiles) by (rewrite (Forall2_length _ _ _ R2); auto).
  pose proof (Forall2_nth _ _ _ t0 d0 p R2 Hp') as Hn. assert (HIn : In (nth p tiles t0) tiles) by (apply nth_In; auto).
  destruct (HF _ HIn) as (B1 & B2 & B3). rewrite Forall_forall in Hu. pose proof (proj1 (Hu _ HIn)) as Wn.
  assert (Hs : nshape (nth p ds d0) = shape (nth p tiles t0)) by (rewrite (proj1 Hn), den_shape; auto).
  pose proof (inb_length _ _ Hi) as Li. rewrite Hs in Li. fold (ndim (nth p tiles t0)) in Li.
  rewrite <- firstn_map, Hlens.
  pose proof (inb_nth _ _ axis Hi) as Hia. rewrite Hs in Hia. fold (ndim (nth p tiles t0)) in Hia. specialize (Hia ltac:(lia)).
  set (off := list_sum (firstn p (map (fun t => nth axis (shape t) 0) tiles))).
  assert (Hoff : off + nth axis idx 0 < list_sum (map (fun t => nth axis (shape t) 0) tiles)).
  { unfold off. apply sum_firstn_lt; [rewrite map_length; auto|]. rewrite (nth_map (fun t => nth axis (shape t) 0) tiles p 0 t0) by auto. auto. }
  rewrite (proj2 Dd).
  2:{ rewrite Hsh. apply inb_ext; [rewrite !set_nth_length; fold (ndim (hd t0 tiles)); lia|].
      rewrite set_nth_length. intros i Hi'. fold (ndim (hd t0 tiles)) in Hi'. destruct (Nat.eq_dec axis i) as [->|Ni].
      - rewrite !nth_set_nth_eq by (fold (ndim (hd t0 tiles)); lia). auto.
      - rewrite !nth_set_nth_neq by auto. pose proof (inb_nth _ _ i Hi) as Hii. rewrite Hs in Hii. fold (ndim (nth p tiles t0)) in Hii.
        specialize (Hii ltac:(lia)). enough (nth i (shape (hd t0 tiles)) 0 = nth i (shape (nth p tiles t0)) 0) by lia.
        unfold ndim in *. rewrite <- (nth_set_nth_neq axis i 0 0 (shape (hd t0 tiles)) Ni), <- (nth_set_nth_neq axis i 0 0 (shape (nth p tiles t0)) Ni).
        f_equal. rewrite (set_nth_split axis 0 0 (shape (hd t0 tiles))), (set_nth_split axis 0 0 (shape (nth p tiles t0))) by lia.
        unfold remove_at in A2, B2. rewrite <- B2 in A2. assert (HLf : length (firstn axis (shape (hd t0 tiles))) = length (firstn axis (shape (nth p tiles t0)))) by (rewrite !firstn_length; lia).
        destruct (app_inj _ _ _ _ HLf A2) as [-> ->]; auto. }
  cbn [den nd_concat nget].
  rewrite (concat_at _ axis _ p (nth axis idx 0) (mkND [] (fun _ => None))).
  - rewrite (nth_map (den O m) tiles p _ t0) by auto. rewrite set_nth_set_nth, set_nth_same. symmetry. apply (proj2 Hn). auto.
  - rewrite set_nth_length. lia.
  - rewrite map_length. auto.
  - rewrite (nth_map (den O m) tiles p _ t0) by auto. rewrite den_shape; auto.
  - rewrite nth_set_nth_eq by lia. f_equal. rewrite map_map.
    rewrite (map_ext_in (fun x => nth axis (nshape (den O m x)) 0) (fun t => nth axis (shape t) 0)); auto.
    intros x Hx. rewrite den_shape; auto. apply Hu; auto.
Qed.

(** ** New axes *)
Lemma newax_claim a na : usable a -> length na = S (ndim a) ->
  exists b, mk_newax a na = Ok b /\ usable b
    /\ exists da db, reads a da /\ reads b db /\ nshape db = newax_layout 1 (nshape da) na
       /\ forall idx, inb (nshape da) idx -> nget db (newax_layout 0 idx na) = nget da idx.
Proof.
  intros Hu HL. exists (ANewAx a na). unfold mk_newax. replace (ndim a + 1 =? length na) with true by lia. split; auto.
  assert (Hb : usable (ANewAx a na)). { destruct Hu as [H1 H2]. split; [split; auto|]. destruct fuel; auto. }
  split; auto. destruct (usable_reads a Hu) as (da & Ea & Da). destruct (usable_reads _ Hb) as (db & Eb & Db).
  exists da, db. split; auto. split; auto. pose proof (den_shape O m a (proj1 Hu)) as Hd.
  assert (Hsh : nshape db = newax_layout 1 (nshape da) na).
  { rewrite (proj1 Db), den_shape by apply Hb. cbn [shape]. rewrite (proj1 Da), Hd. auto. }
  split; auto. intros idx Hi.
  assert (HLs : length na = S (length (nshape da))) by (rewrite (proj1 Da), Hd; auto).
  assert (Hin : inb (newax_layout 1 (nshape da) na) (newax_layout 0 idx na)).
  { clear - Hi HLs. revert HLs Hi. generalize (nshape da). intros sh. revert idx sh. induction na as [|k na IH]; intros idx sh HL Hi.
    - simpl in HL. lia.
    - assert (H1 : inb (repeat 1 k) (repeat 0 k)) by (clear; induction k; constructor; auto).
      destruct sh as [|n sh]; inversion Hi; subst; cbn [newax_layout]; (apply inb_app; [rewrite !repeat_length; auto|]; split; auto).
      constructor; auto. apply IH; auto. }
  rewrite (proj2 Db) by (rewrite Hsh; auto). cbn [den nd_sel nget]. rewrite (proj2 Da) by auto. f_equal.
  rewrite <- (proj1 Da). clear - Hi HLs. revert HLs Hi. generalize (nshape da). intros sh. revert idx sh.
  induction na as [|k na IH]; intros idx sh HL Hi; [simpl in HL; lia|].
  assert (HK : forall s o, sel_map (repeat DNew k ++ s) (repeat 0 k ++ o) = sel_map s o) by (clear; induction k; simpl; auto).
  destruct sh as [|n sh]; inversion Hi; subst; unfold full_sels; cbn [newax_layout map]; rewrite HK; [auto|].
  cbn [sel_map]. rewrite seq_nth by auto. cbn [Nat.add]. f_equal. apply IH; auto.
Qed.

(** ** Casts and value masks *)
Lemma astype_claim a d : usable a ->
  dtype (astype a d) = d /\ (forall d', astype (astype a d') d = astype a d)
  /\ usable (AAsTy a d)
  /\ exists da db, reads a da /\ reads (AAsTy a d) db /\ nshape db = nshape da
     /\ forall idx, inb (nshape da) idx ->
          nget db idx = match nget da idx with Some v => Some (vcast O d v) | None => None end.
Proof.
  intros Hu. split; [destruct a; auto|]. split; [intros; destruct a; auto|].
  assert (Hb : usable (AAsTy a d)). { destruct Hu as [H1 H2]. split; auto. destruct fuel; auto. }
  split; auto. destruct (usable_reads a Hu) as (da & Ea & Da). destruct (usable_reads _ Hb) as (db & Eb & Db).
  exists da, db. split; auto. split; auto. split; [rewrite (proj1 Db), (proj1 Da); auto|].
  intros idx Hi. rewrite (proj2 Db) by (rewrite (proj1 Db); cbn [den nd_map nshape]; rewrite <- (proj1 Da); auto).
  cbn [den nd_map nget]. rewrite (proj2 Da) by auto. auto.
Qed.

Lemma masked_equal_claim a v : usable a ->
  usable (masked_equal a v)
  /\ exists da db, reads a da /\ reads (masked_equal a v) db /\ nshape db = nshape da
     /\ forall idx, inb (nshape da) idx ->
          nget db idx = match nget da idx with
                        | Some x => if m && veqb O x v then None else Some x
                        | None => None
                        end.
Proof.
  intros Hu. assert (Hb : usable (AMaskV a v)). { destruct Hu as [H1 H2]. split; auto. destruct fuel; auto. }
  split; auto. destruct (usable_reads a Hu) as (da & Ea & Da). destruct (usable_reads _ Hb) as (db & Eb & Db).
  exists da, db. split; auto. split; auto. split; [rewrite (proj1 Db), (proj1 Da); auto|].
  intros idx Hi. rewrite (proj2 Db) by (rewrite (proj1 Db); cbn [den nd_map nshape]; rewrite <- (proj1 Da); auto).
  cbn [den nd_map nget]. rewrite (proj2 Da) by auto. unfold eq_mask. destruct (nget _ idx); auto. destruct m; auto.
Qed.

End Class.
