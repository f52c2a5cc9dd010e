(** Properties C73 and C74: arrays handed to NumPy, by conversion and as the right
    operand of NumPy's own operators. *)
From Verif Require Import Base PySlice Keys NDArray Arrays Chunks Handlers Realise Spec Supported Lib SelLemmas HandlerLemmas RealOps Realisable RealiseOK ClassClaims BroadcastClaims Programs ProgramClaims GetBase GetItem Samples SmallClaims Small HeapClaims PropBounds PropRefuted PropSmall MaskSpec MaskAgree PropMask PropPrograms NumpyLeft.

Section C73.
Context {V : Type} (O : numops V) (maxc : nat) (garbage : list nat -> option V) (fuel : nat).
Implicit Types a : @barr V.
Notation asarray := (np_asarray O maxc garbage fuel).
Notation ma_asarray := (np_ma_asarray O maxc garbage fuel).
Notation result m a := (realise O maxc garbage fuel m a).

Lemma C73_asarray a : asarray a None = result false a.
Proof. unfold np_asarray, array_method. destruct (realise O maxc garbage fuel false a); auto. Qed.
Lemma C73_dtype a d : asarray a (Some d) =
  match result false a with Ok r => Ok (nd_map (map_cell (vcast O d)) r) | Err e => Err e end.
Proof. unfold np_asarray, array_method. destruct (realise O maxc garbage fuel false a); auto. Qed.
(** C73: np.asarray(a) has the array's values, converted when a dtype is given. *)
Theorem C73_values_partial a : wf a -> realisable maxc false (exact O) fuel a ->
  exists r, asarray a None = Ok r /\ nd_eq r (den O false a)
  /\ forall d, exists s, asarray a (Some d) = Ok s /\ nd_eq s (nd_map (map_cell (vcast O d)) (den O false a)).
Proof.
  intros Hw HR. destruct (realise_ok O maxc garbage false (exact O) (exact_right O false) fuel a Hw HR) as (r & E & D).
  exists r. rewrite C73_asarray. split; auto. split; auto. intros d. rewrite C73_dtype, E. eexists. split; [reflexivity|]. apply nd_map_eq; auto.
Qed.
(** C73: np.asarray(a, dtype) is what a.astype(dtype).ndarray() gives, errors
    included, unless [a] is itself the result of astype. *)
Theorem C73_astype a d : fuel <> 0 -> (forall c e, a <> AAsTy c e) -> asarray a (Some d) = result false (astype a d).
Proof.
  intros Hf Ha. rewrite C73_dtype. assert (E : astype a d = AAsTy a d) by (destruct a; auto; exfalso; eapply Ha; eauto).
  rewrite E. clear E. destruct fuel as [|f]; [congruence|]. destruct a; reflexivity.
Qed.
(** For the result of astype: exactly when converting in two steps makes no
    difference to the values there are. *)
Theorem C73_astype_again c d0 d r : fuel <> 0 -> result false c = Ok r ->
  exists r1 r2, asarray (AAsTy c d0) (Some d) = Ok r1 /\ result false (astype (AAsTy c d0) d) = Ok r2
    /\ (nd_eq r1 r2 <-> forall i v, inb (nshape r) i -> nget r i = Some v -> vcast O d (vcast O d0 v) = vcast O d v).
Proof.
  intros Hf E. assert (Q : forall e, result false (AAsTy c e) = Ok (nd_map (map_cell (vcast O e)) r)).
  { intros e. destruct fuel as [|f]; [congruence|]. cbn [realise] in *. rewrite E. reflexivity. }
  rewrite C73_dtype. cbn [astype]. rewrite !Q. eexists _, _. split; [reflexivity|]. split; [reflexivity|]. split.
  - intros [_ H] i v Hi Hv. specialize (H i Hi). cbn [nget nd_map] in H. rewrite Hv in H. cbn in H. congruence.
  - intros H. split; auto. intros i Hi. cbn [nget nd_map nshape] in *. destruct (nget r i) as [v|] eqn:Ev; cbn; auto. rewrite (H i v); auto.
Qed.

(** C73: np.ma.asarray(a) is a.masked_array() when nothing is masked; for arrays
    that only rearrange source data exactly then, because the masked elements come
    out as unmasked fill values. *)
Theorem C73_ma_partial a : wf a -> never_masked O a ->
  realisable maxc false (exact O) fuel a -> realisable maxc true (exact O) fuel a ->
  exists r e, ma_asarray a None = Ok r /\ result true a = Ok e /\ nd_eq r e.
Proof.
  intros Hw Hn H1 H2. destruct (C60_unmasked_partial O maxc garbage fuel a Hw Hn H1 H2) as (d & e & E1 & E2 & E3 & _).
  exists d, e. split; auto. unfold np_ma_asarray. change (asarray a None = Ok d). rewrite C73_asarray. auto.
Qed.
Theorem C73_ma_rearranged f a : wf a -> rearranged O f a ->
  realisable maxc false (exact O) fuel a -> realisable maxc true (exact O) fuel a ->
  exists r e, ma_asarray a None = Ok r /\ result true a = Ok e
    /\ (nd_eq r e <-> forall i, inb (nshape e) i -> nget e i <> None)
    /\ forall i, inb (nshape e) i -> nget e i = None -> nget r i = Some f.
Proof.
  intros Hw Hr H1 H2. destruct (C60_filled_partial O maxc garbage f fuel a Hw Hr H1 H2) as (d & e & E1 & E2 & E3 & E4).
  cbn [filled nshape nget nd_map] in E3, E4.
  exists d, e. split; [unfold np_ma_asarray; change (asarray a None = Ok d); rewrite C73_asarray; auto|]. split; auto. split.
  - split.
    + intros [_ H] i Hi Hx. rewrite <- E3 in Hi. specialize (H i Hi). rewrite (E4 i Hi), Hx in H. discriminate.
    + intros H. split; auto. intros i Hi. rewrite (E4 i Hi). rewrite E3 in Hi. specialize (H i Hi). destruct (nget e i); [reflexivity|congruence].
  - intros i Hi Hx. rewrite <- E3 in Hi. rewrite (E4 i Hi), Hx. reflexivity.
Qed.
End C73.
Print Assumptions C73_values_partial.
Print Assumptions C73_astype.
Print Assumptions C73_astype_again.
Print Assumptions C73_ma_partial.
Print Assumptions C73_ma_rearranged.

(** Masked elements come out as numbers. *)
Definition zg : list nat -> option Z := fun _ => None.
Theorem C73_ma_refuted : exists (a : @barr Z) r e, np_ma_asarray z_ops 100 zg 3 a None = Ok r /\ realise z_ops 100 zg 3 true a = Ok e
  /\ nget e [0] = None /\ nget r [0] <> None.
Proof. exists (marr [2]). eexists _, _. split; [reflexivity|]. split; [reflexivity|]. split; [reflexivity|]. vm_compute. discriminate. Qed.
(** Converting twice is not converting once.  Casting to dtype 1 halves. *)
Theorem C73_astype_refuted : exists (a : @barr Z) r1 r2, np_asarray half_ops 100 zg 3 (astype a 1) (Some 0) = Ok r1
  /\ realise half_ops 100 zg 3 false (astype (astype a 1) 0) = Ok r2 /\ ~ nd_eq r1 r2.
Proof.
  exists (arr [4]). eexists _, _. split; [reflexivity|]. split; [reflexivity|]. intros [_ H]. specialize (H [3]).
  assert (Hi : inb [4] [3]) by (constructor; [lia|constructor]). specialize (H Hi). vm_compute in H. discriminate.
Qed.
Print Assumptions C73_ma_refuted.
Print Assumptions C73_astype_refuted.
(** A mosaic of masked sources meets the hypotheses of C73_ma_rearranged, one of
    unmasked sources those of C73_ma_partial. *)
Example C73_case : wf (AMosaic [marr [2]; marr [3]] 0) /\ rearranged z_ops (-1)%Z (AMosaic [marr [2]; marr [3]] 0)
  /\ realisable 100 false (exact z_ops) 3 (AMosaic [marr [2]; marr [3]] 0) /\ realisable 100 true (exact z_ops) 3 (AMosaic [marr [2]; marr [3]] 0)
  /\ flat (np_ma_asarray z_ops 100 zg 3 (AMosaic [marr [2]; marr [3]] 0) None) = Ok ([5], map Some [-1;1;-1;1;2]%Z)
  /\ flat (realise z_ops 100 zg 3 true (AMosaic [marr [2]; marr [3]] 0)) = Ok ([5], [None; Some 1; None; Some 1; Some 2]%Z)
  /\ never_masked z_ops (AMosaic [arr [2]; arr [3]] 0).
Proof.
  split; [wfs|]. split; [repeat split|]. assert (N : numpy_ok []) by (unfold numpy_ok, one_seq; cbn; auto).
  assert (R : forall m k, (false = true \/ numpy_ok []) /\ (m = true \/ shape (marr [S k]) <> [] \/ forall i, c_cell (thirds [S k]) i <> None)).
  { intros m k. split; auto. right. left. discriminate. }
  split; [split; [apply R|split; [apply R|exact I]]|]. split; [split; [apply R|split; [apply R|exact I]]|]. split; [reflexivity|]. split; [reflexivity|].
  cbn. repeat split; discriminate.
Qed.

Section C74.
Context {V : Type} (O : numops V) (maxc : nat) (garbage : list nat -> option V) (fuel : nat).
Notation barr := (@barr V).
Notation concrete := (@concrete V).
Implicit Types (a : barr) (x : @lhs V).
Notation left_op := (left_op O maxc garbage fuel).
Notation reads m a d := (realise O maxc garbage fuel m a = Ok d).
Notation usable m := (usable maxc m (exact O) fuel).

(** [a] is a source, or a source under wrappers (new axes, broadcasting, casting,
    masking a value, transposition); stacks, mosaics, constants and computed arrays
    are not. *)
Inductive reaches : barr -> concrete -> Prop :=
| R_source o c ks : reaches (AAdapt o c ks) c
| R_newaxes a na c : reaches a c -> reaches (ANewAx a na) c
| R_broadcast a d l c : reaches a c -> reaches (ABcast a d l) c
| R_astype a d c : reaches a c -> reaches (AAsTy a d) c
| R_masked_equal a v c : reaches a c -> reaches (AMaskV a v) c
| R_transpose a l c : reaches a c -> reaches (ATrans a l) c.
(** NumPy's rule: the right operand takes over if its priority is the higher one. *)
Definition outranks (rank : concrete -> option Z) x a : Prop :=
  exists c p, reaches a c /\ rank c = Some p /\ (match x with LNum _ _ => -1000000 | LArr _ => 0 | LMa _ => 15 end < p)%Z.
(** No element of the left operand is masked. *)
Definition plain x : Prop := forall i, nget (lhs_nd x) i <> None.
(** The left operand as a biggus Array. *)
Definition as_array x : barr := match x with LNum v d => AConst [] v d | LArr c | LMa c => AAdapt false c [] end.

Lemma priority_reaches rank a : match array_priority rank a with Some p => exists c, reaches a c /\ rank c = Some p | None => forall c, reaches a c -> rank c = None end.
Proof.
  induction a; cbn [array_priority]; try (intros c' H; inversion H; fail).
  - destruct (rank c) eqn:E; [exists c; split; [constructor|auto]|]. intros c' H. inversion H; subst; auto.
  - destruct (array_priority rank a); [destruct IHa as (c & H1 & H2); exists c; split; [constructor|]; auto|]. intros c' H. inversion H; subst; auto.
  - destruct (array_priority rank a); [destruct IHa as (c & H1 & H2); exists c; split; [constructor|]; auto|]. intros c' H. inversion H; subst; auto.
  - destruct (array_priority rank a); [destruct IHa as (c & H1 & H2); exists c; split; [constructor|]; auto|]. intros c' H. inversion H; subst; auto.
  - destruct (array_priority rank a); [destruct IHa as (c & H1 & H2); exists c; split; [constructor|]; auto|]. intros c' H. inversion H; subst; auto.
  - destruct (array_priority rank a); [destruct IHa as (c & H1 & H2); exists c; split; [constructor|]; auto|]. intros c' H. inversion H; subst; auto.
Qed.
Lemma reaches_one a c c' : reaches a c -> reaches a c' -> c = c'.
Proof. intros H. revert c'. induction H; intros c' H'; inversion H'; subst; auto. Qed.
Lemma outranks_iff rank x a :
  (lhs_priority x <? match array_priority rank a with Some p => p | None => np_default end)%Z = true <-> outranks rank x a.
Proof.
  rewrite Z.ltb_lt. pose proof (priority_reaches rank a) as P. unfold outranks. fold (lhs_priority x). destruct (array_priority rank a) as [p|].
  - destruct P as (c & P1 & P2). split; [exists c, p; auto|]. intros (c' & p' & H1 & H2 & H3). rewrite (reaches_one _ _ _ H1 P1) in H2.
    assert (p' = p) by congruence. subst. auto.
  - split; [intros H; exfalso; destruct x; cbn in H; unfold np_default in H; lia|]. intros (c' & p' & H1 & H2 & H3). rewrite (P _ H1) in H2. discriminate.
Qed.

Lemma left_lazy u o rank x a : outranks rank x a ->
  left_op u o rank x a = match mk_el2 (operation u o) (as_array x) a None with Ok e => Ok (Lazy e) | Err e => Err e end.
Proof.
  intros H. unfold NumpyLeft.left_op. rewrite (proj2 (outranks_iff rank x a) H). unfold rop_method, elementwise2.
  assert (E : ensure_array (lhs_operand x) = Ok (as_array x)) by (destruct x; auto). rewrite E. cbn [ensure_array bind py_of].
  rewrite not_impl_id by apply mk_el2_not_type. replace (method_fun u o) with (operation u o) by (destruct o; auto).
  destruct (mk_el2 _ _ a None); auto.
Qed.
Lemma left_now u o rank x a : ~ outranks rank x a ->
  left_op u o rank x a = (d <- realise O maxc garbage fuel false a ;; r <- np_op2 (op2_sem (lhs_masked x) (operation u o)) (lhs_nd x) d ;; Ok (Now (lhs_masked x) r)).
Proof.
  intros H. unfold NumpyLeft.left_op. destruct (_ <? _)%Z eqn:E; [apply outranks_iff in E; contradiction|]. unfold array_method.
  replace (method_fun u o) with (operation u o) by (destruct o; auto). destruct (realise O maxc garbage fuel false a); auto.
Qed.

Lemma lhs_usable m x : fuel <> 0 -> m = true \/ plain x -> usable m (as_array x).
Proof.
  intros Hf H. split.
  - destruct x; cbn [as_array wf]; auto; (split; [constructor|]); unfold valid_keys, oselect, np_expand; cbn; rewrite Nat.sub_0_r, sel_keys_full; discriminate.
  - destruct fuel as [|f]; [congruence|]. assert (numpy_ok []) by (unfold numpy_ok, one_seq; cbn; auto).
    destruct x as [v d|c|c]; [exact I|cbn; split; auto; destruct H; auto|cbn; split; auto; destruct H; auto].
Qed.
Lemma lhs_den m x : m = true \/ plain x -> nd_eq (den O m (as_array x)) (lhs_nd x).
Proof.
  intros H. assert (Hc : forall c, m = true \/ (forall i, c_cell c i <> None) -> nd_eq (den O m (AAdapt false c [])) (mkND (c_shape c) (c_cell c))).
  { intros c H'. cbn [den]. eapply nd_eq_trans; [apply nd_map_eq; unfold oindex, oselect, np_expand; cbn; rewrite Nat.sub_0_r, sel_keys_full; apply nd_sel_full|].
    split; auto. intros i _. cbn. destruct H' as [->|H']; [cbn; destruct (c_cell c i); auto|]. specialize (H' i). destruct (c_cell c i); [destruct m; auto|congruence]. }
  destruct x as [v d|c|c]; [apply nd_eq_refl|apply Hc; destruct H; auto|apply Hc; destruct H; auto].
Qed.

(** C74: whether [x op a] is a biggus Array depends on [a]'s class and its source's
    priority, exactly like this, and on nothing else. *)
Theorem C74_who u o rank x a :
  (outranks rank x a -> forall m r, left_op u o rank x a <> Ok (Now m r))
  /\ (~ outranks rank x a -> forall e, left_op u o rank x a <> Ok (Lazy e)).
Proof.
  split; intros H.
  - rewrite left_lazy by auto. intros m r. destruct (mk_el2 _ _ _ _); discriminate.
  - rewrite left_now by auto. intros e. destruct (realise _ _ _ _ _ _); [cbn [bind]|discriminate]. destruct (np_op2 _ _ _); discriminate.
Qed.

(** C74: if [a] takes over: a biggus Array with NumPy's values, and masks, as for
    any operation between arrays (C09). *)
Theorem C74_lazy_partial u o rank x a full m : fuel <> 0 -> outranks rank x a -> m = true \/ plain x -> usable m a ->
  np_bshape (nshape (lhs_nd x)) (shape a) = Some full -> broadcastable (as_array x) full -> broadcastable a full ->
  (forall e, left_op u o rank x a = Ok (Lazy e) -> realisable maxc m (exact O) fuel e) ->
  exists e da r, left_op u o rank x a = Ok (Lazy e) /\ reads m a da /\ reads m e r /\ nshape r = full
    /\ forall i, inb full i -> nget r i = op2_sem m (operation u o) (nget (lhs_nd x) (bc_idx (nshape (lhs_nd x)) i)) (nget da (bc_idx (nshape da) i)).
Proof.
  intros Hf Ho Hx Ha E B1 B2 HR. pose proof (lhs_usable m x Hf Hx) as Hu. pose proof (lhs_den m x Hx) as [D1 D2].
  assert (Sx : shape (as_array x) = nshape (lhs_nd x)) by (rewrite <- D1; symmetry; apply den_shape; apply Hu).
  rewrite left_lazy in HR |- * by auto.
  destruct (mk_el2_claim O maxc garbage m (exact O) fuel (exact_right O m) (operation u o) (as_array x) a None full Hu Ha B1 B2 ltac:(congruence)) as (e & dx & da & r & E1 & E2 & E3 & E4 & E5 & E6).
  { intros e He. apply HR. rewrite He. auto. }
  exists e, da, r. rewrite E1. split; auto. split; auto. split; auto. split; auto. intros i Hi. rewrite E6 by auto. f_equal.
  destruct (reads_den O maxc garbage m (exact O) fuel (exact_right O m) _ _ Hu E2) as [F1 F2]. rewrite F1, D1. rewrite F2, D2; auto.
  - rewrite D1. apply (stretches_inb _ full); auto. apply np_bshape_stretch in E. tauto.
  - rewrite F1, D1. apply (stretches_inb _ full); auto. apply np_bshape_stretch in E. tauto.
Qed.

(** C74: otherwise [a] is evaluated at once, to its plain values: masked elements
    take part as their fill values.  With an unmasked [x] the result is what
    [ndarray()] of the lazy operation would give. *)
Theorem C74_now_partial u o rank x a full : ~ outranks rank x a -> usable false a ->
  np_bshape (nshape (lhs_nd x)) (shape a) = Some full ->
  exists da r, left_op u o rank x a = Ok (Now (match x with LMa _ => true | _ => false end) r) /\ reads false a da /\ nshape r = full
    /\ forall i, inb full i -> nget r i = op2_sem (match x with LMa _ => true | _ => false end) (operation u o)
         (nget (lhs_nd x) (bc_idx (nshape (lhs_nd x)) i)) (nget da (bc_idx (nshape da) i)).
Proof.
  intros Ho Ha E. destruct (usable_reads O maxc garbage false (exact O) fuel (exact_right O false) a Ha) as (da & E1 & D1 & D2). unfold ClassClaims.reads in E1.
  rewrite left_now by auto. rewrite E1. cbn [bind]. unfold np_op2. rewrite D1, den_shape, E by apply Ha. cbn [bind]. fold (lhs_masked x).
  exists da. eexists. split; [reflexivity|]. split; auto. cbn [nshape nget]. split; auto. intros i Hi. rewrite D1, den_shape by apply Ha. auto.
Qed.
Theorem C74_as_ndarray_partial u o rank x a full : fuel <> 0 -> ~ outranks rank x a -> plain x -> (forall c, x <> LMa c) -> usable false a ->
  np_bshape (nshape (lhs_nd x)) (shape a) = Some full -> broadcastable (as_array x) full -> broadcastable a full ->
  (forall e, mk_el2 (operation u o) (as_array x) a None = Ok e -> realisable maxc false (exact O) fuel e) ->
  exists e r re, left_op u o rank x a = Ok (Now false r) /\ mk_el2 (operation u o) (as_array x) a None = Ok e /\ reads false e re /\ nd_eq r re.
Proof.
  intros Hf Ho Hx Hm Ha E B1 B2 HR. destruct (C74_now_partial u o rank x a full Ho Ha E) as (da & r & E1 & E2 & E3 & E4).
  pose proof (lhs_usable false x Hf (or_intror Hx)) as Hu. pose proof (lhs_den false x (or_intror Hx)) as [D1 D2].
  assert (Sx : shape (as_array x) = nshape (lhs_nd x)) by (rewrite <- D1; symmetry; apply den_shape; apply Hu).
  destruct (mk_el2_claim O maxc garbage false (exact O) fuel (exact_right O false) (operation u o) (as_array x) a None full Hu Ha B1 B2 ltac:(congruence) HR) as (e & dx & da' & re & F1 & F2 & F3 & F4 & F5 & F6).
  unfold ClassClaims.reads in *. assert (da' = da) by congruence. subst da'.
  assert (M : match x with LMa _ => true | _ => false end = false) by (destruct x; auto; exfalso; eapply Hm; eauto). rewrite M in *.
  exists e, r, re. split; auto. split; auto. split; auto. split; [congruence|]. intros i Hi. rewrite E3 in Hi. rewrite E4, F6 by auto. f_equal.
  destruct (reads_den O maxc garbage false (exact O) fuel (exact_right O false) _ _ Hu F2) as [G1 G2]. rewrite G1, D1. rewrite G2, D2; auto.
  - rewrite D1. apply (stretches_inb _ full); auto. apply np_bshape_stretch in E. tauto.
  - rewrite G1, D1. apply (stretches_inb _ full); auto. apply np_bshape_stretch in E. tauto.
Qed.
(** A masked left operand, when nothing in [a] is masked: the result is what
    [masked_array()] of the lazy operation would give. *)
Theorem C74_as_masked_partial u o rank c a full : fuel <> 0 -> ~ outranks rank (LMa c) a -> never_masked O a -> usable false a -> usable true a ->
  np_bshape (c_shape c) (shape a) = Some full -> broadcastable (as_array (LMa c)) full -> broadcastable a full ->
  (forall e, mk_el2 (operation u o) (as_array (LMa c)) a None = Ok e -> realisable maxc true (exact O) fuel e) ->
  exists e r re, left_op u o rank (LMa c) a = Ok (Now true r) /\ mk_el2 (operation u o) (as_array (LMa c)) a None = Ok e /\ reads true e re /\ nd_eq r re.
Proof.
  intros Hf Ho Hn Ha Ht E B1 B2 HR. destruct (C74_now_partial u o rank (LMa c) a full Ho Ha E) as (da & r & E1 & E2 & E3 & E4).
  pose proof (lhs_usable true (LMa c) Hf (or_introl eq_refl)) as Hu. pose proof (lhs_den true (LMa c) (or_introl eq_refl)) as [D1 D2].
  assert (Sx : shape (as_array (LMa c)) = c_shape c) by (rewrite <- (den_shape O true) by apply Hu; exact D1).
  destruct (mk_el2_claim O maxc garbage true (exact O) fuel (exact_right O true) (operation u o) (as_array (LMa c)) a None full Hu Ht B1 B2 ltac:(congruence) HR) as (e & dx & dt & re & F1 & F2 & F3 & F4 & F5 & F6).
  unfold ClassClaims.reads in *. destruct (C60_unmasked_partial O maxc garbage fuel a (proj1 Ha) Hn (proj2 Ha) (proj2 Ht)) as (d1 & d2 & G1 & G2 & [G3 G4] & G5 & _).
  assert (d1 = da) by congruence. assert (d2 = dt) by congruence. subst d1 d2. apply np_bshape_stretch in E as (K1 & K2 & _).
  exists e, r, re. split; auto. split; auto. split; auto. split; [congruence|]. intros i Hi. rewrite E3 in Hi. rewrite E4, F6 by auto. f_equal.
  - destruct (reads_den O maxc garbage true (exact O) fuel (exact_right O true) _ _ Hu F2) as [H1 H2]. rewrite H1, D1. rewrite H2, D2; auto.
    + rewrite D1. apply (stretches_inb _ full); auto.
    + rewrite H1, D1. apply (stretches_inb _ full); auto.
  - rewrite G3. apply G4. rewrite G3, G5. apply (stretches_inb _ full); auto.
Qed.
End C74.
Print Assumptions C74_who.
Print Assumptions C74_lazy_partial.
Print Assumptions C74_now_partial.
Print Assumptions C74_as_ndarray_partial.
Print Assumptions C74_as_masked_partial.

(** NumPy sources: masked arrays have priority 15, others 0. *)
Definition np_rank (c : @concrete Z) : option Z := match c_fill c with Some _ => Some 15%Z | None => Some 0%Z end.
Definition adds : ufuncs Z := mkU zadd2 zadd2 zadd2 zadd2 zadd2 zadd2 zadd2.
(** C74: an array added to a mosaic with masked data: the sum is evaluated at once
    and has numbers where the same sum as a biggus Array is masked; written the
    other way round it is that biggus Array. *)
Theorem C74_masks_refuted : exists (x : @lhs Z) (a : @barr Z) r e e' re,
  wf a /\ left_op z_ops 100 zg 3 adds OpAdd np_rank x a = Ok (Now false r)
  /\ mk_el2 zadd2 (as_array x) a None = Ok e /\ realise z_ops 100 zg 3 true e = Ok re /\ nget re [0] = None /\ nget r [0] <> None
  /\ binary adds OpAdd (PArr a) (lhs_operand x) = Ok e'.
Proof.
  exists (LArr (numbered [4])), (AMosaic [marr [2]; marr [2]] 0). eexists _, _, _, _. split; [wfs|]. do 3 (split; [reflexivity|]).
  split; [reflexivity|]. split; [vm_compute; discriminate|]. reflexivity.
Qed.
Print Assumptions C74_masks_refuted.
(** A number plus a wrapped source is lazy, plus a mosaic is not; an array gives
    way to a masked source only; a masked array to nothing. *)
Example C74_case :
  let a := ATrans (arr [2;3]) [1;0] in let b := AMosaic [arr [2]; marr [2]] 0 in let x := numbered [2] in
  outranks np_rank (LNum 5%Z 0) a /\ ~ outranks np_rank (LNum 5%Z 0) b
  /\ ~ outranks np_rank (LArr x) a /\ outranks np_rank (LArr x) (ATrans (marr [2;3]) [1;0]) /\ ~ outranks np_rank (LMa x) (marr [2])
  /\ flat (r <- left_op z_ops 100 zg 3 adds OpAdd np_rank (LNum 5%Z 0) a ;; match r with Lazy e => realise z_ops 100 zg 3 true e | Now _ r => Err TypeError end)
     = Ok ([3;2], map Some [5;8;6;9;7;10]%Z)
  /\ flat (r <- left_op z_ops 100 zg 3 adds OpAdd np_rank (LArr x) a ;; match r with Lazy e => Err TypeError | Now _ r => Ok r end)
     = Ok ([3;2], map Some [0;4;1;5;2;6]%Z)
  /\ flat (r <- left_op z_ops 100 zg 3 adds OpAdd np_rank (LMa (thirds [4])) b ;; match r with Lazy e => Err TypeError | Now _ r => Ok r end)
     = Ok ([4], [None; Some 2; Some 1; None]%Z)
  /\ plain (LArr x) /\ broadcastable a [3;2] /\ broadcastable (as_array (LArr x)) [3;2].
Proof.
  cbv zeta. repeat split; try reflexivity; try (rewrite <- outranks_iff; vm_compute; congruence).
  - intros i. cbn. discriminate.
  - left. intros a0 d0 l0 H; discriminate.
  - constructor.
  - left. intros a0 d0 l0 H; discriminate.
  - repeat constructor.
Qed.
