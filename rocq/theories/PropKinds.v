(** PropKinds: properties C56 and C57, about the finer model MaskKinds.v: what
    the kind of mask and the dtype of a source do to sums and means, and to
    masked_array() through wrapping classes. *)
From Verif Require Import Base PySlice Keys NDArray Arrays Chunks Handlers Realise Spec Supported Lib SelLemmas KeyLemmas GetBase ChunkLemmas HandlerLemmas Realisable StreamLemmas RealOK Compose BuiltClaims Fuel MaskKinds KindClaims SteadyClaims Samples PropSources.

Section C56.
Context {V : Type} (O : numops V) (L : laws O).
Variable maxc : nat.
Variable garbage : list nat -> option V.
Variable T : @traits V.
Notation barr := (@barr V).
Notation rz := (realise O maxc garbage).
Notation krz := (krealise O maxc garbage T).

(** Over sources without computation, whatever the finer model computes has the
    data of the main model: it only raises more often. *)
Theorem C56_same f m a d k : shallow a = true -> krz (S (S f)) m a = Ok (d, k) -> rz (S (S f)) m a = Ok d.
Proof. apply krealise_same. Qed.

(** Expressions whose sums and means all pass the criterion [guaranteed] are
    computed, with the values [D] they stream in the main model. *)
Theorem C56_expressions f m a D q : streamed a = true -> streams O maxc garbage (S f) m a D -> guaranteed T m a = Some q ->
  exists d k, krz (S (S f)) m a = Ok (d, k) /\ nd_eq d D.
Proof. intros Hs H E. eapply kstreams_realise; auto. eapply guaranteed_streams; eauto. Qed.

(** The sum of a NumPy masked array with a mask array, over any axis. *)
Theorem C56_masked_source f o c axis d : t_bare T c = false -> t_cls T (c_dtype c) <> DBool -> Forall (fun n => 1 <= n) (c_shape c) ->
  axis < length (c_shape c) ->
  exists r k, krz (S (S f)) true (AAgg GSum (AAdapt o c []) axis d) = Ok (r, k) /\ nshape r = remove_at axis (c_shape c)
    /\ forall i, inb (nshape r) i ->
         let column := map (fun j => c_cell c (insert_at axis j i)) (seq 0 (nth axis (c_shape c) 0)) in
         nget r i = if length (obs column) =? 0 then None else Some (total O (obs column)).
Proof.
  intros Hb Hc Hp Hax. set (a := AAdapt o c []).
  destruct (shape_fresh O true o c) as [_ Hs].
  assert (HB : blocks_right O maxc garbage (S f) true a (data_of O true c)) by (apply fresh_source; auto; lia).
  pose proof (fresh_over O maxc garbage (S f) true (linear O) o c ltac:(lia) Hp (or_introl eq_refl)) as HO. fold a in HO.
  destruct (over_agg_claim O maxc garbage (S f) true (linear O) (linear_right O true) _ _ _ _ GSum axis d L HO Hax) as (r & Er & R1 & R2).
  destruct (over_streams O maxc garbage (S f) true (linear O) (linear_right O true) _ _ _ _ (over_agg O maxc garbage (S f) true (linear O) _ _ _ _ GSum axis d L HO Hax)) as (HS & _).
  assert (HG : guaranteed T true (AAgg GSum a axis d) = Some Full).
  { cbn [guaranteed]. change (guaranteed T true a) with (Some (source_kind T a)). unfold source_kind. cbn [masked_source a]. rewrite Hb. cbn [negb].
    unfold ndim. fold a in Hs. rewrite Hs. destruct (Nat.ltb_spec 0 (length (c_shape c))) as [_|]; [|lia]. cbn [andb]. cbn [process_check].
    change (dtype a) with (c_dtype c). destruct (t_cls T (c_dtype c)); try congruence; auto. }
  destruct (C56_expressions f true (AAgg GSum a axis d) _ Full eq_refl HS HG) as (r' & k & Ek & _). exists r', k. split; auto.
  apply C56_same in Ek; [|reflexivity]. rewrite Er in Ek. injection Ek as <-. split; auto. rewrite R1. intros i Hi. rewrite (R2 i Hi).
  cbn [agg_spec]. unfold line.
  assert (Em : map (fun j => nget (data_of O true c) (insert_at axis j i)) (seq 0 (nth axis (c_shape c) 0)) = map (fun j => c_cell c (insert_at axis j i)) (seq 0 (nth axis (c_shape c) 0))).
  { apply map_ext. intros j. cbn [data_of nget]. destruct (c_cell c _); auto. }
  rewrite Em. reflexivity.
Qed.

(** The sum over axis 0 never depends on the kind of mask; over another axis it is
    computed exactly when every chunk read has a mask array. *)
Theorem C56_exact f c axis d D : depth c = 1 -> blocks_right O maxc garbage (S f) true c D -> axis < ndim c ->
  ((exists r k, krz (S (S f)) true (AAgg GSum c axis d) = Ok (r, k))
   <-> t_cls T (dtype c) <> DBool /\ (axis = 0 \/ forall ks, In ks (chunks_read maxc c axis) -> chunk_kind O maxc garbage T f c ks Full)).
Proof. apply sum_exact. Qed.

(** So masked_array() of a sum over any axis but 0 raises for every array without
    masks: NumPy sources without a mask array, constants, and what is built from
    them. *)
Theorem C56_unmasked_refuted f c axis d : unmasked T c = true -> 1 <= axis ->
  krz (S (S f)) true (AAgg GSum c axis d) = Err EvalError.
Proof.
  intros Hu Hax. apply agg_err. intros order cs E Hn. destruct cs as [|ch cs]; [congruence|]. exists ch. split; [left; auto|].
  assert (Hks : kproducer maxc (krz (S f) true) c order = Ok (ch :: cs)) by (destruct c; try discriminate Hu; exact E).
  apply producer_kind in Hks. inversion Hks as [|ks y kss ys (_ & b & H1 & H2) HF E1 E2]; subst.
  assert (Hub : unmasked T b = true) by (eapply unmasked_getitem; eauto).
  pose proof (unmasked_kind O maxc garbage T f true b Hub _ _ H2) as HK. destruct ch as [ch kk]. cbn [snd] in *. subst kk. cbn [process_check]. destruct (Nat.eqb_spec axis 0); [lia|discriminate].
Qed.

(** Values masked by masked_equal in an array without masks: the sum over an axis
    other than 0 is computed exactly when every chunk read has a masked value. *)
Theorem C56_masked_equal f c v axis d D : unmasked T c = true -> t_cls T (dtype c) <> DBool -> 1 <= axis ->
  blocks_right O maxc garbage (S f) true (AMaskV c v) D -> axis < ndim c ->
  ((exists r k, krz (S (S f)) true (AAgg GSum (AMaskV c v) axis d) = Ok (r, k))
   <-> forall ks, In ks (chunks_read maxc c axis) -> exists i, inb (nshape (oindex D ks)) i /\ nget (oindex D ks) i = None).
Proof.
  intros Hu Hc Hax HB Hnd. rewrite (sum_exact O maxc garbage T f (AMaskV c v) axis d D); auto; [|exact (unmasked_depth T c Hu)].
  change (chunks_read maxc (AMaskV c v) axis) with (chunks_read maxc c axis). change (dtype (AMaskV c v)) with (dtype c).
  assert (HK : forall ks, In ks (chunks_read maxc c axis) -> block ks (shape c)).
  { intros ks Hk. unfold chunks_read, chunk_index_gen in Hk. pose proof (all_slices_good maxc (shape c)) as HC.
    assert (HP : perm (input_order axis (seq 0 (pred (ndim c)))) (length (shape c))).
    { unfold ndim in *. replace (length (shape c)) with (S (pred (length (shape c)))) at 2 by lia. apply input_order_perm; [apply perm_seq|lia]. }
    destruct (gen_keys_drawn maxc garbage _ _ _ HC HP ks Hk) as (H1 & H2 & _). eapply drawn_block; eauto. }
  split.
  - intros [_ [H|H]] ks Hk; [lia|]. apply (maskv_chunk O maxc garbage T f c v D ks Hu HB (HK ks Hk)). auto.
  - intros H. split; auto. right. intros ks Hk. apply (maskv_chunk O maxc garbage T f c v D ks Hu HB (HK ks Hk)). auto.
Qed.

(** Whatever the source: sums and means of booleans raise, masked means of
    unsigned integers raise, masked sums of counts raise. *)
Theorem C56_bool_refuted f m g c axis d : g = GSum \/ (exists t, g = GMean t) -> t_cls T (dtype c) = DBool ->
  krz (S f) m (AAgg g c axis d) = Err EvalError.
Proof. intros Hg. apply bool_err. destruct Hg as [->|(t & ->)]; exact I. Qed.
Theorem C56_unsigned_refuted f t c axis d : t_cls T (dtype c) = DUInt -> krz (S f) true (AAgg (GMean t) c axis d) = Err EvalError.
Proof. apply unsigned_err. Qed.
Theorem C56_count_refuted f c axis d axis' d' : krz (S f) true (AAgg GSum (AAgg GCount c axis d) axis' d') = Err EvalError.
Proof. apply count_sum_err. Qed.
End C56.

Section C57.
Context {V : Type} (O : numops V).
Variable maxc : nat.
Variable garbage : list nat -> option V.
Variable T : @traits V.
Notation barr := (@barr V).
Notation krz := (krealise O maxc garbage T).

Definition elementwise (a : barr) : bool := match a with AEl1 _ _ _ | AEl2 _ _ _ _ => true | _ => false end.
Definition evaluates (f : nat) (a : barr) : Prop := exists r, krz f true a = Ok r.
(** An elementwise operation whose value is a single number that is not masked;
    also with new axes, another dtype or transposed. *)
Inductive lone (f : nat) : barr -> Prop :=
| lone_el e d k : elementwise e = true -> krz f true e = Ok (d, k) -> nshape d = [] -> nget d [] <> None -> lone f e
| lone_newax c na : lone f c -> evaluates f (ANewAx c na) -> lone f (ANewAx c na)
| lone_astype c dt : lone f c -> evaluates f (AAsTy c dt) -> lone f (AAsTy c dt)
| lone_trans c axes : lone f c -> evaluates f (ATrans c axes) -> lone f (ATrans c axes).
(** A broadcast of such an array, or a stack or mosaic with one. *)
Inductive stuck (f : nat) : barr -> Prop :=
| stuck_broadcast e dict lead : lone f e -> stuck f (ABcast e dict lead)
| stuck_stack ssh items it : In it items -> stuck f it -> stuck f (AStack ssh items)
| stuck_mosaic tiles axis it : In it tiles -> stuck f it -> stuck f (AMosaic tiles axis).

(** ndarray() never raises AttributeError *)
Lemma engine_NA rzk m a : NA (kengine O maxc garbage T rzk m a).
Proof. unfold kengine. destruct (bind _ _); discriminate. Qed.
Lemma op1_NA m (o : @op1 V) : NA (op1_fun m o).
Proof. unfold op1_fun. destruct m; [destruct (o1_ma o)|]; discriminate. Qed.
Lemma op2_NA m (o : @op2 V) : NA (op2_fun m o).
Proof. unfold op2_fun. destruct m; [destruct (o2_ma o)|]; discriminate. Qed.
Lemma el_NA f m e : elementwise e = true -> NA (krz (S f) m e).
Proof.
  destruct e; try discriminate; intros _.
  - change (krz (S f) m (AEl1 o e d)) with (g <- op1_fun m o ;; dk <- kengine O maxc garbage T (krz f m) m e ;; let d := nd_map g (fst dk) in Ok (d, el_kind (t_dom1 T o) [snd dk] d)).
    apply NA_bind; [apply op1_NA|]. intros g. apply NA_bind; [apply engine_NA|]. discriminate.
  - change (krz (S f) m (AEl2 o e1 e2 d)) with (g <- op2_fun m o ;; x <- kengine O maxc garbage T (krz f m) m e1 ;; y <- kengine O maxc garbage T (krz f m) m e2 ;;
              d <- np_op2 g (fst x) (fst y) ;; Ok (d, el_kind (t_dom2 T o) [snd x; snd y] d)).
    apply NA_bind; [apply op2_NA|]. intros g. apply NA_bind; [apply engine_NA|]. intros x. apply NA_bind; [apply engine_NA|]. intros y.
    apply NA_bind; [unfold np_op2; destruct (np_bshape _ _); discriminate|discriminate].
Qed.
Lemma inner_NA f m a : NA (krz (S f) m a) \/ m = true -> NA (krz (S f) false a) ->
  NA (match krz (S f) m a with Err AttrErr => if m then (r <- krz (S f) false a ;; Ok (fst r, Bare)) else Err AttrErr | r => r end).
Proof.
  intros H1 H2. destruct (krz (S f) m a) as [x|e]; [discriminate|]. destruct e; try discriminate. destruct m; [apply NA_bind; auto; discriminate|].
  destruct H1 as [H1|H1]; [destruct (H1 eq_refl)|discriminate].
Qed.
Theorem C57_ndarray f a : krz (S f) false a <> Err AttrErr.
Proof.
  change (NA (krz (S f) false a)).
  induction a as [sh v d|o c ks|a na IH|a dict lead IH|a d IH|a v IH|a axes IH|ssh items IH|tiles axis IH|g a axis d IH|o a d IH|o a b d IH1 IH2]
    using barr_ind2.
  - discriminate.
  - change (NA (d <- realise_adapter O false o c ks ;; Ok (d, adapt_kind T c d))). apply NA_bind; [apply NA_adapter|discriminate].
  - change (NA (dk <- match krz (S f) false a with Err AttrErr => Err AttrErr | r => r end ;;
       d <- np_index (fst dk) (newax_layout KNew (repeat KFull (ndim a)) na) ;; Ok (d, snd dk))).
    apply NA_bind; [apply (inner_NA f false); auto|]. intros. apply NA_bind; [apply NA_index|discriminate].
  - change (NA (dk <- match krz (S f) false a with Err AttrErr => Err AttrErr | r => r end ;;
       d <- bcast_numpy (fst dk) dict lead ;; Ok (d, snd dk))).
    apply NA_bind; [apply (inner_NA f false); auto|]. intros. apply NA_bind; [apply NA_bcast|discriminate].
  - change (NA (dk <- match krz (S f) false a with Err AttrErr => Err AttrErr | r => r end ;; Ok (nd_map (lift1 (vcast O d)) (fst dk), snd dk))).
    apply NA_bind; [apply (inner_NA f false); auto|discriminate].
  - change (NA (dk <- match krz (S f) false a with Err AttrErr => Err AttrErr | r => r end ;; let d := nd_map (mask_equal O false v) (fst dk) in Ok (d, maskv_kind false (snd dk) d))).
    apply NA_bind; [apply (inner_NA f false); auto|discriminate].
  - change (NA (dk <- match krz (S f) false a with Err AttrErr => Err AttrErr | r => r end ;; Ok (np_transpose (fst dk) axes, snd dk))).
    apply NA_bind; [apply (inner_NA f false); auto|discriminate].
  - rewrite Forall_forall in IH. change (NA (ds <- mapM (krz (S f) false) items ;; d <- np_setitems (mkND (shape (AStack ssh items)) garbage) (combine (map (map (fun i => KInt (Z.of_nat i))) (ndindex ssh)) (map fst ds)) ;; Ok (d, store_kind (map snd ds)))).
    apply NA_bind; [apply NA_mapM; auto|]. intros. apply NA_bind; [apply NA_setitems|discriminate].
  - rewrite Forall_forall in IH. change (NA (ds <- mapM (krz (S f) false) tiles ;; d <- np_setitems (mkND (shape (AMosaic tiles axis)) garbage) (mosaic_writes (ndim (AMosaic tiles axis)) axis (map (fun t => nth axis (shape t) 0) tiles) (map fst ds)) ;; Ok (d, store_kind (map snd ds)))).
    apply NA_bind; [apply NA_mapM; auto|]. intros. apply NA_bind; [apply NA_setitems|discriminate].
  - apply engine_NA.
  - apply el_NA; auto.
  - apply el_NA; auto.
Qed.

(** Only elementwise operations give a single number without a mask attribute. *)
Lemma el_plain f e d k : elementwise e = true -> krz (S f) true e = Ok (d, k) -> (k = Plain <-> nshape d = [] /\ nget d [] <> None).
Proof.
  assert (H : forall dom ks (d : nd (option V)), el_kind dom ks d = Plain <-> nshape d = [] /\ nget d [] <> None).
  { intros dom ks x. unfold el_kind, zero_d. destruct (nshape x) eqn:E.
    - destruct (nget x []); cbn [MaskKinds.seen]; split; auto; try discriminate; try (intros [_ ?]; congruence). intros _. split; auto. discriminate.
    - split; [destruct (dom || _); discriminate|intros [? _]; discriminate]. }
  destruct e; try discriminate; intros _ E.
  - change ((g <- op1_fun true o ;; dk <- kengine O maxc garbage T (krz f true) true e ;; let d := nd_map g (fst dk) in Ok (d, el_kind (t_dom1 T o) [snd dk] d)) = Ok (d, k)) in E.
    apply bind_ok in E as (g & _ & E). apply bind_ok in E as (x & _ & E). injection E as <- <-. apply H.
  - change ((g <- op2_fun true o ;; x <- kengine O maxc garbage T (krz f true) true e1 ;; y <- kengine O maxc garbage T (krz f true) true e2 ;;
              d <- np_op2 g (fst x) (fst y) ;; Ok (d, el_kind (t_dom2 T o) [snd x; snd y] d)) = Ok (d, k)) in E.
    apply bind_ok in E as (g & _ & E). apply bind_ok in E as (x & _ & E). apply bind_ok in E as (y & _ & E). apply bind_ok in E as (z & _ & E). injection E as <- <-. apply H.
Qed.
(** [inner]: what a wrapping class takes for the contained array. *)
Notation inner f a := (match krz (S f) true a with Err AttrErr => (r <- krz (S f) false a ;; Ok (fst r, Bare)) | r => r end).
Lemma inner_plain f a d : inner f a = Ok (d, Plain) -> krz (S f) true a = Ok (d, Plain).
Proof. destruct (krz (S f) true a) as [x|[]]; auto. intros E. apply bind_ok in E as (r & _ & E). discriminate. Qed.
Lemma plain_lone f a : forall d, krz (S f) true a = Ok (d, Plain) -> lone (S f) a.
Proof.
  induction a as [sh v t|o c ks|a na IH|a dict lead IH|a t IH|a v IH|a axes IH|ssh items IH|tiles axis IH|g a axis t IH|o a t IH|o a b t IH1 IH2]
    using barr_ind2; intros d E.
  - discriminate.
  - exfalso. change ((d <- realise_adapter O true o c ks ;; Ok (d, adapt_kind T c d)) = Ok (d, Plain)) in E. apply bind_ok in E as (x & _ & E). injection E as _ E.
    unfold adapt_kind in E. destruct (t_bare T c), (zero_d x), (MaskKinds.seen (nget x [])); discriminate.
  - apply lone_newax; [|exists (d, Plain); exact E].
    change ((dk <- inner f a ;; d <- np_index (fst dk) (newax_layout KNew (repeat KFull (ndim a)) na) ;; Ok (d, snd dk)) = Ok (d, Plain)) in E.
    apply bind_ok in E as ([x k] & E1 & E). apply bind_ok in E as (y & _ & E). injection E as _ ->. eapply IH. apply inner_plain. exact E1.
  - exfalso. change ((dk <- inner f a ;; match snd dk with Plain => Err AttrErr | k => d <- bcast_numpy (fst dk) dict lead ;; Ok (d, k) end) = Ok (d, Plain)) in E.
    apply bind_ok in E as (x & _ & E). destruct (snd x); [discriminate| |]; apply bind_ok in E as (y & _ & E); discriminate.
  - apply lone_astype; [|exists (d, Plain); exact E]. change ((dk <- inner f a ;; Ok (nd_map (lift1 (vcast O t)) (fst dk), snd dk)) = Ok (d, Plain)) in E.
    apply bind_ok in E as ([x k] & E1 & E). injection E as _ ->. eapply IH. apply inner_plain. exact E1.
  - exfalso. change ((dk <- inner f a ;; let d := nd_map (mask_equal O true v) (fst dk) in Ok (d, maskv_kind true (snd dk) d)) = Ok (d, Plain)) in E.
    apply bind_ok in E as (x & _ & E). injection E as _ E. unfold maskv_kind in E. destruct (is_full (snd x)); [discriminate|]. cbn [andb] in E.
    match type of E with (if ?b then _ else _) = _ => destruct b; discriminate end.
  - apply lone_trans; [|exists (d, Plain); exact E]. change ((dk <- inner f a ;; Ok (np_transpose (fst dk) axes, snd dk)) = Ok (d, Plain)) in E.
    apply bind_ok in E as ([x k] & E1 & E). injection E as _ ->. eapply IH. apply inner_plain. exact E1.
  - exfalso. change ((ds <- mapM (krz (S f) true) items ;; d <- np_setitems (mkND (shape (AStack ssh items)) garbage) (combine (map (map (fun i => KInt (Z.of_nat i))) (ndindex ssh)) (map fst ds)) ;; Ok (d, store_kind (map snd ds))) = Ok (d, Plain)) in E.
    apply bind_ok in E as (ds & _ & E). apply bind_ok in E as (x & _ & E). injection E as _ E. unfold store_kind in E. destruct (existsb _ _); discriminate.
  - exfalso. change ((ds <- mapM (krz (S f) true) tiles ;; d <- np_setitems (mkND (shape (AMosaic tiles axis)) garbage) (mosaic_writes (ndim (AMosaic tiles axis)) axis (map (fun t => nth axis (shape t) 0) tiles) (map fst ds)) ;; Ok (d, store_kind (map snd ds))) = Ok (d, Plain)) in E.
    apply bind_ok in E as (ds & _ & E). apply bind_ok in E as (x & _ & E). injection E as _ E. unfold store_kind in E. destruct (existsb _ _); discriminate.
  - exfalso. change (kengine O maxc garbage T (krz f true) true (AAgg g a axis t) = Ok (d, Plain)) in E. unfold kengine in E. destruct (bind _ _) as [r|] eqn:Eb; [|discriminate].
    injection E as ->. apply bind_ok in Eb as (cs & _ & Eb). apply bind_ok in Eb as (x & _ & Eb). injection Eb as _ Eb. unfold store_kind in Eb. destruct (existsb _ _); discriminate.
  - destruct (proj1 (el_plain f (AEl1 o a t) d Plain eq_refl E) eq_refl). eapply lone_el; eauto.
  - destruct (proj1 (el_plain f (AEl2 o a b t) d Plain eq_refl E) eq_refl). eapply lone_el; eauto.
Qed.
Lemma lone_plain f a : lone (S f) a -> exists d, krz (S f) true a = Ok (d, Plain).
Proof.
  induction 1 as [e d k He E H1 H2|c na H (d & IH) ([x k] & E)|c dt H (d & IH) ([x k] & E)|c axes H (d & IH) ([x k] & E)].
  - exists d. rewrite E. f_equal. f_equal. apply (el_plain f e d k He E). auto.
  - exists x. rewrite E. change ((dk <- inner f c ;; d <- np_index (fst dk) (newax_layout KNew (repeat KFull (ndim c)) na) ;; Ok (d, snd dk)) = Ok (x, k)) in E.
    rewrite IH in E. cbn [bind fst snd] in E. apply bind_ok in E as (y & _ & E). injection E as <- <-. auto.
  - exists x. rewrite E. change ((dk <- inner f c ;; Ok (nd_map (lift1 (vcast O dt)) (fst dk), snd dk)) = Ok (x, k)) in E.
    rewrite IH in E. injection E as <- <-. auto.
  - exists x. rewrite E. change ((dk <- inner f c ;; Ok (np_transpose (fst dk) axes, snd dk)) = Ok (x, k)) in E.
    rewrite IH in E. injection E as <- <-. auto.
Qed.
Lemma mapM_err {A B} (g : A -> res B) l e : mapM g l = Err e -> exists x, In x l /\ g x = Err e.
Proof.
  induction l as [|x l IH]; cbn [mapM]; intros E; [discriminate|]. destruct (g x) as [y|e'] eqn:Eg; cbn [bind] in E.
  - destruct (mapM g l); [discriminate|]. destruct (IH E) as (z & Hz & Ez). exists z. split; auto. right; auto.
  - injection E as ->. exists x. split; auto. left; auto.
Qed.
Lemma inner_ok f a : NA (inner f a).
Proof. pose proof (inner_NA f true a (or_intror eq_refl) (C57_ndarray f a)) as H. exact H. Qed.

(** masked_array() raises AttributeError only for arrays that are [stuck] ... *)
Theorem C57_where f a : krz (S f) true a = Err AttrErr -> stuck (S f) a.
Proof.
  induction a as [sh v t|o c ks|a na IH|a dict lead IH|a t IH|a v IH|a axes IH|ssh items IH|tiles axis IH|g a axis t IH|o a t IH|o a b t IH1 IH2]
    using barr_ind2; intros E.
  - discriminate.
  - exfalso. revert E. change (NA (d <- realise_adapter O true o c ks ;; Ok (d, adapt_kind T c d))). apply NA_bind; [apply NA_adapter|discriminate].
  - exfalso. revert E. change (NA (dk <- inner f a ;; d <- np_index (fst dk) (newax_layout KNew (repeat KFull (ndim a)) na) ;; Ok (d, snd dk))).
    apply NA_bind; [apply inner_ok|]. intros. apply NA_bind; [apply NA_index|discriminate].
  - change ((dk <- inner f a ;; match snd dk with Plain => Err AttrErr | k => d <- bcast_numpy (fst dk) dict lead ;; Ok (d, k) end) = Err AttrErr) in E.
    pose proof (inner_ok f a) as N. destruct (inner f a) as [[x k]|e] eqn:Ei; cbn [bind fst snd] in E; [|congruence].
    assert (NB : forall q, NA (d <- bcast_numpy x dict lead ;; Ok (d, q : mkind))) by (intros q; apply NA_bind; [apply NA_bcast|discriminate]).
    destruct k; [|destruct (NB Bare E)|destruct (NB Full E)]. apply stuck_broadcast. eapply plain_lone. apply inner_plain. exact Ei.
  - exfalso. revert E. change (NA (dk <- inner f a ;; Ok (nd_map (lift1 (vcast O t)) (fst dk), snd dk))). apply NA_bind; [apply inner_ok|discriminate].
  - exfalso. revert E. change (NA (dk <- inner f a ;; let d := nd_map (mask_equal O true v) (fst dk) in Ok (d, maskv_kind true (snd dk) d))). apply NA_bind; [apply inner_ok|discriminate].
  - exfalso. revert E. change (NA (dk <- inner f a ;; Ok (np_transpose (fst dk) axes, snd dk))). apply NA_bind; [apply inner_ok|discriminate].
  - rewrite Forall_forall in IH. change ((ds <- mapM (krz (S f) true) items ;; d <- np_setitems (mkND (shape (AStack ssh items)) garbage) (combine (map (map (fun i => KInt (Z.of_nat i))) (ndindex ssh)) (map fst ds)) ;; Ok (d, store_kind (map snd ds))) = Err AttrErr) in E.
    destruct (mapM (krz (S f) true) items) as [ds|e] eqn:Em; cbn [bind] in E.
    + exfalso. revert E. apply NA_bind; [apply NA_setitems|discriminate].
    + injection E as ->. destruct (mapM_err _ _ _ Em) as (it & Hi & Ei). eapply stuck_stack; eauto.
  - rewrite Forall_forall in IH. change ((ds <- mapM (krz (S f) true) tiles ;; d <- np_setitems (mkND (shape (AMosaic tiles axis)) garbage) (mosaic_writes (ndim (AMosaic tiles axis)) axis (map (fun t => nth axis (shape t) 0) tiles) (map fst ds)) ;; Ok (d, store_kind (map snd ds))) = Err AttrErr) in E.
    destruct (mapM (krz (S f) true) tiles) as [ds|e] eqn:Em; cbn [bind] in E.
    + exfalso. revert E. apply NA_bind; [apply NA_setitems|discriminate].
    + injection E as ->. destruct (mapM_err _ _ _ Em) as (it & Hi & Ei). eapply stuck_mosaic; eauto.
  - exfalso. revert E. apply engine_NA.
  - exfalso. revert E. apply el_NA; auto.
  - exfalso. revert E. apply el_NA; auto.
Qed.
(** ... and for every broadcast of a lone number. *)
Theorem C57_broadcast_refuted f e dict lead : krz (S f) true (ABcast e dict lead) = Err AttrErr <-> lone (S f) e.
Proof.
  split.
  - intros E. apply C57_where in E. inversion E; auto.
  - intros H. destruct (lone_plain f e H) as (d & E).
    change ((dk <- inner f e ;; match snd dk with Plain => Err AttrErr | k => d <- bcast_numpy (fst dk) dict lead ;; Ok (d, k) end) = Err AttrErr). rewrite E. auto.
Qed.

(** Wrapping such a broadcast turns the error into a result, and that is the
    array's ndarray(), with its fill values in place of masked ones. *)
Theorem C57_rescued_refuted f e dict lead : lone (S f) e ->
  (forall dt, krz (S f) true (AAsTy (ABcast e dict lead) dt)
     = (r <- krz (S f) false (ABcast e dict lead) ;; Ok (nd_map (lift1 (vcast O dt)) (fst r), Bare)))
  /\ (forall axes, krz (S f) true (ATrans (ABcast e dict lead) axes)
     = (r <- krz (S f) false (ABcast e dict lead) ;; Ok (np_transpose (fst r) axes, Bare)))
  /\ (forall na, krz (S f) true (ANewAx (ABcast e dict lead) na)
     = (r <- krz (S f) false (ABcast e dict lead) ;; d <- np_index (fst r) (newax_layout KNew (repeat KFull (ndim (ABcast e dict lead))) na) ;; Ok (d, Bare))).
Proof.
  intros H. pose proof (proj2 (C57_broadcast_refuted f e dict lead) H) as E. set (b := ABcast e dict lead) in *. split; [|split].
  - intros dt. change ((dk <- inner f b ;; Ok (nd_map (lift1 (vcast O dt)) (fst dk), snd dk)) = (r <- krz (S f) false b ;; Ok (nd_map (lift1 (vcast O dt)) (fst r), Bare))).
    rewrite E. destruct (krz (S f) false b) as [[]|]; reflexivity.
  - intros axes. change ((dk <- inner f b ;; Ok (np_transpose (fst dk) axes, snd dk)) = (r <- krz (S f) false b ;; Ok (np_transpose (fst r) axes, Bare))).
    rewrite E. destruct (krz (S f) false b) as [[]|]; reflexivity.
  - intros na. change ((dk <- inner f b ;; d <- np_index (fst dk) (newax_layout KNew (repeat KFull (ndim b)) na) ;; Ok (d, snd dk))
      = (r <- krz (S f) false b ;; d <- np_index (fst r) (newax_layout KNew (repeat KFull (ndim b)) na) ;; Ok (d, Bare))).
    rewrite E. destruct (krz (S f) false b) as [[]|]; reflexivity.
Qed.

(** Arrays without computation: no such error, and the values of the main model. *)
Theorem C57_no_computation f m a : depth a = 1 ->
  exists k, k <> Plain /\ krz (S f) m a = (d <- realise O maxc garbage (S f) m a ;; Ok (d, k)).
Proof. intros H. apply (plain_kind O maxc garbage T f m a H). Qed.
End C57.

Print Assumptions C56_same.
Print Assumptions C56_expressions.
Print Assumptions C56_masked_source.
Print Assumptions C56_exact.
Print Assumptions C56_unmasked_refuted.
Print Assumptions C56_masked_equal.
Print Assumptions C56_bool_refuted.
Print Assumptions C56_unsigned_refuted.
Print Assumptions C56_count_refuted.
Print Assumptions C57_ndarray.
Print Assumptions C57_where.
Print Assumptions C57_broadcast_refuted.
Print Assumptions C57_rescued_refuted.
Print Assumptions C57_no_computation.

(** ** Cases *)
(** Sources with a fill value have a mask array, the others none; dtype 2 is bool,
    3 unsigned. *)
Definition zt : @traits Z :=
  mkT (fun c => match c_fill c with None => true | Some _ => false end) (fun _ => false) (fun _ => false)
      (fun d => match d with 2 => DBool | 3 => DUInt | _ => DOther end).
Definition kflat (r : res (nd (option Z) * mkind)) : res (list nat * list (option Z) * mkind) :=
  dk <- r ;; Ok (nshape (fst dk), map (nget (fst dk)) (ndindex (nshape (fst dk))), snd dk).
Notation kz := (krealise z_ops 4 (fun _ => None) zt 3).
(** A masked source works over both axes; an unmasked one over axis 0 only. *)
Example C56_case :
  kflat (kz true (AAgg GSum (marr [2; 3]) 1 0)) = Ok ([2], [Some 3%Z; Some 9%Z], Full)
  /\ kflat (kz true (AAgg GSum (arr [2; 3]) 0 0)) = Ok ([3], [Some 3%Z; Some 5%Z; Some 7%Z], Full)
  /\ kz true (AAgg GSum (arr [2; 3]) 1 0) = Err EvalError
  /\ realise z_ops 4 (fun _ => None) 3 true (AAgg GSum (arr [2; 3]) 1 0) <> Err EvalError
  /\ unmasked zt (arr [2; 3]) = true.
Proof. repeat split; try (vm_compute; reflexivity). vm_compute. discriminate. Qed.
(** masked_equal: chunks of one row; 1 occurs in the first row only *)
Example C56_masked_equal_case :
  kz true (AAgg GSum (AMaskV (arr [2; 3]) 1%Z) 1 0) = Err EvalError
  /\ kflat (kz true (AAgg GSum (AMaskV (arr [2; 1]) 1%Z) 0 0)) = Ok ([1], [Some 0%Z], Full)
  /\ kflat (kz true (AAgg GSum (AMaskV (arr [1; 3]) 1%Z) 1 0)) = Ok ([1], [Some 2%Z], Full).
Proof. repeat split; vm_compute; reflexivity. Qed.
(** sum(m) + sum(m) of a masked array is 6; broadcast to three elements and
    transposed it becomes 4, the value with the fill value -1 in it. *)
Definition twice : barr := AEl2 zadd2 (AAgg GSum (marr [3]) 0 0) (AAgg GSum (marr [3]) 0 0) 0.
Example C57_case :
  lone z_ops 4 (fun _ => None) zt 3 twice
  /\ kflat (kz true twice) = Ok ([], [Some 6%Z], Plain)
  /\ kz true (ABcast twice [] [3]) = Err AttrErr
  /\ kflat (kz true (ATrans (ABcast twice [] [3]) [0])) = Ok ([3], [Some 4%Z; Some 4%Z; Some 4%Z], Bare)
  /\ flat (realise z_ops 4 (fun _ => None) 3 true (ATrans (ABcast twice [] [3]) [0])) = Ok ([3], [Some 6%Z; Some 6%Z; Some 6%Z]).
Proof.
  split; [|repeat split; vm_compute; reflexivity]. destruct (kz true twice) as [[d k]|] eqn:E; [|vm_compute in E; discriminate].
  assert (H : kflat (kz true twice) = Ok ([], [Some 6%Z], Plain)) by (vm_compute; reflexivity).
  rewrite E in H. cbn [kflat bind fst snd] in H. injection H as H1 H2 H3. eapply lone_el; [reflexivity|exact E|auto|]. rewrite H1 in H2. cbn in H2. injection H2 as ->. discriminate.
Qed.
