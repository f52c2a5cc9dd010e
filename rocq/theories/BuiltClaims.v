(** BuiltClaims: dtype and fill value under indexing with any keys. *)
From Verif Require Import Base PySlice Keys NDArray Arrays Small Built Spec Supported Lib KeyLemmas GetBase SmallClaims.

Section Dtype.
Context {V : Type} (O : numops V).
Notation barr := (@barr V).

Lemma bind_ok {A B} (r : res A) (f : A -> res B) b : (x <- r ;; f x) = Ok b -> exists x, r = Ok x /\ f x = Ok b.
Proof. destruct r as [x|e]; cbn [bind]; [|discriminate]. eauto. Qed.
Lemma mapM_in {A B} (f : A -> res B) l r : mapM f l = Ok r -> forall y, In y r -> exists x, In x l /\ f x = Ok y.
Proof.
  revert r; induction l as [|x l IH]; intros r E y Hy; cbn [mapM] in E; [injection E as <-; destruct Hy|].
  apply bind_ok in E as (z & E1 & E). apply bind_ok in E as (zs & E2 & E). injection E as <-.
  destruct Hy as [<-|Hy]; [exists x; split; auto; left; auto|]. destruct (IH _ E2 y Hy) as (x' & H1 & H2). exists x'; split; auto. right; auto.
Qed.

(** [Q] of an array that [base_getitem] returns, from that of what the class's
    own indexing returns. *)
Lemma newax_getitem_inv child nd na keys (b : barr) : newax_getitem child nd na keys = Ok b ->
  exists ck c, child ck = Ok c /\ exists na', b = ANewAx c na' \/ exists bd, b = ABcast (ANewAx c na') bd [].
Proof.
  unfold newax_getitem. intros E. apply bind_ok in E as (ks & E1 & E). apply bind_ok in E as ([[[na' comb] ck] bd] & E2 & E).
  apply bind_ok in E as (c & E3 & E). apply bind_ok in E as (r & E4 & E). exists ck, c. split; auto.
  unfold mk_newax in E4. destruct (_ =? _); [|discriminate]. injection E4 as <-. exists (combine_axes na' comb).
  destruct bd as [|p bd]; [left; congruence|]. right. exists (p :: bd). unfold mk_bcast in E. apply bind_ok in E as (_ & _ & E).
  cbn [existsb] in E. congruence.
Qed.
Lemma base_getitem_inv gfk nd keys (b : barr) : base_getitem gfk nd keys = Ok b ->
  (exists ks, full_keys keys nd = Ok ks /\ existsb is_new ks = false /\ gfk ks = Ok b)
  \/ (exists ks, full_keys keys nd = Ok ks /\ existsb is_new ks = true) /\
     exists ks c, existsb is_new ks = false /\ gfk ks = Ok c /\ exists na', b = ANewAx c na' \/ exists bd, b = ABcast (ANewAx c na') bd [].
Proof.
  unfold base_getitem. intros E. apply bind_ok in E as (ks & E1 & E). destruct (existsb is_new ks) eqn:N.
  - right. split; [eauto|]. destruct (newax_getitem_inv _ _ _ _ _ E) as (ck & c & Ec & H).
    apply bind_ok in Ec as (ks' & E2 & Ec). destruct (existsb is_new ks') eqn:N'; [discriminate|]. exists ks', c. auto.
  - left. eauto.
Qed.

(** The dtypes of an expression fit together: parts agree, and results of
    elementwise operations have the dtype of their operands' promotion. *)
Fixpoint dts (a : barr) : Prop :=
  match a with
  | AConst _ _ _ | AAdapt _ _ _ | AAsTy _ _ | AAgg _ _ _ _ => True
  | ANewAx a _ | ABcast a _ _ | AMaskV a _ | ATrans a _ => dts a
  | AStack _ items => fold_right (fun it P => dts it /\ P) True items
                      /\ (forall x y, In x items -> In y items -> dtype x = dtype y)
  | AMosaic tiles _ => fold_right (fun t P => dts t /\ P) True tiles
                      /\ (forall x y, In x tiles -> In y tiles -> dtype x = dtype y)
  | AEl1 o a d => dts a /\ d = o1_dt o (dtype a)
  | AEl2 o a b d => dts a /\ dts b /\ d = o2_dt o (dtype a) (dtype b)
  end.
Lemma dts_all (l : list barr) : fold_right (fun it P => dts it /\ P) True l <-> forall x, In x l -> dts x.
Proof.
  induction l as [|x l IH]; cbn; [tauto|]. rewrite IH. split.
  - intros [H1 H2] y [<-|Hy]; auto.
  - intros H. split; intros; apply H; auto.
Qed.

Lemma bcast_dts a dict lead (b : barr) : mk_bcast a dict lead = Ok b -> dts a -> dts b /\ dtype b = dtype a.
Proof.
  unfold mk_bcast. destruct a; cbn [fst snd]; intros E H; apply bind_ok in E as (_ & _ & E); destruct (existsb _ _); try discriminate;
    injection E as <-; split; auto.
Qed.
Lemma broadcast_one_dts a full off (b : barr) : broadcast_one a full off = Ok b -> dts a -> dts b /\ dtype b = dtype a.
Proof.
  unfold broadcast_one. intros E H. destruct (firstn off full), (bdict _ _); try (injection E as <-; auto; fail); eapply bcast_dts; eauto.
Qed.
Lemma broadcast_dts a b (c d : barr) : broadcast_arrays a b = Ok (c, d) -> dts a -> dts b ->
  (dts c /\ dtype c = dtype a) /\ (dts d /\ dtype d = dtype b).
Proof.
  unfold broadcast_arrays. intros E Ha Hb. apply bind_ok in E as (full & _ & E). apply bind_ok in E as (a' & E1 & E). apply bind_ok in E as (b' & E2 & E).
  injection E as <- <-. split; eapply broadcast_one_dts; eauto.
Qed.
Lemma stack_inv ssh items (b : barr) : mk_stack ssh items = Ok b ->
  b = AStack ssh items /\ items <> [] /\ forall x y, In x items -> In y items -> dtype x = dtype y.
Proof.
  unfold mk_stack. destruct items as [|it items]; [discriminate|]. destruct (forallb _ _) eqn:F; [|discriminate]. intros E; injection E as <-.
  split; auto. split; [discriminate|]. rewrite forallb_forall in F.
  assert (H : forall x, In x (it :: items) -> dtype x = dtype it).
  { intros x Hx. specialize (F x Hx). apply andb_true_iff in F as [_ F]. apply Nat.eqb_eq in F. auto. }
  intros x y Hx Hy. rewrite (H x Hx), (H y Hy). auto.
Qed.
Lemma mosaic_inv tiles axis (b : barr) : mk_mosaic tiles axis = Ok b ->
  b = AMosaic tiles (Z.to_nat axis) /\ tiles <> [] /\ forall x y, In x tiles -> In y tiles -> dtype x = dtype y.
Proof.
  unfold mk_mosaic. destruct tiles as [|t ts]; [discriminate|]. destruct (negb _); [discriminate|]. intros E. apply bind_ok in E as (r & E1 & E). injection E as <-.
  split; auto. split; [discriminate|].
  assert (H : forall x, In x (t :: ts) -> dtype x = dtype t).
  { intros x [<-|Hx]; auto. revert r E1 Hx. induction ts as [|z ts IH]; intros r E1 Hx; [destruct Hx|]. cbn [mapM] in E1.
    apply bind_ok in E1 as (u & Ez & E1). apply bind_ok in E1 as (us & E2 & E1). destruct Hx as [<-|Hx]; [|eapply IH; eauto].
    destruct (_ <=? _); [discriminate|]. destruct (negb (shape_eqb _ _)); [discriminate|]. destruct (Nat.eqb_spec (dtype z) (dtype t)); auto. discriminate. }
  intros x y Hx Hy. rewrite (H x Hx), (H y Hy). auto.
Qed.
Lemma stack_dtype ssh items (x : barr) : (forall x y, In x items -> In y items -> dtype x = dtype y) -> In x items -> dtype (AStack ssh items) = dtype x.
Proof. intros H Hx. destruct items as [|it items]; [destruct Hx|]. cbn [dtype]. apply H; auto. left; auto. Qed.
Lemma mosaic_dtype tiles axis (x : barr) : (forall x y, In x tiles -> In y tiles -> dtype x = dtype y) -> In x tiles -> dtype (AMosaic tiles axis) = dtype x.
Proof. intros H Hx. destruct tiles as [|it items]; [destruct Hx|]. cbn [dtype]. apply H; auto. left; auto. Qed.

(** Indexing a stack or mosaic gives an indexed part, or a stack or mosaic of
    indexed parts. *)
Lemma stack_get ssh items keys ks (b : barr) :
  (let sk := firstn (length ssh) ks in
   let ik := skipn (length ssh) ks in
   let gets := map (fun it => getitem it) items in
   ssh' <- sliced_shape ssh sk ;;
   st <- np_index (mkND ssh (ravel ssh)) sk ;;
   match ssh' with
   | [] => (nth (nget st []) gets (fun _ => Err IndexError)) ik
   | _ => if shape_eqb (nshape st) ssh' then
            its <- mapM (fun idx => (nth (nget st idx) gets (fun _ => Err IndexError)) ik) (ndindex ssh') ;;
            mk_stack ssh' its
          else Err IndexError
   end) = Ok b -> keys = skipn (length ssh) ks ->
  (exists it, In it items /\ getitem it keys = Ok b)
  \/ exists ssh' its, mk_stack ssh' its = Ok b /\ forall x, In x its -> exists it, In it items /\ getitem it keys = Ok x.
Proof.
  cbv zeta. intros E ->. apply bind_ok in E as (ssh' & E1 & E). apply bind_ok in E as (st & E2 & E).
  assert (G : forall n ik x, nth n (map (fun it : barr => getitem it) items) (fun _ => Err IndexError) ik = Ok x ->
              exists it, In it items /\ getitem it ik = Ok x).
  { intros n ik x H. destruct (nth_in_or_default n (map (fun it : barr => getitem it) items) (fun _ => Err IndexError)) as [L|L].
    - apply in_map_iff in L as (it & L & Hi). exists it. split; auto. rewrite <- L in H. exact H.
    - rewrite L in H. discriminate. }
  destruct ssh' as [|s0 ssh'].
  - left. eapply G; eauto.
  - right. destruct (shape_eqb _ _); [|discriminate]. apply bind_ok in E as (its & E3 & E). exists (s0 :: ssh'), its. split; auto.
    intros x Hx. destruct (mapM_in _ _ _ E3 x Hx) as (idx & _ & H). eapply G; eauto.
Qed.
Lemma mosaic_get (tiles : list barr) axis ks (b : barr) :
  (let gets := map (fun t : barr => getitem t) tiles in
   p <- mosaic_plan (map (fun t : barr => nth axis (shape t) 0) tiles) axis ks ;;
   match p with
   | PAll ks ax => ts <- mapM (fun g => g ks) gets ;; mk_mosaic ts (Z.of_nat ax)
   | POne t ks => (nth t gets (fun _ => Err IndexError)) ks
   | PMany parts ax =>
       ts <- mapM (fun p => (nth (fst p) gets (fun _ => Err IndexError)) (snd p)) parts ;;
       mk_mosaic ts (Z.of_nat ax)
   end) = Ok b -> existsb is_new ks = false ->
  (exists it k, In it tiles /\ existsb is_new k = false /\ getitem it k = Ok b)
  \/ exists ax its, mk_mosaic its ax = Ok b /\ forall x, In x its -> exists it k, In it tiles /\ existsb is_new k = false /\ getitem it k = Ok x.
Proof.
  cbv zeta. intros E HN. apply bind_ok in E as (p & E1 & E).
  assert (HT : forall l, existsb is_new l = false -> existsb is_new (trim_keys l) = false).
  { intros l. induction l as [|k l IH]; cbn [trim_keys existsb]; auto. intros H. apply orb_false_iff in H as [H1 H2]. specialize (IH H2).
    destruct (trim_keys l) as [|k' l']; [destruct (key_full_b k); cbn [existsb]; auto; rewrite H1; auto|]. cbn [existsb] in *. rewrite H1. auto. }
  assert (HS : forall l n k, is_new k = false -> existsb is_new l = false -> existsb is_new (set_nth n k l) = false).
  { intros l. induction l as [|k' l IH]; intros [|n] k Hk H; cbn [set_nth existsb] in *; auto; apply orb_false_iff in H as [H1 H2]; rewrite ?Hk, ?H1; cbn; auto. }
  assert (G : forall n ik x, nth n (map (fun it : barr => getitem it) tiles) (fun _ => Err IndexError) ik = Ok x ->
              exists it, In it tiles /\ getitem it ik = Ok x).
  { intros n ik x H. destruct (nth_in_or_default n (map (fun it : barr => getitem it) tiles) (fun _ => Err IndexError)) as [L|L].
    - apply in_map_iff in L as (it & L & Hi). exists it. split; auto. rewrite <- L in H. exact H.
    - rewrite L in H. discriminate. }
  assert (P : match p with PAll k _ | POne _ k => existsb is_new k = false | PMany parts _ => forall q, In q parts -> existsb is_new (snd q) = false end).
  { unfold mosaic_plan in E1. specialize (HT _ HN). destruct (_ <=? _); [injection E1 as <-; auto|].
    assert (M : forall q idx lens offs, In q (map (fun g : Z * list Z => let '(t, is) := g in
                               (tile_num (length (A:=nat) lens) t,
                                set_nth axis (tile_key (py_nth 0 offs t) is) (trim_keys ks))) (group_runs (map (fun i => (i, tile_of offs i)) idx))) ->
                existsb is_new (snd q) = false).
    { intros q idx lens offs Hq. apply in_map_iff in Hq as ([t is] & <- & _). cbn [snd]. apply HS; auto. destruct is as [|i [|j is]]; auto. }
    destruct (nth axis (trim_keys ks) KBad) as [i|s|l|l|l|m| | |]; try discriminate E1.
    - injection E1 as <-. apply HS; auto.
    - apply bind_ok in E1 as (l & _ & E1). injection E1 as <-. intros q Hq. eapply M. destruct (match s_step s with Some _ => _ | None => _ end); [apply in_rev in Hq|]; exact Hq.
    - injection E1 as <-. intros q Hq. eapply M; exact Hq.
    - injection E1 as <-. intros q Hq. eapply M; exact Hq.
    - injection E1 as <-. intros q Hq. eapply M; exact Hq.
    - destruct m; [|discriminate]. injection E1 as <-. intros q []. }
  destruct p as [k ax|t k|parts ax].
  - right. apply bind_ok in E as (ts & E2 & E). exists (Z.of_nat ax), ts. split; auto. intros x Hx. destruct (mapM_in _ _ _ E2 x Hx) as (g & Hg & Ex).
    apply in_map_iff in Hg as (it & <- & Hi). eauto.
  - left. destruct (G _ _ _ E) as (it & H1 & H2). eauto.
  - right. apply bind_ok in E as (ts & E2 & E). exists (Z.of_nat ax), ts. split; auto. intros x Hx. destruct (mapM_in _ _ _ E2 x Hx) as (q & Hq & Ex).
    destruct (G _ _ _ Ex) as (it & H1 & H2). exists it, (snd q). auto.
Qed.

Lemma trans_inv a axes (b : barr) : mk_trans a axes = Ok b -> exists ax, b = ATrans a ax.
Proof. unfold mk_trans. destruct axes; [destruct (_ =? _); [|discriminate]|]; intros E; injection E as <-; eauto. Qed.

Theorem getitem_dts (a : barr) : forall keys b, dts a -> getitem a keys = Ok b -> dts b /\ dtype b = dtype a.
Proof.
  induction a as [sh v d|o c ks|a na IH|a dict lead IH|a d IH|a v IH|a axes IH|ssh items IH|tiles axis IH|g a axis d IH|o a d IH|o a b' d IH1 IH2]
    using barr_ind2; intros keys b Hd E; cbn [getitem] in E.
  - apply bind_ok in E as (sh' & _ & E). injection E as <-. split; auto.
  - (* adapter *)
    assert (G : forall ks' c', (k <- remap_keys (c_shape c) ks ks' ;; mk_adapter o c k) = Ok c' -> dts c' /\ dtype c' = c_dtype c).
    { intros ks' c' E'. apply bind_ok in E' as (k & _ & E'). unfold mk_adapter in E'. destruct (_ <? _); [discriminate|].
      apply bind_ok in E' as (_ & _ & E'). injection E' as <-. cbn; auto. }
    apply base_getitem_inv in E as [(k & _ & _ & E)|(_ & k & c' & _ & E & na' & [->|(bd & ->)])]; destruct (G _ _ E); cbn [dts dtype]; auto.
  - apply newax_getitem_inv in E as (k & c' & E & na' & [->|(bd & ->)]); cbn [dts dtype]; apply IH in E; auto.
  - (* broadcast *)
    match type of E with base_getitem ?f _ _ = _ => assert (G : forall k c', f k = Ok c' -> dts c' /\ dtype c' = dtype a) end.
    { intros k c' E'. apply bind_ok in E' as (l' & _ & E'). apply bind_ok in E' as (r & _ & E'). apply bind_ok in E' as (bb & _ & E').
      apply bind_ok in E' as (sub & Es & E'). assert (S : dts sub /\ dtype sub = dtype a).
      { destruct bb; [injection Es as <-; auto|]. eapply IH; eauto. }
      destruct (bcast_dts _ _ _ _ E' (proj1 S)) as [H1 H2]. split; auto. rewrite H2. apply S. }
    apply base_getitem_inv in E as [(k & _ & _ & E)|(_ & k & c' & _ & E & na' & [->|(bd & ->)])]; destruct (G _ _ E); cbn [dts dtype]; auto.
  - apply bind_ok in E as (c' & E1 & E). injection E as <-. cbn; auto.
  - apply bind_ok in E as (c' & E1 & E). injection E as <-. cbn [dts dtype]. eapply IH; eauto.
  - (* transposed *)
    match type of E with base_getitem ?f _ _ = _ => assert (G : forall k c', f k = Ok c' -> dts c' /\ dtype c' = dtype a) end.
    { intros k c' E'. cbv zeta in E'. apply bind_ok in E' as (x & Ex & E'). apply trans_inv in E' as (ax & ->). cbn [dts dtype]. eapply IH; eauto. }
    apply base_getitem_inv in E as [(k & _ & _ & E)|(_ & k & c' & _ & E & na' & [->|(bd & ->)])]; destruct (G _ _ E); cbn [dts dtype]; auto.
  - (* stack *)
    destruct Hd as [Hd HA]. rewrite dts_all in Hd. rewrite Forall_forall in IH.
    match type of E with base_getitem ?f _ _ = _ => assert (G : forall k c', f k = Ok c' -> dts c' /\ dtype c' = dtype (AStack ssh items)) end.
    { intros k c' E'. eapply stack_get in E' as [(it & Hi & Ei)|(ssh' & its & Es & Hx)]; [| |reflexivity].
      - destruct (IH it Hi _ _ (Hd it Hi) Ei) as [H1 H2]. split; auto. rewrite H2. symmetry. apply stack_dtype; auto.
      - apply stack_inv in Es as (-> & Hne & HA'). destruct its as [|x its]; [congruence|]. split.
        + split; auto. apply dts_all. intros y Hy. destruct (Hx y Hy) as (it & Hi & Ei). eapply IH; eauto.
        + destruct (Hx x (or_introl eq_refl)) as (it & Hi & Ei). destruct (IH it Hi _ _ (Hd it Hi) Ei) as [_ H2].
          rewrite (stack_dtype _ _ x HA') by (left; auto). rewrite H2. symmetry. apply stack_dtype; auto. }
    apply base_getitem_inv in E as [(k & _ & _ & E)|(_ & k & c' & _ & E & na' & [->|(bd & ->)])]; destruct (G _ _ E); cbn [dts]; auto.
  - (* mosaic *)
    destruct Hd as [Hd HA]. rewrite dts_all in Hd. rewrite Forall_forall in IH.
    match type of E with base_getitem ?f _ _ = _ => assert (G : forall k c', existsb is_new k = false -> f k = Ok c' -> dts c' /\ dtype c' = dtype (AMosaic tiles axis)) end.
    { intros k c' Hk E'. eapply mosaic_get in E' as [(it & k' & Hi & _ & Ei)|(ax & its & Es & Hx)]; auto.
      - destruct (IH it Hi _ _ (Hd it Hi) Ei) as [H1 H2]. split; auto. rewrite H2. symmetry. apply mosaic_dtype; auto.
      - apply mosaic_inv in Es as (-> & Hne & HA'). destruct its as [|x its]; [congruence|]. split.
        + split; auto. apply dts_all. intros y Hy. destruct (Hx y Hy) as (it & k' & Hi & _ & Ei). eapply IH; eauto.
        + destruct (Hx x (or_introl eq_refl)) as (it & k' & Hi & _ & Ei). destruct (IH it Hi _ _ (Hd it Hi) Ei) as [_ H2].
          rewrite (mosaic_dtype _ _ x HA') by (left; auto). rewrite H2. symmetry. apply mosaic_dtype; auto. }
    apply base_getitem_inv in E as [(k & _ & N & E)|(_ & k & c' & N & E & na' & [->|(bd & ->)])]; destruct (G _ _ N E); cbn [dts]; auto.
  - (* aggregation *)
    match type of E with base_getitem ?f _ _ = _ => assert (G : forall k c', f k = Ok c' -> dts c' /\ dtype c' = d) end.
    { intros k c' E'. cbv zeta in E'. apply bind_ok in E' as (x & Ex & E'). injection E' as <-. cbn; auto. }
    apply base_getitem_inv in E as [(k & _ & _ & E)|(_ & k & c' & _ & E & na' & [->|(bd & ->)])]; destruct (G _ _ E); cbn [dts dtype]; auto.
  - match type of E with base_getitem ?f _ _ = _ => assert (G : forall k c', f k = Ok c' -> dts c' /\ dtype c' = d) end.
    { intros k c' E'. apply bind_ok in E' as (x & Ex & E'). injection E' as <-. destruct Hd as [Hd ->]. destruct (IH _ _ Hd Ex) as [H1 H2].
      cbn [mk_el1 dts dtype]. rewrite H2. auto. }
    apply base_getitem_inv in E as [(k & _ & _ & E)|(_ & k & c' & _ & E & na' & [->|(bd & ->)])]; destruct (G _ _ E); cbn [dts dtype]; auto.
  - match type of E with base_getitem ?f _ _ = _ => assert (G : forall k c', f k = Ok c' -> dts c' /\ dtype c' = d) end.
    { intros k c' E'. apply bind_ok in E' as (x & Ex & E'). apply bind_ok in E' as (y & Ey & E'). destruct Hd as (Hd1 & Hd2 & ->).
      destruct (IH1 _ _ Hd1 Ex) as [H1 H2]. destruct (IH2 _ _ Hd2 Ey) as [H3 H4]. unfold mk_el2 in E'. apply bind_ok in E' as ([x' y'] & Eb & E').
      injection E' as <-. destruct (broadcast_dts _ _ _ _ Eb H1 H3) as [[F1 F2] [F3 F4]]. cbn [dts dtype]. rewrite F2, F4, H2, H4. auto. }
    apply base_getitem_inv in E as [(k & _ & _ & E)|(_ & k & c' & _ & E & na' & [->|(bd & ->)])]; destruct (G _ _ E); cbn [dts dtype]; auto.
Qed.

Theorem built_dts (a : barr) : built O a -> dts a.
Proof.
  induction 1 as [sh v d|o c ks a E|a na b H IH E|a dict lead b H IH E|a b c d H1 IH1 H2 IH2 E|a b c d H1 IH1 H2 IH2 E|a d H IH|a v H IH
    |a axes b H IH E|ssh items b H IH E|tiles axis b H IH E|g a ax b H IH E|o a H IH|o a b py c H1 IH1 H2 IH2 HP E|a keys b H IH E].
  - exact I.
  - unfold mk_adapter in E. destruct (_ <? _); [discriminate|]. apply bind_ok in E as (_ & _ & E). injection E as <-. exact I.
  - unfold mk_newax in E. destruct (_ =? _); [|discriminate]. injection E as <-. exact IH.
  - eapply bcast_dts; eauto.
  - apply (broadcast_dts _ _ _ _ E IH1 IH2).
  - apply (broadcast_dts _ _ _ _ E IH1 IH2).
  - unfold astype. destruct a; exact I.
  - exact IH.
  - apply trans_inv in E as (ax & ->). exact IH.
  - apply stack_inv in E as (-> & _ & HA). split; auto. apply dts_all. auto.
  - apply mosaic_inv in E as (-> & _ & HA). split; auto. apply dts_all. auto.
  - unfold aggregate in E. apply bind_ok in E as (axs & _ & E). destruct axs as [[|j [|? ?]]|]; try discriminate. injection E as <-. exact I.
  - cbn. auto.
  - unfold mk_el2 in E. apply bind_ok in E as ([a' b'] & Eb & E). injection E as <-. destruct (broadcast_dts _ _ _ _ Eb IH1 IH2) as [[F1 F2] [F3 F4]].
    cbn [dts]. split; auto. split; auto. rewrite F2, F4. destruct py; auto.
  - eapply getitem_dts; eauto.
Qed.
End Dtype.

(** ** Python scalars *)
Section Scalar.
Context {V : Type} (O : numops V).
Notation barr := (@barr V).

Lemma scalar_dtype o a b isf c keys (e : barr) : dts a -> dts b ->
  mk_el2 o a b (Some isf) = Ok c -> getitem c keys = Ok e ->
  dtype c = o2_dtpy o (dtype a) isf /\ dtype e = o2_dt o (dtype a) (dtype b).
Proof.
  intros Ha Hb E G. unfold mk_el2 in E. apply bind_ok in E as ([a' b'] & Eb & E). injection E as <-.
  destruct (broadcast_dts _ _ _ _ Eb Ha Hb) as [[F1 F2] [F3 F4]]. cbn [dtype]. rewrite F2. split; auto.
  cbn [getitem] in G.
  match type of G with base_getitem ?f _ _ = _ => assert (H : forall k c', f k = Ok c' -> dtype c' = o2_dt o (dtype a) (dtype b)) end.
  { intros k c' E'. apply bind_ok in E' as (x & Ex & E'). apply bind_ok in E' as (y & Ey & E').
    destruct (getitem_dts _ _ _ F1 Ex) as [H1 H2]. destruct (getitem_dts _ _ _ F3 Ey) as [H3 H4].
    unfold mk_el2 in E'. apply bind_ok in E' as ([x' y'] & Eb' & E'). injection E' as <-. destruct (broadcast_dts _ _ _ _ Eb' H1 H3) as [[_ J2] [_ J4]].
    cbn [dtype]. congruence. }
  apply base_getitem_inv in G as [(k & _ & _ & G)|(_ & k & c' & _ & G & na' & [->|(bd & ->)])]; apply H in G; cbn [dtype]; auto.
Qed.
End Scalar.

(** ** Fill values *)
Section FillGet.
Context {V : Type} (O : numops V).
Notation barr := (@barr V).
Variable (Hrefl : forall x, veqb O x x = true) (Hsym : forall x y, veqb O x y = true -> veqb O y x = true)
  (Htrans : forall x y z, veqb O x y = true -> veqb O y z = true -> veqb O x z = true).
Notation fillv := (fillv O).

Notation one_fill := (one_fill O).
Lemma one_fill_all (l : list barr) : fold_right (fun it P => one_fill it /\ P) True l <-> forall x, In x l -> one_fill x.
Proof.
  induction l as [|x l IH]; cbn; [tauto|]. rewrite IH. split.
  - intros [H1 H2] y [<-|Hy]; auto.
  - intros H. split; intros; apply H; auto.
Qed.
Lemma stack_fillv ssh items (x : barr) : (forall x y, In x items -> In y items -> veqb O (fillv x) (fillv y) = true) -> In x items ->
  veqb O (fillv (AStack ssh items)) (fillv x) = true.
Proof.
  intros H Hx. destruct items as [|it items]; [destruct Hx|]. cbn [Arrays.fillv]. unfold common_fill. rewrite fill_loop_spec.
  replace (forallb _ _) with true; [apply H; auto; left; auto|]. symmetry. apply forallb_forall. intros f Hf.
  change (fillv it :: map fillv items) with (map fillv (it :: items)) in Hf. apply in_map_iff in Hf as (y & <- & Hy). apply H; auto. left; auto.
Qed.
Lemma mosaic_fillv tiles axis (x : barr) : (forall x y, In x tiles -> In y tiles -> veqb O (fillv x) (fillv y) = true) -> In x tiles ->
  veqb O (fillv (AMosaic tiles axis)) (fillv x) = true.
Proof.
  intros H Hx. destruct tiles as [|it items]; [destruct Hx|]. cbn [Arrays.fillv]. unfold common_fill. rewrite fill_loop_spec.
  replace (forallb _ _) with true; [apply H; auto; left; auto|]. symmetry. apply forallb_forall. intros f Hf.
  apply in_map_iff in Hf as (y & <- & Hy). apply H; auto; [right|left]; auto.
Qed.

(** The classes whose fill value is their own. *)
Definition holds_fill (a : barr) : Prop := match a with AAdapt _ _ _ | AStack _ _ | AMosaic _ _ => True | _ => False end.
Lemma other_fill (a : barr) : ~ holds_fill a -> fillv a = vdfill O (dtype a).
Proof. destruct a; cbn; auto; intros H; destruct H; auto. Qed.
(** [__getitem__] of those gives another of those. *)
Lemma getitem_other (a : barr) keys b : ~ holds_fill a -> getitem a keys = Ok b -> ~ holds_fill b.
Proof.
  assert (B : forall gfk nd keys (b : barr), base_getitem gfk nd keys = Ok b -> (forall k c, gfk k = Ok c -> ~ holds_fill c) -> ~ holds_fill b).
  { intros gfk nd ks b' E H. apply base_getitem_inv in E as [(k & _ & _ & E)|(_ & k & c' & _ & E & na' & [->|(bd & ->)])]; auto; try (eapply H; eauto). }
  destruct a; cbn [holds_fill]; intros H E; try (exfalso; apply H; exact I); cbn [getitem] in E.
  - apply bind_ok in E as (sh' & _ & E). injection E as <-. auto.
  - apply newax_getitem_inv in E as (k & c' & E & na' & [->|(bd & ->)]); auto.
  - eapply B; [exact E|]. intros k c E'. apply bind_ok in E' as (l' & _ & E'). apply bind_ok in E' as (r & _ & E'). apply bind_ok in E' as (bb & _ & E').
    apply bind_ok in E' as (sub & Es & E'). unfold mk_bcast in E'. destruct sub; cbn [fst snd] in E'; apply bind_ok in E' as (_ & _ & E'); destruct (existsb _ _); try discriminate; injection E' as <-; auto.
  - apply bind_ok in E as (c & _ & E). injection E as <-. auto.
  - apply bind_ok in E as (c & _ & E). injection E as <-. auto.
  - eapply B; [exact E|]. intros k c E'. cbv zeta in E'. apply bind_ok in E' as (x & _ & E'). apply trans_inv in E' as (ax & ->). auto.
  - eapply B; [exact E|]. intros k c E'. cbv zeta in E'. apply bind_ok in E' as (x & _ & E'). injection E' as <-. auto.
  - eapply B; [exact E|]. intros k c E'. apply bind_ok in E' as (x & _ & E'). injection E' as <-. auto.
  - eapply B; [exact E|]. intros k c E'. apply bind_ok in E' as (x & _ & E'). apply bind_ok in E' as (y & _ & E').
    unfold mk_el2 in E'. apply bind_ok in E' as ([x' y'] & _ & E'). injection E' as <-. auto.
Qed.

Lemma fk_loop_new fuel : forall keys lh rh left, length keys = fuel ->
  existsb is_new (fst (fk_loop fuel keys lh rh left)) || existsb is_new (snd (fk_loop fuel keys lh rh left))
  = existsb is_new lh || existsb is_new rh || existsb is_new keys.
Proof.
  induction fuel as [|f IH]; intros keys lh rh left HL; cbn [fk_loop].
  - destruct keys; [|discriminate]. cbn. rewrite !orb_false_r. auto.
  - destruct left.
    + destruct keys as [|k ks]; [discriminate|]. injection HL as HL. destruct (is_ell k) eqn:K; rewrite IH by auto; rewrite existsb_app; cbn [existsb].
      * destruct k; try discriminate. cbn. destruct (existsb is_new lh), (existsb is_new rh); auto.
      * destruct (is_new k), (existsb is_new lh), (existsb is_new rh); auto.
    + destruct keys as [|k0 ks0]; [discriminate|]. assert (NE : k0 :: ks0 <> []) by discriminate. revert HL NE. generalize (k0 :: ks0). intros l HL NE.
      assert (EL : l = removelast l ++ [last l KBad]) by (apply app_removelast_last; auto).
      assert (HR : length (removelast l) = f) by (rewrite EL, app_length in HL; cbn [length] in HL; lia).
      assert (EX : existsb is_new l = existsb is_new (removelast l) || is_new (last l KBad)).
      { rewrite EL at 1. rewrite existsb_app. cbn. rewrite orb_false_r. auto. }
      rewrite EX. destruct (is_ell (last l KBad)) eqn:K; rewrite IH by auto; rewrite existsb_app; cbn [existsb].
      * destruct (last l KBad); try discriminate. cbn. destruct (existsb is_new lh), (existsb is_new rh); cbn; rewrite ?orb_false_r; auto.
      * destruct (is_new (last l KBad)), (existsb is_new lh), (existsb is_new rh); cbn; rewrite ?orb_false_r, ?orb_true_r; auto.
Qed.
Lemma full_keys_new keys nd ks : full_keys keys nd = Ok ks -> existsb is_new ks = existsb is_new keys.
Proof.
  unfold full_keys. set (pop := _ && _). set (keys' := if pop then pop_first_ell keys else keys). destruct (_ <? _); [discriminate|].
  pose proof (fk_loop_new (length keys') keys' [] [] true eq_refl) as H. destruct (fk_loop _ _ _ _ _) as [lh rh]. intros E. injection E as <-.
  cbn [fst snd existsb orb] in H. rewrite !existsb_app.
  assert (R : existsb is_new (repeat KFull (nd - (if pop then count_if (fun k => negb (is_new k)) keys - 1 else count_if (fun k => negb (is_new k)) keys))) = false).
  { generalize (nd - (if pop then count_if (fun k => negb (is_new k)) keys - 1 else count_if (fun k => negb (is_new k)) keys)). intros n. induction n; auto. }
  rewrite R. cbn [orb].
  assert (RV : existsb is_new (rev rh) = existsb is_new rh).
  { clear. induction rh as [|k l IH]; auto. cbn. rewrite existsb_app, IH. cbn. rewrite orb_false_r. apply orb_comm. }
  rewrite RV, H. unfold keys'. destruct pop; auto. clear. induction keys as [|k l IH]; auto. cbn. destruct k; cbn; auto.
Qed.

Theorem getitem_fill (a : barr) : forall keys b, dts a -> one_fill a -> existsb is_new keys = false -> getitem a keys = Ok b ->
  veqb O (fillv b) (fillv a) = true /\ one_fill b.
Proof.
  assert (SK : forall n (l : list key), existsb is_new l = false -> existsb is_new (skipn n l) = false).
  { intros n l H. rewrite <- (firstn_skipn n l), existsb_app in H. apply orb_false_iff in H. apply H. }
  induction a as [sh v d|o c ks|a na IH|a dict lead IH|a d IH|a v IH|a axes IH|ssh items IH|tiles axis IH|g a axis d IH|o a d IH|o a b' d IH1 IH2]
    using barr_ind2; intros keys b Hd H1 HN E;
    try (match type of E with getitem ?a0 _ = _ =>
          assert (HH : ~ holds_fill a0) by (intros []); pose proof (getitem_other _ _ _ HH E) as HB;
          destruct (getitem_dts _ _ _ Hd E) as [_ HD]; split;
           [rewrite (other_fill _ HH), (other_fill _ HB), HD; apply Hrefl|destruct b; try exact I; exfalso; apply HB; exact I] end; fail).
  - cbn [getitem] in E. apply base_getitem_inv in E as [(k & _ & _ & E)|((k & F & N) & _)].
    + apply bind_ok in E as (k' & _ & E). unfold mk_adapter in E. destruct (_ <? _); [discriminate|].
      apply bind_ok in E as (_ & _ & E). injection E as <-. split; [apply Hrefl|exact I].
    + rewrite (full_keys_new _ _ _ F) in N. congruence.
  - destruct Hd as [Hd HA]. rewrite dts_all in Hd. destruct H1 as [Ho HF]. rewrite one_fill_all in Ho. rewrite Forall_forall in IH.
    cbn [getitem] in E. apply base_getitem_inv in E as [(k & F & N & E)|((k & F & N) & _)]; [|rewrite (full_keys_new _ _ _ F) in N; congruence].
    specialize (SK (length ssh) _ N).
    eapply stack_get in E as [(it & Hi & Ei)|(ssh' & its & Es & Hx)]; [| |reflexivity].
    + destruct (IH it Hi _ _ (Hd it Hi) (Ho it Hi) SK Ei) as [J1 J2]. split; auto. eapply Htrans; [exact J1|]. apply Hsym. apply stack_fillv; auto.
    + apply stack_inv in Es as (-> & Hne & _).
      assert (HF' : forall x y, In x its -> In y its -> veqb O (fillv x) (fillv y) = true).
      { intros x y Hx' Hy'. destruct (Hx x Hx') as (it & Hi & Ei), (Hx y Hy') as (it' & Hi' & Ei').
        destruct (IH it Hi _ _ (Hd it Hi) (Ho it Hi) SK Ei) as [J1 _]. destruct (IH it' Hi' _ _ (Hd it' Hi') (Ho it' Hi') SK Ei') as [J1' _].
        eapply Htrans; [exact J1|]. eapply Htrans; [apply HF; eauto|]. apply Hsym. auto. }
      destruct its as [|x its]; [congruence|]. split.
      * destruct (Hx x (or_introl eq_refl)) as (it & Hi & Ei). destruct (IH it Hi _ _ (Hd it Hi) (Ho it Hi) SK Ei) as [J1 J2].
        eapply Htrans; [apply (stack_fillv _ _ x HF'); left; auto|]. eapply Htrans; [exact J1|]. apply Hsym. apply stack_fillv; auto.
      * split; auto. apply one_fill_all. intros y Hy. destruct (Hx y Hy) as (it & Hi & Ei). apply (IH it Hi _ _ (Hd it Hi) (Ho it Hi) SK Ei).
  - destruct Hd as [Hd HA]. rewrite dts_all in Hd. destruct H1 as [Ho HF]. rewrite one_fill_all in Ho. rewrite Forall_forall in IH.
    cbn [getitem] in E. apply base_getitem_inv in E as [(k & F & N & E)|((k & F & N) & _)]; [|rewrite (full_keys_new _ _ _ F) in N; congruence].
    eapply mosaic_get in E as [(it & k' & Hi & Hk & Ei)|(ax & its & Es & Hx)]; auto.
    + destruct (IH it Hi _ _ (Hd it Hi) (Ho it Hi) Hk Ei) as [J1 J2]. split; auto. eapply Htrans; [exact J1|]. apply Hsym. apply mosaic_fillv; auto.
    + apply mosaic_inv in Es as (-> & Hne & _).
      assert (HF' : forall x y, In x its -> In y its -> veqb O (fillv x) (fillv y) = true).
      { intros x y Hx' Hy'. destruct (Hx x Hx') as (it & k1 & Hi & Hk & Ei), (Hx y Hy') as (it' & k2 & Hi' & Hk' & Ei').
        destruct (IH it Hi _ _ (Hd it Hi) (Ho it Hi) Hk Ei) as [J1 _]. destruct (IH it' Hi' _ _ (Hd it' Hi') (Ho it' Hi') Hk' Ei') as [J1' _].
        eapply Htrans; [exact J1|]. eapply Htrans; [apply HF; eauto|]. apply Hsym. auto. }
      destruct its as [|x its]; [congruence|]. split.
      * destruct (Hx x (or_introl eq_refl)) as (it & k' & Hi & Hk & Ei). destruct (IH it Hi _ _ (Hd it Hi) (Ho it Hi) Hk Ei) as [J1 J2].
        eapply Htrans; [apply (mosaic_fillv _ _ x HF'); left; auto|]. eapply Htrans; [exact J1|]. apply Hsym. apply mosaic_fillv; auto.
      * split; auto. apply one_fill_all. intros y Hy. destruct (Hx y Hy) as (it & k' & Hi & Hk & Ei). apply (IH it Hi _ _ (Hd it Hi) (Ho it Hi) Hk Ei).
Qed.

(** With a newaxis the result has the default fill value. *)
Theorem newaxis_fill (a : barr) keys b : dts a -> existsb is_new keys = true -> getitem a keys = Ok b -> fillv b = vdfill O (dtype a).
Proof.
  intros Hd HN E. destruct (getitem_dts _ _ _ Hd E) as [_ HD].
  assert (HB : ~ holds_fill b); [|rewrite (other_fill _ HB), HD; auto].
  destruct a; try (eapply getitem_other; [|exact E]; intros []; fail); cbn [getitem] in E;
    apply base_getitem_inv in E as [(k & F & N & E)|(_ & k & c' & _ & E & na' & [->|(bd & ->)])]; try (intros []; fail);
    rewrite (full_keys_new _ _ _ F) in N; congruence.
Qed.
End FillGet.
