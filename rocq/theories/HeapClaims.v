(** HeapClaims: histories of building, indexing and assigning to stacks; and the
    arithmetic operators. *)
From Verif Require Import Base PySlice Keys NDArray Arrays Chunks Handlers Realise Spec Supported Lib SelLemmas GetBase GetStack HandlerLemmas Realisable IndexClaims ClassClaims BroadcastClaims Small.
From Coq Require Import ZifyBool ZifyNat.

Section Heap.
Context {V : Type}.
Notation barr := (@barr V).

(** What a program does with stacks (specification): build one from a list of
    arrays, index object number [k], assign into object number [k].  An operation
    that raises changes nothing. *)
Inductive hop := HNew (ssh : list nat) (items : list barr) | HGet (k : nat) (keys : list key)
               | HSet (k : nat) (keys : list key) (v : barr).
Definition hstate := (heap V * list (obj V))%type.
Definition hrun1 (s : hstate) (o : hop) : hstate :=
  let '(h, xs) := s in
  match o with
  | HNew ssh items => match mk_stack ssh items with
                      | Ok _ => (h ++ [items], xs ++ [OStack ssh (length h)])
                      | Err _ => s end
  | HGet k keys => match nth_error xs k with
                   | Some x => match obj_getitem h x keys with
                               | Ok (h', y) => (h', xs ++ [y])
                               | Err _ => s end
                   | None => s end
  | HSet k keys v => match nth_error xs k with
                     | Some x => match obj_setitem h x keys v with Ok h' => (h', xs) | Err _ => s end
                     | None => s end
  end.
Definition hrun (ops : list hop) : hstate := fold_left hrun1 ops ([], []).
(** The array object number [k] stands for. *)
Definition value (s : hstate) (k : nat) : option barr :=
  match nth_error (snd s) k with Some x => Some (content (fst s) x) | None => None end.

Definition loc_of (x : obj V) : list nat := match x with OStack _ l => [l] | OVal _ => [] end.
Definition hinv (s : hstate) : Prop :=
  NoDup (flat_map loc_of (snd s)) /\ Forall (fun l => l < length (fst s)) (flat_map loc_of (snd s)).

Lemma nth_error_loc (xs : list (obj V)) k ssh l : nth_error xs k = Some (OStack ssh l) -> In l (flat_map loc_of xs).
Proof. intros H. apply in_flat_map. exists (OStack ssh l). split; [eapply nth_error_In; eauto|left; auto]. Qed.
Lemma nodup_app_r {A} (l l' : list A) : NoDup (l ++ l') -> NoDup l'.
Proof. induction l as [|x l IH]; cbn; auto. intros H. inversion H; auto. Qed.
Lemma loc_distinct (xs : list (obj V)) k k' ssh ssh' l l' : NoDup (flat_map loc_of xs) -> k <> k' ->
  nth_error xs k = Some (OStack ssh l) -> nth_error xs k' = Some (OStack ssh' l') -> l <> l'.
Proof.
  revert k k'. induction xs as [|x xs IH]; intros [|k] [|k'] H Hk E1 E2; cbn in E1, E2; try discriminate; try lia.
  - injection E1 as ->. cbn in H. inversion H; subst. intros ->. apply nth_error_loc in E2. auto.
  - injection E2 as ->. cbn in H. inversion H; subst. intros ->. apply nth_error_loc in E1. auto.
  - cbn in H. apply nodup_app_r in H. apply (IH k k'); auto.
Qed.

Lemma content_grow (h : heap V) items x : Forall (fun l => l < length h) (loc_of x) -> content (h ++ [items]) x = content h x.
Proof.
  destruct x as [ssh l|a]; cbn; auto. intros H. apply Forall_inv in H. unfold items_at. rewrite app_nth1 by auto. auto.
Qed.
Lemma loc_bound (xs : list (obj V)) (h : heap V) k x : Forall (fun l => l < length h) (flat_map loc_of xs) -> nth_error xs k = Some x ->
  Forall (fun l => l < length h) (loc_of x).
Proof.
  intros H E. rewrite Forall_forall in *. intros l Hl. apply H. apply in_flat_map. exists x. split; auto. eapply nth_error_In; eauto.
Qed.

Lemma hinv_fresh (s : hstate) ssh items : hinv s -> hinv (fst s ++ [items], snd s ++ [OStack ssh (length (fst s))]).
Proof.
  intros [H1 H2]. split; cbn [fst snd]; rewrite flat_map_app; cbn [flat_map loc_of app].
  - apply NoDup_Add with (a := length (fst s)) (l := flat_map loc_of (snd s)).
    + rewrite <- (app_nil_r (flat_map loc_of (snd s))) at 1. apply Add_app.
    + split; auto. intros H. rewrite Forall_forall in H2. apply H2 in H. lia.
  - apply Forall_app. rewrite app_length. split; [|constructor; auto; cbn; lia].
    eapply Forall_impl; [|exact H2]. cbn. lia.
Qed.
Lemma hinv_val (s : hstate) a : hinv s -> hinv (fst s, snd s ++ [OVal a]).
Proof. intros [H1 H2]. split; cbn [fst snd]; rewrite flat_map_app; cbn; rewrite app_nil_r; auto. Qed.
Lemma hinv_run1 s o : hinv s -> hinv (hrun1 s o).
Proof.
  intros H. destruct s as [h xs]. destruct o as [ssh items|k keys|k keys v]; cbn [hrun1].
  - destruct (mk_stack ssh items); auto. exact (hinv_fresh (h, xs) ssh items H).
  - destruct (nth_error xs k) as [x|]; auto. unfold obj_getitem. destruct (getitem (content h x) keys) as [r|]; cbn [bind]; auto.
    destruct r; try exact (hinv_val (h, xs) _ H). exact (hinv_fresh (h, xs) _ _ H).
  - destruct (nth_error xs k) as [x|]; auto. destruct (obj_setitem h x keys v) as [h'|] eqn:E; auto.
    destruct x as [ssh l|a]; cbn in E; [|discriminate]. destruct (setitem_pos ssh keys); cbn in E; [|discriminate]. injection E as <-.
    destruct H as [H1 H2]. split; cbn [fst snd] in *; auto. rewrite set_nth_length. auto.
Qed.
Lemma hinv_run ops : hinv (hrun ops).
Proof.
  unfold hrun. assert (H : hinv ([], [])) by (split; constructor). revert H. generalize (([], []) : hstate).
  induction ops as [|o ops IH]; intros s H; cbn [fold_left]; auto. apply IH, hinv_run1; auto.
Qed.

(** Building and indexing leave every existing object as it was. *)
Lemma run_keeps ops o k a : value (hrun ops) k = Some a ->
  (forall k' keys v, o = HSet k' keys v -> k' <> k) -> value (hrun1 (hrun ops) o) k = Some a.
Proof.
  intros Hv Ho. pose proof (hinv_run ops) as HI. destruct (hrun ops) as [h xs]. unfold value in *. cbn [fst snd] in *.
  destruct (nth_error xs k) as [x|] eqn:Ex; [|discriminate]. injection Hv as <-.
  assert (Hk : k < length xs) by (apply nth_error_Some; congruence).
  destruct HI as [I1 I2]. cbn [fst snd] in *. pose proof (loc_bound _ _ _ _ I2 Ex) as LB.
  destruct o as [ssh items|k' keys|k' keys v]; cbn [hrun1].
  - destruct (mk_stack ssh items); cbn [fst snd]; [|rewrite Ex; auto]. rewrite nth_error_app1, Ex by auto. rewrite content_grow; auto.
  - destruct (nth_error xs k') as [y|]; cbn [fst snd]; [|rewrite Ex; auto]. unfold obj_getitem.
    destruct (getitem (content h y) keys) as [r|]; cbn [bind fst snd]; [|rewrite Ex; auto].
    destruct r; cbn [fst snd]; rewrite nth_error_app1, Ex by auto; auto. rewrite content_grow; auto.
  - specialize (Ho k' keys v eq_refl). destruct (nth_error xs k') as [y|] eqn:Ey; cbn [fst snd]; [|rewrite Ex; auto].
    destruct (obj_setitem h y keys v) as [h'|] eqn:E; cbn [fst snd]; rewrite Ex; auto. f_equal.
    destruct y as [ssh l|ya]; cbn in E; [|discriminate]. destruct (setitem_pos ssh keys); cbn in E; [|discriminate]. injection E as <-.
    destruct x as [ssh' l'|xa]; auto. cbn. unfold items_at. rewrite nth_set_nth_neq; auto. eapply (loc_distinct xs k' k); eauto.
Qed.

(** Assigning to object [k] replaces exactly the designated item. *)
Lemma ravel_inj sh i j : inb sh i -> inb sh j -> ravel sh i = ravel sh j -> i = j.
Proof.
  unfold inb. intros H. revert j. induction H as [|x n i sh H1 H2 IH]; intros j Hj E; inversion Hj as [|y ? j' ? H3 H4]; subst; auto.
  cbn [ravel] in E. pose proof (ravel_lt sh i H2). pose proof (ravel_lt sh j' H4).
  assert (x = y) by nia. subst. f_equal. apply IH; auto. lia.
Qed.
Lemma setitem_pos_ok ssh (l : list Z) idx : Forall2 (fun zn j => norm_int (fst zn) (snd zn) = Some j) (combine l ssh) idx -> length l = length ssh ->
  setitem_pos ssh (map KInt l) = Ok (ravel ssh idx) /\ inb ssh idx.
Proof.
  intros H HL. unfold setitem_pos. rewrite map_length, HL, Nat.eqb_refl. cbn [negb].
  replace (forallb is_scalar (map KInt l)) with true by (symmetry; apply forallb_forall; intros x Hx; apply in_map_iff in Hx as (z & <- & _); auto).
  cbn [negb].
  assert (E : mapM (fun kn : key * nat => match fst kn with
                         | KInt i => match norm_int i (snd kn) with Some j => Ok j | None => Err IndexError end
                         | _ => Err AssertErr end) (combine (map KInt l) ssh) = Ok idx).
  { clear HL. revert ssh idx H. induction l as [|z l IH]; intros [|n ssh] idx H; cbn in *; inversion H; subst; auto.
    cbn in H2. rewrite H2. rewrite (IH ssh l') by auto. auto. }
  rewrite E. split; auto. clear E. unfold inb. revert ssh idx HL H. induction l as [|z l IH]; intros [|n ssh] idx HL H; cbn in *; try discriminate; inversion H; subst; constructor.
  - cbn in H2. unfold norm_int in H2. destruct (_ && _) eqn:E; [|discriminate]. injection H2 as <-. destruct (z <? 0)%Z eqn:E2; lia.
  - apply IH; auto.
Qed.
Lemma set_item ops k ssh items l idx v : value (hrun ops) k = Some (AStack ssh items) -> snd (hrun ops) <> [] ->
  (exists loc, nth_error (snd (hrun ops)) k = Some (OStack ssh loc)) ->
  length items = prodn ssh -> length l = length ssh ->
  Forall2 (fun zn j => norm_int (fst zn) (snd zn) = Some j) (combine l ssh) idx ->
  exists items', value (hrun1 (hrun ops) (HSet k (map KInt l) v)) k = Some (AStack ssh items')
    /\ length items' = length items
    /\ nth_error items' (ravel ssh idx) = Some v
    /\ forall i, inb ssh i -> i <> idx -> nth_error items' (ravel ssh i) = nth_error items (ravel ssh i).
Proof.
  intros Hv _ (loc & Ex) HL Hl HF. pose proof (hinv_run ops) as [I1 I2]. destruct (hrun ops) as [h xs]. unfold value in *. cbn [fst snd] in *.
  rewrite Ex in Hv. cbn [content] in Hv. injection Hv as Hv. cbn [hrun1]. rewrite Ex. cbn [obj_setitem].
  destruct (setitem_pos_ok ssh l idx HF Hl) as [-> Hi]. cbn [bind fst snd]. rewrite Ex. cbn [content]. unfold items_at in *.
  assert (Hloc : loc < length h). { rewrite Forall_forall in I2. apply I2. eapply nth_error_loc; eauto. }
  rewrite nth_set_nth_eq by auto. rewrite Hv. exists (set_nth (ravel ssh idx) v items). split; auto. rewrite set_nth_length. split; auto.
  pose proof (ravel_lt _ _ Hi) as Hr. rewrite <- HL in Hr. split.
  - rewrite (nth_error_nth' _ v) by (rewrite set_nth_length; auto). rewrite nth_set_nth_eq by auto. auto.
  - intros i Hii Hne. pose proof (ravel_lt _ _ Hii) as Hr'. rewrite <- HL in Hr'.
    rewrite (nth_error_nth' _ v) by (rewrite set_nth_length; auto). rewrite (nth_error_nth' items v) by auto. f_equal.
    apply nth_set_nth_neq. intros E. apply Hne. symmetry. eapply ravel_inj; eauto.
Qed.
End Heap.

(** ** Operators *)
Section Operators.
Context {V : Type} (O : numops V).
Variable maxc : nat.
Variable garbage : list nat -> option V.
Variable m : bool.
Variable HG : @agg V -> nat -> Prop.
Variable fuel : nat.
Hypothesis HR : forall g, handler_right O m g (HG g).
Notation barr := (@barr V).
Notation usable := (usable maxc m HG fuel).
Notation reads := (reads O maxc garbage m fuel).

(** The operation each operator stands for (specification). *)
Definition operation (u : ufuncs V) (o : opname) : @op2 V :=
  match o with
  | OpAdd => np_add u | OpSub => np_subtract u | OpMul => np_multiply u | OpFloorDiv => np_floor_divide u
  | OpDiv => np_divide u | OpTrueDiv => np_true_divide u | OpPow => np_power u
  end.
Lemma mk_el2_not_type o (a b : barr) py : mk_el2 o a b py <> Err TypeError.
Proof using.
  unfold mk_el2, broadcast_arrays. rewrite compute_bshape_ok.
  assert (B : forall (a : barr) full off, broadcast_one a full off <> Err TypeError).
  { intros a0 full off. unfold broadcast_one.
    assert (M : forall d l, mk_bcast a0 d l <> Err TypeError).
    { intros d l. unfold mk_bcast. destruct (match a0 with ABcast _ _ _ => _ | _ => _ end) as [[a1 d1] l1].
      assert (S : forall dd sh, shape_from_dict sh dd <> Err TypeError).
      { unfold shape_from_dict. induction dd as [|[ax n] dd IH]; intros sh; cbn [foldM]; [discriminate|].
        destruct (_ <=? _); [discriminate|]. destruct (_ =? 1); [apply IH|discriminate]. }
      specialize (S d1 (shape a1)). destruct (shape_from_dict (shape a1) d1); cbn [bind]; [|congruence]. destruct (existsb _ _); discriminate. }
    destruct (firstn off full), (bdict (skipn off full) (shape a0)); auto. discriminate. }
  destruct (np_bshape (shape a) (shape b)) as [full|]; cbn [bind]; [|discriminate].
  pose proof (B a full (ndim b - ndim a)). destruct (broadcast_one a _ _); cbn [bind]; [|congruence].
  pose proof (B b full (ndim a - ndim b)). destruct (broadcast_one b _ _); cbn [bind]; [|congruence]. discriminate.
Qed.
Lemma not_impl_id (r : res barr) : r <> Err TypeError -> not_implemented r = match r with Ok a => Ok (Some a) | Err e => Err e end.
Proof using. destruct r as [a|[]]; cbn; auto; congruence. Qed.

Lemma binary_left u o (a : barr) y b : ensure_array y = Ok b ->
  binary u o (PArr a) y = mk_el2 (operation u o) a b (py_of y).
Proof using.
  intros E. unfold binary, op_method, elementwise2. cbn [ensure_array bind]. rewrite E. cbn [bind].
  rewrite not_impl_id by apply mk_el2_not_type. replace (method_fun u o) with (operation u o) by (destruct o; auto).
  destruct (mk_el2 _ a b _); auto.
Qed.
Lemma binary_right u o x v d py (b : barr) : x = PNum v d py ->
  binary u o x (PArr b) = mk_el2 (operation u o) (AConst [] v d) b None.
Proof using.
  intros ->. unfold binary, rop_method, elementwise2. cbn [ensure_array bind py_of].
  rewrite not_impl_id by apply mk_el2_not_type. replace (method_fun u o) with (operation u o) by (destruct o; auto).
  destruct (mk_el2 _ _ b _); auto.
Qed.
Lemma binary_refused u o (a : barr) : binary u o (PArr a) POther = Err TypeError /\ binary u o POther (PArr a) = Err TypeError.
Proof using. split; auto. Qed.

Lemma bshape_nil_r sh : np_bshape sh [] = Some sh.
Proof using. unfold np_bshape. cbn [rev]. assert (E : forall l, bshape_rev l [] = Some l) by (intros [|x l]; auto). rewrite E, rev_involutive. auto. Qed.
Lemma bshape_nil_l sh : np_bshape [] sh = Some sh.
Proof using. unfold np_bshape. cbn. rewrite rev_involutive. auto. Qed.
Lemma const_usable a sh v d : usable a -> usable (AConst sh v d).
Proof using. intros [_ H]. split; [exact I|]. destruct fuel; [destruct H|exact I]. Qed.

Lemma scalar_right u o (a : barr) v d py : usable a -> Forall (fun n => 1 <= n) (shape a) ->
  (forall e, binary u o (PArr a) (PNum v d py) = Ok e -> realisable maxc m HG fuel e) ->
  exists e da r, binary u o (PArr a) (PNum v d py) = Ok e /\ reads a da /\ reads e r /\ nshape r = nshape da
    /\ forall i, inb (nshape da) i -> nget r i = op2_sem m (operation u o) (nget da i) (Some v).
Proof.
  intros Hu Hz. rewrite (binary_left u o a (PNum v d py) (AConst [] v d)) by reflexivity. intros He.
  destruct (mk_el2_claim O maxc garbage m HG fuel HR (operation u o) a (AConst [] v d) py (shape a)) as (e & da & db & r & E1 & E2 & E3 & E4 & E5 & E6); auto.
  - eapply const_usable; eauto.
  - split; [right; rewrite Nat.sub_diag; auto|rewrite Nat.sub_diag; constructor].
  - split; [left; intros; discriminate|]. unfold ndim. cbn. rewrite Nat.sub_0_r, firstn_all. auto.
  - apply bshape_nil_r.
  - exists e, da, r. pose proof (reads_shape O maxc garbage m HG fuel HR a da Hu E2) as Hs. split; [exact E1|].
    split; auto. split; auto. split; [congruence|]. intros i Hi. rewrite Hs in Hi. rewrite E6 by auto. f_equal.
    + f_equal. rewrite Hs. unfold bc_idx. rewrite (inb_length _ _ Hi), Nat.sub_diag. cbn [skipn].
      clear - Hi. unfold inb in Hi. induction Hi as [|x n i sh H1 H2 IH]; cbn [bidx]; auto. rewrite IH. destruct (Nat.eqb_spec n 1); auto. f_equal. lia.
    + pose proof (reads_den O maxc garbage m HG fuel HR _ db (const_usable a [] v d Hu) E3) as D. rewrite (proj2 D); auto.
      rewrite (proj1 D). cbn. constructor.
Qed.
Lemma scalar_left u o (a : barr) v d py : usable a -> Forall (fun n => 1 <= n) (shape a) ->
  (forall e, binary u o (PNum v d py) (PArr a) = Ok e -> realisable maxc m HG fuel e) ->
  exists e da r, binary u o (PNum v d py) (PArr a) = Ok e /\ reads a da /\ reads e r /\ nshape r = nshape da
    /\ forall i, inb (nshape da) i -> nget r i = op2_sem m (operation u o) (Some v) (nget da i).
Proof.
  intros Hu Hz. rewrite (binary_right u o _ v d py a eq_refl). intros He.
  destruct (mk_el2_claim O maxc garbage m HG fuel HR (operation u o) (AConst [] v d) a None (shape a)) as (e & db & da & r & E1 & E3 & E2 & E4 & E5 & E6); auto.
  - eapply const_usable; eauto.
  - split; [left; intros; discriminate|]. unfold ndim. cbn. rewrite Nat.sub_0_r, firstn_all. auto.
  - split; [right; rewrite Nat.sub_diag; auto|rewrite Nat.sub_diag; constructor].
  - apply bshape_nil_l.
  - exists e, da, r. pose proof (reads_shape O maxc garbage m HG fuel HR a da Hu E2) as Hs. split; [exact E1|].
    split; auto. split; auto. split; [congruence|]. intros i Hi. rewrite Hs in Hi. rewrite E6 by auto. f_equal.
    + pose proof (reads_den O maxc garbage m HG fuel HR _ db (const_usable a [] v d Hu) E3) as D. rewrite (proj2 D); auto.
      rewrite (proj1 D). cbn. constructor.
    + f_equal. rewrite Hs. unfold bc_idx. rewrite (inb_length _ _ Hi), Nat.sub_diag. cbn [skipn].
      clear - Hi. unfold inb in Hi. induction Hi as [|x n i sh H1 H2 IH]; cbn [bidx]; auto. rewrite IH. destruct (Nat.eqb_spec n 1); auto. f_equal. lia.
Qed.
End Operators.
