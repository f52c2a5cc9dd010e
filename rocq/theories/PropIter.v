(** C68: iterating over an array. *)
From Verif Require Import Base PySlice Keys NDArray Arrays Chunks Handlers Realise Spec Supported Lib SelLemmas KeyLemmas GetBase GetSimple GetItem HandlerLemmas RealOps Realisable ClassClaims IndexClaims Samples BoundClaims PropBounds Steady SteadyReal SteadyClaims PropSteady Sound Iter.
From Coq Require Import ZifyBool ZifyNat.

(** The specification: row [i] of an array of at least one dimension. *)
Definition row {W} (d : nd W) (i : nat) : nd W := mkND (tl (nshape d)) (fun idx => nget d (i :: idx)).

Section Iter.
Context {V : Type}.
Implicit Type a : @barr V.

Lemma iter_from_rows (b : nat -> @barr V) a k : forall n i, (forall j, j < n -> getitem a [KInt (Z.of_nat (i + j))] = Ok (b (i + j))) ->
  getitem a [KInt (Z.of_nat (i + n))] = Err IndexError -> iter_from (S n + k) i a = Some (Ok (map b (seq i n))).
Proof.
  assert (HS : forall f i, iter_from (S f) i a = match getitem a [KInt (Z.of_nat i)] with
     | Ok b => match iter_from f (S i) a with Some (Ok l) => Some (Ok (b :: l)) | r => r end
     | Err IndexError => Some (Ok []) | Err e => Some (Err e) end) by reflexivity.
  induction n as [|n IH]; intros i H1 H2; rewrite Nat.add_succ_l, HS.
  - rewrite Nat.add_0_r in H2. rewrite H2. reflexivity.
  - pose proof (H1 0 ltac:(lia)) as H0. rewrite Nat.add_0_r in H0. rewrite H0. rewrite (IH (S i)).
    + reflexivity.
    + intros j Hj. replace (S i + j) with (i + S j) by lia. apply H1. lia.
    + replace (S i + n) with (i + S n) by lia. exact H2.
Qed.

Lemma iter_endless a : (forall i, exists b, getitem a [KInt (Z.of_nat i)] = Ok b) -> forall fuel i, iter_from fuel i a = None.
Proof. intros H. induction fuel as [|f IH]; intros i; cbn [iter_from]; auto. destruct (H i) as [b ->]. rewrite IH. reflexivity. Qed.

(** What an iteration that ended tells. *)
Lemma iter_from_inv a : forall fuel i rows, iter_from fuel i a = Some (Ok rows) ->
  (forall j, j < length rows -> getitem a [KInt (Z.of_nat (i + j))] = Ok (nth j rows a))
  /\ getitem a [KInt (Z.of_nat (i + length rows))] = Err IndexError.
Proof.
  induction fuel as [|f IH]; intros i rows H; cbn [iter_from] in H; [discriminate|].
  destruct (getitem a [KInt (Z.of_nat i)]) as [b|e] eqn:E.
  - destruct (iter_from f (S i) a) as [[l|e]|] eqn:E'; try discriminate. injection H as <-. destruct (IH _ _ E') as [H1 H2]. split.
    + intros [|j] Hj; cbn [nth].
      * rewrite Nat.add_0_r. exact E.
      * replace (i + S j) with (S i + j) by lia. apply H1. cbn [length] in Hj. lia.
    + cbn [length]. replace (i + S (length l)) with (S i + length l) by lia. exact H2.
  - destruct e; try discriminate. injection H as <-. split; [intros j Hj; inversion Hj|]. cbn [length]. rewrite Nat.add_0_r. exact E.
Qed.

Lemma int_expand i n : np_expand [KInt i] (S n) = Ok (KInt i :: repeat KFull n).
Proof. unfold np_expand. cbn. rewrite Nat.sub_0_r. reflexivity. Qed.

Lemma int_select i n sh : i < n -> oselect [KInt (Z.of_nat i)] (n :: sh) = Some (DPt i :: full_sels sh).
Proof.
  intros Hi. unfold oselect. cbn [length]. rewrite int_expand. rewrite sel_keys_cons_eq by reflexivity.
  rewrite sel_keys_repeat_full. cbn [sel_key]. unfold norm_int.
  replace ((- Z.of_nat n <=? Z.of_nat i)%Z && (Z.of_nat i <? Z.of_nat n)%Z) with true by lia.
  replace (Z.of_nat i <? 0)%Z with false by lia. rewrite Nat2Z.id. reflexivity.
Qed.

Lemma int_row {W} (d : nd W) i n sh : nshape d = n :: sh -> i < n -> nd_eq (oindex d [KInt (Z.of_nat i)]) (row d i).
Proof.
  intros Hs Hi. unfold oindex. rewrite Hs, int_select by exact Hi. split; cbn [nshape nd_sel row nget sel_shape sel_map].
  - rewrite Hs, sel_shape_full. reflexivity.
  - intros o Ho. rewrite sel_shape_full in Ho. rewrite sel_map_full by exact Ho. reflexivity.
Qed.

Lemma beyond a n sh : wf a -> shape a = n :: sh -> nth 0 (checked false a) false = true -> getitem a [KInt (Z.of_nat n)] = Err IndexError.
Proof.
  intros Hw Hs Hc. apply (C15_rejects_partial a false [KInt (Z.of_nat n)] (KInt (Z.of_nat n) :: repeat KFull (length sh)) 0); auto.
  - unfold ndim. rewrite Hs. apply int_expand.
  - constructor; [exact I|]. apply Forall_forall. intros k Hk. apply repeat_spec in Hk as ->. discriminate.
  - rewrite Hs. cbn [nth out_of_range]. right. lia.
Qed.

Lemma choose_rows (P : nat -> @barr V -> Prop) a n : (forall i, i < n -> exists b, getitem a [KInt (Z.of_nat i)] = Ok b /\ P i b) ->
  exists b, forall i, i < n -> getitem a [KInt (Z.of_nat i)] = Ok (b i) /\ P i (b i).
Proof.
  intros H. exists (fun i => match getitem a [KInt (Z.of_nat i)] with Ok b => b | Err _ => a end).
  intros i Hi. destruct (H i Hi) as (b & E & HP). rewrite E. auto.
Qed.

Lemma rows_done (P : nat -> @barr V -> Prop) a n sh : wf a -> shape a = n :: sh -> nth 0 (checked false a) false = true ->
  (forall i, i < n -> exists b, getitem a [KInt (Z.of_nat i)] = Ok b /\ P i b) ->
  exists rows, length rows = n /\ (forall k, iterate (S n + k) a = Some (Ok rows)) /\ forall i, i < n -> P i (nth i rows a).
Proof.
  intros Hw Hs Hc H. destruct (choose_rows P a n H) as [b Hb]. exists (map b (seq 0 n)). split; [rewrite map_length, seq_length; reflexivity|]. split.
  - intros k. apply (iter_from_rows b a k n 0).
    + intros j Hj. apply Hb. exact Hj.
    + apply (beyond a n sh); auto.
  - intros i Hi. rewrite (nth_map_seq b). { apply Hb. exact Hi. } exact Hi.
Qed.
End Iter.

Section Meaning.
Context {V : Type} (O : numops V).
Implicit Type a : @barr V.

(** Iterating over an array with at least one dimension gives its rows, all of them,
    in order, and ends.  The conditions: the first dimension checks its indices
    ([checked], as in C15), and its indices are [supported] (as in C14).  [fuel] is
    how long the observer waits; waiting longer changes nothing. *)
Theorem C68_rows_partial a n sh : wf a -> shape a = n :: sh -> nth 0 (checked false a) false = true ->
  (forall i, i < n -> supported a [KInt (Z.of_nat i)]) ->
  exists rows, length rows = n /\ (forall k, iterate (S n + k) a = Some (Ok rows))
    /\ forall i, i < n -> shape (nth i rows a) = sh /\ forall m, nd_eq (den O m (nth i rows a)) (row (den O m a) i).
Proof.
  intros Hw Hs Hc HK. apply (rows_done (fun i b => shape b = sh /\ forall m, nd_eq (den O m b) (row (den O m a) i)) a n sh); auto.
  intros i Hi. destruct (getitem_ok O a [KInt (Z.of_nat i)] Hw) as (b & B1 & B2 & B3 & _); [unfold valid_keys; rewrite Hs, int_select by exact Hi; discriminate|auto|].
  exists b. split; [exact B1|].
  assert (HR : forall m, nd_eq (den O m b) (row (den O m a) i)).
  { intros m. eapply nd_eq_trans; [apply B3|]. apply (int_row _ i n sh); [rewrite den_shape; auto|exact Hi]. }
  split; [|exact HR]. rewrite <- (den_shape O true) by exact B2. rewrite (proj1 (HR true)). cbn [row nshape]. rewrite den_shape by exact Hw. rewrite Hs. reflexivity.
Qed.

(** An iteration over any array, if it ends, asked for a[0], a[1], ... in order up to
    the first that raised IndexError, and returned exactly what these gave. *)
Theorem C68_in_order a fuel rows : iterate fuel a = Some (Ok rows) ->
  (forall i, i < length rows -> getitem a [KInt (Z.of_nat i)] = Ok (nth i rows a))
  /\ getitem a [KInt (Z.of_nat (length rows))] = Err IndexError.
Proof. exact (iter_from_inv a fuel 0 rows). Qed.

(** Over an array without dimensions NumPy raises TypeError; here the iteration
    ends at once, without a row, whatever the kind of array. *)
Lemma no_dimension a : wf a -> shape a = [] -> forall i, getitem a [KInt i] = Err IndexError.
Proof.
  induction a as [sh v d|o c ks|a na IH|a dict lead IH|a d IH|a v IH|a axes IH|ssh items IH|tiles axis IH|g a axis d IH|o a d IH|o a b d IH1 IH2] using barr_ind2;
    intros Hw Hs i; cbn [getitem];
    try (unfold base_getitem, ndim; rewrite Hs; reflexivity).
  - cbn [shape] in Hs. rewrite Hs. reflexivity.
  - unfold newax_getitem. cbn [shape] in Hs. apply (f_equal (@length nat)) in Hs. rewrite layout_len in Hs.
    + cbn [length] in Hs. unfold ndim. rewrite Hs. reflexivity.
    + cbn [wf] in Hw. apply Hw.
  - cbn [shape] in Hs. rewrite IH; auto.
  - cbn [shape] in Hs. rewrite IH; auto.
Qed.

Theorem C68_no_dimension_refuted a k : wf a -> shape a = [] -> iterate (S k) a = Some (Ok []).
Proof. intros Hw Hs. cbn [iterate iter_from]. unfold iterate. cbn [iter_from]. rewrite no_dimension by auto. reflexivity. Qed.
End Meaning.

(** ** Iterations that never end *)
Section Endless.
Context {V : Type} (O : numops V).
Implicit Type a : @barr V.

(** Dimension [d] of [a] is that of a ConstantArray or a leading dimension of a
    BroadcastArray, possibly under casts, value masks, elementwise operations whose
    operands are all like that, and aggregations. *)
Fixpoint loose (d : nat) (a : @barr V) : Prop :=
  match a with
  | AConst sh _ _ => d < length sh
  | ABcast _ _ lead => d < length lead
  | AAsTy c _ | AMaskV c _ | AEl1 _ c _ => loose d c
  | AEl2 _ c1 c2 _ => loose d c1 /\ loose d c2
  | AAgg _ c axis _ => loose (if d <? axis then d else S d) c
  | _ => False
  end.

Definition at_dim (d k : nat) (i : Z) : list key := repeat KFull d ++ KInt i :: repeat KFull k.

Lemma at_dim_fullk d k i : fullk (at_dim d k i) (d + S k).
Proof.
  split.
  - unfold at_dim. rewrite existsb_app. cbn [existsb is_ell]. assert (H : forall n, existsb is_ell (repeat KFull n) = false) by (induction n; auto). rewrite !H. reflexivity.
  - unfold at_dim, n_real. assert (H : forall n, n_real (repeat KFull n) = n) by apply n_real_repeat. unfold n_real in H.
    rewrite count_if_app, H. f_equal. unfold count_if in *. cbn [filter is_new is_ell negb andb length]. f_equal. apply H.
Qed.
Lemma at_dim_new d k i : existsb is_new (at_dim d k i) = false.
Proof.
  unfold at_dim. rewrite existsb_app. cbn [existsb is_new]. assert (H : forall n, existsb is_new (repeat KFull n) = false) by (induction n; auto). rewrite !H. reflexivity.
Qed.
Lemma at_dim_insert d k i axis : axis <= d + S k -> insert_at axis KFull (at_dim d k i) = if d <? axis then at_dim d (S k) i else at_dim (S d) k i.
Proof.
  unfold at_dim. revert axis. induction d as [|d IH]; intros axis H.
  - destruct axis as [|axis]; [reflexivity|]. change (0 <? S axis) with true. cbn iota. cbn [repeat app]. rewrite insert_at_S. f_equal.
    assert (HR : forall n m, m <= n -> insert_at m KFull (repeat KFull n) = repeat KFull (S n)).
    { intros n. induction n as [|n IHn]; intros m Hm; (destruct m as [|m]; [reflexivity|]); [lia|]. cbn [repeat]. rewrite insert_at_S, IHn by lia. reflexivity. }
    apply HR. lia.
  - destruct axis as [|axis]; [reflexivity|]. cbn [repeat app]. rewrite insert_at_S, IH by lia. change (S d <? S axis) with (d <? axis). destruct (d <? axis); reflexivity.
Qed.
Lemma at_dim_sliced sh d k i j : sliced_loop sh (at_dim d k i) = sliced_loop sh (at_dim d k j).
Proof.
  unfold at_dim. revert sh. induction d as [|d IH]; intros sh; cbn [repeat app sliced_loop].
  - destruct sh; reflexivity.
  - unfold KFull at 1 3. destruct sh as [|n sh]; [reflexivity|]. rewrite (IH sh). reflexivity.
Qed.
Lemma at_dim_first m d k i : d < m -> m <= d + S k -> firstn m (at_dim d k i) = at_dim d (m - S d) i.
Proof.
  intros H1 H2. unfold at_dim. rewrite firstn_app, repeat_length. rewrite firstn_all2 by (rewrite repeat_length; lia).
  replace (m - d) with (S (m - S d)) by lia. cbn [firstn]. f_equal. f_equal.
  assert (HR : forall n p, p <= n -> firstn p (repeat KFull n) = repeat KFull p).
  { intros n. induction n as [|n IHn]; intros p Hp; (destruct p as [|p]; [reflexivity|]); [lia|]. cbn [repeat firstn]. rewrite IHn by lia. reflexivity. }
  apply HR. lia.
Qed.
Lemma at_dim_skip m d k i j : d < m -> skipn m (at_dim d k i) = skipn m (at_dim d k j).
Proof.
  intros H. unfold at_dim. rewrite !skipn_app, !repeat_length. replace (m - d) with (S (m - S d)) by lia. reflexivity.
Qed.
Lemma at_dim_scalars d k i n : count_if is_scalar (firstn n (at_dim d k i)) = if d <? n then 1 else 0.
Proof.
  assert (HR : forall p q, count_if is_scalar (firstn p (repeat KFull q)) = 0).
  { induction p as [|p IH]; intros [|q]; try reflexivity. unfold count_if in *. cbn [repeat firstn filter is_scalar KFull]. apply IH. }
  unfold at_dim. rewrite firstn_app, repeat_length, count_if_app, HR. destruct (Nat.ltb_spec d n) as [H|H].
  - replace (n - d) with (S (n - S d)) by lia. unfold count_if in *. cbn [firstn filter is_scalar length]. rewrite HR. reflexivity.
  - replace (n - d) with 0 by lia. reflexivity.
Qed.

Lemma base_at_dim (g g' : list key -> res (@barr V)) d k i j : g (at_dim d k i) = g' (at_dim d k j) ->
  base_getitem g (d + S k) (at_dim d k i) = base_getitem g' (d + S k) (at_dim d k j).
Proof. intros H. unfold base_getitem. rewrite !full_keys_id by apply at_dim_fullk. cbn [bind]. rewrite !at_dim_new. exact H. Qed.

Lemma loose_same a : wf a -> forall d k i j, loose d a -> ndim a = d + S k -> getitem a (at_dim d k i) = getitem a (at_dim d k j).
Proof.
  induction a as [sh v d0|o c ks|a na IH|a dict lead IH|a d0 IH|a v IH|a axes IH|ssh items IH|tiles axis IH|g a axis d0 IH|o a d0 IH|o a b d0 IH1 IH2] using barr_ind2;
    intros Hw d k i j HL HN; cbn [loose] in HL; try contradiction; cbn [getitem].
  - unfold sliced_shape. cbn [ndim shape] in HN. unfold ndim in HN. cbn [shape] in HN. rewrite HN. rewrite !full_keys_id by apply at_dim_fullk. cbn [bind]. rewrite (at_dim_sliced sh d k i j). reflexivity.
  - rewrite HN. apply base_at_dim. assert (HM : length lead <= d + S k).
    { rewrite <- HN. unfold ndim. cbn [shape]. rewrite app_length. lia. }
    rewrite !at_dim_first by lia. rewrite (at_dim_skip (length lead) d k i j) by lia.
    assert (HQ : length lead = d + S (length lead - S d)) by lia. set (q := length lead - S d) in *. clearbody q. unfold sliced_shape. rewrite HQ.
    rewrite !full_keys_id by apply at_dim_fullk. cbn [bind]. rewrite (at_dim_sliced lead d _ i j). reflexivity.
  - unfold ndim in *. cbn [shape wf] in *. rewrite (IH Hw d k i j) by auto. reflexivity.
  - unfold ndim in *. cbn [shape wf] in *. rewrite (IH Hw d k i j) by auto. reflexivity.
  - rewrite HN. apply base_at_dim. cbn [wf] in Hw.
    unfold ndim in HN, IH. cbn [shape] in HN.
    assert (Hax : axis < length (shape a)) by apply Hw. rewrite remove_at_length in HN by auto.
    rewrite !at_dim_insert by lia. destruct (d <? axis) eqn:E.
    + rewrite (IH ltac:(apply Hw) d (S k) i j) by (auto; lia). rewrite !at_dim_scalars. reflexivity.
    + rewrite (IH ltac:(apply Hw) (S d) k i j) by (auto; lia). rewrite !at_dim_scalars. reflexivity.
  - rewrite HN. apply base_at_dim. unfold ndim in *. cbn [shape wf] in *. rewrite (IH Hw d k i j) by auto. reflexivity.
  - rewrite HN. apply base_at_dim. unfold ndim in *. cbn [shape wf] in *. destruct Hw as (W1 & W2 & W3). destruct HL as [L1 L2].
    rewrite (IH1 W1 d k i j) by auto. rewrite (IH2 W2 d k i j) by (auto; congruence). reflexivity.
Qed.

Lemma int_keys a i n : wf a -> ndim a = S n -> getitem a [KInt i] = getitem a (at_dim 0 n i).
Proof. intros Hw HN. apply getitem_expand; auto. rewrite HN. apply int_expand. Qed.

(** C68 fails: iterating over such an array never ends.  If its first row can be
    had at all, then every index gives that row, and the iteration repeats it for
    ever. *)
Theorem C68_endless_refuted a b : wf a -> loose 0 a -> getitem a [KInt 0] = Ok b ->
  (forall i, getitem a [KInt i] = Ok b) /\ forall fuel, iterate fuel a = None.
Proof.
  intros Hw HL H0. assert (HI : forall i, getitem a [KInt i] = Ok b).
  { intros i. destruct (ndim a) as [|n] eqn:En.
    - assert (Hs : shape a = []) by (unfold ndim in En; destruct (shape a); auto; discriminate). rewrite no_dimension in H0 by auto. discriminate.
    - rewrite (int_keys a i n) by auto. rewrite (loose_same a Hw 0 n i 0 HL En). rewrite <- (int_keys a 0 n) by auto. exact H0. }
  split; [exact HI|]. intros fuel. apply iter_endless. intros i. exists b. apply HI.
Qed.

(** Any ConstantArray, whatever its shape, even with a first dimension of length 0. *)
Theorem C68_constant_refuted n sh (v : V) d fuel : iterate fuel (AConst (n :: sh) v d) = None.
Proof.
  apply iter_endless. intros i. exists (AConst sh v d). cbn [getitem]. unfold sliced_shape.
  rewrite (full_keys_np [KInt (Z.of_nat i)]) by (cbn; lia). cbn [length]. rewrite int_expand. cbn [bind sliced_loop].
  rewrite full_loop. reflexivity.
Qed.

Lemma trim_int i n : trim_keys (KInt i :: repeat KFull n) = [KInt i].
Proof. cbn [trim_keys]. replace (trim_keys (repeat KFull n)) with (@nil key); [reflexivity|]. induction n as [|n IH]; auto. cbn [repeat trim_keys]. rewrite <- IH. reflexivity. Qed.

Lemma offsets_last lens k : forall o, offsets_from o (lens ++ [k]) = offsets_from o lens ++ [o + fold_right Nat.add 0 lens].
Proof. induction lens as [|n lens IH]; intros o; cbn [app offsets_from fold_right]; [f_equal; lia|]. rewrite IH. do 2 f_equal. f_equal. lia. Qed.
Lemma offsets_len lens : forall o, length (offsets_from o lens) = length lens.
Proof. induction lens as [|n lens IH]; intros o; cbn [offsets_from length]; auto. Qed.
Lemma filter_full {A} (p : A -> bool) l : Forall (fun x => p x = true) l -> filter p l = l.
Proof. induction 1 as [|x l H HF IH]; cbn [filter]; auto. rewrite H, IH. reflexivity. Qed.
Lemma fold_sum l : forall x, fold_left Nat.add l x = x + fold_right Nat.add 0 l.
Proof. induction l as [|y l IH]; intros x; cbn [fold_left fold_right]; [lia|]. rewrite IH. lia. Qed.
Lemma offsets_below lens : forall o, Forall (fun x => x <= o + fold_right Nat.add 0 lens) (offsets_from o lens).
Proof.
  induction lens as [|n lens IH]; intros o; cbn [offsets_from fold_right]; constructor; [lia|]. eapply Forall_impl; [|apply IH]. cbv beta. intros x Hx. lia.
Qed.

(** C68 fails: a LinearMosaic whose last tile is a ConstantArray (data padded with
    a constant), joined along the first dimension.  Every index past the other
    tiles gives a row of the constant, however far, and so an iteration never ends. *)
Theorem C68_padding_refuted tiles k sh (v : V) d n : let a := AMosaic (tiles ++ [AConst (k :: sh) v d]) 0 in
  let others := fold_right Nat.add 0 (map (fun t => nth 0 (shape t) 0) tiles) in
  wf a -> shape a = n :: sh ->
  (forall i, others <= i -> getitem a [KInt (Z.of_nat i)] = Ok (AConst sh v d))
  /\ ((forall i, i < others -> supported a [KInt (Z.of_nat i)]) -> forall fuel, iterate fuel a = None).
Proof.
  intros a others Hw Hs.
  assert (HI : forall i, others <= i -> getitem a [KInt (Z.of_nat i)] = Ok (AConst sh v d)).
  { intros i Hi. rewrite (int_keys a _ (length sh)) by (auto; unfold ndim; rewrite Hs; reflexivity).
    unfold a. cbn [getitem]. fold a. replace (ndim a) with (0 + S (length sh)) by (unfold ndim; rewrite Hs; reflexivity).
    unfold base_getitem. rewrite full_keys_id by apply at_dim_fullk. cbn [bind]. rewrite at_dim_new.
    unfold mosaic_plan. cbn [at_dim repeat app]. change (trim_keys (at_dim 0 (length sh) (Z.of_nat i))) with (trim_keys (KInt (Z.of_nat i) :: repeat KFull (length sh))).
    rewrite trim_int. cbn [length Nat.leb]. cbv zeta. cbn [nth].
    rewrite map_app. cbn [map shape nth]. rewrite offsets_last. fold others. rewrite Nat.add_0_l.
    assert (HC : count_if (fun o => Z.of_nat o - 1 <? Z.of_nat i)%Z (offsets_from 0 (map (fun t => nth 0 (shape t) 0) tiles) ++ [others]) = S (length tiles)).
    { unfold count_if. rewrite filter_full. { rewrite app_length, offsets_len, map_length. cbn [length]. lia. }
      apply Forall_app. split; [|constructor; [lia|constructor]]. eapply Forall_impl; [|apply (offsets_below (map (fun t => nth 0 (shape t) 0) tiles) 0)].
      cbv beta. intros x Hx. fold others in Hx. lia. }
    unfold tile_of. rewrite HC. cbn [bind]. rewrite app_length, map_length. cbn [length].
    set (z := (Z.of_nat (S (length tiles)) - 1)%Z). assert (Hz : z = Z.of_nat (length tiles)) by lia.
    unfold tile_num, py_nth. rewrite Hz. replace (Z.of_nat (length tiles) <? 0)%Z with false by lia. rewrite Nat2Z.id.
    rewrite app_nth2 by (rewrite offsets_len, map_length; lia). rewrite offsets_len, map_length, Nat.sub_diag. cbn [nth set_nth].
    rewrite map_app. rewrite app_nth2 by (rewrite map_length; lia). rewrite map_length, Nat.sub_diag. cbn [map nth].
    cbn [getitem]. unfold sliced_shape. rewrite full_keys_np by (cbn; lia). cbn [length]. rewrite int_expand. cbn [bind sliced_loop]. rewrite full_loop. reflexivity. }
  assert (HN : n = others + k).
  { unfold a in Hs. cbn [shape] in Hs. unfold others. destruct tiles as [|t ts]; cbn [app map] in Hs.
    - cbn in Hs. injection Hs as Hs. cbn. lia.
    - rewrite map_app, fold_sum, fold_right_app in Hs. cbn [map shape nth fold_right] in Hs. destruct (shape t) as [|x s0] eqn:Et; [discriminate|]. cbn [set_nth nth] in Hs.
      injection Hs as Hs _. cbn [map fold_right nth]. rewrite Et. cbn [nth]. rewrite <- Hs. assert (HF : forall l y, fold_right Nat.add y l = fold_right Nat.add 0 l + y) by (induction l as [|w l IH]; intros y; cbn [fold_right]; [lia|]; rewrite IH; lia).
      rewrite (HF _ (k + 0)). lia. }
  split; [exact HI|]. intros HK fuel. apply iter_endless. intros i. destruct (Nat.lt_ge_cases i others) as [H|H]; [|eauto].
  destruct (getitem_ok O a [KInt (Z.of_nat i)] Hw) as (b & B1 & _); [unfold valid_keys; rewrite Hs, int_select by lia; discriminate|auto|]. eauto.
Qed.
End Endless.

Section Realised.
Context {V : Type} (O : numops V).
Variable maxc : nat.
Variable garbage : list nat -> option V.
Variable m : bool.
Variable fuel : nat.
Implicit Type a : @barr V.

(** The rows realised, each on its own, are the rows of the realised array; with no
    condition but on the expression the user wrote ([steady], as in C14).  Missing:
    arrays that are not steady, first dimensions that do not check. *)
Theorem C68_realised_partial arrs a n sh : wf a -> steady maxc m (exact O) true arrs false fuel a ->
  shape a = n :: sh -> nth 0 (checked false a) false = true ->
  exists da rows, realise O maxc garbage fuel m a = Ok da /\ length rows = n
    /\ (forall k, iterate (S n + k) a = Some (Ok rows))
    /\ forall i, i < n -> exists db, realise O maxc garbage fuel m (nth i rows a) = Ok db /\ nd_eq db (row da i).
Proof.
  intros Hw Hs Hsh Hc. destruct (C14_steady_sequence_partial O maxc garbage m fuel true arrs a [] Hw Hs) as (da & Ea & Es & _).
  exists da.
  destruct (rows_done (fun i b => exists db, realise O maxc garbage fuel m b = Ok db /\ nd_eq db (row da i)) a n sh Hw Hsh Hc) as (rows & R1 & R2 & R3).
  - intros i Hi. destruct (C14_steady_sequence_partial O maxc garbage m fuel true arrs a [[KInt (Z.of_nat i)]] Hw Hs) as (da' & Ea' & Es' & HC).
    rewrite Ea in Ea'. injection Ea' as <-.
    destruct HC as (b & db & B1 & B2 & B3).
    { cbn [cutting_seq]. split; [|exact I]. rewrite Es, Hsh. exists (KInt (Z.of_nat i) :: repeat KFull (length sh)). split; [apply int_expand|].
      constructor; [split; [reflexivity|lia]|]. clear. induction sh as [|x sh IH]; constructor; auto. left. reflexivity. }
    cbn [getitems] in B1. exists b. split.
    + destruct (getitem a [KInt (Z.of_nat i)]) as [b'|e] eqn:E; cbn in B1; [congruence|discriminate].
    + exists db. split; [exact B2|]. eapply nd_eq_trans; [exact B3|]. cbn [oindexes fold_left]. apply (int_row da i n sh); [congruence|exact Hi].
  - exists rows. auto.
Qed.
End Realised.

Print Assumptions C68_rows_partial.
Print Assumptions C68_in_order.
Print Assumptions C68_no_dimension_refuted.
Print Assumptions C68_endless_refuted.
Print Assumptions C68_constant_refuted.
Print Assumptions C68_padding_refuted.
Print Assumptions C68_realised_partial.

(** [list(x - x.sum(axis=0))], [x] of shape (4, 5): four rows, realised and checked
    for every chunk size that [steady] allows; here 7. *)
Example C68_case g : exists rows, length rows = 4 /\ (forall k, iterate (5 + k) anomaly = Some (Ok rows))
  /\ exists da, realise z_ops 7 g 3 false anomaly = Ok da
  /\ forall i, i < 4 -> exists db, realise z_ops 7 g 3 false (nth i rows anomaly) = Ok db /\ nd_eq db (row da i).
Proof.
  destruct (C68_realised_partial z_ops 7 g false 3 false anomaly 4 [5] anomaly_wf (proj1 anomaly_steady) eq_refl eq_refl) as (da & rows & H1 & H2 & H3 & H4).
  exists rows. eauto 6.
Qed.
Example C68_rows_case : exists rows, length rows = 2 /\ forall k, iterate (3 + k) c15_deep = Some (Ok rows).
Proof.
  destruct (C68_rows_partial z_ops c15_deep 2 [4] c15_deep_wf eq_refl eq_refl) as (rows & H1 & H2 & _); [|eauto].
  intros i Hi ks. cbn. intros E. injection E as <-. cbn. repeat split; auto; try (left; reflexivity); try discriminate.
  destruct i as [|[|i]]; [| |lia]; intros s E; vm_compute in E; injection E as <-; constructor.
Qed.
(** Three iterations: over a wrapped array of three elements; over what is left of a
    dimension after an empty slice; over two rows of padded data, cut off after five. *)
Example C68_runs :
  iterate 5 (arr [3]) = Some (Ok [AAdapt false (numbered [3]) [KInt 0]; AAdapt false (numbered [3]) [KInt 1]; AAdapt false (numbered [3]) [KInt 2]])
  /\ iterate 1 (AAdapt false (numbered [3]) [S3 2 2 1]) = Some (Ok [])
  /\ iterate 3 (arr [3]) = None
  /\ map (fun i => getitem (AMosaic [arr [2]; AConst [1] 0%Z 0] 0) [KInt i]) [0; 1; 2; 3; 400]%Z
     = [Ok (AAdapt false (numbered [2]) [KInt 0]); Ok (AAdapt false (numbered [2]) [KInt 1]); Ok (AConst [] 0%Z 0); Ok (AConst [] 0%Z 0); Ok (AConst [] 0%Z 0)].
Proof. repeat split; reflexivity. Qed.
(** The mosaic's hypotheses are met, and those of the endless arrays: a negated
    constant, and [x + 1] broadcast to three more rows. *)
Example C68_padding_case fuel : iterate fuel (AMosaic [arr [2; 3]; AConst [1; 3] 0%Z 0] 0) = None.
Proof.
  apply (proj2 (C68_padding_refuted z_ops [arr [2; 3]] 1 [3] 0%Z 0 3 ltac:(unfold arr; wfs) eq_refl)).
  intros i Hi ks. cbn. intros E. injection E as <-. right. split; [reflexivity|]. cbn. split; [lia|]. repeat split; constructor.
Qed.
Example C68_endless_case fuel : iterate fuel (AEl2 zadd2 (AEl1 zneg1 (AConst [4; 2] 5%Z 0) 0) (ABcast (arr [2]) [] [4]) 0) = None.
Proof.
  eapply C68_endless_refuted; [unfold arr; wfs|split; vm_compute; lia|vm_compute; reflexivity].
Qed.
