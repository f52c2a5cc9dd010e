(** Properties C17, C35, C36, C40, C43, C45 - C48: construction of arrays and
    small user-level functions.  [usable] and [reads] are those of ClassClaims.v:
    a well-formed array within [realisable], and what realising it returns. *)
From Verif Require Import Base PySlice Keys NDArray Arrays Chunks Handlers Realise Spec Supported Lib HandlerLemmas RealOps Realisable IndexClaims ClassClaims Small SmallClaims MultiClaims HeapClaims Skeleton Laziness Samples AxesClaims.
From Coq Require Import QArith Permutation.
Local Open Scope nat_scope.

(** C17: for any array of any nesting and any key tuple, valid or not, indexing
    does the same to two arrays that differ only in the stored values: the same
    exception, or results of the same structure, shape and dtype. *)
Theorem C17_indexing_ignores_data {V} (a b : @barr V) keys : same_structure a b ->
  match getitem a keys, getitem b keys with
  | Ok a', Ok b' => same_structure a' b' /\ shape a' = shape b' /\ dtype a' = dtype b'
  | Err e, Err e' => e = e'
  | _, _ => False
  end.
Proof.
  intros H. pose proof (skel_getitem a keys) as Ea. pose proof (skel_getitem b keys) as Eb.
  unfold same_structure in *. rewrite H in Ea.
  destruct (getitem a keys) as [a'|e], (getitem b keys) as [b'|e']; cbn [skel_res] in *; try congruence.
  split; [congruence|]. rewrite <- (skel_shape a'), <- (skel_shape b'), <- (skel_dtype a'), <- (skel_dtype b'). split; congruence.
Qed.
(** C17: the shape and dtype reported are functions of the structure alone, and
    the constructors' decisions are too. *)
Theorem C17_shape_dtype {V} (a : @barr V) : shape a = shape (skeleton a) /\ dtype a = dtype (skeleton a).
Proof. exact (conj (eq_sym (skel_shape a)) (eq_sym (skel_dtype a))). Qed.
Theorem C17_constructors {V} :
  (forall (a : @barr V) na, skel_res (mk_newax a na) = mk_newax (skeleton a) na)
  /\ (forall (a : @barr V) dict lead, skel_res (mk_bcast a dict lead) = mk_bcast (skeleton a) dict lead)
  /\ (forall (a : @barr V) axes, skel_res (mk_trans a axes) = mk_trans (skeleton a) axes)
  /\ (forall ssh (items : list (@barr V)), skel_res (mk_stack ssh items) = mk_stack ssh (map skeleton items))
  /\ (forall (tiles : list (@barr V)) axis, skel_res (mk_mosaic tiles axis) = mk_mosaic (map skeleton tiles) axis)
  /\ (forall o (c : @concrete V) ks, skel_res (mk_adapter o c ks) = mk_adapter o (skel_concrete c) ks)
  /\ (forall o (a b : @barr V) py, skel_res (mk_el2 o a b py) = mk_el2 (skel_op2 o) (skeleton a) (skeleton b) py).
Proof.
  exact (conj skel_newax (conj skel_bcast (conj skel_trans (conj skel_stack (conj skel_mosaic (conj skel_adapter skel_el2)))))).
Qed.
Example C17_case : same_structure (AStack [2] [arr [2;3]; marr [2;3]]) (AStack [2] [marr [2;3]; marr [2;3]])
  /\ getitem (AStack [2] [arr [2;3]; marr [2;3]]) [KInt 1; KNew; KTuple [1%Z; 0%Z]] <> Err IndexError.
Proof. split; [reflexivity|]. vm_compute. discriminate. Qed.

(** C35: an aggregation is accepted exactly for one integer axis (alone or in a
    one-element sequence) in [-ndim, ndim), a negative one counting from the end
    ([norm_int], Python's rule); its dtype is the C int for count, the array's own
    for min, max and sum, and the array's divided by a float for mean, std and var. *)
Theorem C35_accepted {V} (O : numops V) g (a b : @barr V) ax :
  aggregate O g a ax = Ok b <->
  exists i j, (ax = AxInt i \/ ax = AxSeq [Some i]) /\ norm_int i (ndim a) = Some j
    /\ b = AAgg g a j (match g with
                       | GCount => dt_int O
                       | GMin | GMax | GSum => dtype a
                       | GMean _ | GStd _ | GVar _ => dt_float O (dtype a)
                       end).
Proof. exact (aggregate_accepts O g a b ax). Qed.
Theorem C35_normalised i n j : norm_int i n = Some j <-> (- Z.of_nat n <= i < Z.of_nat n)%Z /\ j = Z.to_nat (if (i <? 0)%Z then i + Z.of_nat n else i).
Proof.
  unfold norm_int. destruct (Z.leb_spec (- Z.of_nat n) i), (Z.ltb_spec i (Z.of_nat n)); cbn [andb]; split;
    intros E; try discriminate;
    try (exfalso; destruct E as [E _]; lia); try (destruct E as [_ ->]; reflexivity);
    split; [lia|injection E as <-; reflexivity].
Qed.
(** C35: every other argument is refused: None and several axes with
    AxisSupportError (AssertionError for min, max and sum), a non-integer with
    TypeError, an out-of-range integer with ValueError. *)
Theorem C35_refused {V} (O : numops V) g (a : @barr V) :
  aggregate O g a AxNone = Err (axis_error g)
  /\ aggregate O g a AxOther = Err TypeError
  /\ (forall l, In None l -> aggregate O g a (AxSeq l) = Err TypeError)
  /\ (forall i, norm_int i (ndim a) = None -> aggregate O g a (AxInt i) = Err ValueError)
  /\ (forall l, (exists i, In i l /\ norm_int i (ndim a) = None) -> aggregate O g a (AxSeq (map Some l)) = Err ValueError)
  /\ (forall l, (forall i, In i l -> norm_int i (ndim a) <> None) -> length l <> 1 ->
        aggregate O g a (AxSeq (map Some l)) = Err (axis_error g)).
Proof. exact (aggregate_refuses O g a). Qed.
Example C35_case : aggregate z_ops (GMean 1%Z) (arr [2;3;4]) (AxInt (-1)) = Ok (AAgg (GMean 1%Z) (arr [2;3;4]) 2 1)
  /\ aggregate z_ops GSum (arr [2;3;4]) (AxInt 3) = Err ValueError.
Proof. split; reflexivity. Qed.

(** C36: array number [flat_pos order sh i] (C order: [ravel], row-major; Fortran
    order: [fravel], column-major) is found at multi-index [i] of the stack. *)
Theorem C36_multidim_stack {V} (O : numops V) maxc garbage m fuel (arrays : list (@barr V)) sh o it0 :
  o <> OrdBad -> length arrays = prodn sh -> Forall (usable maxc m (exact O) fuel) arrays -> Forall dt_stable arrays ->
  In it0 arrays -> Forall (fun it => shape it = shape it0 /\ dtype it = dtype it0) arrays ->
  exists st, multidim_array_stack arrays sh o = Ok st /\ usable maxc m (exact O) fuel st
    /\ exists ds d, Forall2 (reads O maxc garbage m fuel) arrays ds /\ reads O maxc garbage m fuel st d
       /\ nshape d = sh ++ shape it0
       /\ forall i idx d0, inb sh i -> inb (shape it0) idx ->
            nget d (i ++ idx) = nget (nth (match o with OrdF => fravel sh i | _ => ravel sh i end) ds d0) idx.
Proof.
  intros Ho HL Hu Ht Hin HF.
  destruct (multi_claim O maxc garbage m (exact O) fuel (exact_right O m) arrays sh o it0 Ho HL Hu Ht Hin HF)
    as (st & E1 & E2 & ds & d & E3 & E4 & E5 & E6).
  exists st. split; auto. split; auto. exists ds, d. split; auto. split; auto. split; auto.
  intros i idx d0 Hi Hx. rewrite (E6 i idx d0 Hi Hx). destruct o; auto.
Qed.
Theorem C36_size_mismatch {V} (arrays : list (@barr V)) sh o : prodn sh <> length arrays ->
  multidim_array_stack arrays sh o = Err ValueError.
Proof. exact (multi_refused arrays sh o). Qed.
Theorem C36_bad_order {V} (arrays : list (@barr V)) sh : prodn sh = length arrays -> sh <> [] ->
  multidim_array_stack arrays sh OrdBad = Err TypeError.
Proof. exact (multi_bad_order arrays sh). Qed.
Definition six : list (@barr Z) := map (fun i => AConst [] (Z.of_nat i) 0) (seq 0 6).
Example C36_case_c : flat (st <- multidim_array_stack six [2;3] OrdC ;; realise z_ops 100 (fun _ => None) 1 false st)
  = Ok ([2;3], map Some [0;1;2;3;4;5]%Z).
Proof. reflexivity. Qed.
Example C36_case_f : flat (st <- multidim_array_stack six [2;3] OrdF ;; realise z_ops 100 (fun _ => None) 1 false st)
  = Ok ([2;3], map Some [0;2;4;1;3;5]%Z).
Proof. reflexivity. Qed.
Example C36_hypotheses : length six = prodn [2;3] /\ Forall (usable 100 false (exact z_ops) 1) six /\ Forall dt_stable six
  /\ Forall (fun it => shape it = shape (AConst [] 0%Z 0) /\ dtype it = dtype (AConst [] 0%Z 0)) six.
Proof. split; [reflexivity|]. repeat split; repeat constructor. Qed.

(** C40: the fill value of a stack or mosaic is that of its parts if they all
    agree, and the default of the dtype if any two disagree, wherever they stand.
    [veqb] decides agreement ("equal, or both NaN"): any equivalence. *)
Theorem C40_stack {V} (O : numops V) ssh (items : list (@barr V)) st :
  (forall x, veqb O x x = true) -> (forall x y, veqb O x y = true -> veqb O y x = true) ->
  (forall x y z, veqb O x y = true -> veqb O y z = true -> veqb O x z = true) ->
  mk_stack ssh items = Ok st ->
  ((forall x y, In x items -> In y items -> veqb O (fillv O x) (fillv O y) = true) ->
   forall x, In x items -> veqb O (fillv O st) (fillv O x) = true)
  /\ ((exists x y, In x items /\ In y items /\ veqb O (fillv O x) (fillv O y) = false) ->
      fillv O st = vdfill O (dtype st)).
Proof. intros H1 H2 H3. exact (stack_fill O H1 H2 H3 ssh items st). Qed.
Theorem C40_mosaic {V} (O : numops V) (tiles : list (@barr V)) axis b :
  (forall x, veqb O x x = true) -> (forall x y, veqb O x y = true -> veqb O y x = true) ->
  (forall x y z, veqb O x y = true -> veqb O y z = true -> veqb O x z = true) ->
  mk_mosaic tiles axis = Ok b ->
  ((forall x y, In x tiles -> In y tiles -> veqb O (fillv O x) (fillv O y) = true) ->
   forall x, In x tiles -> veqb O (fillv O b) (fillv O x) = true)
  /\ ((exists x y, In x tiles /\ In y tiles /\ veqb O (fillv O x) (fillv O y) = false) ->
      fillv O b = vdfill O (dtype b)).
Proof. intros H1 H2 H3. exact (mosaic_fill O H1 H2 H3 tiles axis b). Qed.
Example C40_case : match mk_stack [3] [marr [2]; marr [2]; arr [2]] with Ok st => fillv z_ops st = 999999%Z | Err _ => False end
  /\ match mk_mosaic [marr [2]; marr [3]] 0 with Ok b => fillv z_ops b = (-1)%Z | Err _ => False end.
Proof. split; reflexivity. Qed.

(** C43: an operator between an array and a number applies the operation with the
    operands in the written order, at every position; between two arrays it is
    the operation on the broadcast operands (C09); with anything else it raises
    TypeError.  Missing: arrays with a zero-length dimension (refused, see
    below), results outside [realisable]. *)
Theorem C43_array_number_partial {V} (O : numops V) maxc garbage m fuel u o (a : @barr V) v d py :
  usable maxc m (exact O) fuel a -> Forall (fun n => 1 <= n) (shape a) ->
  (forall e, binary u o (PArr a) (PNum v d py) = Ok e -> realisable maxc m (exact O) fuel e) ->
  exists e da r, binary u o (PArr a) (PNum v d py) = Ok e /\ reads O maxc garbage m fuel a da
    /\ reads O maxc garbage m fuel e r /\ nshape r = nshape da
    /\ forall i, inb (nshape da) i -> nget r i = op2_sem m (operation u o) (nget da i) (Some v).
Proof. exact (scalar_right O maxc garbage m (exact O) fuel (exact_right O m) u o a v d py). Qed.
Theorem C43_number_array_partial {V} (O : numops V) maxc garbage m fuel u o (a : @barr V) v d py :
  usable maxc m (exact O) fuel a -> Forall (fun n => 1 <= n) (shape a) ->
  (forall e, binary u o (PNum v d py) (PArr a) = Ok e -> realisable maxc m (exact O) fuel e) ->
  exists e da r, binary u o (PNum v d py) (PArr a) = Ok e /\ reads O maxc garbage m fuel a da
    /\ reads O maxc garbage m fuel e r /\ nshape r = nshape da
    /\ forall i, inb (nshape da) i -> nget r i = op2_sem m (operation u o) (Some v) (nget da i).
Proof. exact (scalar_left O maxc garbage m (exact O) fuel (exact_right O m) u o a v d py). Qed.
Theorem C43_array_array {V} u o (a b : @barr V) : binary u o (PArr a) (PArr b) = mk_el2 (operation u o) a b None.
Proof. exact (binary_left u o a (PArr b) b eq_refl). Qed.
Theorem C43_other_operand {V} u o (a : @barr V) :
  binary u o (PArr a) POther = Err TypeError /\ binary u o POther (PArr a) = Err TypeError.
Proof. exact (binary_refused u o a). Qed.
Definition z_op (f : Z -> Z -> Z) : @op2 Z := mkOp2 f None (fun a _ => a) (fun a _ => a).
Definition z_ufuncs : ufuncs Z :=
  mkU (z_op Z.add) (z_op Z.sub) (z_op Z.mul) (z_op Z.div) (z_op Z.div) (z_op Z.div) (z_op Z.pow).
(** C43: adding a number to an array with a zero-length dimension raises
    ValueError, where NumPy returns an empty array. *)
Theorem C43_empty_refuted : exists (a : @barr Z), wf a /\ binary z_ufuncs OpAdd (PArr a) (PNum 1%Z 0 None) = Err ValueError.
Proof. exists (arr [0]). split; [|reflexivity]. split; [constructor|]. vm_compute. discriminate. Qed.
Example C43_case : flat (e <- binary z_ufuncs OpSub (PNum 10%Z 0 None) (PArr (arr [2;2])) ;; realise z_ops 3 (fun _ => None) 2 false e)
  = Ok ([2;2], map Some [10;9;8;7]%Z)
  /\ flat (e <- binary z_ufuncs OpSub (PArr (arr [2;2])) (PNum 10%Z 0 None) ;; realise z_ops 3 (fun _ => None) 2 false e)
  = Ok ([2;2], map Some [-10;-9;-8;-7]%Z).
Proof. split; reflexivity. Qed.

(** C45: sums and means of integers of [w] bits are, for every chunking, those of
    the mathematical sum wrapped into [w] bits once; so they are right exactly when
    that sum fits. *)
Theorem C45_sum w pieces : (0 < w <= 64)%Z -> let s := zsum (concat pieces) in
  (int_sum w pieces mod 2 ^ w = s mod 2 ^ w)%Z /\ (- 2 ^ (w - 1) <= int_sum w pieces < 2 ^ (w - 1))%Z
  /\ (int_sum w pieces = s <-> (- 2 ^ (w - 1) <= s < 2 ^ (w - 1))%Z).
Proof.
  intros Hw s. rewrite int_sum_wraps by auto. split; [apply wrap_mod; lia|]. split; [apply wrap_range; lia|apply wrap_right; lia].
Qed.
Theorem C45_mean w pieces : (0 < w <= 64)%Z -> concat pieces <> [] -> let s := zsum (concat pieces) in
  (int_mean w pieces == inject_Z s / inject_Z (Z.of_nat (length (concat pieces))) <-> (- 2 ^ (w - 1) <= s < 2 ^ (w - 1))%Z)%Q.
Proof.
  intros Hw Hne s. rewrite int_mean_wraps by auto. fold s. rewrite <- (wrap_right w s) by lia.
  assert (Hn : (0 < Z.of_nat (length (concat pieces)))%Z) by (destruct (concat pieces); [congruence|cbn [length]; lia]).
  assert (Hq : ~ (inject_Z (Z.of_nat (length (concat pieces))) == 0)%Q) by (intros E; change 0%Q with (inject_Z 0) in E; rewrite inject_Z_injective in E; lia).
  split; [|intros ->; reflexivity]. intros E. unfold Qdiv in E. apply Qmult_inj_r in E.
  - apply inject_Z_injective. exact E.
  - intros E'. apply Hq. rewrite <- (Qinv_involutive (inject_Z (Z.of_nat (length (concat pieces))))), E'. reflexivity.
Qed.
(** Masked means, whose counters have [w] bits as well.  In every case: with the
    numbers [n] of observations, [k] of masked elements, [d] of all of them and the
    sum [s] of the observations, each reduced to [w] bits. *)
Theorem C45_masked_mean w mdtol pieces n k d s : (0 < w <= 64)%Z ->
  let l := concat pieces in let xs := seen_values l in
  let reduced x y := (x mod 2 ^ w = y mod 2 ^ w /\ - 2 ^ (w - 1) <= x < 2 ^ (w - 1))%Z in
  reduced n (Z.of_nat (length xs)) -> reduced k (Z.of_nat (length l - length xs)) -> reduced d (Z.of_nat (length l)) -> reduced s (zsum xs) ->
  let hidden := n = 0%Z \/ ((mdtol < 1)%Q /\ ((d = 0 /\ 0 < k)%Z \/ d <> 0%Z /\ (mdtol < inject_Z k / inject_Z d)%Q)) in
  (hidden -> int_mean_masked w mdtol pieces = None)
  /\ (~ hidden -> int_mean_masked w mdtol pieces = Some (inject_Z s / inject_Z n)%Q).
Proof.
  intros Hw l xs reduced Hn Hk Hd Hs hidden. rewrite int_mean_masked_wraps by auto. cbv zeta. fold l xs.
  assert (W : forall x y, reduced x y -> wrap w y = x).
  { intros x y [E R]. rewrite (wrap_eq w y x) by (auto; lia). apply wrap_id; auto; lia. }
  rewrite (W _ _ Hn), (W _ _ Hk), (W _ _ Hd), (W _ _ Hs).
  assert (Q1 : forall x y, negb (Qle_bool x y) = true <-> (y < x)%Q).
  { intros x y. destruct (Qle_bool x y) eqn:E; cbn.
    - apply Qle_bool_iff in E. split; [discriminate|]. intros H'. exfalso. apply (Qlt_not_le _ _ H' E).
    - split; auto. intros _. apply Qnot_le_lt. intros H'. apply Qle_bool_iff in H'. congruence. }
  destruct (Z.eqb_spec n 0) as [E|E]; [split; auto; intros H'; exfalso; apply H'; left; auto|].
  assert (T : (if (d =? 0)%Z then (0 <? k)%Z else negb (Qle_bool (inject_Z k / inject_Z d) mdtol)) = true
    <-> (d = 0 /\ 0 < k)%Z \/ d <> 0%Z /\ (mdtol < inject_Z k / inject_Z d)%Q).
  { destruct (Z.eqb_spec d 0) as [D|D]; [rewrite Z.ltb_lt; tauto|rewrite Q1; tauto]. }
  destruct (if (d =? 0)%Z then (0 <? k)%Z else negb (Qle_bool (inject_Z k / inject_Z d) mdtol));
    destruct (negb (Qle_bool 1 mdtol)) eqn:B1; cbn [andb]; pose proof (Q1 1%Q mdtol) as Q2; rewrite B1 in Q2; unfold hidden.
  - split; auto. intros H'. exfalso. apply H'. right. split; [apply Q2; auto|apply T; auto].
  - split; auto. intros [H'|[H' _]]; [congruence|]. apply Q2 in H'. discriminate.
  - split; auto. intros [H'|[_ H']]; [congruence|]. apply T in H'. discriminate.
  - split; auto. intros [H'|[_ H']]; [congruence|]. apply T in H'. discriminate.
Qed.
Example C45_masked_mean_case : int_mean_masked 8 (1 # 4) [repeat (Some 1%Z) 100; repeat None 100] = Some (inject_Z 100 / inject_Z 100)%Q.
Proof.
  apply (C45_masked_mean 8 (1 # 4) _ 100 100 (-56) 100); cbn; try lia. intros [H|[_ [[H _]|[_ H]]]]; try lia. revert H. cbv. discriminate.
Qed.
(** So they are right when the length of
    the axis and the sum of the observations fit. *)
Theorem C45_masked_mean_fits w mdtol pieces : (0 < w <= 64)%Z ->
  let l := concat pieces in let xs := seen_values l in let n := length xs in let k := length l - n in
  (Z.of_nat (length l) < 2 ^ (w - 1))%Z -> (- 2 ^ (w - 1) <= zsum xs < 2 ^ (w - 1))%Z ->
  let hidden := n = 0 \/ (mdtol < 1 /\ mdtol < inject_Z (Z.of_nat k) / inject_Z (Z.of_nat (length l)))%Q in
  (hidden -> int_mean_masked w mdtol pieces = None)
  /\ (~ hidden -> int_mean_masked w mdtol pieces = Some (inject_Z (zsum xs) / inject_Z (Z.of_nat n))%Q).
Proof.
  intros Hw l xs n k HL HS hidden. rewrite int_mean_masked_wraps by auto. cbv zeta. fold l xs n k.
  pose proof (seen_le l) as Hle. fold xs in Hle. fold n in Hle. assert (0 < 2 ^ (w - 1))%Z by (apply Z.pow_pos_nonneg; lia).
  rewrite !wrap_id by (unfold n, k in *; lia).
  assert (Q1 : forall x y, negb (Qle_bool x y) = true <-> (y < x)%Q).
  { intros x y. destruct (Qle_bool x y) eqn:E; cbn.
    - apply Qle_bool_iff in E. split; [discriminate|]. intros H'. exfalso. apply (Qlt_not_le _ _ H' E).
    - split; auto. intros _. apply Qnot_le_lt. intros H'. apply Qle_bool_iff in H'. congruence. }
  destruct (Z.eqb_spec (Z.of_nat n) 0) as [E|E].
  { split; auto. intros H'. exfalso. apply H'. left. lia. }
  replace (Z.of_nat (length l) =? 0)%Z with false by (symmetry; apply Z.eqb_neq; lia).
  destruct (negb (Qle_bool 1 mdtol)) eqn:B1, (negb (Qle_bool (inject_Z (Z.of_nat k) / inject_Z (Z.of_nat (length l))) mdtol)) eqn:B2; cbn [andb].
  - apply Q1 in B1, B2. split; auto. intros H'. exfalso. apply H'. right. auto.
  - split; auto. intros [H'|[_ H']]; [lia|]. apply Q1 in H'. congruence.
  - split; auto. intros [H'|[H' _]]; [lia|]. apply Q1 in H'. congruence.
  - split; auto. intros [H'|[H' _]]; [lia|]. apply Q1 in H'. congruence.
Qed.
(** Otherwise: a column with a multiple of 2^w observations is always masked. *)
Theorem C45_masked_count_refuted w mdtol pieces j : (0 < w <= 64)%Z ->
  Z.of_nat (length (seen_values (concat pieces))) = (j * 2 ^ w)%Z -> int_mean_masked w mdtol pieces = None.
Proof.
  intros Hw E. rewrite int_mean_masked_wraps by auto. cbv zeta. rewrite E. rewrite (wrap_eq w (j * 2 ^ w) 0) by (rewrite ?Z.mod_mul, ?Z.mod_0_l by lia; auto; lia).
  rewrite wrap_id; [reflexivity|lia|]. pose proof (Z.pow_pos_nonneg 2 (w - 1) ltac:(lia) ltac:(lia)). lia.
Qed.
(** C45 fails: the mean of the 8-bit integers 100, 100 is -28. *)
Theorem C45_overflow_refuted : exists pieces, Forall (fun x => - 2 ^ 7 <= x < 2 ^ 7)%Z (concat pieces)
  /\ ~ (int_mean 8 pieces == inject_Z (zsum (concat pieces)) / inject_Z (Z.of_nat (length (concat pieces))))%Q
  /\ (int_mean 8 pieces == (-28 # 1))%Q.
Proof.
  exists [[100%Z]; [100%Z]]. split; [repeat constructor; vm_compute; discriminate|]. split; [|reflexivity].
  vm_compute. discriminate.
Qed.
Example C45_masked_case : int_mean_masked 8 (1 # 2) [[Some 3%Z; None]; [Some 5%Z; Some 4%Z; None]] = Some (inject_Z 12 / inject_Z 3)%Q
  /\ int_mean_masked 8 (1 # 4) [[Some 3%Z; None]; [Some 5%Z; Some 4%Z; None]] = None.
Proof. split; reflexivity. Qed.
(** 256 bytes equal to 1, in two pieces: their mean is reported as missing. *)
Example C45_masked_count_case : int_mean_masked 8 1 [repeat (Some 1%Z) 100; repeat (Some 1%Z) 156] = None.
Proof. apply (C45_masked_count_refuted 8 1 _ 1); [lia|reflexivity]. Qed.
Example C45_case : (int_mean 8 [[100; -100]; [27; 50; 50]]%Z == (127 # 5))%Q.
Proof. reflexivity. Qed.

(** C46: [nbytes] is the number of bytes (elements times item size), modulo 2^64
    and as a signed number: right exactly up to 2^63. *)
Theorem C46_nbytes {V} itemsize (a : @barr V) : let bytes := (Z.of_nat (prodn (shape a)) * itemsize (dtype a))%Z in
  (nbytes itemsize a mod 2 ^ 64 = bytes mod 2 ^ 64)%Z /\ (- 2 ^ 63 <= nbytes itemsize a < 2 ^ 63)%Z
  /\ ((0 <= itemsize (dtype a))%Z -> nbytes itemsize a = bytes <-> (bytes < 2 ^ 63)%Z).
Proof.
  intros bytes. rewrite nbytes_wraps. fold bytes. split; [apply wrap_mod; lia|]. split; [apply (wrap_range 64); lia|].
  intros H. rewrite wrap_right by lia. change (64 - 1)%Z with 63%Z. assert (0 <= bytes)%Z by (unfold bytes; nia). assert (0 < 2 ^ 63)%Z by reflexivity. lia.
Qed.
Theorem C46_size_unit n : (0 <= n)%Z ->
  let u := fst (size_of n) in
  u <= 4 /\ (u = 0 \/ (2 ^ (10 * Z.of_nat u) <= n)%Z)
  /\ (forall u', u < u' <= 4 -> (n < 2 ^ (10 * Z.of_nat u'))%Z)
  /\ (snd (size_of n) == inject_Z n / inject_Z (2 ^ (10 * Z.of_nat u)))%Q.
Proof. exact (size_unit n). Qed.
(** A wrapped, negative number of bytes is printed as it is, in B. *)
Theorem C46_negative n : (n < 0)%Z -> size_of n = (0, inject_Z n).
Proof. intros H. unfold size_of. replace (n <? Z.shiftl 1 10)%Z with true; auto. symmetry. apply Z.ltb_lt. change (Z.shiftl 1 10) with 1024%Z. lia. Qed.
Example C46_case : size_of 14000000 = (2, ((14000000 # 1) / (1048576 # 1))%Q).
Proof. reflexivity. Qed.
Example C46_nbytes_case : nbytes (fun _ => 8%Z) (arr [2;3;4]) = 192%Z.
Proof. reflexivity. Qed.

(** C47: a stack of at least one array is accepted exactly when all agree in shape
    and dtype, and refused with ValueError otherwise. *)
Theorem C47_stack {V} ssh (items : list (@barr V)) : items <> [] ->
  ((forall x y, In x items -> In y items -> shape x = shape y /\ dtype x = dtype y) ->
   mk_stack ssh items = Ok (AStack ssh items))
  /\ (~ (forall x y, In x items -> In y items -> shape x = shape y /\ dtype x = dtype y) ->
      mk_stack ssh items = Err ValueError).
Proof. exact (stack_checks ssh items). Qed.
(** C47: a mosaic is accepted exactly when the axis is in range and all tiles
    agree in dtype and in shape off the axis ([tile_fits]); otherwise the first of
    the failing checks decides the exception: ValueError, but IndexError for a tile
    that lacks the axis, and for no tile at all. *)
Theorem C47_mosaic {V} (t0 : @barr V) ts axis : let fits := tile_fits (Z.to_nat axis) t0 in let in_range := (0 <= axis < Z.of_nat (ndim t0))%Z in
  (mk_mosaic (t0 :: ts) axis = Ok (AMosaic (t0 :: ts) (Z.to_nat axis)) <-> in_range /\ Forall fits ts) /\
  (~ in_range -> mk_mosaic (t0 :: ts) axis = Err ValueError) /\
  (in_range -> ~ Forall fits ts -> exists good bad rest, ts = good ++ bad :: rest /\ Forall fits good /\ ~ fits bad /\
     mk_mosaic (t0 :: ts) axis = Err (if ndim bad <=? Z.to_nat axis then IndexError else ValueError)).
Proof.
  intros fits in_range. split; [|split].
  - rewrite (proj1 (mosaic_checks (t0 :: ts) axis t0 eq_refl)). split; intros [A B]; split; auto; [inversion B; auto|].
    constructor; auto. unfold tile_fits, in_range in *. split; [lia|auto].
  - intros H. unfold mk_mosaic. destruct (Z.leb_spec 0 axis), (Z.ltb_spec axis (Z.of_nat (ndim t0))); cbn [negb andb]; auto. exfalso. apply H. unfold in_range. lia.
  - intros H HF. unfold mk_mosaic. destruct (Z.leb_spec 0 axis), (Z.ltb_spec axis (Z.of_nat (ndim t0))); unfold in_range in H; try lia. cbn [negb andb].
    match goal with |- context [mapM ?f ts] => set (chk := f) end.
    assert (G : exists good bad rest, ts = good ++ bad :: rest /\ Forall fits good /\ ~ fits bad /\ mapM chk ts = Err (if ndim bad <=? Z.to_nat axis then IndexError else ValueError)).
    { assert (K : forall x, (fits x /\ chk x = Ok tt) \/ (~ fits x /\ chk x = Err (if ndim x <=? Z.to_nat axis then IndexError else ValueError))).
      { intros x. unfold chk, fits, tile_fits. destruct (Nat.leb_spec (ndim x) (Z.to_nat axis)); [right; split; [lia|auto]|].
        destruct (shape_eqb (remove_at (Z.to_nat axis) (shape x)) (remove_at (Z.to_nat axis) (shape t0))) eqn:S; cbn [negb].
        - apply shape_eqb_eq in S. destruct (Nat.eqb_spec (dtype x) (dtype t0)); cbn [negb]; [left; auto|right; split; auto; tauto].
        - right. split; auto. intros (_ & B & _). rewrite B, (proj2 (shape_eqb_eq _ _) eq_refl) in S. discriminate. }
      clear -K HF. induction ts as [|x l IH]; [exfalso; apply HF; constructor|]. cbn [mapM]. destruct (K x) as [[A B]|[A B]]; rewrite B; cbn [bind].
      - destruct IH as (good & bad & rest & -> & H1 & H2 & ->); [intros HF'; apply HF; constructor; auto|]. exists (x :: good), bad, rest. repeat split; auto.
      - exists [], x, l. repeat split; auto. }
    destruct G as (good & bad & rest & E & G1 & G2 & G3). exists good, bad, rest. rewrite G3. auto.
Qed.
Theorem C47_index_error_refuted : exists tiles : list (@barr Z), Forall wf tiles /\ tiles <> []
  /\ mk_mosaic tiles 1 = Err IndexError /\ mk_mosaic ([] : list (@barr Z)) 0 = Err IndexError /\ mk_stack [0] ([] : list (@barr Z)) = Err IndexError.
Proof.
  exists [arr [2;2]; arr [2]]. split.
  - repeat constructor; vm_compute; discriminate.
  - repeat split; try reflexivity. discriminate.
Qed.
Example C47_case : mk_mosaic [arr [2;3]; arr [0;3]; arr [5;3]] 0 = Ok (AMosaic [arr [2;3]; arr [0;3]; arr [5;3]] 0)
  /\ mk_mosaic [arr [2;3]; arr [2;4]] 0 = Err ValueError.
Proof. split; reflexivity. Qed.

(** C48: in any history of building stacks, indexing them and assigning to their
    items, an operation other than an assignment to object [k] itself leaves the
    array that object [k] stands for unchanged; in particular stacks obtained by
    indexing [k] keep their items when [k] is assigned to, and conversely. *)
Theorem C48_isolated {V} (ops : list (@hop V)) o k a : value (hrun ops) k = Some a ->
  (forall k' keys v, o = HSet k' keys v -> k' <> k) -> value (hrun1 (hrun ops) o) k = Some a.
Proof. exact (run_keeps ops o k a). Qed.
(** C48: assigning at integer keys [l] (negative ones count from the end) replaces
    exactly the item at that stack index. *)
Theorem C48_assigned {V} (ops : list (@hop V)) k ssh items l idx v :
  value (hrun ops) k = Some (AStack ssh items) -> snd (hrun ops) <> [] ->
  (exists loc, nth_error (snd (hrun ops)) k = Some (OStack ssh loc)) ->
  length items = prodn ssh -> length l = length ssh ->
  Forall2 (fun zn j => norm_int (fst zn) (snd zn) = Some j) (combine l ssh) idx ->
  exists items', value (hrun1 (hrun ops) (HSet k (map KInt l) v)) k = Some (AStack ssh items')
    /\ length items' = length items
    /\ nth_error items' (ravel ssh idx) = Some v
    /\ forall i, inb ssh i -> i <> idx -> nth_error items' (ravel ssh i) = nth_error items (ravel ssh i).
Proof. exact (set_item ops k ssh items l idx v). Qed.
(** C48: what is assigned is not checked: a stack may come to hold items of
    different shapes, and then cannot be realised. *)
Theorem C48_unchecked_refuted : exists ops (a : @barr Z),
  value (hrun ops) 0 = Some a /\ ~ wf a /\ realise z_ops 100 (fun _ => None) 2 false a = Err ValueError.
Proof.
  exists [HNew [2] [arr [3]; arr [3]]; HSet 0 [KInt 1] (arr [4])], (AStack [2] [arr [3]; arr [4]]).
  split; [reflexivity|]. split; [|reflexivity]. intros (_ & _ & _ & H). inversion H as [|? ? _ H2]. inversion H2 as [|? ? [H3 _] _].
  vm_compute in H3. discriminate.
Qed.
Example C48_case :
  let ops := [HNew [2] [arr [3]; oarr [3]]; HGet 0 []; HSet 0 [KInt (-1)] (marr [3])] in
  value (hrun ops) 0 = Some (AStack [2] [arr [3]; marr [3]])
  /\ match value (hrun ops) 1 with Some (AStack [2] [_; AAdapt true _ _]) => True | _ => False end.
Proof. split; [reflexivity|exact I]. Qed.

(** C52: a permutation of the dimensions gives NumPy's shape. *)
Theorem C52_permutation sh axes : Permutation axes (map Z.of_nat (seq 0 (length sh))) ->
  transpose_axes (length sh) (Some axes) = Ok axes
  /\ transposed_shape sh (Some axes) = Ok (map (fun ax => Some (nth (Z.to_nat ax) sh 0)) axes).
Proof.
  intros H. destruct (axes_NoDup _ _ H) as [_ HL]. unfold transposed_shape, transpose_axes. rewrite HL, Nat.eqb_refl. split; auto. cbn [bind]. apply mapping_ok; auto.
Qed.
(** C52: without axes the dimensions are reversed. *)
Theorem C52_default sh : transposed_shape sh None = Ok (map Some (rev sh)).
Proof.
  unfold transposed_shape, transpose_axes. cbn [bind]. rewrite (mapping_ok 0).
  - f_equal. rewrite <- map_rev, map_map. rewrite <- (map_map (fun k => nth (Z.to_nat (Z.of_nat k)) sh 0) Some). f_equal.
    rewrite map_rev. f_equal. rewrite (map_ext _ (fun k => nth k sh 0)) by (intros; rewrite Nat2Z.id; auto). clear.
    induction sh as [|n sh IH]; simpl; auto. f_equal. rewrite <- seq_shift, map_map. auto.
  - unfold is_axes. symmetry. apply Permutation_rev.
Qed.
(** C52: any other list never gives a shape: it is refused at once when there are
    too many or too few axes, and otherwise when the shape is asked for. *)
Theorem C52_other sh axes : ~ Permutation axes (map Z.of_nat (seq 0 (length sh))) ->
  (length axes <> length sh /\ transpose_axes (length sh) (Some axes) = Err ValueError)
  \/ (length axes = length sh /\ transposed_shape sh (Some axes) = Err KeyErr).
Proof.
  intros H. unfold transposed_shape, transpose_axes. destruct (Nat.eqb_spec (length axes) (length sh)) as [E|E]; [right|left]; split; auto. cbn [bind].
  apply mapping_bad; auto.
Qed.
(** C52 fails: axes counted from the end, which NumPy accepts, end in a KeyError,
    for every number of dimensions; and they are not refused by ValueError at
    construction. *)
Theorem C52_negative_refuted sh : sh <> [] ->
  let axes := map (fun i => Z.of_nat i - Z.of_nat (length sh))%Z (seq 0 (length sh)) in
  transpose_axes (length sh) (Some axes) = Ok axes
  /\ Permutation (map (fun i => if (i <? 0)%Z then (i + Z.of_nat (length sh))%Z else i) axes) (map Z.of_nat (seq 0 (length sh)))
  /\ transposed_shape sh (Some axes) = Err KeyErr.
Proof.
  intros Hs. cbv zeta. set (axes := map _ _). assert (HL : length axes = length sh) by (unfold axes; rewrite map_length, seq_length; auto).
  split; [unfold transpose_axes; rewrite HL, Nat.eqb_refl; auto|]. split.
  - unfold axes. rewrite map_map. replace (map _ (seq 0 (length sh))) with (map Z.of_nat (seq 0 (length sh))); auto.
    apply map_ext_in. intros i Hi. apply in_seq in Hi. destruct (Z.ltb_spec (Z.of_nat i - Z.of_nat (length sh)) 0); lia.
  - unfold transposed_shape, transpose_axes. rewrite HL, Nat.eqb_refl. cbn [bind]. apply mapping_bad; auto. intros HP. destruct sh as [|n sh]; [congruence|].
    assert (H0 : In 0%Z axes) by (eapply Permutation_in; [symmetry; exact HP|]; simpl; auto). unfold axes in H0. apply in_map_iff in H0 as (i & E & Hi). apply in_seq in Hi. lia.
Qed.
Example C52_case : transposed_shape [2; 3; 4] (Some [2; 0; 1]%Z) = Ok [Some 4; Some 2; Some 3]
  /\ transposed_shape [2; 3] (Some [0; 0]%Z) = Err KeyErr.
Proof. split; reflexivity. Qed.

Print Assumptions C17_indexing_ignores_data.
Print Assumptions C17_shape_dtype.
Print Assumptions C17_constructors.
Print Assumptions C35_accepted.
Print Assumptions C35_normalised.
Print Assumptions C35_refused.
Print Assumptions C36_multidim_stack.
Print Assumptions C36_size_mismatch.
Print Assumptions C36_bad_order.
Print Assumptions C40_stack.
Print Assumptions C40_mosaic.
Print Assumptions C43_array_number_partial.
Print Assumptions C43_number_array_partial.
Print Assumptions C43_array_array.
Print Assumptions C43_other_operand.
Print Assumptions C43_empty_refuted.
Print Assumptions C45_mean.
Print Assumptions C45_masked_mean.
Print Assumptions C45_masked_mean_fits.
Print Assumptions C45_masked_count_refuted.
Print Assumptions C45_sum.
Print Assumptions C45_overflow_refuted.
Print Assumptions C46_nbytes.
Print Assumptions C46_negative.
Print Assumptions C46_size_unit.
Print Assumptions C47_stack.
Print Assumptions C47_mosaic.
Print Assumptions C47_index_error_refuted.
Print Assumptions C48_isolated.
Print Assumptions C48_assigned.
Print Assumptions C48_unchecked_refuted.
Print Assumptions C52_permutation.
Print Assumptions C52_default.
Print Assumptions C52_other.
Print Assumptions C52_negative_refuted.
