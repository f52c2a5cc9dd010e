(** GroupLemmas: correctness of the grouping loop of key_grouper.py. *)
From Verif Require Import Base PySlice KeyGrouper GroupSpec Lib.
From Coq Require Import ZifyBool.
From Coq Require Import Permutation Sorted.

(** ** normalize_slice *)
Lemma normalize_spans n k a b : a < b -> b <= n -> spans n k (a, b) -> normalize_slice k n = piece n (a, b).
Proof.
  intros Hab Hb (H1 & H2 & H3). unfold normalize_slice, piece. cbn [fst snd].
  assert (E1 : forall v, v = Z.of_nat a -> (if (v =? 0)%Z then None else Some v) = low a).
  { intros v ->. unfold low. destruct (Nat.eqb_spec a 0), (Z.eqb_spec (Z.of_nat a) 0); auto; lia. }
  assert (E2 : forall v, v = Z.of_nat b -> (if (v =? Z.of_nat n)%Z then None else Some v) = high n b).
  { intros v ->. unfold high. destruct (Nat.eqb_spec b n), (Z.eqb_spec (Z.of_nat b) (Z.of_nat n)); auto; lia. }
  f_equal.
  - apply E1. destruct H1 as [->|[[-> ?]|[-> ?]]]; cbv iota; match goal with |- (if ?c then _ else _) = _ => destruct c eqn:E end; lia.
  - apply E2. destruct H2 as [->|[[-> ?]|[-> ?]]]; cbv iota; match goal with |- (if ?c then _ else _) = _ => destruct c eqn:E end; lia.
  - destruct H3 as [->| ->]; auto.
Qed.

Definition bound_ok (n : nat) (v : option Z) : Prop := match v with None => True | Some v => (- Z.of_nat n <= v)%Z end.
Lemma normalize_same s n :
  bound_ok n (s_start s) -> bound_ok n (s_stop s) ->
  ((match s_step s with None => True | Some st => (0 <= st)%Z end)
   \/ (s_start s <> Some 0%Z /\ s_start s <> Some (- Z.of_nat n)%Z /\ s_stop s <> Some (Z.of_nat n))) ->
  slice_idx (normalize_slice s n) n = slice_idx s n.
Proof.
  destruct s as [st sp se]. cbn [s_start s_stop s_step]. intros H1 H2 H3.
  unfold slice_idx. replace (slice_indices (normalize_slice (mkS st sp se) n) n) with (slice_indices (mkS st sp se) n); auto.
  unfold slice_indices, normalize_slice. cbv zeta. cbn [s_start s_stop s_step].
  assert (HE : match match se with Some v => if (v =? 1)%Z then None else Some v | None => None end with None => 1%Z | Some v => v end = match se with None => 1%Z | Some v => v end).
  { destruct se as [v|]; auto. destruct (Z.eqb_spec v 1); auto. }
  rewrite HE. destruct (match se with None => 1 | Some v => v end =? 0)%Z eqn:E0; auto.
  set (neg := (match se with None => 1 | Some v => v end <? 0)%Z).
  assert (HN : neg = true -> st <> Some 0%Z /\ st <> Some (- Z.of_nat n)%Z /\ sp <> Some (Z.of_nat n)).
  { intros Hn. destruct H3 as [H3|H3]; auto. unfold neg in Hn. destruct se; lia. }
  assert (F1 : match st with None => if neg then (if neg then Z.of_nat n - 1 else Z.of_nat n)%Z else (if neg then -1 else 0)%Z
                | Some v => clamp_bound (Z.of_nat n) (if neg then -1 else 0) (if neg then Z.of_nat n - 1 else Z.of_nat n) v end
    = match (if (if (match st with None => 0 | Some v => v end <? 0)%Z then Z.of_nat n + match st with None => 0 | Some v => v end else match st with None => 0 | Some v => v end) =? 0 then None
             else Some (if (match st with None => 0 | Some v => v end <? 0)%Z then Z.of_nat n + match st with None => 0 | Some v => v end else match st with None => 0 | Some v => v end))%Z with
      | None => if neg then (if neg then Z.of_nat n - 1 else Z.of_nat n)%Z else (if neg then -1 else 0)%Z
      | Some v => clamp_bound (Z.of_nat n) (if neg then -1 else 0) (if neg then Z.of_nat n - 1 else Z.of_nat n) v end).
  { destruct st as [v|]; cbn [bound_ok] in *; auto.
    destruct neg; [destruct (HN eq_refl) as (N1 & N2 & _)|]; unfold clamp_bound;
      destruct (Z.ltb_spec v 0);
      repeat match goal with |- context [(if (?x =? ?y)%Z then _ else _)] => destruct (Z.eqb_spec x y) end;
      repeat match goal with |- context [(?x <? ?y)%Z] => destruct (Z.ltb_spec x y) end; try lia;
      try (exfalso; apply N1; f_equal; lia); try (exfalso; apply N2; f_equal; lia). }
  assert (F2 : match sp with None => if neg then (if neg then -1 else 0)%Z else (if neg then Z.of_nat n - 1 else Z.of_nat n)%Z
                | Some v => clamp_bound (Z.of_nat n) (if neg then -1 else 0) (if neg then Z.of_nat n - 1 else Z.of_nat n) v end
    = match (if (if (match sp with Some v => v | None => Z.of_nat n end <? 0)%Z then Z.of_nat n + match sp with Some v => v | None => Z.of_nat n end else match sp with Some v => v | None => Z.of_nat n end) =? Z.of_nat n then None
             else Some (if (match sp with Some v => v | None => Z.of_nat n end <? 0)%Z then Z.of_nat n + match sp with Some v => v | None => Z.of_nat n end else match sp with Some v => v | None => Z.of_nat n end))%Z with
      | None => if neg then (if neg then -1 else 0)%Z else (if neg then Z.of_nat n - 1 else Z.of_nat n)%Z
      | Some v => clamp_bound (Z.of_nat n) (if neg then -1 else 0) (if neg then Z.of_nat n - 1 else Z.of_nat n) v end).
  { destruct sp as [v|]; cbn [bound_ok] in *.
    - destruct neg; [destruct (HN eq_refl) as (_ & _ & N1)|]; unfold clamp_bound;
      destruct (Z.ltb_spec v 0);
      repeat match goal with |- context [(if (?x =? ?y)%Z then _ else _)] => destruct (Z.eqb_spec x y) end;
      repeat match goal with |- context [(?x <? ?y)%Z] => destruct (Z.ltb_spec x y) end; try lia;
      try (exfalso; apply N1; f_equal; lia).
    - destruct (Z.ltb_spec (Z.of_nat n) 0); [lia|]. rewrite Z.eqb_refl. auto. }
  rewrite F1, F2. auto.
Qed.

(** Exactly when a slice with a positive step is normalised to one that selects the
    same positions. *)
Lemma range_nil a b c : (0 < c)%Z -> (py_range a b c = [] <-> (b <= a)%Z).
Proof.
  intros Hc. unfold py_range, range_len. replace (0 <? c)%Z with true by lia.
  assert (H : (b <= a <-> (b - a + c - 1) / c <= 0)%Z). { split; intros H. - assert ((b - a + c - 1) / c < 1)%Z by (apply Z.div_lt_upper_bound; lia). lia. - destruct (Z.le_gt_cases b a); auto. assert (1 <= (b - a + c - 1) / c)%Z by (apply Z.div_le_lower_bound; lia). lia. }
  rewrite H. destruct (Z.to_nat ((b - a + c - 1) / c)) as [|k] eqn:E; cbn [seq map].
  - split; auto. lia.
  - split; [discriminate|lia].
Qed.
Lemma range_hd a b c : (0 < c)%Z -> (a < b)%Z -> exists l, py_range a b c = a :: l.
Proof.
  intros Hc H. pose proof (proj1 (range_nil a b c Hc)) as N. unfold py_range in *. destruct (range_len a b c); [exfalso; assert (b <= a)%Z by (apply N; auto); lia|].
  cbn [seq map]. eexists. f_equal. lia.
Qed.
(** The step of a slice. *)
Definition step_of (s : pslice) : Z := match s_step s with None => 1%Z | Some c => c end.
Lemma forward_idx s n c : step_of s = c -> (0 < c)%Z ->
  let z := Z.of_nat n in let start := match s_start s with None => 0%Z | Some v => v end in let stop := match s_stop s with None => z | Some v => v end in
  slice_idx s n = Ok (py_range (clamp_bound z 0 z start) (clamp_bound z 0 z stop) c).
Proof.
  intros Hs Hc z start stop. unfold slice_idx, slice_indices. unfold step_of in Hs. rewrite Hs. replace (c =? 0)%Z with false by lia. replace (c <? 0)%Z with false by lia. cbn [bind].
  f_equal. f_equal.
  - unfold start. destruct (s_start s); auto. unfold clamp_bound. change (0 <? 0)%Z with false. replace (z <? 0)%Z with false by lia. auto.
  - unfold stop. destruct (s_stop s); auto. unfold clamp_bound, z. replace (Z.of_nat n <? 0)%Z with false by lia. replace (Z.of_nat n <? Z.of_nat n)%Z with false by lia. auto.
Qed.
Ltac casez := repeat match goal with |- context[(?a <? ?b)%Z] => first [replace (a <? b)%Z with true by lia | replace (a <? b)%Z with false by lia | destruct (Z.ltb_spec a b)] end; try lia.
(** The same for negative steps: ranges that count down. *)
Lemma down_len a b c : (c < 0)%Z -> range_len a b c = Z.to_nat (1 + (a - b - 1) / - c).
Proof.
  intros Hc. unfold range_len. replace (0 <? c)%Z with false by lia. f_equal.
  replace (a - b - c - 1)%Z with ((a - b - 1) + 1 * - c)%Z by lia. rewrite Z.div_add by lia. lia.
Qed.
Lemma down_sign a b c : (c < 0)%Z -> ((a - b - 1) / - c < 0 <-> a <= b)%Z.
Proof.
  intros Hc. split; intros H.
  - destruct (Z.le_gt_cases a b); auto. assert (0 <= (a - b - 1) / - c)%Z by (apply Z.div_pos; lia). lia.
  - apply Z.div_lt_upper_bound; lia.
Qed.
Lemma down_range a b a' b' c : (c < 0)%Z ->
  (py_range a b c = py_range a' b' c <-> (a <= b /\ a' <= b')%Z \/ (a = a' /\ (a - b - 1) / - c = (a - b' - 1) / - c)%Z).
Proof.
  intros Hc. pose proof (down_sign a b c Hc) as S1. pose proof (down_sign a' b' c Hc) as S2.
  unfold py_range. rewrite !down_len by auto. split.
  - intros H. pose proof (f_equal (@List.length Z) H) as Hl. rewrite !map_length, !seq_length in Hl.
    destruct (Z.le_gt_cases a b) as [Ha|Ha].
    + left. split; auto. apply S2. lia.
    + right. destruct (Z.to_nat (1 + (a - b - 1) / - c)) as [|k] eqn:E1; [lia|]. destruct (Z.to_nat (1 + (a' - b' - 1) / - c)) as [|k'] eqn:E2; [lia|].
      cbn [seq map] in H. injection H as H _. assert (a = a') by lia. subst a'. split; auto. lia.
  - intros [[Ha Hb]|[-> Hq]].
    + apply S1 in Ha. apply S2 in Hb. replace (Z.to_nat (1 + (a - b - 1) / - c)) with 0 by lia. replace (Z.to_nat (1 + (a' - b' - 1) / - c)) with 0 by lia. auto.
    + rewrite Hq. auto.
Qed.
Lemma backward_idx s n : (step_of s < 0)%Z ->
  let z := Z.of_nat n in
  slice_idx s n = Ok (py_range (match s_start s with None => z - 1 | Some v => clamp_bound z (-1) (z - 1) v end)
                               (match s_stop s with None => -1 | Some v => clamp_bound z (-1) (z - 1) v end) (step_of s))%Z.
Proof.
  intros Hc z. unfold slice_idx, slice_indices. change (match s_step s with Some v => v | None => 1%Z end) with (step_of s).
  destruct (Z.eqb_spec (step_of s) 0); [lia|]. destruct (Z.ltb_spec (step_of s) 0); [|lia]. reflexivity.
Qed.

Lemma normalize_exact s n : (0 < step_of s)%Z ->
  let z := Z.of_nat n in let start := match s_start s with None => 0%Z | Some v => v end in let stop := match s_stop s with None => z | Some v => v end in
  slice_idx (normalize_slice s n) n = slice_idx s n <->
  ~ ((stop < - z /\ clamp_bound z 0 z (if start <? 0 then start + z else start) < stop + 2 * z)%Z \/ (- 2 * z < start < - z /\ (0 < stop \/ - z < stop < 0))%Z).
Proof.
  intros Hc z start stop. rewrite (forward_idx s n (step_of s) eq_refl Hc). fold z start stop.
  rewrite (forward_idx (normalize_slice s n) n (step_of s)); auto.
  2: { unfold step_of, normalize_slice. cbn [s_step]. destruct (s_step s) as [v|]; auto. destruct (Z.eqb_spec v 1); auto. }
  assert (E1 : match s_start (normalize_slice s n) with None => 0%Z | Some v => v end = if (start <? 0)%Z then (z + start)%Z else start).
  { unfold normalize_slice. cbv zeta. fold z start. cbn [s_start]. destruct (Z.eqb_spec (if (start <? 0)%Z then (z + start)%Z else start) 0); auto. }
  assert (E2 : match s_stop (normalize_slice s n) with None => z | Some v => v end = if (stop <? 0)%Z then (z + stop)%Z else stop).
  { unfold normalize_slice. cbv zeta. fold z. cbn [s_stop]. assert (Es : stop = match s_stop s with Some v => v | None => z end) by reflexivity. rewrite <- Es. destruct (Z.eqb_spec (if (stop <? 0)%Z then (z + stop)%Z else stop) z); auto. }
  cbv zeta. fold z. rewrite E1, E2. rewrite (Z.add_comm z start), (Z.add_comm z stop). assert (Hz : (0 <= z)%Z) by (unfold z; lia).
  set (c := step_of s) in *. clearbody c start stop z. clear E1 E2.
  set (lo := clamp_bound z 0 z start). set (lo' := clamp_bound z 0 z (if (start <? 0)%Z then (start + z)%Z else start)).
  set (hi := clamp_bound z 0 z stop). set (hi' := clamp_bound z 0 z (if (stop <? 0)%Z then (stop + z)%Z else stop)).
  assert (Hlo : (0 <= lo' /\ (if start <? - z then lo = 0 /\ lo' = Z.max 0 (start + 2 * z) else lo = lo'))%Z) by (unfold lo, lo', clamp_bound; destruct (Z.ltb_spec start 0); casez).
  assert (Hhi : (0 <= hi' /\ (if stop <? - z then hi = 0 /\ hi' = Z.max 0 (stop + 2 * z) else hi = hi') /\ (hi <= 0 <-> stop = 0 \/ z = 0 \/ stop <= - z))%Z) by (unfold hi, hi', clamp_bound; destruct (Z.ltb_spec stop 0); casez).
  clearbody lo lo' hi hi'.
  assert (R : Ok (py_range lo' hi' c) = Ok (py_range lo hi c) <-> py_range lo' hi' c = py_range lo hi c) by (split; [intros H; injection H; auto|intros ->; auto]).
  rewrite R. clear R. destruct (Z.ltb_spec stop (- z)) as [Hs|Hs].
  - destruct Hhi as (_ & (-> & ->) & _). assert (N : py_range lo 0 c = []) by (apply range_nil; auto; destruct (start <? - z)%Z; lia). rewrite N, range_nil by auto. lia.
  - destruct Hhi as (H0 & -> & H1). destruct (Z.ltb_spec start (- z)) as [Ht|Ht].
    + destruct Hlo as (_ & -> & ->). destruct (Z.le_gt_cases hi' 0) as [Hh|Hh].
      * rewrite !(proj2 (range_nil _ _ _ Hc)) by lia. split; auto. intros _. lia.
      * destruct (range_hd 0 hi' c Hc Hh) as [l Hl]. destruct (Z.max_spec 0 (start + 2 * z)) as [[A ->]|[A ->]].
        -- split; [|intros N; exfalso; apply N; right; assert (~ (stop = 0 \/ z = 0 \/ stop <= - z))%Z by (intros B; apply H1 in B; lia); lia]. intros E. exfalso. rewrite Hl in E. destruct (Z.lt_ge_cases (start + 2 * z) hi') as [B|B].
           ++ destruct (range_hd (start + 2 * z) hi' c Hc B) as [l' Hl']. rewrite Hl' in E. assert (start + 2 * z = 0)%Z by congruence. lia.
           ++ rewrite (proj2 (range_nil _ _ _ Hc)) in E by lia. discriminate.
        -- split; auto. intros _. lia.
    + destruct Hlo as (_ & ->). split; auto. intros _. lia.
Qed.

(** ** Sorting *)
Definition klt (a b : Z * Z) : Prop := key_leb a b = true /\ a <> b.
Lemma key_leb_total a b : key_leb a b = true \/ key_leb b a = true.
Proof. unfold key_leb. destruct a, b; simpl. lia. Qed.
Lemma key_leb_trans a b c : key_leb a b = true -> key_leb b c = true -> key_leb a c = true.
Proof. unfold key_leb. destruct a, b, c; simpl. lia. Qed.
Lemma key_leb_anti a b : key_leb a b = true -> key_leb b a = true -> a = b.
Proof. unfold key_leb. destruct a, b; simpl. intros. f_equal; lia. Qed.

Section Sorting.
Variable n : nat.
Notation le := (fun s t => key_leb (sort_key n s) (sort_key n t) = true).
Lemma insert_by_perm s l : Permutation (insert_by n s l) (s :: l).
Proof.
  induction l as [|t l IH]; simpl; auto. destruct (key_leb _ _); auto.
  rewrite IH. constructor.
Qed.
Lemma sort_by_perm l : Permutation (sort_by n l) l.
Proof. induction l as [|s l IH]; simpl; auto. rewrite insert_by_perm, IH. auto. Qed.
Lemma insert_by_sorted s l : StronglySorted le l -> StronglySorted le (insert_by n s l).
Proof.
  induction 1 as [|t l H IH HF]; simpl; [repeat constructor|].
  destruct (key_leb (sort_key n s) (sort_key n t)) eqn:E.
  - constructor; [constructor; auto|]. constructor; auto. rewrite Forall_forall in *. intros u Hu. eapply key_leb_trans; [exact E|]. apply HF; auto.
  - constructor; auto. eapply Permutation_Forall; [symmetry; apply insert_by_perm|]. constructor; auto.
    destruct (key_leb_total (sort_key n s) (sort_key n t)); congruence.
Qed.
Lemma sort_by_sorted l : StronglySorted le (sort_by n l).
Proof. induction l; simpl; [constructor|]. apply insert_by_sorted; auto. Qed.

Lemma sorted_unique l1 : forall l2, StronglySorted le l1 -> StronglySorted le l2 ->
  (forall s t, In s l1 -> In t l1 -> sort_key n s = sort_key n t -> s = t) -> Permutation l1 l2 -> l1 = l2.
Proof.
  induction l1 as [|x l1 IH]; intros l2 H1 H2 HI HP.
  - apply Permutation_nil in HP. auto.
  - destruct l2 as [|y l2]; [symmetry in HP; apply Permutation_nil in HP; discriminate|].
    inversion H1; subst. inversion H2; subst.
    assert (x = y).
    { assert (Hx : In x (y :: l2)) by (rewrite <- HP; simpl; auto). assert (Hy : In y (x :: l1)) by (rewrite HP; simpl; auto).
      destruct Hx as [->|Hx]; auto. pose proof Hy as Hy'. destruct Hy as [->|Hy]; auto. rewrite Forall_forall in *.
      apply HI; auto; [simpl; auto|]. apply key_leb_anti; auto. }
    subst y. f_equal. apply IH; auto.
    + intros; apply HI; simpl; auto.
    + eapply Permutation_cons_inv; eauto.
Qed.
End Sorting.

(** ** Pieces *)
Lemma chain_bounds n ps : forall a, chain a n ps -> Forall (fun p => a <= fst p /\ fst p < snd p /\ snd p <= n) ps.
Proof.
  induction ps as [|[x y] ps IH]; intros a H; [constructor|]. destruct H as (-> & H1 & [H2|[H2 H3]]).
  - pose proof (IH _ H2) as F. constructor; cbn [fst snd]; [|eapply Forall_impl; [|exact F]; simpl; intros; lia].
    split; auto. split; auto. destruct ps as [|[u v] ps]; simpl in H2; [lia|]. inversion F; subst. simpl in *. lia.
  - pose proof (IH _ H3) as F. constructor; auto. destruct ps as [|p ps]; [discriminate|]. injection H2 as ->. inversion F; auto.
Qed.
Definition pnth (ps : list (nat * nat)) i := nth i ps (0, 0).
Lemma chain_nth n ps a i : chain a n ps -> i < length ps -> a <= fst (pnth ps i) /\ fst (pnth ps i) < snd (pnth ps i) /\ snd (pnth ps i) <= n.
Proof. intros H Hi. pose proof (chain_bounds n ps a H) as F. rewrite Forall_forall in F. apply F. apply nth_In; auto. Qed.
Lemma chain_first n ps a : chain a n ps -> 0 < length ps -> fst (pnth ps 0) = a.
Proof. destruct ps as [|[x y] ps]; simpl; [lia|]. intros (-> & _). auto. Qed.
Lemma chain_next n ps : forall a i, chain a n ps -> S i < length ps -> fst (pnth ps (S i)) = snd (pnth ps i) \/ pnth ps (S i) = pnth ps i.
Proof.
  induction ps as [|[x y] ps IH]; intros a i H Hi; simpl in Hi; [lia|]. destruct H as (-> & H1 & [H2|[H2 H3]]).
  - destruct i as [|i]; [|exact (IH y i H2 ltac:(lia))]. left. exact (chain_first n ps y H2 ltac:(lia)).
  - destruct i as [|i]; [|exact (IH a i H3 ltac:(lia))]. right. destruct ps as [|p ps]; [discriminate|]. injection H2 as ->. auto.
Qed.
Lemma chain_last n ps : forall a i, chain a n ps -> S i = length ps -> snd (pnth ps i) = n.
Proof.
  induction ps as [|[x y] ps IH]; intros a i H Hi; simpl in Hi; [lia|]. destruct H as (-> & H1 & [H2|[H2 H3]]).
  - destruct i as [|i]; [|exact (IH y i H2 ltac:(lia))]. destruct ps; simpl in *; [auto|lia].
  - destruct i as [|i]; [|exact (IH a i H3 ltac:(lia))]. destruct ps; simpl in *; [discriminate|lia].
Qed.
Lemma chain_mono n ps a : chain a n ps -> forall i j, i < j -> j < length ps -> snd (pnth ps i) <= fst (pnth ps j) \/ pnth ps i = pnth ps j.
Proof.
  intros H i j Hij. induction Hij as [|j Hij IH]; intros Hj.
  - destruct (chain_next n ps a i H Hj) as [E|E]; [left; lia|right; auto].
  - specialize (IH ltac:(lia)). pose proof (chain_nth n ps a j H ltac:(lia)).
    destruct (chain_next n ps a j H Hj) as [E|E].
    + left. destruct IH as [IH|IH]; [lia|rewrite IH; lia].
    + rewrite E. auto.
Qed.
Lemma chain_le n ps a i j : chain a n ps -> i <= j -> j < length ps ->
  fst (pnth ps i) <= fst (pnth ps j) /\ snd (pnth ps i) <= snd (pnth ps j).
Proof.
  intros H Hij Hj. destruct (Nat.eq_dec i j) as [->|]; [lia|]. pose proof (chain_nth n ps a i H ltac:(lia)). pose proof (chain_nth n ps a j H ltac:(lia)).
  destruct (chain_mono n ps a H i j ltac:(lia) Hj) as [E|E]; [lia|rewrite E; lia].
Qed.
Lemma chain_nonempty n ps a : chain a n ps -> a < n -> 0 < length ps.
Proof. destruct ps; simpl; [lia|]. lia. Qed.

Lemma filter_none {A} (p : A -> bool) l : (forall x, In x l -> p x = false) -> filter p l = [].
Proof. induction l as [|x l IH]; intros H; simpl; auto. rewrite H by (simpl; auto). apply IH. intros; apply H; simpl; auto. Qed.
Lemma filter_all {A} (p : A -> bool) l : (forall x, In x l -> p x = true) -> filter p l = l.
Proof. induction l as [|x l IH]; intros H; simpl; auto. rewrite H by (simpl; auto). f_equal. apply IH. intros; apply H; simpl; auto. Qed.

(** The pieces from index [i] to index [j], the first and last of their kind. *)
Lemma inside_cut n ps a i j : chain a n ps -> i <= j -> j < length ps ->
  (forall k, k < i -> snd (pnth ps k) <= fst (pnth ps i)) ->
  (forall k, j < k -> k < length ps -> snd (pnth ps j) <= fst (pnth ps k)) ->
  inside (fst (pnth ps i)) (snd (pnth ps j)) ps = cut_out ps i j.
Proof.
  intros H Hij Hj HI HJ. unfold inside, cut_out.
  assert (E : ps = firstn i ps ++ firstn (j + 1 - i) (skipn i ps) ++ skipn (j + 1 - i) (skipn i ps)) by (rewrite !firstn_skipn; auto).
  rewrite E at 1. rewrite !filter_app. rewrite (filter_none _ (firstn i ps)), (filter_all _ (firstn _ (skipn i ps))), (filter_none _ (skipn _ _)); [rewrite app_nil_r; auto| | |].
  - intros p Hp. destruct (In_nth _ _ (0, 0) Hp) as (k & Hk & <-). rewrite !skipn_length in Hk. rewrite !nth_skipn_plus.
    pose proof (HJ (i + (j + 1 - i + k)) ltac:(lia) ltac:(lia)) as M.
    pose proof (chain_nth n ps a (i + (j + 1 - i + k)) H ltac:(lia)) as B. fold (pnth ps (i + (j + 1 - i + k))). clear - M B. apply andb_false_iff. right. apply Nat.leb_gt. lia.
  - intros p Hp. destruct (In_nth _ _ (0, 0) Hp) as (k & Hk & <-). rewrite firstn_length, skipn_length in Hk.
    rewrite nth_firstn_lt by lia. rewrite nth_skipn_plus. fold (pnth ps (i + k)).
    pose proof (chain_le n ps a i (i + k) H ltac:(lia) ltac:(lia)). pose proof (chain_le n ps a (i + k) j H ltac:(lia) ltac:(lia)).
    apply andb_true_iff. split; apply Nat.leb_le; lia.
  - intros p Hp. destruct (In_nth _ _ (0, 0) Hp) as (k & Hk & <-). rewrite firstn_length in Hk. rewrite nth_firstn_lt by lia. fold (pnth ps k).
    pose proof (HI k ltac:(lia)) as M. pose proof (chain_nth n ps a k H ltac:(lia)) as B. apply andb_false_iff. left. apply Nat.leb_gt. lia.
Qed.

Lemma start0_piece n p : start0 (piece n p) = Z.of_nat (fst p).
Proof. unfold start0, piece, low. cbn [s_start]. destruct (Nat.eqb_spec (fst p) 0); auto. lia. Qed.
Lemma stopn_piece n p : 0 < snd p -> stopn n (piece n p) = Z.of_nat (snd p).
Proof.
  intros H. unfold stopn, piece, high. cbn [s_stop]. destruct (Nat.eqb_spec (snd p) n); [congruence|].
  destruct (Z.eqb_spec (Z.of_nat (snd p)) 0); lia.
Qed.

(** ** The loop.  The state of one input: its pieces, start index, current index. *)
Definition inp := (list (nat * nat) * (nat * nat))%type.
Definition i_ps (t : inp) := fst t.
Definition i_s (t : inp) := fst (snd t).
Definition i_c (t : inp) := snd (snd t).

Lemma combine_maps {A B C} (f : A -> B) (g : A -> C) l : combine (map f l) (map g l) = map (fun x => (f x, g x)) l.
Proof. induction l; simpl; auto. f_equal; auto. Qed.
Lemma mapM_map_ok {A B C} (f : B -> res C) (g : A -> B) (h : A -> C) l : (forall x, In x l -> f (g x) = Ok (h x)) -> mapM f (map g l) = Ok (map h l).
Proof. induction l as [|x l IH]; intros H; simpl; auto. rewrite H by (simpl; auto). rewrite IH; auto. intros; apply H; simpl; auto. Qed.

Lemma all_equal_const l x : (forall y, In y l -> y = x) -> all_equal l = true.
Proof.
  intros H. destruct l as [|y l]; auto. unfold all_equal. apply forallb_forall. intros z Hz. apply Z.eqb_eq.
  rewrite (H z Hz). symmetry. symmetry. apply H. simpl; auto.
Qed.
Lemma all_equal_true l x : all_equal l = true -> hd x l = x -> forall y, In y l -> y = x.
Proof.
  destruct l as [|z l]; simpl; [tauto|]. intros H -> y Hy. apply andb_true_iff in H as [_ H].
  destruct Hy as [->|Hy]; auto. rewrite forallb_forall in H. specialize (H y Hy). lia.
Qed.
Lemma fold_min l : forall x, (fold_left Z.min l x <= x)%Z /\ (forall y, In y l -> fold_left Z.min l x <= y)%Z
  /\ (fold_left Z.min l x = x \/ In (fold_left Z.min l x) l).
Proof.
  induction l as [|z l IH]; intros x; simpl; [repeat split; auto; try lia; intros; tauto|].
  destruct (IH (Z.min x z)) as (H1 & H2 & H3). split; [lia|]. split.
  - intros y [->|Hy]; [lia|auto].
  - destruct H3 as [H3|H3]; auto. destruct (Z.min_spec x z) as [[_ E]|[_ E]]; rewrite E in *; auto.
Qed.

Lemma put_new k v g : (forall e, In e g -> gkey_eqb k (fst e) = false) -> put k v g = g ++ [(k, v)].
Proof.
  induction g as [|[k' v'] g IH]; intros H; simpl; auto. pose proof (H (k', v') (or_introl eq_refl)) as E. cbn [fst] in E. rewrite E. f_equal. apply IH.
  intros; apply H; simpl; auto.
Qed.

Lemma sum_le {A} (f g : A -> nat) l : (forall t, In t l -> f t <= g t) -> list_sum (map f l) <= list_sum (map g l).
Proof.
  induction l as [|x l IH]; intros H; [auto|]. change (f x + list_sum (map f l) <= g x + list_sum (map g l)).
  pose proof (H x ltac:(simpl; auto)). specialize (IH ltac:(intros; apply H; simpl; auto)). lia.
Qed.
Lemma sum_lt {A} (f g : A -> nat) l t0 : In t0 l -> f t0 < g t0 -> (forall t, In t l -> f t <= g t) ->
  list_sum (map f l) < list_sum (map g l).
Proof.
  induction l as [|x l IH]; intros Hin HL H; [destruct Hin|].
  change (f x + list_sum (map f l) < g x + list_sum (map g l)).
  pose proof (sum_le f g l ltac:(intros; apply H; simpl; auto)). destruct Hin as [->|Hin]; [lia|].
  pose proof (H x ltac:(simpl; auto)). specialize (IH Hin HL ltac:(intros; apply H; simpl; auto)). lia.
Qed.

Section Loop.
Variable n : nat.
Definition pieces (ps : list (nat * nat)) : list pslice := map (piece n) ps.
Definition stop_at (t : inp) : nat := snd (pnth (i_ps t) (i_c t)).

(** While the group from [x] to [y] is being collected. *)
Definition tinv (x y : nat) (t : inp) : Prop :=
  chain 0 n (i_ps t) /\ fst (pnth (i_ps t) (i_s t)) = x /\ i_s t <= i_c t /\ i_c t < length (i_ps t)
  /\ stop_at t <= y /\ (exists k, k < length (i_ps t) /\ snd (pnth (i_ps t) k) = y)
  /\ (forall k, k < i_s t -> snd (pnth (i_ps t) k) <= x).

Lemma nth_piece ps i : i < length ps -> nth_error (pieces ps) i = Some (piece n (pnth ps i)).
Proof. intros H. unfold pieces. rewrite nth_error_map. rewrite (nth_error_nth' ps (0, 0) H). auto. Qed.
Lemma tinv_start x y t : tinv x y t -> at_index start0 (pieces (i_ps t), i_s t) = Ok (Z.of_nat x).
Proof.
  intros (H1 & H2 & H3 & H4 & _). unfold at_index. cbn [fst snd]. rewrite nth_piece by lia. rewrite start0_piece, H2. auto.
Qed.
Lemma tinv_stop x y t : tinv x y t -> at_index (stopn n) (pieces (i_ps t), i_c t) = Ok (Z.of_nat (stop_at t)).
Proof.
  intros (H1 & H2 & H3 & H4 & _). unfold at_index. cbn [fst snd]. rewrite nth_piece by lia. rewrite stopn_piece; auto.
  pose proof (chain_nth n _ 0 (i_c t) H1 H4). lia.
Qed.
(** The index of the last piece with the current stop. *)
Definition adj (t : inp) : nat := adjust (length (pieces (i_ps t))) n (pieces (i_ps t)) (Z.of_nat (stop_at t)) (i_c t).
Lemma adjust_ok ps : chain 0 n ps -> forall fuel c, c < length ps -> length ps <= c + fuel ->
  let j := adjust fuel n (pieces ps) (Z.of_nat (snd (pnth ps c))) c in
  c <= j /\ j < length ps /\ pnth ps j = pnth ps c /\ (forall k, j < k -> k < length ps -> snd (pnth ps j) <= fst (pnth ps k)).
Proof.
  intros H. induction fuel as [|fuel IH]; intros c Hc HL; [lia|]. cbv zeta. cbn [adjust].
  destruct (Nat.lt_ge_cases (c + 1) (length ps)) as [L|L].
  - rewrite nth_piece by auto. pose proof (chain_nth n _ 0 (c + 1) H L) as B. pose proof (chain_nth n _ 0 c H Hc) as B0. replace (c + 1) with (S c) in * by lia.
    rewrite stopn_piece by lia. destruct (Z.eqb_spec (Z.of_nat (snd (pnth ps (S c)))) (Z.of_nat (snd (pnth ps c)))) as [E|E]; cbn [negb].
    + assert (EQ : pnth ps (S c) = pnth ps c). { destruct (chain_next n ps 0 c H L); auto. lia. }
      specialize (IH (S c) L ltac:(lia)). rewrite EQ in IH. cbv zeta in IH. destruct IH as (I1 & I2 & I3 & I4). split; [lia|]. auto.
    + split; auto. split; auto. split; auto. intros k Hk Hk2. destruct (chain_mono n ps 0 H c k ltac:(lia) Hk2) as [|E2]; auto.
      pose proof (chain_le n ps 0 c (S c) H ltac:(lia) L). pose proof (chain_le n ps 0 (S c) k H ltac:(lia) Hk2). rewrite <- E2 in *. lia.
  - rewrite (proj2 (nth_error_None _ _)) by (unfold pieces; rewrite map_length; auto). split; auto. split; auto. split; auto. intros; lia.
Qed.
Lemma tinv_adj x y t : tinv x y t -> i_c t <= adj t /\ adj t < length (i_ps t) /\ pnth (i_ps t) (adj t) = pnth (i_ps t) (i_c t)
  /\ (forall k, adj t < k -> k < length (i_ps t) -> snd (pnth (i_ps t) (adj t)) <= fst (pnth (i_ps t) k)).
Proof.
  intros (H1 & H2 & H3 & H4 & _). unfold adj, stop_at. apply adjust_ok; auto. unfold pieces. rewrite map_length. lia.
Qed.
Lemma tinv_gt x y t : tinv x y t -> x < stop_at t.
Proof.
  intros (H1 & H2 & H3 & H4 & _). unfold stop_at. pose proof (chain_nth n _ 0 (i_c t) H1 H4). subst x.
  pose proof (chain_le n _ 0 (i_s t) (i_c t) H1 H3 H4). lia.
Qed.
Lemma tinv_step x y t : tinv x y t -> stop_at t < y -> tinv x y (i_ps t, (i_s t, S (i_c t))).
Proof.
  intros (H1 & H2 & H3 & H4 & H5 & (k & Hk & Ek) & H6) Hlt. unfold tinv, stop_at, i_ps, i_s, i_c in *. cbn [fst snd].
  assert (L : S (snd (snd t)) <= k).
  { destruct (Nat.lt_ge_cases (snd (snd t)) k); auto. exfalso.
    pose proof (chain_le n _ 0 k (snd (snd t)) H1 ltac:(lia) H4). lia. }
  split; auto. split; auto. split; [lia|]. split; [lia|]. split; [|eauto].
  pose proof (chain_le n _ 0 (S (snd (snd t))) k H1 ltac:(lia) Hk). lia.
Qed.

Definition is_common (pss : list (list (nat * nat))) (c : nat) : Prop :=
  forall ps, In ps pss -> exists k, k < length ps /\ snd (pnth ps k) = c.

Definition st_of (T : list inp) (g : groups) : list nat * list nat * groups := (map i_s T, map i_c T, g).
Definition gval (x y : nat) (T : list inp) : list (list pslice) := map (fun t => pieces (inside x y (i_ps t))) T.

(** One pass while collecting the group from [x] to [y]. *)
Lemma body_ok x y T g : T <> [] -> Forall (tinv x y) T -> y <= n ->
  (forall c, x < c < y -> ~ is_common (map i_ps T) c) ->
  (forall e, In e g -> exists x', x' < x /\ fst (fst e) = low x') ->
  (group_body n (map (fun t => pieces (i_ps t)) T) (st_of T g)
   = Ok (let T' := map (fun t => (i_ps t, (S (adj t), S (adj t)))) T in
         st_of T' (g ++ [((low x, high n y), gval x y T)]))
   /\ Forall (fun t => stop_at t = y) T)
  \/ (exists mn, let T' := map (fun t => if stop_at t =? mn then (i_ps t, (i_s t, S (i_c t))) else t) T in
      group_body n (map (fun t => pieces (i_ps t)) T) (st_of T g) = Ok (st_of T' g)
      /\ Forall (tinv x y) T' /\ mn < y /\ (exists t, In t T /\ stop_at t = mn) /\ (forall t, In t T -> mn <= stop_at t)).
Proof.
  intros HT HI Hy HC HG. rewrite Forall_forall in HI.
  unfold group_body, st_of. rewrite !combine_maps.
  rewrite (mapM_map_ok _ _ (fun _ => Z.of_nat x)) by (intros t Ht; eapply tinv_start; eauto). cbn [bind].
  rewrite (all_equal_const _ (Z.of_nat x)) by (intros z Hz; apply in_map_iff in Hz as (? & <- & _); auto). cbn [negb].
  rewrite (mapM_map_ok _ _ (fun t => Z.of_nat (stop_at t))) by (intros t Ht; eapply tinv_stop; eauto). cbn [bind].
  destruct T as [|t0 T0] eqn:ET; [congruence|]. rewrite <- ET in *. assert (Ht0 : In t0 T) by (rewrite ET; simpl; auto).
  assert (Hhd : hd 0%Z (map (fun t => Z.of_nat (stop_at t)) T) = Z.of_nat (stop_at t0)) by (rewrite ET; auto).
  assert (Hhs : hd 0%Z (map (fun _ : inp => Z.of_nat x) T) = Z.of_nat x) by (rewrite ET; auto).
  destruct (all_equal (map (fun t => Z.of_nat (stop_at t)) T)) eqn:EA.
  - left. assert (HS : forall t, In t T -> stop_at t = stop_at t0).
    { intros t Ht. pose proof (all_equal_true _ (Z.of_nat (stop_at t0)) EA ltac:(rewrite ET; auto) (Z.of_nat (stop_at t))
        ltac:(apply (in_map (fun t => Z.of_nat (stop_at t))); auto)). lia. }
    assert (HY : stop_at t0 = y).
    { pose proof (tinv_gt x y t0 (HI t0 Ht0)). destruct (HI t0 Ht0) as (_ & _ & _ & _ & L & _).
      destruct (Nat.eq_dec (stop_at t0) y); auto. exfalso. apply (HC (stop_at t0) ltac:(lia)). intros ps Hps.
      apply in_map_iff in Hps as (t & <- & Ht). exists (i_c t). destruct (HI t Ht) as (_ & _ & _ & L2 & _). split; auto.
      exact (HS t Ht). }
    split; [|apply Forall_forall; intros t Ht; rewrite HS; auto]. rewrite Hhd, Hhs. f_equal. cbv zeta.
    assert (EC : map (fun p : list pslice * nat => adjust (length (fst p)) n (fst p) (Z.of_nat (stop_at t0)) (snd p))
       (map (fun t => (pieces (i_ps t), i_c t)) T) = map adj T).
    { rewrite map_map. apply map_ext_in. intros t Ht. cbn [fst snd]. rewrite <- (HS t Ht). reflexivity. }
    rewrite !EC. rewrite !map_map. match goal with |- (_, _, ?p) = (_, _, ?q) => assert (EP : p = q); [|rewrite EP; reflexivity] end.
    rewrite !combine_maps. rewrite map_map. cbn [fst snd]. rewrite put_new.
    + f_equal. f_equal. f_equal.
      * f_equal.
        -- unfold low. destruct (Nat.eqb_spec x 0), (Z.eqb_spec (Z.of_nat x) 0); auto; lia.
        -- rewrite HY. unfold high. destruct (Nat.eqb_spec y n), (Z.eqb_spec (Z.of_nat y) (Z.of_nat n)); auto; lia.
      * unfold gval. apply map_ext_in. intros t Ht. destruct (HI t Ht) as (C1 & C2 & C3 & C4 & _ & _ & C7).
        destruct (tinv_adj _ _ _ (HI t Ht)) as (J1 & J2 & J3 & J4).
        rewrite <- C2, <- HY, <- (HS t Ht). unfold stop_at. rewrite <- J3. rewrite (inside_cut n (i_ps t) 0 (i_s t) (adj t)); auto; [|lia|intros k Hk; rewrite C2; auto].
        unfold cut_out, pieces. rewrite skipn_map, firstn_map. auto.
    + intros e He. destruct (HG e He) as (x' & L & E). unfold gkey_eqb. apply andb_false_iff. left. destruct e as [[e1 e2] ev]. cbn [fst snd] in *. rewrite E. unfold low.
      destruct (Z.eqb_spec (Z.of_nat x) 0); [lia|]. destruct (Nat.eqb_spec x' 0); simpl; auto. apply Z.eqb_neq. lia.
  - right. set (m := fold_left Z.min (tl (map (fun t => Z.of_nat (stop_at t)) T)) (hd 0%Z (map (fun t => Z.of_nat (stop_at t)) T))).
    assert (HM1 : forall t, In t T -> (m <= Z.of_nat (stop_at t))%Z).
    { intros t Ht. subst T. cbn [map tl hd] in m. unfold m. destruct (fold_min (map (fun t => Z.of_nat (stop_at t)) T0) (Z.of_nat (stop_at t0))) as (A1 & A2 & _).
      destruct Ht as [->|Ht]; auto. apply A2. apply (in_map (fun t => Z.of_nat (stop_at t))); auto. }
    assert (HM2 : exists t, In t T /\ Z.of_nat (stop_at t) = m).
    { subst T. cbn [map tl hd] in m. unfold m. destruct (fold_min (map (fun t => Z.of_nat (stop_at t)) T0) (Z.of_nat (stop_at t0))) as (_ & _ & [A|A]).
      - exists t0. simpl. auto.
      - apply in_map_iff in A as (t & E & Ht). exists t. simpl. auto. }
    assert (HM3 : (m < Z.of_nat y)%Z).
    { destruct (Z.lt_ge_cases m (Z.of_nat y)); auto. exfalso.
      rewrite (all_equal_const _ (Z.of_nat y)) in EA; [discriminate|]. intros z Hz. apply in_map_iff in Hz as (t & <- & Ht).
      specialize (HM1 t Ht). destruct (HI t Ht) as (_ & _ & _ & _ & L & _). lia. }
    destruct HM2 as (t1 & Ht1 & E1). exists (stop_at t1). cbv zeta.
    assert (EZ : forall t, (Z.of_nat (stop_at t) =? m)%Z = (stop_at t =? stop_at t1)).
    { intros t. rewrite <- E1. destruct (Nat.eqb_spec (stop_at t) (stop_at t1)), (Z.eqb_spec (Z.of_nat (stop_at t)) (Z.of_nat (stop_at t1))); auto; lia. }
    split; [|split; [|split; [lia|split; [eauto|intros t Ht; specialize (HM1 t Ht); lia]]]].
    + f_equal. rewrite combine_maps, !map_map. cbn [fst snd]. f_equal. f_equal.
      * apply map_ext. intros t. destruct (stop_at t =? stop_at t1); auto.
      * apply map_ext. intros t. rewrite EZ. destruct (stop_at t =? stop_at t1); auto.
    + apply Forall_forall. intros t' Ht'. apply in_map_iff in Ht' as (t & <- & Ht). destruct (Nat.eqb_spec (stop_at t) (stop_at t1)) as [E|]; auto.
      apply tinv_step; auto. lia.
Qed.

(** The passes left while collecting the group from [x]. *)
Definition left_at (x : nat) (T : list inp) (c : nat) : nat :=
  if common (map i_ps T) c then (if x <? c then 1 else 0) else list_max (map (fun t => ending c (skipn (i_c t) (i_ps t))) T).
Definition left_of (x : nat) (T : list inp) : nat := list_sum (map (left_at x T) (seq 1 n)).

Lemma sum_one {A} (f g : A -> nat) l m : NoDup l -> In m l -> f m = S (g m) -> (forall c, In c l -> c <> m -> f c = g c) ->
  list_sum (map f l) = S (list_sum (map g l)).
Proof.
  induction l as [|c l IH]; intros HN Hin Hm Ho; [destruct Hin|]. inversion HN; subst. change (f c + list_sum (map f l) = S (g c + list_sum (map g l))).
  destruct Hin as [->|Hin].
  - rewrite Hm. assert (E : map f l = map g l). { apply map_ext_in. intros d Hd. apply Ho; simpl; auto. intros ->; auto. } rewrite E. lia.
  - rewrite (Ho c (or_introl eq_refl)) by (intros ->; auto). rewrite IH; auto. intros; apply Ho; simpl; auto.
Qed.
Lemma list_max_ext {A} (f g : A -> nat) l : (forall t, In t l -> f t = g t) -> list_max (map f l) = list_max (map g l).
Proof. intros H. f_equal. apply map_ext_in. auto. Qed.
Lemma list_max_pred {A} (f : A -> nat) l : list_max (map f l) > 0 -> list_max (map f l) = S (list_max (map (fun t => f t - 1) l)).
Proof.
  intros H. assert (G : forall m, list_max (map f l) <= S m <-> list_max (map (fun t => f t - 1) l) <= m).
  { intros m. rewrite !list_max_le, !Forall_forall. split; intros G x Hx; apply in_map_iff in Hx as (t & <- & Ht).
    - specialize (G (f t) (in_map f l t Ht)). lia.
    - specialize (G (f t - 1) (in_map (fun t => f t - 1) l t Ht)). simpl in G. lia. }
  pose proof (proj2 (G (list_max (map (fun t => f t - 1) l))) ltac:(lia)).
  destruct (list_max (map f l)) as [|k] eqn:E; [lia|]. pose proof (proj1 (G k) ltac:(lia)). lia.
Qed.
Lemma skipn_cons ps i : i < length ps -> skipn i ps = pnth ps i :: skipn (S i) ps.
Proof.
  revert i. induction ps as [|p ps IH]; intros i H; [simpl in H; lia|]. destruct i; auto. cbn [skipn]. rewrite IH by (simpl in H; lia). auto.
Qed.
Lemma ending_none c ps i : (forall k, i <= k -> k < length ps -> snd (pnth ps k) <> c) -> ending c (skipn i ps) = 0.
Proof.
  intros H. unfold ending. rewrite filter_none; auto. intros p Hp. apply Nat.eqb_neq. destruct (In_nth _ _ (0, 0) Hp) as (k & Hk & <-).
  rewrite skipn_length in Hk. rewrite nth_skipn_plus. apply H; lia.
Qed.
Lemma ending_skip c ps i j : i <= j -> j <= length ps -> (forall k, i <= k -> k < j -> snd (pnth ps k) <> c) -> ending c (skipn j ps) = ending c (skipn i ps).
Proof.
  intros Hij. induction Hij as [|j Hij IH]; auto. intros HL H. rewrite <- IH by (auto; lia). rewrite (skipn_cons ps j) by lia.
  unfold ending. cbn [filter]. destruct (Nat.eqb_spec (snd (pnth ps j)) c) as [E|]; auto. exfalso. apply (H j); auto; lia.
Qed.

Definition exp_groups (pss : list (list (nat * nat))) (l : list nat) : groups :=
  map (fun xy => ((low (fst xy), high n (snd xy)), map (fun ps => pieces (inside (fst xy) (snd xy) ps)) pss)) (combine l (tl l)).

Lemma stop_is_last t y x : tinv x y t -> stop_at t = n -> S (adj t) = length (i_ps t).
Proof.
  intros H E. destruct (tinv_adj _ _ _ H) as (J1 & J2 & J3 & J4). destruct H as (H1 & H2 & H3 & H4 & _).
  destruct (Nat.eq_dec (S (adj t)) (length (i_ps t))); auto. exfalso.
  pose proof (J4 (S (adj t)) ltac:(lia) ltac:(lia)) as M. unfold stop_at in E. rewrite J3, E in M.
  pose proof (chain_nth n _ 0 (S (adj t)) H1 ltac:(lia)). lia.
Qed.
Lemma next_group x y z t : tinv x y t -> stop_at t = y -> y < z -> (exists k, k < length (i_ps t) /\ snd (pnth (i_ps t) k) = z) ->
  tinv y z (i_ps t, (S (adj t), S (adj t))).
Proof.
  intros H E Hz (k & Hk & Ek). destruct (tinv_adj _ _ _ H) as (J1 & J2 & J3 & J4). destruct H as (H1 & H2 & H3 & H4 & _).
  assert (Ea : snd (pnth (i_ps t) (adj t)) = y) by (rewrite J3; auto).
  generalize dependent (adj t). intros j J1 J2 J3 J4 Ea. clear E.
  unfold stop_at, tinv, i_ps, i_s, i_c in *. cbn [fst snd].
  assert (L : j < k).
  { destruct (Nat.lt_ge_cases j k); auto. exfalso. pose proof (chain_le n _ 0 k j H1 ltac:(lia) J2). lia. }
  split; auto. split.
  { destruct (chain_next n _ 0 j H1 ltac:(lia)) as [E|E]; [congruence|]. pose proof (J4 (S j) ltac:(lia) ltac:(lia)) as M. rewrite E in M.
    pose proof (chain_nth n _ 0 j H1 J2). lia. }
  split; auto. split; [lia|]. unfold stop_at, i_ps, i_c. cbn [fst snd].
  split; [|split; [eauto|]].
  - pose proof (chain_le n _ 0 (S j) k H1 ltac:(lia) Hk). lia.
  - intros i Hi. pose proof (chain_le n _ 0 i j H1 ltac:(lia) J2). lia.
Qed.

Lemma loop_done fuel T g : map i_c T = map (fun t => length (i_ps t)) T ->
  group_loop fuel n (map (fun t => pieces (i_ps t)) T) (st_of T g) = Ok g.
Proof.
  intros E. assert (EQ : idx_eqb (snd (fst (st_of T g))) (map (@length pslice) (map (fun t => pieces (i_ps t)) T)) = true).
  { apply shape_eqb_eq. cbn [st_of fst snd]. rewrite E, map_map. apply map_ext. intros t. unfold pieces. rewrite map_length. auto. }
  destruct fuel; cbn [group_loop]; rewrite EQ; auto.
Qed.

Lemma common_in pss c : common pss c = true -> 1 <= c -> is_common pss c.
Proof.
  intros H Hc ps Hps. unfold common in H. rewrite forallb_forall in H. specialize (H ps Hps).
  apply orb_true_iff in H as [H|H]; [apply Nat.eqb_eq in H; lia|]. apply existsb_exists in H as (p & Hp & E). apply Nat.eqb_eq in E.
  destruct (In_nth _ _ (0, 0) Hp) as (k & Hk & <-). exists k. auto.
Qed.
Lemma in_common pss c : is_common pss c -> common pss c = true.
Proof.
  intros H. apply forallb_forall. intros ps Hps. destruct (H ps Hps) as (k & Hk & <-). apply orb_true_iff. right. apply existsb_exists.
  exists (pnth ps k). split; [apply nth_In; auto|apply Nat.eqb_refl].
Qed.

(** Every pass is counted once. *)
Lemma left_step x y T mn : Forall (tinv x y) T -> y <= n -> (forall c, x < c < y -> ~ is_common (map i_ps T) c) ->
  mn < y -> (exists t, In t T /\ stop_at t = mn) -> (forall t, In t T -> mn <= stop_at t) ->
  left_of x T = S (left_of x (map (fun t => if stop_at t =? mn then (i_ps t, (i_s t, S (i_c t))) else t) T)).
Proof.
  intros HI Hy HC Hm (t0 & Ht0 & E0) HM. rewrite Forall_forall in HI.
  set (nx := fun t : inp => if stop_at t =? mn then (i_ps t, (i_s t, S (i_c t))) else t).
  assert (EP : map i_ps (map nx T) = map i_ps T) by (rewrite map_map; apply map_ext; intros t; unfold nx; destruct (_ =? _); auto).
  pose proof (tinv_gt _ _ _ (HI t0 Ht0)) as Hx. rewrite E0 in Hx.
  assert (NC : common (map i_ps T) mn = false).
  { destruct (common (map i_ps T) mn) eqn:E; auto. exfalso. apply (HC mn); [lia|]. apply common_in; auto. lia. }
  assert (ET : forall t, In t T -> ending mn (skipn (i_c t) (i_ps t)) - 1 = ending mn (skipn (i_c (nx t)) (i_ps (nx t)))
                 /\ (stop_at t = mn -> 0 < ending mn (skipn (i_c t) (i_ps t)))
                 /\ (forall c, c <> mn -> ending c (skipn (i_c t) (i_ps t)) = ending c (skipn (i_c (nx t)) (i_ps (nx t))))).
  { intros t Ht. destruct (HI t Ht) as (H1 & _ & _ & H4 & _). unfold nx. destruct (Nat.eqb_spec (stop_at t) mn) as [E|E].
    - change (skipn (i_c (i_ps t, (i_s t, S (i_c t)))) (i_ps (i_ps t, (i_s t, S (i_c t))))) with (skipn (S (i_c t)) (i_ps t)).
      rewrite (skipn_cons (i_ps t) (i_c t) H4).
      unfold stop_at in E. unfold ending. cbn [filter]. rewrite E, Nat.eqb_refl. cbn [length]. split; [lia|]. split; [lia|].
      intros c Hc. destruct (Nat.eqb_spec mn c); [congruence|]. reflexivity.
    - assert (Z0 : ending mn (skipn (i_c t) (i_ps t)) = 0).
      { apply ending_none. intros k Hk Hk2 E'. specialize (HM t Ht). pose proof (chain_le n _ 0 (i_c t) k H1 Hk Hk2). unfold stop_at in *. lia. }
      rewrite Z0. repeat split; auto. intros; congruence. }
  unfold left_of. apply (sum_one _ _ _ mn); [apply seq_NoDup|apply in_seq; lia| |].
  - unfold left_at. rewrite EP, NC. rewrite map_map. rewrite list_max_pred.
    + f_equal. apply list_max_ext. intros t Ht. apply ET; auto.
    + destruct (ET t0 Ht0) as (_ & P & _). specialize (P E0).
      pose proof (proj1 (list_max_le (map (fun t => ending mn (skipn (i_c t) (i_ps t))) T) _) (le_n _)) as F. rewrite Forall_forall in F.
      specialize (F _ (in_map (fun t => ending mn (skipn (i_c t) (i_ps t))) T t0 Ht0)). simpl in F. lia.
  - intros c _ Hc. unfold left_at. rewrite EP. destruct (common (map i_ps T) c); auto. rewrite map_map. apply list_max_ext. intros t Ht. apply ET; auto.
Qed.
Lemma left_group x y T : T <> [] -> Forall (tinv x y) T -> y <= n -> (forall c, x < c < y -> ~ is_common (map i_ps T) c) -> is_common (map i_ps T) y ->
  Forall (fun t => stop_at t = y) T ->
  left_of x T = S (left_of y (map (fun t => (i_ps t, (S (adj t), S (adj t)))) T)).
Proof.
  intros HT HI Hy HC HCy HY. rewrite Forall_forall in HI, HY.
  assert (EP : map i_ps (map (fun t => (i_ps t, (S (adj t), S (adj t)))) T) = map i_ps T) by (rewrite map_map; auto).
  assert (Hx : x < y).
  { destruct T as [|t T]; [congruence|]. pose proof (tinv_gt _ _ _ (HI t ltac:(simpl; auto))). rewrite (HY t) in H by (simpl; auto). lia. }
  unfold left_of. apply (sum_one _ _ _ y); [apply seq_NoDup|apply in_seq; lia| |].
  - unfold left_at. rewrite EP, (in_common _ _ HCy), Nat.ltb_irrefl. replace (x <? y) with true by (symmetry; apply Nat.ltb_lt; auto). auto.
  - intros c Hc Hcy. apply in_seq in Hc. unfold left_at. rewrite EP. destruct (common (map i_ps T) c) eqn:E.
    + destruct (Nat.ltb_spec x c) as [L|L], (Nat.ltb_spec y c) as [L'|L']; auto; [|lia]. exfalso. apply (HC c); [lia|]. apply common_in; auto. lia.
    + rewrite map_map. apply list_max_ext. intros t Ht. unfold i_c at 2, i_ps at 2. cbn [fst snd]. symmetry.
      destruct (tinv_adj _ _ _ (HI t Ht)) as (J1 & J2 & J3 & J4). destruct (HI t Ht) as (H1 & _ & _ & H4 & _).
      specialize (HY t Ht). unfold stop_at in HY. apply ending_skip; [lia|lia|]. intros k Hk Hk2 E'.
      pose proof (chain_le n _ 0 (i_c t) k H1 Hk ltac:(lia)). pose proof (chain_le n _ 0 k (adj t) H1 ltac:(lia) J2). rewrite J3 in *. lia.
Qed.
Lemma left_done T : map i_c T = map (fun t => length (i_ps t)) T -> left_of n T = 0.
Proof.
  intros E. unfold left_of. assert (G : forall l, (forall c, In c l -> c <= n) -> list_sum (map (left_at n T) l) = 0).
  { induction l as [|c l IH]; intros H; auto. change (left_at n T c + list_sum (map (left_at n T) l) = 0). rewrite IH by (intros; apply H; simpl; auto).
    unfold left_at. destruct (common _ _).
    - destruct (Nat.ltb_spec n c); auto. specialize (H c ltac:(simpl; auto)). lia.
    - assert (M : list_max (map (fun t => ending c (skipn (i_c t) (i_ps t))) T) <= 0); [|lia]. apply list_max_le, Forall_forall. intros z Hz.
      apply in_map_iff in Hz as (t & <- & Ht). assert (Et : i_c t = length (i_ps t)).
      { clear - E Ht. induction T as [|u U IH]; [destruct Ht|]. cbn [map] in E. injection E as E1 E2. destruct Ht as [->|Ht]; auto. }
      rewrite ending_none; auto. intros; lia. }
  apply G. intros c Hc. apply in_seq in Hc. lia.
Qed.

(** The loop, with the exact number of passes. *)
Lemma loop_exact fuel : forall x y l T g, T <> [] -> Forall (tinv x y) T -> StronglySorted lt (x :: y :: l) ->
  last (y :: l) 0 = n -> (forall c, x < c -> c <= n -> is_common (map i_ps T) c -> In c (y :: l)) ->
  (forall c, In c (y :: l) -> c <= n /\ is_common (map i_ps T) c) ->
  (forall e, In e g -> exists x', x' < x /\ fst (fst e) = low x') ->
  group_loop fuel n (map (fun t => pieces (i_ps t)) T) (st_of T g)
  = if left_of x T <=? fuel then Ok (g ++ exp_groups (map i_ps T) (x :: y :: l)) else Err RuntimeErr.
Proof.
  induction fuel as [|fuel IH]; intros x y l T g HT HI HS HLast HC1 HC2 HG.
  all: assert (NE : idx_eqb (snd (fst (st_of T g))) (map (@length pslice) (map (fun t => pieces (i_ps t)) T)) = false) by
       (destruct (idx_eqb _ _) eqn:E; auto; apply shape_eqb_eq in E; cbn [st_of fst snd] in E; destruct T as [|t T]; [congruence|];
        inversion HI; subst; destruct H1 as (_ & _ & _ & L & _); cbn [map] in E; injection E as E _; unfold pieces in E; rewrite map_length in E; lia).
  all: cbn [group_loop]; rewrite NE.
  all: inversion HS as [|? ? HS1 HF1]; subst; inversion HS1 as [|? ? HS2 HF2]; subst; inversion HF1 as [|? ? Hxy _]; subst.
  all: assert (Hyn : y <= n) by (apply HC2; simpl; auto).
  all: assert (HNC : forall c, x < c < y -> ~ is_common (map i_ps T) c) by
       (intros c Hc Hcc; assert (Hin : In c (y :: l)) by (apply HC1; auto; lia);
        destruct Hin as [->|Hin]; [lia|]; rewrite Forall_forall in HF2; specialize (HF2 c Hin); lia).
  all: pose proof (proj2 (HC2 y ltac:(simpl; auto))) as HCy.
  all: destruct (body_ok x y T g HT HI Hyn HNC HG) as [[E HY]|(mn & E & HI' & Hm1 & Hm2 & Hm3)]; rewrite E; cbn [bind]; clear E.
  - rewrite (left_group x y T); auto.
  - rewrite (left_step x y T mn); auto.
  - rewrite (left_group x y T); auto. set (T' := map (fun t => (i_ps t, (S (adj t), S (adj t)))) T).
    assert (EK : map (fun t => pieces (i_ps t)) T = map (fun t => pieces (i_ps t)) T') by (unfold T'; rewrite map_map; auto).
    assert (EP : map i_ps T = map i_ps T') by (unfold T'; rewrite map_map; auto).
    assert (EX : exp_groups (map i_ps T) (x :: y :: l) = ((low x, high n y), gval x y T) :: exp_groups (map i_ps T) (y :: l)).
    { unfold exp_groups, gval. cbn [tl combine map fst snd]. rewrite (map_map i_ps). auto. }
    rewrite EX. change (((low x, high n y), gval x y T) :: exp_groups (map i_ps T) (y :: l)) with ([((low x, high n y), gval x y T)] ++ exp_groups (map i_ps T) (y :: l)).
    rewrite app_assoc. cbv zeta. rewrite EK. change (S (left_of y T') <=? S fuel) with (left_of y T' <=? fuel). destruct l as [|z l].
    * simpl in HLast. subst y. assert (ED : map i_c T' = map (fun t => length (i_ps t)) T').
      { unfold T'. rewrite !map_map. apply map_ext_in. intros t Ht. unfold i_c at 1. cbn [fst snd]. rewrite Forall_forall in HI, HY.
        apply (stop_is_last t n x); auto. }
      rewrite loop_done by auto. rewrite left_done by auto. unfold exp_groups. simpl. rewrite app_nil_r. auto.
    * rewrite EP. inversion HF2 as [|? ? Hyz _]; subst. apply IH; auto.
      -- unfold T'. destruct T; [congruence|discriminate].
      -- unfold T'. apply Forall_forall. intros t' Ht'. apply in_map_iff in Ht' as (t & <- & Ht). rewrite Forall_forall in HI, HY.
         apply (next_group x); auto. destruct (HC2 z ltac:(simpl; auto)) as [_ HCz]. apply HCz. apply in_map; auto.
      -- rewrite <- EP. intros c H1 H2 H3. destruct (HC1 c ltac:(lia) H2 H3) as [->|]; auto. lia.
      -- rewrite <- EP. intros c Hc. apply HC2. simpl in *; tauto.
      -- intros e He. apply in_app_or in He as [He|[<-|[]]].
         ++ destruct (HG e He) as (x' & ? & ?). exists x'. split; auto. lia.
         ++ exists x. auto.
  - rewrite (left_step x y T mn); auto. set (T' := map (fun t => if stop_at t =? mn then (i_ps t, (i_s t, S (i_c t))) else t) T) in *.
    assert (HP : map i_ps T' = map i_ps T) by (unfold T'; rewrite map_map; apply map_ext; intros t; destruct (_ =? _); auto).
    rewrite <- HP. replace (map (fun t => pieces (i_ps t)) T) with (map (fun t => pieces (i_ps t)) T').
    2:{ rewrite <- !(map_map i_ps). rewrite HP. auto. }
    change (S (left_of x T') <=? S fuel) with (left_of x T' <=? fuel).
    apply IH; auto; try (rewrite HP; auto). unfold T'. destruct T; [congruence|discriminate].
Qed.

End Loop.

(** ** The whole function *)
Lemma map_zero {A} (l : list A) : map (fun _ => 0) l = repeat 0 (length l).
Proof. induction l; simpl; congruence. Qed.
Lemma seq_sorted k : forall a, StronglySorted lt (seq a k).
Proof.
  induction k as [|k IH]; intros a; simpl; constructor; auto. apply Forall_forall. intros x Hx. apply in_seq in Hx. lia.
Qed.
Lemma filter_sorted {A} (R : A -> A -> Prop) p l : StronglySorted R l -> StronglySorted R (filter p l).
Proof.
  induction 1 as [|x l H IH HF]; simpl; [constructor|]. destruct (p x); auto. constructor; auto.
  apply Forall_forall. intros y Hy. apply filter_In in Hy as [Hy _]. rewrite Forall_forall in HF. auto.
Qed.
Lemma sorted_last l n : StronglySorted lt l -> In n l -> (forall c, In c l -> c <= n) -> last l 0 = n.
Proof.
  induction l as [|x l IH]; intros HS Hin HL; [destruct Hin|]. destruct l as [|y l].
  - destruct Hin as [->|[]]; auto.
  - inversion HS; subst. change (last (y :: l) 0 = n). apply IH; auto.
    + destruct Hin as [->|Hin]; auto. inversion H2; subst. specialize (HL y ltac:(simpl; auto)). lia.
    + intros; apply HL; simpl in *; auto.
Qed.
Lemma common_is n pss c : Forall (chain 0 n) pss -> 1 <= c -> (common pss c = true <-> is_common pss c).
Proof. intros HC Hc. split; [intros; apply common_in; auto|apply in_common]. Qed.

Lemma sort_key_piece n p : snd p <= n -> sort_key n (piece n p) = (Z.of_nat (fst p), Z.of_nat (snd p)).
Proof.
  intros Hp. unfold sort_key, piece, low, high. cbn [s_start s_stop]. destruct (Nat.eqb_spec (fst p) 0) as [E|E]; destruct (Nat.eqb_spec (snd p) n) as [E'|E'];
    try rewrite E; try rewrite E'; auto.
Qed.
Lemma pieces_sorted n ps : forall a, chain a n ps ->
  StronglySorted (fun s t => key_leb (sort_key n s) (sort_key n t) = true) (pieces n ps).
Proof.
  induction ps as [|[x y] ps IH]; intros a H; [constructor|]. pose proof (chain_bounds n _ a H) as B.
  assert (LE : forall i, i < length ps -> x <= fst (pnth ps i) /\ y <= snd (pnth ps i)).
  { intros i Hi. exact (chain_le n ((x, y) :: ps) a 0 (S i) H ltac:(lia) ltac:(simpl; lia)). }
  cbn [pieces map]. constructor.
  - destruct H as (-> & H1 & [H2|[_ H2]]); [exact (IH y H2)|exact (IH a H2)].
  - inversion B as [|? ? B1 B2]; subst. apply Forall_forall. intros s Hs. apply in_map_iff in Hs as (p & <- & Hp).
    rewrite Forall_forall in B2. specialize (B2 p Hp). destruct (In_nth _ _ (0, 0) Hp) as (i & Hi & <-).
    specialize (LE i Hi). rewrite !sort_key_piece by (simpl in *; lia). unfold key_leb, pnth in *. cbn [fst snd]. lia.
Qed.

Lemma sort_pieces n ks ks0 ps : chain 0 n ps -> Permutation ks ks0 -> Forall2 (spans n) ks0 ps ->
  sort_by n (map (fun k => normalize_slice k n) ks) = pieces n ps.
Proof.
  intros HC HP HS. pose proof (chain_bounds n ps 0 HC) as B. symmetry. apply (sorted_unique n).
  - apply (pieces_sorted n ps 0 HC).
  - apply sort_by_sorted.
  - intros s t Hs Ht E. apply in_map_iff in Hs as (p & <- & Hp). apply in_map_iff in Ht as (q & <- & Hq).
    rewrite Forall_forall in B. pose proof (B p Hp). pose proof (B q Hq). rewrite !sort_key_piece in E by lia.
    injection E as E1 E2. f_equal. destruct p, q; simpl in *. f_equal; lia.
  - rewrite sort_by_perm. rewrite HP. replace (map (fun k => normalize_slice k n) ks0) with (pieces n ps); auto.
    clear HC HP. induction HS as [|k p ks0 ps H HS IH]; auto.
    inversion B; subst. cbn [pieces map]. f_equal; [|apply IH; auto]. destruct p as [a b]. symmetry. apply normalize_spans; auto; simpl in *; lia.
Qed.

Lemma dimension_group_exact limit n dim_keys pss : pss <> [] -> Forall (chain 0 n) pss ->
  Forall2 (fun ks ps => exists ks0, Permutation ks ks0 /\ Forall2 (spans n) ks0 ps) dim_keys pss ->
  dimension_group limit n dim_keys = if passes n pss <=? limit then Ok (expected n pss) else Err RuntimeErr.
Proof.
  intros HN HC HS. unfold dimension_group.
  assert (EK : map (fun ks => sort_by n (map (fun k => normalize_slice k n) ks)) dim_keys = map (pieces n) pss).
  { clear HN. induction HS as [|ks ps dim_keys pss (ks0 & H1 & H2) HS IH]; auto. inversion HC; subst. cbn [map]. f_equal; auto.
    eapply sort_pieces; eauto. }
  rewrite EK. rewrite (Forall2_length _ _ _ HS). clear EK HS dim_keys.
  set (T := map (fun ps : list (nat * nat) => (ps, (0, 0))) pss).
  assert (E1 : map (pieces n) pss = map (fun t => pieces n (i_ps t)) T) by (unfold T; rewrite map_map; auto).
  assert (E2 : map i_ps T = pss) by (unfold T; rewrite map_map; apply map_id).
  assert (E3 : (repeat 0 (length pss), repeat 0 (length pss), []) = st_of T []).
  { unfold st_of, T. rewrite !map_map. unfold i_s, i_c. cbn [fst snd]. rewrite map_zero. auto. }
  rewrite E1, E3. destruct (Nat.eq_dec n 0) as [->|Hn].
  - rewrite loop_done.
    + unfold expected, common_cuts. cbn [seq filter]. destruct (common pss 0); auto.
    + unfold T. rewrite !map_map. unfold i_c, i_ps. cbn [fst snd]. apply map_ext_in. intros ps Hps. rewrite Forall_forall in HC. specialize (HC ps Hps).
      destruct ps as [|[x y] ps]; auto. pose proof (chain_bounds 0 _ 0 HC) as B. apply Forall_inv in B. simpl in *. lia.
  - assert (Hnc : is_common pss n).
    { intros ps Hps. rewrite Forall_forall in HC. specialize (HC ps Hps). pose proof (chain_nonempty n ps 0 HC ltac:(lia)).
      exists (length ps - 1). split; [lia|]. apply (chain_last n ps 0); auto. lia. }
    assert (EC : common_cuts n pss = 0 :: filter (common pss) (seq 1 n)).
    { unfold common_cuts. cbn [seq filter]. replace (common pss 0) with true; auto. symmetry. apply forallb_forall. intros. auto. }
    assert (HF : forall c, In c (filter (common pss) (seq 1 n)) <-> 1 <= c <= n /\ is_common pss c).
    { intros c. rewrite filter_In, in_seq. split; intros [A B]; split; try lia; apply (common_is n); auto; lia. }
    unfold expected. rewrite EC. pose proof (filter_sorted lt (common pss) _ (seq_sorted n 1)) as HSt.
    destruct (filter (common pss) (seq 1 n)) as [|y l] eqn:EF.
    { exfalso. apply (proj2 (HF n)). split; auto. lia. }
    assert (EL : passes n pss = left_of n 0 T).
    { unfold passes, left_of. f_equal. apply map_ext_in. intros c Hc. apply in_seq in Hc. unfold left_at. rewrite E2.
      destruct (common pss c); [destruct c; [lia|auto]|]. unfold T. rewrite map_map. auto. }
    rewrite EL. transitivity (if left_of n 0 T <=? limit then @Ok groups ([] ++ exp_groups n (map i_ps T) (0 :: y :: l)) else Err RuntimeErr); [apply loop_exact; auto|rewrite E2; auto].
    + unfold T. destruct pss; [congruence|discriminate].
    + unfold T. apply Forall_forall. intros t Ht. apply in_map_iff in Ht as (ps & <- & Hps). rewrite Forall_forall in HC. specialize (HC ps Hps).
      unfold tinv, stop_at, i_ps, i_s, i_c. cbn [fst snd]. pose proof (chain_nonempty n ps 0 HC ltac:(lia)) as L.
      assert (Hy : exists k, k < length ps /\ snd (pnth ps k) = y) by (apply (proj1 (HF y) ltac:(simpl; auto)); auto).
      split; auto. split; [apply (chain_first n); auto|]. split; auto. split; auto. split; [|split; [auto|intros; lia]].
      destruct Hy as (k & Hk & <-). apply (chain_le n ps 0 0 k HC ltac:(lia) Hk).
    + constructor; auto. apply Forall_forall. intros c Hc. apply HF in Hc. lia.
    + apply sorted_last; auto; [apply HF; split; auto; lia|]. intros c Hc. apply HF in Hc. lia.
    + rewrite E2. intros c H1 H2 H3. apply HF. split; auto.
    + rewrite E2. intros c Hc. apply HF in Hc. tauto.
    + intros e [].
Qed.

(** The passes are at most the pieces, and the pieces of an input ending in the
    dimension are all of them. *)
Lemma sum_add {A} (f g : A -> nat) l : list_sum (map (fun c => f c + g c) l) = list_sum (map f l) + list_sum (map g l).
Proof. induction l as [|c l IH]; auto. cbn [map list_sum fold_right] in *. unfold list_sum in *. cbn [fold_right]. lia. Qed.
Lemma sum_zero {A} (f : A -> nat) l : (forall c, In c l -> f c = 0) -> list_sum (map f l) = 0.
Proof. induction l as [|c l IH]; intros H; auto. change (f c + list_sum (map f l) = 0). rewrite (H c) by (simpl; auto). rewrite IH; auto. intros; apply H; simpl; auto. Qed.
Lemma ending_total n ps : Forall (fun p => 1 <= snd p <= n) ps -> list_sum (map (fun c => ending c ps) (seq 1 n)) = length ps.
Proof.
  induction ps as [|p ps IH]; intros H; [apply sum_zero; auto|]. inversion H; subst. cbn [length]. rewrite <- IH by auto.
  apply (sum_one _ _ _ (snd p)); [apply seq_NoDup|apply in_seq; lia| |].
  - unfold ending. cbn [filter]. rewrite Nat.eqb_refl. auto.
  - intros c _ Hc. unfold ending. cbn [filter]. destruct (Nat.eqb_spec (snd p) c); auto. congruence.
Qed.
Lemma passes_le n pss : Forall (chain 0 n) pss -> pss <> [] -> passes n pss <= list_sum (map (@length (nat * nat)) pss).
Proof.
  intros HC HN. assert (E : list_sum (map (@length (nat * nat)) pss) = list_sum (map (fun c => list_sum (map (ending c) pss)) (seq 1 n))).
  { clear HN. induction pss as [|ps pss IH]; [symmetry; apply sum_zero; auto|]. inversion HC; subst.
    transitivity (length ps + list_sum (map (@length (nat * nat)) pss)); auto. rewrite IH by auto. rewrite <- (ending_total n ps).
    - rewrite <- sum_add. auto.
    - pose proof (chain_bounds n ps 0 H1) as B. eapply Forall_impl; [|exact B]. simpl. intros; lia. }
  rewrite E. apply sum_le. intros c Hc. apply in_seq in Hc. destruct (common pss c) eqn:EC.
  - destruct pss as [|ps pss]; [congruence|]. destruct (common_in _ _ EC ltac:(lia) ps ltac:(simpl; auto)) as (k & Hk & Ek).
    change (1 <= ending c ps + list_sum (map (ending c) pss)). assert (0 < ending c ps); [|lia].
    unfold ending. assert (Hin : In (pnth ps k) (filter (fun p => snd p =? c) ps)).
    { apply filter_In. split; [apply nth_In; auto|]. rewrite Ek. apply Nat.eqb_refl. }
    destruct (filter _ ps); [destruct Hin|simpl; lia].
  - clear. induction pss as [|ps pss IH]; simpl; auto. unfold list_max in *. cbn [map fold_right] in *. lia.
Qed.
Lemma dimension_group_ok limit n dim_keys pss : pss <> [] -> Forall (chain 0 n) pss ->
  Forall2 (fun ks ps => exists ks0, Permutation ks ks0 /\ Forall2 (spans n) ks0 ps) dim_keys pss ->
  list_sum (map (@length (nat * nat)) pss) <= limit ->
  dimension_group limit n dim_keys = Ok (expected n pss).
Proof.
  intros HN HC HS HL. rewrite (dimension_group_exact limit n dim_keys pss) by auto. pose proof (passes_le n pss HC HN).
  replace (passes n pss <=? limit) with true by (symmetry; apply Nat.leb_le; lia). auto.
Qed.

(** ** The iteration limit *)
Definition units (k : nat) : list (nat * nat) := map (fun i => (i, S i)) (seq 0 k).
Lemma units_chain k : chain 0 k (units k).
Proof.
  unfold units. assert (G : forall j a, chain a (a + j) (map (fun i => (i, S i)) (seq a j))).
  { induction j as [|j IH]; intros a; simpl; auto. split; auto. split; auto. left. replace (a + S j) with (S a + j) by lia. apply IH. }
  apply (G k 0).
Qed.

Lemma units_nth k i : i < k -> pnth (units k) i = (i, S i).
Proof. intros H. unfold pnth, units. rewrite (nth_map _ _ _ _ 0) by (rewrite seq_length; auto). rewrite seq_nth by auto. auto. Qed.
Lemma units_length k : length (units k) = k.
Proof. unfold units. rewrite map_length, seq_length. auto. Qed.

Lemma units_spans k : Forall2 (spans k) (pieces k (units k)) (units k).
Proof.
  unfold pieces. pose proof (chain_bounds _ _ _ (units_chain k)) as B. induction (units k) as [|p ps IH]; [constructor|].
  inversion B; subst. cbn [map]. constructor; auto. destruct p as [a b]. cbn [fst snd] in *. unfold spans, piece, low, high. cbn [s_start s_stop s_step fst snd].
  destruct (Nat.eqb_spec a 0), (Nat.eqb_spec b k); subst; auto 8.
Qed.
Lemma units_passes k : passes k [units k] = k.
Proof.
  unfold passes. rewrite <- (seq_length k 1) at 2. rewrite (map_ext_in _ (fun _ => 1)).
  - generalize (seq 1 k). induction l; simpl; auto.
  - intros c Hc. apply in_seq in Hc. replace (common [units k] c) with true; auto. symmetry. apply in_common. intros ps [<-|[]].
    exists (c - 1). rewrite units_length. split; [lia|]. rewrite units_nth by lia. simpl. lia.
Qed.
Lemma units_limit limit k : limit < k -> dimension_group limit k [map (piece k) (units k)] = Err RuntimeErr.
Proof.
  intros H. rewrite (dimension_group_exact limit k _ [units k]).
  - rewrite units_passes. replace (k <=? limit) with false by (symmetry; apply Nat.leb_gt; auto). auto.
  - discriminate.
  - constructor; auto. apply units_chain.
  - constructor; auto. exists (pieces k (units k)). split; auto. apply units_spans.
Qed.

(** More passes never change a result. *)
Lemma group_loop_mono fuel n dk k : forall st g, group_loop fuel n dk st = Ok g -> group_loop (fuel + k) n dk st = Ok g.
Proof.
  induction fuel as [|fuel IH]; intros st g H; cbn [group_loop] in H.
  - destruct (idx_eqb _ _) eqn:E; [|destruct (group_body n dk st); discriminate]. destruct k; cbn [Nat.add group_loop]; rewrite E; auto.
  - cbn [Nat.add group_loop]. destruct (idx_eqb _ _); auto. destruct (group_body n dk st) as [st'|]; [|discriminate]. cbn [bind] in *. auto.
Qed.
Lemma dimension_group_result limit n dim_keys pss g : pss <> [] -> Forall (chain 0 n) pss ->
  Forall2 (fun ks ps => exists ks0, Permutation ks ks0 /\ Forall2 (spans n) ks0 ps) dim_keys pss ->
  dimension_group limit n dim_keys = Ok g -> g = expected n pss.
Proof.
  intros H1 H2 H3 H. rewrite (dimension_group_exact limit n dim_keys pss) in H by auto. destruct (_ <=? _); congruence.
Qed.
(** Inputs whose pieces are listed once: at most one pass for each position. *)
Lemma consecutive_chain n ps : forall a, consecutive a n ps -> chain a n ps.
Proof. induction ps as [|[x y] ps IH]; intros a H; auto. destruct H as (-> & H1 & H2). cbn [chain]. split; auto. Qed.
Lemma consecutive_bound n ps : forall a, consecutive a n ps -> forall p, In p ps -> a < snd p.
Proof.
  induction ps as [|[x y] ps IH]; intros a H p Hp; [destruct Hp|]. destruct H as (-> & H1 & H2). destruct Hp as [<-|Hp]; auto.
  specialize (IH y H2 p Hp). lia.
Qed.
Lemma consecutive_ending n c ps : forall a, consecutive a n ps -> ending c ps <= 1.
Proof.
  induction ps as [|[x y] ps IH]; intros a H; [simpl; auto|]. destruct H as (-> & H1 & H2). unfold ending. cbn [filter snd].
  destruct (Nat.eqb_spec y c) as [->|]; [|apply (IH y H2)]. cbn [length]. rewrite filter_none; auto.
  intros p Hp. apply Nat.eqb_neq. pose proof (consecutive_bound n ps c H2 p Hp). lia.
Qed.
Lemma consecutive_passes n pss : Forall (consecutive 0 n) pss -> passes n pss <= n.
Proof.
  intros H. unfold passes. rewrite <- (seq_length n 1) at 2. generalize (seq 1 n). induction l as [|c l IH]; auto.
  match goal with |- list_sum (map ?f _) <= _ => change (f c + list_sum (map f l) <= S (length l)); assert (f c <= 1) end; [|lia].
  destruct (common pss c); auto. apply list_max_le, Forall_forall. intros z Hz. apply in_map_iff in Hz as (ps & <- & Hps).
  rewrite Forall_forall in H. apply (consecutive_ending n c ps 0). auto.
Qed.
