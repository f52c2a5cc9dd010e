(** Properties C37 - C39: grouping of chunk keys (biggus.experimental.key_grouper). *)
From Verif Require Import Base PySlice KeyGrouper GroupSpec GroupLemmas.
From Coq Require Import Permutation.

(** C37: the normalised slice selects the same positions.  Missing: bounds below
    [-n], and for negative steps a start of 0 or [-n] and a stop of [n]. *)
Theorem C37_normalize_slice_partial s n :
  (match s_start s with None => True | Some v => (- Z.of_nat n <= v)%Z end) ->
  (match s_stop s with None => True | Some v => (- Z.of_nat n <= v)%Z end) ->
  ((match s_step s with None => True | Some st => (0 <= st)%Z end)
   \/ (s_start s <> Some 0%Z /\ s_start s <> Some (- Z.of_nat n)%Z /\ s_stop s <> Some (Z.of_nat n))) ->
  slice_idx (normalize_slice s n) n = slice_idx s n.
Proof. exact (normalize_same s n). Qed.
Example C37_case : let s := mkS (Some (-4)%Z) (Some (-1)%Z) (Some 2%Z) in
  normalize_slice s 6 = mkS (Some 2%Z) (Some 5%Z) (Some 2%Z) /\ slice_idx s 6 = Ok [2%Z; 4%Z].
Proof. split; reflexivity. Qed.

(** For positive steps, exactly when: not when the stop is below [-n] and the start
    not beyond what the stop becomes, or the start is below [-n] and moves up while
    the stop keeps something. *)
Theorem C37_forward s n : (0 < match s_step s with None => 1 | Some c => c end)%Z ->
  let z := Z.of_nat n in
  let start := match s_start s with None => 0%Z | Some v => v end in
  let stop := match s_stop s with None => z | Some v => v end in
  let first := (Z.min z (Z.max 0 (if start <? - z then start + 2 * z else if start <? 0 then start + z else start)))%Z in
  slice_idx (normalize_slice s n) n = slice_idx s n <->
  ~ ((stop < - z /\ first < stop + 2 * z)%Z \/ (- 2 * z < start < - z /\ (0 < stop \/ - z < stop < 0))%Z).
Proof.
  intros Hc z start stop first. pose proof (normalize_exact s n Hc) as H. cbv zeta in H. fold z start stop in H. rewrite H.
  replace first with (clamp_bound z 0 z (if (start <? 0)%Z then (start + z)%Z else start)); [reflexivity|].
  assert (0 <= z)%Z by (unfold z; lia). clearbody z start. unfold first, clamp_bound. destruct (Z.ltb_spec start 0); casez.
Qed.
Example C37_forward_case : slice_idx (normalize_slice (mkS (Some (-9)%Z) (Some (-7)%Z) (Some 2%Z)) 4) 4 = slice_idx (mkS (Some (-9)%Z) (Some (-7)%Z) (Some 2%Z)) 4 -> False.
Proof. intros H. apply C37_forward in H; [|cbn; lia]. apply H. left. cbn. lia. Qed.

(** For negative steps, exactly when: both select nothing, or both begin at the same
    position and go on for equally many steps.  [place] is where a bound lands; a
    start of 0 or [-n] becomes the last position, a stop of [n] none at all, and a
    bound below [-n] moves up by [n] first. *)
Theorem C37_backward s n : (match s_step s with None => 1 | Some c => c end < 0)%Z ->
  let z := Z.of_nat n in
  let c := match s_step s with None => 1%Z | Some c => c end in
  let place v := Z.max (-1) (Z.min (z - 1) (if v <? 0 then v + z else v))%Z in
  let move v := (if v <? - z then v + z else v)%Z in
  let first := match s_start s with None => (z - 1)%Z | Some v => place v end in
  let limit := match s_stop s with None => (-1)%Z | Some v => place v end in
  let first' := match s_start s with None => (z - 1)%Z
                | Some v => if (v =? 0)%Z || (v =? - z)%Z then (z - 1)%Z else place (move v) end in
  let limit' := match s_stop s with None => (-1)%Z
                | Some v => if (v =? z)%Z then (-1)%Z else place (move v) end in
  slice_idx (normalize_slice s n) n = slice_idx s n <->
  (first <= limit /\ first' <= limit')%Z
  \/ (first = first' /\ (first - limit - 1) / - c = (first - limit' - 1) / - c)%Z.
Proof.
  intros Hc z c place move first limit first' limit'. rewrite (backward_idx s n Hc).
  assert (Hn : step_of (normalize_slice s n) = step_of s) by (unfold step_of, normalize_slice; cbn [s_step]; destruct (s_step s) as [v|]; auto; destruct (Z.eqb_spec v 1); auto).
  rewrite backward_idx by (rewrite Hn; exact Hc). rewrite Hn. fold z.
  assert (Hz : (0 <= z)%Z) by (unfold z; lia).
  assert (P : forall v, clamp_bound z (-1) (z - 1) v = place v) by (intros v; unfold clamp_bound, place; destruct (Z.ltb_spec v 0); casez).
  assert (F1 : match s_start s with None => (z - 1)%Z | Some v => clamp_bound z (-1) (z - 1) v end = first) by (unfold first; destruct (s_start s); auto).
  assert (L1 : match s_stop s with None => (-1)%Z | Some v => clamp_bound z (-1) (z - 1) v end = limit) by (unfold limit; destruct (s_stop s); auto).
  assert (F2 : match s_start (normalize_slice s n) with None => (z - 1)%Z | Some v => clamp_bound z (-1) (z - 1) v end = first').
  { unfold first', normalize_slice. cbv zeta. fold z. cbn [s_start]. destruct (s_start s) as [v|]; auto. unfold place, move, clamp_bound. clear - Hz.
    destruct (Z.ltb_spec v (- z)); destruct (Z.ltb_spec v 0); try lia; destruct (Z.eqb_spec v 0); try lia; destruct (Z.eqb_spec v (- z)); try lia; cbn [orb];
      try (destruct (Z.eqb_spec (z + v) 0); [lia|]); try (destruct (Z.eqb_spec (z + v) 0); [|lia]); try (destruct (Z.eqb_spec v 0); [|lia]); auto; casez. }
  assert (L2 : match s_stop (normalize_slice s n) with None => (-1)%Z | Some v => clamp_bound z (-1) (z - 1) v end = limit').
  { unfold limit', normalize_slice. cbv zeta. fold z. cbn [s_stop]. destruct (s_stop s) as [v|].
    - unfold place, move, clamp_bound. clear - Hz.
      destruct (Z.ltb_spec v (- z)); destruct (Z.ltb_spec v 0); try lia; destruct (Z.eqb_spec v z); try lia;
        try (destruct (Z.eqb_spec (z + v) z); [lia|]); auto; casez.
    - destruct (Z.ltb_spec z 0); [lia|]. rewrite Z.eqb_refl. auto. }
  rewrite F1, L1, F2, L2. change (step_of s) with c. clearbody first limit first' limit'. change (c < 0)%Z in Hc. clear - Hc.
  rewrite <- (down_range first limit first' limit' c Hc). split; [intros H; injection H; auto|intros ->; auto].
Qed.
Example C37_backward_case :
  slice_idx (normalize_slice (mkS (Some 4%Z) (Some (-6)%Z) (Some (-2)%Z)) 5) 5 = slice_idx (mkS (Some 4%Z) (Some (-6)%Z) (Some (-2)%Z)) 5 -> False.
Proof. intros H. apply C37_backward in H; [|cbn; lia]. destruct H as [[H _]|[_ H]]; cbn in H; [lia|discriminate]. Qed.

(** A step of 0 is refused before and after. *)
Theorem C37_step_zero s n : s_step s = Some 0%Z ->
  slice_idx (normalize_slice s n) n = Err ValueError /\ slice_idx s n = Err ValueError.
Proof. intros H. unfold slice_idx, slice_indices, normalize_slice. cbn [s_step]. rewrite H. split; reflexivity. Qed.

(** C37 fails for a stop below [-n] (an empty slice becomes two elements) ... *)
Theorem C37_low_stop_refuted : exists s n, slice_idx s n = Ok [] /\ slice_idx (normalize_slice s n) n = Ok [0%Z; 1%Z].
Proof. exists (mkS None (Some (-4)%Z) None), 3. split; reflexivity. Qed.
(** ... and for a negative step from position 0. *)
Theorem C37_negative_step_refuted : exists s n, slice_idx s n = Ok [0%Z]
  /\ slice_idx (normalize_slice s n) n = Ok [2%Z; 1%Z; 0%Z].
Proof. exists (mkS (Some 0%Z) None (Some (-1)%Z)), 3. split; reflexivity. Qed.

(** C38: each input [dim_keys_j] writes, in any order and each any number of times,
    the pieces [pss_j] into which it cuts the dimension; any result is one group for each two neighbouring
    common cut points, with exactly the pieces of each input in between, in order
    ([expected], GroupSpec.v).  [limit] is the number of passes allowed: 9999 in
    the code. *)
Theorem C38_grouping limit n dim_keys pss g : pss <> [] -> Forall (chain 0 n) pss ->
  Forall2 (fun ks ps => exists ks0, Permutation ks ks0 /\ Forall2 (spans n) ks0 ps) dim_keys pss ->
  dimension_group limit n dim_keys = Ok g -> g = expected n pss.
Proof. exact (dimension_group_result limit n dim_keys pss g). Qed.

(** C39: there is a result exactly when [passes] (GroupSpec.v) is at most 9999:
    one pass for each cut point common to all inputs, and for every other as many
    as the most repeated piece ending there.  Otherwise RuntimeError. *)
Theorem C39_limit n dim_keys pss : pss <> [] -> Forall (chain 0 n) pss ->
  Forall2 (fun ks ps => exists ks0, Permutation ks ks0 /\ Forall2 (spans n) ks0 ps) dim_keys pss ->
  dimension_group code_limit n dim_keys = if (Z.of_nat (passes n pss) <=? 9999)%Z then Ok (expected n pss) else Err RuntimeErr.
Proof.
  intros H1 H2 H3. rewrite (dimension_group_exact code_limit n dim_keys pss H1 H2 H3).
  assert (E : (passes n pss <=? code_limit) = (Z.of_nat (passes n pss) <=? 9999)%Z); [|rewrite E; reflexivity].
  assert (EC : Z.of_nat code_limit = 9999%Z) by (unfold code_limit; rewrite Z2Nat.id by discriminate; reflexivity).
  destruct (Z.leb_spec (Z.of_nat (passes n pss)) 9999) as [L|L]; [apply Nat.leb_le|apply Nat.leb_gt]; lia.
Qed.
(** So there is always one for a dimension of length up to 9999 whose pieces are
    listed once, and whenever there are at most 9999 pieces in all. *)
Theorem C39_short n dim_keys pss : pss <> [] -> Forall (consecutive 0 n) pss -> (Z.of_nat n <= 9999)%Z ->
  Forall2 (fun ks ps => exists ks0, Permutation ks ks0 /\ Forall2 (spans n) ks0 ps) dim_keys pss ->
  dimension_group code_limit n dim_keys = Ok (expected n pss).
Proof.
  intros H1 H2 H3 H4. rewrite (C39_limit n dim_keys pss); auto.
  - pose proof (consecutive_passes n pss H2). replace (_ <=? 9999)%Z with true; auto. symmetry. apply Z.leb_le. lia.
  - eapply Forall_impl; [|exact H2]. intros ps. apply consecutive_chain.
Qed.
Theorem C39_few n dim_keys pss : pss <> [] -> Forall (chain 0 n) pss ->
  Forall2 (fun ks ps => exists ks0, Permutation ks ks0 /\ Forall2 (spans n) ks0 ps) dim_keys pss ->
  (Z.of_nat (list_sum (map (@length (nat * nat)) pss)) <= 9999)%Z ->
  dimension_group code_limit n dim_keys = Ok (expected n pss).
Proof.
  intros H1 H2 H3 H4. rewrite (C39_limit n dim_keys pss); auto. pose proof (passes_le n pss H2 H1).
  replace (_ <=? 9999)%Z with true; auto. symmetry. apply Z.leb_le. lia.
Qed.

Example C38_case :
  let pss := [[(0, 2); (2, 4); (4, 6)]; [(0, 4); (4, 5); (5, 6)]] in
  let keys := [[mkS (Some 2%Z) (Some (-2)%Z) None; mkS None (Some 2%Z) None; mkS (Some 4%Z) None (Some 1%Z)];
               [mkS None (Some 4%Z) None; mkS (Some 4%Z) (Some 5%Z) None; mkS (Some 5%Z) None None]] in
  Forall (chain 0 6) pss
  /\ dimension_group 10 6 keys = Ok (expected 6 pss)
  /\ expected 6 pss = [ ((None, Some 4%Z), [[mkS None (Some 2%Z) None; mkS (Some 2%Z) (Some 4%Z) None]; [mkS None (Some 4%Z) None]]);
                        ((Some 4%Z, None), [[mkS (Some 4%Z) None None]; [mkS (Some 4%Z) (Some 5%Z) None; mkS (Some 5%Z) None None]]) ].
Proof. cbv zeta. split; [repeat (constructor; simpl; auto)|split; reflexivity]. Qed.

(** Pieces that occur several times, as for chunks that differ in another dimension. *)
Example C38_repeated_case :
  let pss := [[(0, 2); (0, 2); (2, 4); (2, 4)]; [(0, 4); (0, 4)]; [(0, 1); (1, 2); (1, 2); (2, 4)]] in
  let keys := [[mkS (Some 2%Z) None None; mkS None (Some 2%Z) None; mkS (Some 0%Z) (Some 2%Z) None; mkS (Some 2%Z) (Some 4%Z) None];
               [mkS None None None; mkS (Some 0%Z) (Some 4%Z) None];
               [mkS (Some 0%Z) (Some 1%Z) None; mkS (Some 1%Z) (Some 2%Z) None; mkS (Some 1%Z) (Some (-2)%Z) None; mkS (Some 2%Z) None None]] in
  Forall (chain 0 4) pss /\ dimension_group 20 4 keys = Ok (expected 4 pss) /\ length (expected 4 pss) = 1
  /\ dimension_group 20 4 [nth 0 keys []; nth 2 keys []]
     = Ok [((None, Some 2%Z), [[mkS None (Some 2%Z) None; mkS None (Some 2%Z) None];
                               [mkS None (Some 1%Z) None; mkS (Some 1%Z) (Some 2%Z) None; mkS (Some 1%Z) (Some 2%Z) None]]);
           ((Some 2%Z, None), [[mkS (Some 2%Z) None None; mkS (Some 2%Z) None None]; [mkS (Some 2%Z) None None]])].
Proof.
  cbv zeta. split; [repeat (constructor; [cbn; intuition (auto; lia)|]); constructor|]. split; [vm_compute; reflexivity|]. split; vm_compute; reflexivity.
Qed.

(** In particular one input cut into [k] unit pieces is refused with RuntimeError
    for every [k] from 10000 on. *)
Theorem C39_units k : (9999 < Z.of_nat k)%Z ->
  dimension_group code_limit k [map (piece k) (map (fun i => (i, S i)) (seq 0 k))] = Err RuntimeErr.
Proof.
  intros H. refine (units_limit code_limit k _). apply Nat2Z.inj_lt. unfold code_limit. rewrite Z2Nat.id by discriminate. exact H.
Qed.
Theorem C39_units_valid k : chain 0 k (map (fun i => (i, S i)) (seq 0 k)).
Proof. exact (units_chain k). Qed.

(** [passes]: 2 common cut points (4, 6), 1 for the cut points 2 and 5. *)
Example C39_case : passes 6 [[(0, 2); (2, 4); (4, 6)]; [(0, 4); (4, 5); (5, 6)]] = 4
  /\ passes 4 [[(0, 2); (0, 2); (2, 4); (2, 4)]; [(0, 4); (0, 4)]; [(0, 1); (1, 2); (1, 2); (2, 4)]] = 4
  /\ (let keys := [[mkS None (Some 2%Z) None; mkS (Some 2%Z) (Some 4%Z) None; mkS (Some 4%Z) None None];
                   [mkS None (Some 4%Z) None; mkS (Some 4%Z) (Some 5%Z) None; mkS (Some 5%Z) None None]] in
      dimension_group 3 6 keys = Err RuntimeErr /\ exists g, dimension_group 4 6 keys = Ok g).
Proof. split; [reflexivity|]. split; [reflexivity|]. split; [reflexivity|]. eexists. vm_compute. reflexivity. Qed.

Print Assumptions C37_normalize_slice_partial.
Print Assumptions C37_forward.
Print Assumptions C37_backward.
Print Assumptions C37_step_zero.
Print Assumptions C37_low_stop_refuted.
Print Assumptions C37_negative_step_refuted.
Print Assumptions C38_grouping.
Print Assumptions C39_limit.
Print Assumptions C39_short.
Print Assumptions C39_few.
Print Assumptions C39_units.
Print Assumptions C39_units_valid.
