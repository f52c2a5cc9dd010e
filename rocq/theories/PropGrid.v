(** Property C51: grouping of tuples of chunk keys (key_grouper.py:123-182). *)
From Verif Require Import Base PySlice KeyGrouper GroupSpec GroupKeys GroupGrid.
From Coq Require Import Permutation.

(** C51: each input lists, in any order, each any number of times and with any
    spelling of the slices, the boxes of a grid; the grids may be cut at different
    places.  Any result of group_keys is one group for each box bounded by
    neighbouring common cut points ([expected_boxes], GroupSpec.v), whatever the
    number of dimensions, inputs and pieces. *)
Theorem C51_group_keys limit sh inputs Gs g : inputs <> [] -> Forall2 (grid sh) inputs Gs ->
  group_keys limit sh inputs = Ok g -> g = expected_boxes sh inputs Gs.
Proof. exact (grids_result limit sh inputs Gs g). Qed.

(** In those groups every tuple of every input occurs exactly once. *)
Theorem C51_each_once limit sh inputs Gs g j : Forall2 (grid sh) inputs Gs -> group_keys limit sh inputs = Ok g -> j < length inputs ->
  Permutation (nth j inputs []) (flat_map (fun e => nth j (snd e) []) g).
Proof.
  intros HF Hg Hj. assert (Hne : inputs <> []) by (intros ->; inversion Hj).
  rewrite (grids_result limit sh inputs Gs g Hne HF Hg). apply boxes_partition; auto.
Qed.

(** There is a result when the total number of tuples is within the limit of the
    code.  (Beyond it RuntimeError is possible, see C39_limit.) *)
Theorem C51_succeeds sh inputs Gs : inputs <> [] -> Forall2 (grid sh) inputs Gs ->
  (Z.of_nat (list_sum (map (@length ktuple) inputs)) <= 9999)%Z ->
  group_keys code_limit sh inputs = Ok (expected_boxes sh inputs Gs).
Proof.
  intros H1 H2 H3. apply grids_ok; auto. apply Nat2Z.inj_le. unfold code_limit. rewrite Z2Nat.id by discriminate. exact H3.
Qed.

(** Two inputs of a (4, 6) array, cut into 2 x 3 and 2 x 2 boxes; the common cuts
    are 2 in the first dimension and 4 in the second. *)
Definition S' (a b : Z) : pslice := mkS (Some a) (Some b) None.
Example C51_case :
  let sh := [4; 6] in
  let A := [[S' 0 2; S' 0 2]; [S' 0 2; S' 2 4]; [S' 0 2; S' (-2) 6]; [S' (-2) 4; S' 0 2]; [S' 2 4; S' 2 4]; [S' 2 4; mkS (Some 4%Z) None None]] in
  let B := [[S' 2 4; S' 0 (-2)]; [S' 0 2; S' 0 4]; [S' 0 2; S' 4 6]; [S' 2 4; S' 4 6]] in
  let Gs := [[[(0, 2); (2, 4)]; [(0, 2); (2, 4); (4, 6)]]; [[(0, 2); (2, 4)]; [(0, 4); (4, 6)]]] in
  Forall2 (grid sh) [A; B] Gs
  /\ group_keys 100 sh [A; B] = Ok (expected_boxes sh [A; B] Gs)
  /\ map fst (expected_boxes sh [A; B] Gs)
     = [[mkS None (Some 2%Z) None; mkS None (Some 4%Z) None]; [mkS None (Some 2%Z) None; mkS (Some 4%Z) None None];
        [mkS (Some 2%Z) None None; mkS None (Some 4%Z) None]; [mkS (Some 2%Z) None None; mkS (Some 4%Z) None None]]
  /\ snd (nth 0 (expected_boxes sh [A; B] Gs) ([], [])) = [[nth 0 A []; nth 1 A []]; [nth 1 B []]].
Proof.
  cbv zeta. split; [|split; [vm_compute; reflexivity|split; vm_compute; reflexivity]].
  assert (HS : forall sh ks t, length ks = 2 -> length sh = 2 -> spans (nth 0 sh 0) (nth 0 ks full_slice) (nth 0 t (0, 0)) -> spans (nth 1 sh 0) (nth 1 ks full_slice) (nth 1 t (0, 0)) -> spans_box sh ks t).
  { intros sh ks t H1 H2 H3 H4. split; [lia|]. intros [|[|d]] Hd; auto. lia. }
  assert (T : forall ks a b, hd full_slice ks = hd full_slice ks -> length ks = 2 -> spans 4 (nth 0 ks full_slice) a -> spans 6 (nth 1 ks full_slice) b -> spans_box [4; 6] ks [a; b]) by (intros; apply HS; auto).
  constructor; [|constructor; [|constructor]]; (split; [reflexivity|]; split; [intros [|[|d]] Hd; cbn; [lia..|]; simpl in Hd; lia|]; split).
  - intros ks Hk. simpl in Hk. repeat (destruct Hk as [<-|Hk]); [..|destruct Hk].
    + exists [(0, 2); (0, 2)]. split; [simpl; tauto|apply T; cbn; intuition lia].
    + exists [(0, 2); (2, 4)]. split; [simpl; tauto|apply T; cbn; intuition lia].
    + exists [(0, 2); (4, 6)]. split; [simpl; tauto|apply T; cbn; intuition lia].
    + exists [(2, 4); (0, 2)]. split; [simpl; tauto|apply T; cbn; intuition lia].
    + exists [(2, 4); (2, 4)]. split; [simpl; tauto|apply T; cbn; intuition lia].
    + exists [(2, 4); (4, 6)]. split; [simpl; tauto|apply T; cbn; intuition lia].
  - intros t Ht. simpl in Ht. repeat (destruct Ht as [<-|Ht]); [..|destruct Ht].
    + eexists. split; [do 0 right; left; reflexivity|apply T; cbn; intuition lia].
    + eexists. split; [do 1 right; left; reflexivity|apply T; cbn; intuition lia].
    + eexists. split; [do 2 right; left; reflexivity|apply T; cbn; intuition lia].
    + eexists. split; [do 3 right; left; reflexivity|apply T; cbn; intuition lia].
    + eexists. split; [do 4 right; left; reflexivity|apply T; cbn; intuition lia].
    + eexists. split; [do 5 right; left; reflexivity|apply T; cbn; intuition lia].
  - intros ks Hk. simpl in Hk. repeat (destruct Hk as [<-|Hk]); [..|destruct Hk].
    + exists [(2, 4); (0, 4)]. split; [simpl; tauto|apply T; cbn; intuition lia].
    + exists [(0, 2); (0, 4)]. split; [simpl; tauto|apply T; cbn; intuition lia].
    + exists [(0, 2); (4, 6)]. split; [simpl; tauto|apply T; cbn; intuition lia].
    + exists [(2, 4); (4, 6)]. split; [simpl; tauto|apply T; cbn; intuition lia].
  - intros t Ht. simpl in Ht. repeat (destruct Ht as [<-|Ht]); [..|destruct Ht].
    + eexists. split; [do 1 right; left; reflexivity|apply T; cbn; intuition lia].
    + eexists. split; [do 2 right; left; reflexivity|apply T; cbn; intuition lia].
    + eexists. split; [do 0 right; left; reflexivity|apply T; cbn; intuition lia].
    + eexists. split; [do 3 right; left; reflexivity|apply T; cbn; intuition lia].
Qed.

Print Assumptions C51_group_keys.
Print Assumptions C51_each_once.
Print Assumptions C51_succeeds.
