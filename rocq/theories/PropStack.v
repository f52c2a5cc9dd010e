(** What an ArrayStack does with every valid key tuple (C10), including the keys
    for which it is not what NumPy does. *)
From Verif Require Import Base PySlice Keys NDArray Arrays Spec Supported Lib SelLemmas KeyLemmas NewAxLemmas GetBase GetSimple GetBcast GetTrans GetStack GetMosaic GetItem Samples PropRefuted PropAdapter PropMosaic.

(** The positions of the items selected from a stack of shape [ssh]: the
    orthogonal selection of the grid of positions, except that a single sequence
    which a slice separates from an integer has its dimension moved to the
    front. *)
Definition grid (ssh : list nat) : nd (list nat) := mkND ssh (fun i => i).
Definition apart_keys (sk : list key) : bool := (count_if is_seq sk =? 1) && negb (one_block sk).
Definition picked (ssh : list nat) (sk : list key) : nd (list nat) :=
  if apart_keys sk then to_front (seq_dim sk) (oindex (grid ssh) sk) else oindex (grid ssh) sk.

Lemma adv_len_err is e : adv_len is = Err e -> e = IndexError.
Proof.
  induction is as [|i is IH]; cbn [adv_len]; [discriminate|]. destruct i; auto.
  destruct (adv_len is); cbn [bind]; [|auto]. destruct (_ =? 1); [discriminate|]. destruct (_ || _); congruence.
Qed.
Lemma sel_shape_len is : length (sel_shape (map tod is)) = length (basic_shape is) + count_if is_adv is.
Proof. induction is as [|[] is IH]; auto; rewrite count_if_cons; cbn [map tod sel_shape basic_shape length is_adv]; lia. Qed.
Lemma shape_eqb_len a b : length a <> length b -> shape_eqb a b = false.
Proof. intros H. destruct (shape_eqb a b) eqn:E; auto. apply shape_eqb_eq in E. congruence. Qed.

Lemma inb_insert p : forall sh j o, p < length sh -> j < nth p sh 0 -> inb (remove_at p sh) o -> inb sh (insert_at p j o).
Proof.
  induction p as [|p IH]; intros [|n sh] j o Hp Hj Ho; cbn [length] in Hp; try lia.
  - rewrite insert_at_0. rewrite remove_at_0 in Ho. constructor; auto.
  - rewrite remove_at_S in Ho. apply inb_cons_inv in Ho as (x & r & -> & Hx & Hr). rewrite insert_at_S. constructor; auto. apply IH; auto. lia.
Qed.
Lemma mapM_ext {A B} (f g : A -> res B) l : (forall x, In x l -> f x = g x) -> mapM f l = mapM g l.
Proof. induction l as [|x l IH]; intros H; cbn [mapM]; auto. rewrite H by (left; auto). rewrite IH by (intros; apply H; right; auto). auto. Qed.

Section Stack.
Context {V : Type}.

(** C10: every valid key tuple without Python lists, the keys [sk] on the stack's
    dimensions and [ik] on the items'.
    - two or more sequences on the stack's dimensions: IndexError;
    - an integer on each: that item, indexed;
    - no item selected, or the selected positions come out in another shape than
      that of the orthogonal selection: IndexError;
    - otherwise the stack of the items at [picked], each indexed (the same error
      if one of them refuses). *)
Theorem C10_outcome ssh (items : list (@barr V)) it0 sk ik :
  length items = prodn ssh -> length sk = length ssh -> Forall one_dim sk -> Forall one_dim ik ->
  length ik = ndim (hd it0 items) -> items <> [] ->
  existsb is_list sk = false -> valid_keys sk ssh ->
  let item i := nth (ravel ssh i) items it0 in
  let pos := picked ssh sk in
  let sh := nshape (oindex (grid ssh) sk) in
  getitem (AStack ssh items) (sk ++ ik) =
    if 2 <=? count_if is_seq sk then Err IndexError
    else match sh with
         | [] => getitem (item (nget pos [])) ik
         | _ => if (prodn sh =? 0) || negb (shape_eqb (nshape pos) sh) then Err IndexError
                else its <- mapM (fun idx => getitem (item (nget pos idx)) ik) (ndindex sh) ;; mk_stack sh its
         end.
Proof.
  intros HLi HLs Hsk Hik HLk Hne Hl HV item pos sh.
  assert (HF : Forall one_dim (sk ++ ik)) by (apply Forall_app; auto). destruct (one_dims _ HF) as [N1 N2].
  destruct (one_dims _ Hsk) as [M1 M2]. pose proof (one_dims_real _ Hsk) as Mr.
  assert (Hnd : ndim (AStack ssh items) = length (sk ++ ik)).
  { unfold ndim. destruct items as [|x r]; [congruence|]. cbn [shape]. cbn [hd] in HLk. rewrite !app_length, HLs. unfold ndim in HLk. lia. }
  cbn [getitem]. unfold base_getitem. rewrite Hnd. rewrite full_keys_id by (split; auto; rewrite one_dims_real; auto). cbn [bind].
  unfold nonew in N1. rewrite N1. cbv zeta. rewrite <- HLs. rewrite firstn_app, firstn_all, Nat.sub_diag, skipn_app, skipn_all, Nat.sub_diag. cbn [firstn skipn app].
  rewrite app_nil_r. unfold valid_keys in HV. destruct (oselect sk ssh) as [s|] eqn:Es; [|congruence].
  rewrite (sliced_shape_ok _ _ _ Es Hl). cbn [bind].
  assert (Hsk' : np_expand sk (length ssh) = Ok sk) by (apply np_expand_id; split; auto; lia).
  assert (Esel : sel_keys sk ssh = Some s) by (unfold oselect in Es; rewrite Hsk' in Es; exact Es).
  assert (Ex : oindex (grid ssh) sk = nd_sel (grid ssh) s) by (unfold oindex; cbn [grid nshape]; rewrite Es; auto).
  assert (Esh : sh = sel_shape s) by (unfold sh; rewrite Ex; auto).
  assert (Hv : forall i, inb (sel_shape s) i -> inb ssh (sel_map s i)) by (intros i Hi; eapply sel_map_inb; [eapply sel_keys_valid; eauto|auto]).
  assert (Hget : forall i, inb ssh i -> nth (ravel ssh i) (map (fun it : barr => getitem it) items) (fun _ => Err IndexError) = getitem (item i)).
  { intros i Hi. unfold item. apply (nth_map (fun it : barr => getitem it)). rewrite HLi. apply ravel_lt; auto. }
  destruct (is_seql_nolist sk Hl) as [Q1 Q2].
  destruct (Nat.leb_spec 2 (count_if is_seq sk)) as [H2|H2].
  - (* two sequences *)
    unfold np_index. cbn [nshape]. rewrite Hsk'. cbn [bind]. destruct (np_isels_sel _ _ _ Esel) as (is & E & M & K). rewrite E. cbn [bind].
    rewrite <- Q1, (count_kk _ _ K) in H2. destruct (existsb is_adv is) eqn:Ea; [|apply count_if_0 in Ea; lia].
    destruct (adv_len is) as [n|e] eqn:En; cbn [bind]; [|apply adv_len_err in En; subst; auto].
    assert (HLen : length (sel_shape s) = length (basic_shape is) + count_if is_adv is) by (rewrite <- M; apply sel_shape_len).
    destruct (sel_shape s) as [|d0 ds] eqn:Ed; [cbn in HLen; lia|]. cbn [nshape].
    rewrite shape_eqb_len; auto. intros HC. rewrite HLen in HC.
    match type of HC with length (insert_at ?p _ _) = _ => assert (p <= length (basic_shape is)) as Hp end.
    { destruct (adv_contig is); [|lia]. clear. induction is as [|[] is IH]; cbn [lead_basic basic_shape length]; lia. }
    rewrite insert_at_length in HC. lia.
  - (* at most one *)
    assert (exists st, np_index (mkND ssh (ravel ssh)) sk = Ok st /\ nd_eq st (nd_map (ravel ssh) pos)) as (st & E1 & E2).
    { unfold pos, picked, apart_keys. destruct (Nat.eqb_spec (count_if is_seq sk) 1) as [H1|H1]; cbn [andb].
      - destruct (one_block sk) eqn:Eb; cbn [negb].
        + destruct (np_index_sel (mkND ssh (ravel ssh)) sk sk s) as (r & R1 & R2); auto; [right; rewrite Q1, Q2; auto|].
          exists r. split; auto. eapply nd_eq_trans; [exact R2|]. rewrite Ex. split; [reflexivity|]. intros; reflexivity.
        + destruct (np_index_moved (mkND ssh (ravel ssh)) sk sk s) as (r & R1 & R2); auto.
          exists r. split; auto. eapply nd_eq_trans; [exact R2|]. rewrite Ex. split; [reflexivity|]. intros; reflexivity.
      - destruct (np_index_sel (mkND ssh (ravel ssh)) sk sk s) as (r & R1 & R2); auto; [left; rewrite Q1; lia|].
        exists r. split; auto. eapply nd_eq_trans; [exact R2|]. rewrite Ex. split; [reflexivity|]. intros; reflexivity. }
    rewrite E1. cbn [bind]. destruct E2 as [E2 E3]. cbn [nd_map nshape nget] in E2, E3. rewrite Esh.
    assert (Hpos : forall i, inb (nshape pos) i -> inb ssh (nget pos i)).
    { intros i Hi. unfold pos, picked in *. rewrite Ex in *. destruct (apart_keys sk) eqn:Ea; [|cbn [nd_sel nget grid nshape] in *; auto].
      unfold to_front in *. cbn [nshape nget nd_sel grid] in *. apply Hv. apply inb_cons_inv in Hi as (j & o & -> & Hj & Ho). cbn [hd tl].
      assert (seq_dim sk < length (sel_shape s)) as Hd.
      { unfold apart_keys in Ea. apply andb_true_iff in Ea as [Ea _]. apply Nat.eqb_eq in Ea.
        destruct (np_isels_sel _ _ _ Esel) as (is & _ & M & K). rewrite <- Q1, (count_kk _ _ K) in Ea. rewrite <- (adv_dim_kk _ _ K Hl), <- M.
        destruct (adv_any is Ea) as (n & _ & A2 & A3 & _). rewrite A2, insert_at_length. lia. }
      apply inb_insert; auto. }
    destruct (sel_shape s) as [|d0 ds] eqn:Ed.
    + assert (Hp0 : nshape pos = []).
      { unfold pos, picked. rewrite Ex. destruct (apart_keys sk) eqn:Ea; cbn [nd_sel nshape]; auto. exfalso.
        unfold apart_keys in Ea. apply andb_true_iff in Ea as [Ea _]. apply Nat.eqb_eq in Ea.
        destruct (np_isels_sel _ _ _ Esel) as (is & _ & M & K). rewrite <- Q1, (count_kk _ _ K) in Ea.
        pose proof (sel_shape_len is) as HLen. rewrite M, Ed in HLen. cbn in HLen. lia. }
      rewrite E3 by (rewrite E2, Hp0; constructor). rewrite Hget by (apply Hpos; rewrite Hp0; constructor). auto.
    + rewrite E2. destruct (shape_eqb (nshape pos) (d0 :: ds)) eqn:Ese; cbn [negb].
      * apply shape_eqb_eq in Ese. rewrite orb_false_r.
        assert (mapM (fun idx => nth (nget st idx) (map (fun it : barr => getitem it) items) (fun _ => Err IndexError) ik) (ndindex (d0 :: ds))
                = mapM (fun idx => getitem (item (nget pos idx)) ik) (ndindex (d0 :: ds))) as ->.
        { apply mapM_ext. intros idx Hx. apply ndindex_In in Hx. rewrite E3 by (rewrite E2, Ese; auto). rewrite Hget; auto. apply Hpos. rewrite Ese. auto. }
        destruct (Nat.eqb_spec (prodn (d0 :: ds)) 0) as [Ez|Nz]; auto.
        destruct (ndindex (d0 :: ds)) as [|x r] eqn:En; [reflexivity|]. exfalso. pose proof (ndindex_length (d0 :: ds)) as HX. rewrite En in HX. cbn [length] in HX. lia.
      * rewrite orb_true_r. auto.
Qed.
End Stack.
Print Assumptions C10_outcome.

(** A stack of eight numbers: the hypotheses hold for each of five key tuples; two
    sequences and an empty selection raise IndexError, an integer separated from
    a sequence gives the transposed positions (silently, the shape being square)
    and with three positions IndexError, and the last selects orthogonally. *)
Definition cube : @barr Z := AStack [2;2;2] (map (fun z => AConst [] z 0) [0;1;2;3;4;5;6;7]%Z).
Example C10_outcome_case :
  let keys := [[KFull; KTuple [0;1]%Z; KTuple [0;1]%Z]; [KFull; S3 0 0 1; KInt 0]; [KInt 0; KFull; KTuple [0;1]%Z]; [KInt 0; KFull; KTuple [0;1;1]%Z];
               [KInt 1; KTuple [1;0;0]%Z; KFull]] in
  Forall (fun sk => length sk = 3 /\ Forall one_dim sk /\ existsb is_list sk = false /\ valid_keys sk [2;2;2]) keys
  /\ map apart_keys keys = [false; false; true; true; false]
  /\ map (fun sk => before true cube sk) keys
     = [Err IndexError; Err IndexError; Ok ([2;2], [Some 0; Some 2; Some 1; Some 3]%Z); Err IndexError;
        Ok ([3;2], [Some 6; Some 7; Some 4; Some 5; Some 4; Some 5]%Z)]
  /\ after true cube [KInt 0; KFull; KTuple [0;1]%Z] = Ok ([2;2], [Some 0; Some 1; Some 2; Some 3]%Z).
Proof.
  cbv zeta. split; [|repeat split; vm_compute; reflexivity].
  repeat (constructor; [repeat split; repeat constructor; valid|]). constructor.
Qed.
