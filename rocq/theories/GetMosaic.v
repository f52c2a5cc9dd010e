(** GetMosaic: indexing a LinearMosaic. *)
From Verif Require Import Base PySlice Keys NDArray Arrays Spec Supported Lib SelLemmas KeyLemmas NewAxLemmas GetBase GetSimple GetBcast GetTrans.

(** ** Lists *)
Lemma set_nth_remove {A} ax (d : A) x y : ax < length x -> ax < length y ->
  remove_at ax x = remove_at ax y -> x = set_nth ax (nth ax x d) y.
Proof.
  revert x y; induction ax as [|ax IH]; intros [|a x] [|b y] Hx Hy H; simpl in Hx, Hy; try lia.
  - rewrite !remove_at_0 in H. simpl. subst; auto.
  - rewrite !remove_at_S in H. injection H as -> H. simpl. f_equal. apply IH; auto; lia.
Qed.
Lemma remove_set_nth {A} ax (v : A) l : remove_at ax (set_nth ax v l) = remove_at ax l.
Proof.
  revert l; induction ax as [|ax IH]; intros [|x l]; simpl; auto.
  rewrite !remove_at_S, IH. auto.
Qed.
Lemma set_nth_set_nth {A} ax (v w : A) l : set_nth ax v (set_nth ax w l) = set_nth ax v l.
Proof. revert ax; induction l; intros [|ax]; simpl; auto. f_equal; auto. Qed.
Lemma set_nth_app1 {A} ax (v : A) l1 l2 : ax < length l1 -> set_nth ax v (l1 ++ l2) = set_nth ax v l1 ++ l2.
Proof. revert ax; induction l1; intros [|ax] H; simpl in *; try lia; auto. f_equal. apply IHl1. lia. Qed.
Lemma firstn_set_nth {A} ax (v : A) l : firstn ax (set_nth ax v l) = firstn ax l.
Proof. revert l; induction ax; intros [|x l]; simpl; auto. f_equal; auto. Qed.

(** ** Trailing full slices *)
Lemma trim_app ks : ks = trim_keys ks ++ repeat KFull (length ks - length (trim_keys ks)).
Proof.
  induction ks as [|k ks IH]; auto. cbn [trim_keys]. destruct (trim_keys ks) as [|t r] eqn:E.
  - destruct (key_full_b k) eqn:Ek.
    + destruct k; simpl in Ek; try discriminate. apply slice_eqb_full in Ek. subst s.
      cbn [app length] in *. rewrite Nat.sub_0_r in *. cbn [repeat]. unfold KFull at 1. f_equal. auto.
    + cbn [app length] in *. rewrite Nat.sub_0_r in IH. rewrite Nat.sub_succ, Nat.sub_0_r. f_equal; auto.
  - simpl. f_equal. simpl in IH. auto.
Qed.
Lemma trim_le ks : length (trim_keys ks) <= length ks.
Proof.
  induction ks as [|k ks IH]; auto. cbn [trim_keys]. destruct (trim_keys ks) as [|t r].
  - destruct (key_full_b k); simpl; lia.
  - simpl in *; lia.
Qed.
Lemma key_full_full : key_full_b KFull = true.
Proof. reflexivity. Qed.
Lemma trim_full_nil ks : forallb key_full_b ks = true -> trim_keys ks = [].
Proof.
  induction ks as [|k ks IH]; auto. simpl. intros H. apply andb_true_iff in H as [H1 H2]. rewrite IH, H1; auto.
Qed.
Lemma trim_axis ks axis : axis <= length ks ->
  (length (trim_keys ks) <=? axis) = forallb key_full_b (skipn axis ks).
Proof.
  revert axis; induction ks as [|k ks IH]; intros axis H.
  - destruct axis; auto.
  - destruct axis as [|axis].
    + cbn [skipn]. destruct (forallb key_full_b (k :: ks)) eqn:E.
      * rewrite trim_full_nil; auto.
      * cbn [trim_keys]. specialize (IH 0 ltac:(lia)). cbn [skipn] in IH.
        destruct (trim_keys ks) eqn:Et; simpl in *; auto. rewrite <- IH in E. rewrite andb_true_r in E. rewrite E. auto.
    + cbn [skipn]. simpl in H. rewrite <- IH by lia. cbn [trim_keys].
      destruct (trim_keys ks) as [|t r]; [destruct (key_full_b k); simpl; lia|]. simpl. lia.
Qed.
Lemma np_expand_trim ks n : nonew ks -> existsb is_ell ks = false -> length ks = n ->
  np_expand (trim_keys ks) n = Ok ks.
Proof.
  intros HN HE HL. pose proof (trim_app ks) as Et. pose proof (trim_le ks) as Hle.
  assert (HN' : nonew (trim_keys ks)). { rewrite Et in HN. apply nonew_app in HN. tauto. }
  assert (HE' : existsb is_ell (trim_keys ks) = false).
  { rewrite Et in HE. rewrite existsb_app in HE. apply orb_false_iff in HE. tauto. }
  unfold np_expand. assert (count_if is_ell (trim_keys ks) = 0) as -> by (apply count_if_0; auto).
  rewrite HE'. simpl (1 <? 0).
  assert (n_real (trim_keys ks) = length (trim_keys ks)) as ->.
  { clear - HN' HE'. induction (trim_keys ks) as [|k l IH]; auto. apply nonew_cons in HN' as [H1 H2].
    simpl in HE'. apply orb_false_iff in HE' as [H3 H4]. unfold n_real in *. rewrite count_if_cons, H1, H3.
    simpl. rewrite IH; auto. }
  replace (n <? length (trim_keys ks)) with false by lia. subst n. rewrite <- Et. auto.
Qed.
Lemma np_expand_trim_set ks n axis k : nonew ks -> existsb is_ell ks = false -> length ks = n ->
  axis < length (trim_keys ks) -> is_new k = false -> is_ell k = false ->
  np_expand (set_nth axis k (trim_keys ks)) n = Ok (set_nth axis k ks).
Proof.
  intros HN HE HL Hax Hk1 Hk2. pose proof (trim_app ks) as Et. pose proof (trim_le ks) as Hle.
  rewrite Et at 2. rewrite set_nth_app1 by auto.
  set (q := set_nth axis k (trim_keys ks)).
  assert (HLq : length q = length (trim_keys ks)) by (unfold q; apply set_nth_length).
  assert (Hin : forall x, In x q -> is_new x = false /\ is_ell x = false).
  { intros x Hx. unfold q in Hx. rewrite (set_nth_split axis k KBad) in Hx by auto.
    apply existsb_false_Forall in HN. apply existsb_false_Forall in HE. rewrite Forall_forall in HN, HE.
    assert (HI : forall y, In y (trim_keys ks) -> In y ks) by (intros y Hy; rewrite Et; apply in_app_iff; auto).
    apply in_app_iff in Hx as [Hx|[<-|Hx]]; auto.
    - assert (In x (trim_keys ks)) by (rewrite <- (firstn_skipn axis (trim_keys ks)); apply in_app_iff; auto). auto.
    - assert (In x (trim_keys ks)) by (rewrite <- (firstn_skipn (S axis) (trim_keys ks)); apply in_app_iff; auto). auto. }
  unfold np_expand.
  assert (existsb is_ell q = false) as HEq by (apply existsb_false_Forall, Forall_forall; intros x Hx; apply Hin; auto).
  assert (count_if is_ell q = 0) as -> by (apply count_if_0; auto). rewrite HEq. simpl (1 <? 0).
  assert (n_real q = length q) as ->.
  { clear - Hin. induction q as [|x l IH]; auto. unfold n_real in *. rewrite count_if_cons.
    destruct (Hin x (or_introl eq_refl)) as [-> ->]. simpl. rewrite IH; auto. intros; apply Hin; simpl; auto. }
  rewrite HLq. replace (n <? length (trim_keys ks)) with false by lia. subst n. auto.
Qed.

(** ** Selections differing at one axis *)
Lemma rk_scalar ks sh cs axis : nonew ks -> sel_keys ks sh = Some cs -> axis <= length sh ->
  axis - count_if is_scalar (firstn axis ks) = rk cs axis.
Proof.
  revert sh cs axis; induction ks as [|k ks IH]; intros sh cs axis HN H Hax.
  - destruct sh; simpl in H; [|discriminate]. injection H as <-. simpl in Hax. replace axis with 0 by lia. auto.
  - apply nonew_cons in HN as [HN1 HN2]. destruct sh as [|n sh].
    { apply sel_keys_cons in H as [(-> & _)|(_ & _ & n & sh & d & r & E & _)]; discriminate. }
    apply sel_keys_inv in H as (d & r & -> & Ed & Er); auto. destruct axis as [|axis]; auto.
    simpl in Hax. specialize (IH sh r axis HN2 Er ltac:(lia)). unfold rk in *. cbn [firstn].
    rewrite !count_if_cons. pose proof (count_if_le is_scalar (firstn axis ks)) as Hle. rewrite firstn_length in Hle.
    apply sel_key_kind in Ed as [(-> & i & ->)|(-> & l & ->)]; cbn [is_pt_sel negb]; lia.
Qed.
Lemma sel_keys_set ks sh cs axis k n d : nonew ks -> is_new k = false -> sel_keys ks sh = Some cs -> axis < length sh ->
  sel_key k n = Some d -> sel_keys (set_nth axis k ks) (set_nth axis n sh) = Some (set_nth axis d cs).
Proof.
  revert sh cs axis; induction ks as [|kk ks IH]; intros sh cs axis HN Hk H Hax Hd.
  - destruct sh; simpl in H; [|discriminate]. simpl in Hax. lia.
  - apply nonew_cons in HN as [HN1 HN2]. destruct sh as [|nn sh]; [simpl in Hax; lia|].
    apply sel_keys_inv in H as (d0 & r & -> & Ed & Er); auto. destruct axis as [|axis]; cbn [set_nth].
    + rewrite sel_keys_cons_eq by auto. rewrite Hd, Er. auto.
    + simpl in Hax. rewrite sel_keys_cons_eq by auto. rewrite Ed, (IH sh r axis) by (auto; lia). auto.
Qed.
Lemma sel_shape_set cs axis l0 l : Forall (fun d => d <> DNew) cs -> axis < length cs -> nth axis cs DNew = DLs l0 ->
  sel_shape (set_nth axis (DLs l) cs) = set_nth (rk cs axis) (length l) (sel_shape cs).
Proof.
  revert axis; induction cs as [|d cs IH]; intros axis HF Hax Hd; [simpl in Hax; lia|]. inversion HF; subst.
  unfold rk in *. destruct axis as [|axis]; simpl in *; [subst; auto|].
  rewrite count_if_cons. destruct d; simpl; try congruence.
  - apply IH; auto; lia.
  - f_equal. apply IH; auto; lia.
Qed.
Lemma sel_map_set cs axis l0 l i o : Forall (fun d => d <> DNew) cs -> axis < length cs -> nth axis cs DNew = DLs l0 ->
  length o = length (sel_shape cs) ->
  sel_map (set_nth axis (DLs l) cs) (set_nth (rk cs axis) i o) = set_nth axis (nth i l 0) (sel_map cs o).
Proof.
  revert axis o; induction cs as [|d cs IH]; intros axis o HF Hax Hd HL; [simpl in Hax; lia|]. inversion HF; subst.
  unfold rk in *. destruct axis as [|axis]; simpl in *.
  - subst. simpl in HL. destruct o as [|j o]; [discriminate|]. auto.
  - rewrite count_if_cons. destruct d; simpl in *; try congruence.
    + f_equal. apply IH; auto; lia.
    + destruct o as [|j o]; [discriminate|]. simpl in *. f_equal. apply IH; auto; lia.
Qed.
Lemma sel_pt_set cs axis p0 p : axis < length cs -> nth axis cs DNew = DPt p0 ->
  sel_shape (set_nth axis (DPt p) cs) = sel_shape cs
  /\ (Forall (fun d => d <> DNew) cs -> forall o, length o = length (sel_shape cs) ->
        sel_map (set_nth axis (DPt p) cs) o = set_nth axis p (sel_map cs o)).
Proof.
  revert axis; induction cs as [|d cs IH]; intros axis Hax Hd; [simpl in Hax; lia|].
  destruct axis as [|axis]; simpl in *.
  - subst. simpl. auto.
  - destruct (IH axis ltac:(lia) Hd) as [E1 E2]. split.
    + destruct d; simpl; auto; f_equal; auto.
    + intros HF o HL. inversion HF; subst. destruct d; simpl in *; try congruence.
      * f_equal. apply E2; auto.
      * destruct o as [|j o]; [discriminate|]. simpl in *. f_equal. apply E2; auto.
Qed.

(** ** Positions in a concatenation *)
Notation sum := (fold_right Nat.add 0).

Lemma offsets_length lens o : length (offsets_from o lens) = length lens.
Proof. revert o; induction lens; intros o; simpl; auto. Qed.
Lemma nth_offsets lens o p : p < length lens -> nth p (offsets_from o lens) 0 = o + sum (firstn p lens).
Proof.
  revert o p; induction lens as [|n lens IH]; intros o p Hp; simpl in Hp; [lia|].
  destruct p; simpl; [lia|]. rewrite IH by lia. lia.
Qed.
Lemma offset_split lens j : j < sum lens ->
  exists p i, p < length lens /\ i < nth p lens 0 /\ j = sum (firstn p lens) + i.
Proof.
  revert j; induction lens as [|n lens IH]; intros j Hj; simpl in Hj; [lia|].
  destruct (Nat.ltb_spec j n) as [L|L].
  - exists 0, j. simpl. repeat split; auto; lia.
  - destruct (IH (j - n) ltac:(lia)) as (p & i & Hp & Hi & E). exists (S p), i. simpl. repeat split; auto; lia.
Qed.
Lemma nth_concat {A} (ls : list (list A)) p i d : p < length ls -> i < length (nth p ls []) ->
  nth (sum (firstn p (map (@length A) ls)) + i) (concat ls) d = nth i (nth p ls []) d.
Proof.
  revert p; induction ls as [|l ls IH]; intros p Hp Hi; simpl in Hp; [lia|]. destruct p; simpl in *.
  - apply app_nth1; auto.
  - rewrite app_nth2 by lia. rewrite <- IH by (auto; lia). f_equal. lia.
Qed.
Lemma concat_length_sum {A} (ls : list (list A)) : length (concat ls) = sum (map (@length A) ls).
Proof. induction ls; simpl; auto. rewrite app_length, IHls. auto. Qed.
Lemma sum_firstn_lt lens p i : p < length lens -> i < nth p lens 0 -> sum (firstn p lens) + i < sum lens.
Proof.
  revert p; induction lens as [|n lens IH]; intros p Hp Hi; simpl in Hp; [lia|]. destruct p; simpl in *; [lia|].
  specialize (IH p ltac:(lia) Hi). lia.
Qed.

(** the tile a position belongs to *)
Lemma tile_count lens : forall o i, o <= i -> i < o + sum lens ->
  let c := count_if (fun q => q <=? i) (offsets_from o lens) in
  1 <= c <= length lens /\ o + sum (firstn (c - 1) lens) <= i < o + sum (firstn (c - 1) lens) + nth (c - 1) lens 0.
Proof.
  induction lens as [|n lens IH]; intros o i H1 H2; simpl in H2; [lia|].
  cbn [offsets_from]. cbv zeta. rewrite count_if_cons. replace (o <=? i) with true by lia.
  destruct (Nat.ltb_spec i (o + n)) as [L|L].
  - assert (Hz : count_if (fun q => q <=? i) (offsets_from (o + n) lens) = 0).
    { apply count_if_0. clear - L. revert L. generalize (o + n) as b. induction lens as [|m lens IH]; intros b L; simpl; auto.
      replace (b <=? i) with false by lia. simpl. apply IH. lia. }
    rewrite Hz. simpl. lia.
  - destruct (IH (o + n) i L ltac:(lia)) as [E1 E2].
    set (c := count_if (fun q => q <=? i) (offsets_from (o + n) lens)) in *.
    replace (1 + c - 1) with (S (c - 1)) by lia. cbn [length firstn fold_right nth]. lia.
Qed.
Lemma tile_of_ok lens i : i < sum lens ->
  exists t, tile_of (offsets_from 0 lens) (Z.of_nat i) = Z.of_nat t /\ t < length lens
            /\ sum (firstn t lens) <= i < sum (firstn t lens) + nth t lens 0.
Proof.
  intros Hi. destruct (tile_count lens 0 i ltac:(lia) ltac:(lia)) as [E1 E2].
  exists (count_if (fun q => q <=? i) (offsets_from 0 lens) - 1).
  unfold tile_of. rewrite (count_if_ext _ (fun q => q <=? i)) by (intros; lia).
  repeat split; try lia.
Qed.

Lemma group_runs_ok (l : list (Z * Z)) :
  concat (map snd (group_runs l)) = map fst l
  /\ Forall (fun g => snd g <> [] /\ forall i, In i (snd g) -> In (i, fst g) l) (group_runs l).
Proof.
  induction l as [|[i t] l [E F]]; simpl; auto. destruct (group_runs l) as [|[t' is] r] eqn:G.
  - simpl in *. split; [f_equal; auto|]. constructor; [split; [discriminate|]|constructor]. simpl. intros j [<-|[]]; auto.
  - assert (F' : Forall (fun g => snd g <> [] /\ forall j, In j (snd g) -> (i, t) = (j, fst g) \/ In (j, fst g) l) ((t', is) :: r)).
    { eapply Forall_impl; [|apply F]. simpl. intros g [H1 H2]. split; auto. }
    destruct (Z.eqb_spec t t') as [->|N]; simpl in *.
    + split; [f_equal; auto|]. inversion F' as [|g gs [H1 H2] H3]; subst. constructor; auto.
      simpl. split; [discriminate|]. intros j [<-|Hj]; auto.
    + split; [f_equal; auto|]. constructor; auto. simpl. split; [discriminate|]. intros j [<-|[]]; auto.
Qed.

Lemma mapM_map {A B C} (f : B -> res C) (g : A -> B) l : mapM f (map g l) = mapM (fun x => f (g x)) l.
Proof. induction l; simpl; auto. rewrite IHl. auto. Qed.
Lemma combine_Forall2 {A B} (P : A -> B -> Prop) l r : Forall2 P l r ->
  map fst (combine l r) = l /\ map snd (combine l r) = r /\ Forall (fun p => P (fst p) (snd p)) (combine l r).
Proof. induction 1 as [|x y l r H HF (E1 & E2 & E3)]; simpl; auto. rewrite E1, E2. auto. Qed.

Lemma map_add_seq n k : map (fun i => n + i) (seq 0 k) = seq n k.
Proof.
  revert n; induction k as [|k IH]; intros n; simpl; auto. f_equal; [lia|]. rewrite <- seq_shift, map_map.
  rewrite <- (IH (S n)). apply map_ext. intros; lia.
Qed.
Lemma seq_concat lens : seq 0 (sum lens)
  = concat (map (fun t => map (fun i => sum (firstn t lens) + i) (seq 0 (nth t lens 0))) (seq 0 (length lens))).
Proof.
  induction lens as [|n lens IH]; auto. cbn [fold_right length seq map concat firstn nth].
  rewrite seq_app. rewrite map_add_seq. f_equal. rewrite <- map_add_seq. rewrite IH.
  rewrite concat_map, map_map. rewrite <- seq_shift, map_map. f_equal. apply map_ext. intros t.
  rewrite map_map. simpl. apply map_ext. intros. lia.
Qed.

Lemma tile_key_one a n : (0 <= a < Z.of_nat n)%Z ->
  slice_idx (mkS (Some a) (Some (a + 1)%Z) (Some 1%Z)) n = Ok [a].
Proof.
  intros H. unfold slice_idx, slice_indices. simpl. unfold clamp_bound.
  replace (a <? 0)%Z with false by lia. replace (Z.of_nat n <? a)%Z with false by lia.
  replace (a + 1 <? 0)%Z with false by lia. replace (Z.of_nat n <? a + 1)%Z with false by lia.
  unfold py_range, range_len. simpl. replace (a + 1 - a + 1 - 1)%Z with 1%Z by lia.
  rewrite Z.div_1_r. simpl. rewrite Z.add_0_r. auto.
Qed.

(** Strictly increasing lists. *)
Lemma incb_nth l : incb l = true <-> forall j, S j < length l -> (nth j l 0 < nth (S j) l 0)%Z.
Proof.
  induction l as [|x [|y l] IH].
  - split; auto. simpl; intros; lia.
  - split; auto. simpl; intros; lia.
  - change (incb (x :: y :: l)) with ((x <? y)%Z && incb (y :: l)). rewrite andb_true_iff, IH. split.
    + intros [H1 H2] [|j] Hj; [simpl; lia|]. apply (H2 j). simpl in *; lia.
    + intros H. split; [specialize (H 0 ltac:(simpl; lia)); simpl in H; lia|]. intros j Hj. apply (H (S j)). simpl in *; lia.
Qed.

Lemma incb_infix p l q : incb (p ++ l ++ q) = true -> incb l = true.
Proof.
  rewrite !incb_nth. intros H j Hj.
  specialize (H (length p + j)). rewrite !app_length in H. rewrite app_nth2_plus in H.
  replace (S (length p + j)) with (length p + S j) in H by lia. rewrite app_nth2_plus in H.
  rewrite !app_nth1 in H by lia. apply H. lia.
Qed.

Lemma incb_shift l z : incb l = true -> incb (map (fun i => i - z)%Z l) = true.
Proof.
  rewrite !incb_nth. intros H j Hj. rewrite map_length in Hj.
  rewrite !(nth_map _ _ _ _ 0%Z) by lia. specialize (H j Hj). lia.
Qed.

Lemma slice_idx_inc s n l : slice_idx s n = Ok l -> match s_step s with Some st => (0 < st)%Z | None => True end -> incb l = true.
Proof.
  unfold slice_idx, slice_indices. set (st := match s_step s with None => 1%Z | Some v => v end).
  destruct (_ =? 0)%Z; [discriminate|]. intros E Hst. assert (0 < st)%Z by (unfold st; destruct (s_step s); lia).
  cbn [bind] in E. injection E as <-. apply incb_nth. unfold py_range. rewrite map_length, seq_length. intros j Hj.
  match goal with |- context [map ?f (seq 0 ?n)] => rewrite !(nth_map_seq f n) by lia end. nia.
Qed.

Lemma in_concat_split {A} (x : list A) ls : In x ls -> exists p q, concat ls = p ++ x ++ q.
Proof.
  intros H. apply in_split in H as (l1 & l2 & ->). exists (concat l1), (concat l2).
  rewrite concat_app. auto.
Qed.

Lemma tile_key_ok inc off len is : is <> [] ->
  Forall (fun i => Z.of_nat off <= i < Z.of_nat off + Z.of_nat len)%Z is -> (inc = true -> incb is = true) ->
  sel_key (tile_key off is) len = Some (DLs (map (fun i => Z.to_nat i - off) is))
  /\ tile_form inc len (tile_key off is).
Proof.
  intros Hne HF HAP.
  assert (HA : sel_key (KArr (map (fun i => i - Z.of_nat off)%Z is)) len
               = Some (DLs (map (fun i => Z.to_nat i - off) is))).
  { simpl. replace (map (fun i => i - Z.of_nat off)%Z is) with (map Z.of_nat (map (fun i => Z.to_nat i - off) is)).
    - rewrite norm_ints_nat; auto. apply Forall_forall. intros x Hx. apply in_map_iff in Hx as (i & <- & Hi).
      rewrite Forall_forall in HF. apply HF in Hi. lia.
    - rewrite map_map. apply map_ext_in. intros i Hi. rewrite Forall_forall in HF. apply HF in Hi. lia. }
  assert (HB : 2 <= length is -> tile_form inc len (KArr (map (fun i => i - Z.of_nat off)%Z is))).
  { intros H2. simpl. split; [rewrite map_length; auto|]. split.
    - apply Forall_forall. intros x Hx.
      apply in_map_iff in Hx as (i & <- & Hi). rewrite Forall_forall in HF. apply HF in Hi. lia.
    - intros Hi. apply incb_shift. auto. }
  destruct is as [|i [|j r]]; [congruence| |split; [auto|apply HB; simpl; lia]].
  inversion HF; subst. unfold tile_key. split.
  - unfold sel_key. rewrite tile_key_one by lia. simpl. do 3 f_equal. lia.
  - simpl. eexists; split; [|reflexivity]. lia.
Qed.

Lemma norm_ints_nonneg l n r : norm_ints l n = Some r -> Forall (fun i => 0 <= i)%Z l ->
  r = map Z.to_nat l /\ Forall (fun i => 0 <= i < Z.of_nat n)%Z l.
Proof.
  intros H HF. apply norm_ints_Forall2 in H. induction H as [|i j l r Hij H IH]; auto.
  inversion HF; subst. destruct (IH H3) as [-> HB]. unfold norm_int in Hij.
  destruct ((- Z.of_nat n <=? i) && (i <? Z.of_nat n))%Z eqn:E; [|discriminate].
  replace (i <? 0)%Z with false in Hij by lia. injection Hij as <-. split; auto. constructor; auto. lia.
Qed.

Lemma nth_repeat_lt {A} (x d : A) n i : i < n -> nth i (repeat x n) d = x.
Proof. revert i; induction n; intros [|i] H; simpl; auto; try lia. apply IHn. lia. Qed.

Section GetMosaic.
Context {V : Type} (O : numops V).
Notation barr := (@barr V).
Notation good := (good O).
Notation Pget := (Pget O).
Notation cell := (option V).

Lemma concat_at (ts : list (nd cell)) axis : forall o p i d, axis < length o -> p < length ts ->
  i < nth axis (nshape (nth p ts d)) 0 ->
  nth axis o 0 = sum (firstn p (map (fun t => nth axis (nshape t) 0) ts)) + i ->
  concat_get ts axis o = nget (nth p ts d) (set_nth axis i o).
Proof.
  induction ts as [|t ts IH]; intros o p i d Hax Hp Hi Hn; simpl in Hp; [lia|].
  destruct p as [|p]; simpl in *.
  - rewrite Hn. replace (i <? nth axis (nshape t) 0) with true by lia. f_equal.
    rewrite <- (set_nth_same axis 0 o) at 1. rewrite Hn. auto.
  - replace (nth axis o 0 <? nth axis (nshape t) 0) with false by lia.
    rewrite (IH _ p i d).
    + f_equal. apply set_nth_set_nth.
    + rewrite set_nth_length; auto.
    + lia.
    + auto.
    + rewrite nth_set_nth_eq by auto. lia.
Qed.

(** The parts of an indexed mosaic: a tile number, local positions on the mosaic
    axis and the indexed tile. *)
Lemma mosaic_parts (tiles : list barr) axis t0 cs L parts :
  wf (AMosaic tiles axis) -> In t0 tiles ->
  vsel cs (shape (AMosaic tiles axis)) -> length cs = length (shape (AMosaic tiles axis)) ->
  nth axis cs DNew = DLs L -> parts <> [] ->
  let lens := map (fun t => nth axis (shape t) 0) tiles in
  L = concat (map (fun p : nat * list nat * barr => map (fun i => sum (firstn (fst (fst p)) lens) + i) (snd (fst p))) parts) ->
  Forall (fun p => fst (fst p) < length tiles
                   /\ Forall (fun i => i < nth (fst (fst p)) lens 0) (snd (fst p))
                   /\ good (nth (fst (fst p)) tiles t0) (snd p) (set_nth axis (DLs (snd (fst p))) cs)) parts ->
  exists b, mk_mosaic (map snd parts) (Z.of_nat (rk cs axis)) = Ok b /\ good (AMosaic tiles axis) b cs.
Proof.
  intros Hw Ht0 Hv HLc HdL Hpne lens EL HP.
  pose proof Hw as (Hne & Hwt & Hst). apply wf_items in Hwt. rewrite Forall_forall in Hwt, Hst.
  assert (Hex : exists u0 us, tiles = u0 :: us) by (destruct tiles; [congruence|eauto]). destruct Hex as (u0 & us & Etl).
  assert (Hhd : forall t, hd t tiles = u0) by (subst; auto).
  assert (Hax0 : axis < ndim u0) by (apply (Hst u0); subst; simpl; auto).
  assert (Hshape : shape (AMosaic tiles axis) = set_nth axis (sum lens) (shape u0)).
  { unfold lens. rewrite Etl. simpl. rewrite fold_left_add_acc. auto. }
  rewrite Hshape in *. rewrite set_nth_length in HLc.
  assert (Hshp : forall t, In t tiles -> shape t = set_nth axis (nth axis (shape t) 0) (shape u0) /\ dtype t = dtype u0).
  { intros t Ht. destruct (Hst t Ht) as (H1 & H2 & H3). rewrite Hhd in *. split; auto.
    apply set_nth_remove; auto. }
  assert (HFc : Forall (fun d => d <> DNew) cs).
  { eapply vsel_nodnew; [|apply Hv]. rewrite set_nth_length. auto. }
  assert (Haxc : axis < length cs) by (rewrite HLc; auto).
  destruct (nth_sel_shape cs axis L HFc Haxc HdL) as [HnL Hrk].
  set (rax := rk cs axis) in *.
  (* every part *)
  rewrite Forall_forall in HP.
  assert (Hpart : forall p, In p parts ->
     wf (snd p) /\ dt_stable (snd p) /\ dtype (snd p) = dtype u0
     /\ shape (snd p) = set_nth rax (length (snd (fst p))) (sel_shape cs)).
  { intros p Hp. destruct (HP p Hp) as (H1 & H2 & H3).
    assert (Hin : In (nth (fst (fst p)) tiles t0) tiles) by (apply nth_In; auto).
    destruct (Hwt _ Hin) as [W1 W2]. destruct (g_dt _ _ _ _ H3 W2) as [D1 D2].
    split; [apply H3|]. split; auto. split; [rewrite D2; apply Hshp; auto|].
    rewrite (good_shape _ _ _ _ H3). eapply sel_shape_set; eauto. }
  set (bs := map snd parts).
  assert (Hb : forall b, In b bs -> exists p, In p parts /\ b = snd p).
  { intros b Hb. apply in_map_iff in Hb as (p & <- & Hp). eauto. }
  destruct bs as [|b0 bs'] eqn:Ebs.
  { destruct parts; [congruence|discriminate]. }
  assert (Hb0 : In b0 (b0 :: bs')) by (simpl; auto).
  destruct (Hb b0 Hb0) as (p0 & Hp0 & Ep0). destruct (Hpart p0 Hp0) as (C1 & C2 & C3 & C4). rewrite <- Ep0 in *.
  assert (Hrax0 : rax < ndim b0) by (unfold ndim; rewrite C4, set_nth_length; auto).
  assert (HbP : forall b, In b (b0 :: bs') -> wf b /\ dt_stable b /\ rax < ndim b
                 /\ remove_at rax (shape b) = remove_at rax (shape b0) /\ dtype b = dtype b0
                 /\ remove_at rax (shape b) = remove_at rax (sel_shape cs)).
  { intros b Hbb. destruct (Hb b Hbb) as (p & Hp & ->). destruct (Hpart p Hp) as (H1 & H2 & H3 & H4).
    split; auto. split; auto. split; [unfold ndim; rewrite H4, set_nth_length; auto|].
    rewrite H4, C4, !remove_set_nth, H3, C3. auto. }
  assert (Emk : mk_mosaic (b0 :: bs') (Z.of_nat rax) = Ok (AMosaic (b0 :: bs') rax)).
  { unfold mk_mosaic. replace ((0 <=? Z.of_nat rax) && (Z.of_nat rax <? Z.of_nat (ndim b0)))%Z with true by lia.
    cbn [negb]. rewrite Nat2Z.id.
    destruct (mapM_exists (fun x => if ndim x <=? rax then Err IndexError
                 else if negb (shape_eqb (remove_at rax (shape x)) (remove_at rax (shape b0))) then Err ValueError
                 else if negb (dtype x =? dtype b0) then Err ValueError else Ok tt) (fun _ _ => True) bs') as (r & Er & _).
    { intros x Hx. destruct (HbP x (or_intror Hx)) as (H1 & H2 & H3 & H4 & H5 & _).
      replace (ndim x <=? rax) with false by lia. rewrite H4, shape_eqb_refl, H5, Nat.eqb_refl. simpl. eauto. }
    cbv zeta. rewrite Er. auto. }
  rewrite Emk. eexists; split; [reflexivity|]. rewrite <- Ebs in *. clear Emk.
  assert (Hbwf : wf (AMosaic bs rax)).
  { split; [rewrite Ebs; discriminate|]. split.
    - apply wf_items. apply Forall_forall. intros b Hbb. destruct (HbP b Hbb) as (H1 & H2 & _). auto.
    - apply Forall_forall. intros b Hbb. destruct (HbP b Hbb) as (H1 & H2 & H3 & H4 & H5 & _).
      rewrite Ebs. simpl. auto. }
  assert (Hlens : map (fun t => nth rax (shape t) 0) bs = map (fun p => length (snd (fst p))) parts).
  { unfold bs. rewrite map_map. apply map_ext_in. intros p Hp. destruct (Hpart p Hp) as (H1 & H2 & H3 & H4).
    rewrite H4, nth_set_nth_eq; auto. }
  assert (Hlens2 : map (fun p => length (snd (fst p))) parts =
     map (@length nat) (map (fun p : nat * list nat * barr => map (fun i => sum (firstn (fst (fst p)) lens) + i) (snd (fst p))) parts)).
  { rewrite map_map. apply map_ext. intros p. rewrite map_length. auto. }
  assert (Hsum : sum (map (fun t => nth rax (shape t) 0) bs) = length L).
  { rewrite Hlens, Hlens2, EL, concat_length_sum. auto. }
  assert (Hshb : shape (AMosaic bs rax) = sel_shape cs).
  { assert (shape (AMosaic bs rax) = set_nth rax (sum (map (fun t => nth rax (shape t) 0) bs)) (shape b0)) as ->.
    { rewrite Ebs. simpl. rewrite fold_left_add_acc. auto. }
    rewrite Hsum, C4, set_nth_set_nth. rewrite <- HnL. apply set_nth_same. }
  split.
  - auto.
  - intros m. split; [rewrite den_shape, Hshb by auto; auto|].
    rewrite den_shape, Hshb by auto. intros o Ho. cbn [den nd_concat nget nd_sel].
    pose proof (inb_length _ _ Ho) as HLo.
    assert (Hj : nth rax o 0 < length L) by (rewrite <- HnL; apply inb_nth; auto).
    rewrite <- Hsum, Hlens in Hj. destruct (offset_split _ _ Hj) as (p & i & Hp & Hi & Ej).
    rewrite map_length in Hp.
    set (pd := (0, @nil nat, b0)). set (pp := nth p parts pd).
    assert (Epp : nth p (map snd parts) b0 = snd pp) by (exact (map_nth snd parts pd p)).
    assert (Hppin : In pp parts) by (apply nth_In; auto).
    destruct (Hpart pp Hppin) as (H1 & H2 & H3 & H4). destruct (HP pp Hppin) as (G1 & G2 & G3).
    rewrite (nth_map _ _ _ _ pd) in Hi by auto. fold pp in Hi.
    assert (Hint : In (nth (fst (fst pp)) tiles t0) tiles) by (apply nth_In; auto).
    destruct (Hwt _ Hint) as [W1 W2].
    rewrite (concat_at _ rax o p i (den O m b0)).
    + rewrite map_nth. unfold bs.
      rewrite Epp.
      destruct (g_den _ _ _ _ G3 m) as [A1 A2]. rewrite A2.
      * simpl. unfold rax. rewrite (sel_map_set _ _ L) by auto.
        symmetry. rewrite (concat_at _ axis _ (fst (fst pp)) (nth i (snd (fst pp)) 0) (den O m t0)).
        -- rewrite map_nth. auto.
        -- rewrite (sel_map_length _ _ _ Hv) by auto. rewrite set_nth_length. auto.
        -- rewrite map_length; auto.
        -- rewrite map_nth, den_shape by auto. rewrite Forall_forall in G2.
           specialize (G2 _ (nth_In _ 0 Hi)). unfold lens in G2.
           rewrite (nth_map (fun t => nth axis (shape t) 0) tiles _ _ t0) in G2 by exact G1. auto.
        -- rewrite nth_sel_map by auto. rewrite HdL. fold rax. rewrite Ej, EL.
           rewrite Hlens2, nth_concat.
           ++ rewrite (nth_map _ _ _ _ pd) by auto. fold pp. rewrite (nth_map _ _ _ _ 0) by auto.
              f_equal. f_equal. f_equal. unfold lens. rewrite map_map. apply map_ext_in. intros t Ht.
              rewrite den_shape; auto. apply Hwt; auto.
           ++ rewrite map_length; auto.
           ++ rewrite (nth_map _ _ _ _ pd) by auto. fold pp. rewrite map_length. auto.
      * rewrite A1. cbn [nd_sel nshape]. rewrite (sel_shape_set cs axis L) by auto. fold rax.
        apply inb_ext; rewrite !set_nth_length; auto. intros k Hk. destruct (Nat.eq_dec k rax) as [->|N].
        -- rewrite !nth_set_nth_eq by lia. auto.
        -- rewrite !nth_set_nth_neq by auto. apply inb_nth; auto.
    + lia.
    + rewrite map_length. unfold bs. rewrite map_length. auto.
    + rewrite map_nth. unfold bs.
      rewrite Epp.
      rewrite den_shape, H4, nth_set_nth_eq by auto. auto.
    + rewrite Ej. f_equal. f_equal. f_equal. rewrite <- Hlens. rewrite map_map. apply map_ext_in. intros t Ht.
      rewrite den_shape; auto. apply HbP. auto.
  - intros _. split.
    + simpl. apply fold_right_and_Forall. apply Forall_forall. intros b Hbb. apply HbP. auto.
    + simpl. rewrite Ebs, Etl. auto.
  - intros Hnl. simpl in *. rewrite fold_right_and_Forall in *. rewrite Forall_forall in *.
    intros b Hbb. apply in_map_iff in Hbb as (p & <- & Hp). destruct (HP p Hp) as (H1 & H2 & H3).
    apply H3. apply Hnl. apply nth_In; auto.
Qed.

(** The runs of consecutive positions in one tile. *)
Definition runs (lens : list nat) (idx : list Z) : list (Z * list Z) :=
  group_runs (map (fun i => (i, tile_of (offsets_from 0 lens) i)) idx).
Lemma runs_ok lens idx : Forall (fun i => 0 <= i < Z.of_nat (sum lens))%Z idx -> forall g, In g (runs lens idx) ->
  exists t, fst g = Z.of_nat t /\ t < length lens /\ snd g <> [] /\
    Forall (fun i => Z.of_nat (sum (firstn t lens)) <= i < Z.of_nat (sum (firstn t lens)) + Z.of_nat (nth t lens 0%nat))%Z (snd g).
Proof.
  intros Hb g Hg. set (offs := offsets_from 0 lens). unfold runs in Hg. fold offs in Hg.
  destruct (group_runs_ok (map (fun i => (i, tile_of offs i)) idx)) as [GC GF].
  rewrite Forall_forall in GF, Hb. destruct (GF g Hg) as [Gne Gin]. destruct (snd g) as [|i0 is] eqn:Eg; [congruence|].
  assert (HT : forall i, In i (i0 :: is) -> fst g = tile_of offs i /\ In i idx).
  { intros i Hi. apply Gin in Hi. apply in_map_iff in Hi as (j & E & Hj). injection E as <- <-. auto. }
  assert (HTT : forall i, In i (i0 :: is) -> exists t, fst g = Z.of_nat t /\ t < length lens
            /\ (Z.of_nat (sum (firstn t lens)) <= i < Z.of_nat (sum (firstn t lens)) + Z.of_nat (nth t lens 0%nat))%Z).
  { intros i Hi. destruct (HT i Hi) as [E Hii]. apply Hb in Hii.
    destruct (tile_of_ok lens (Z.to_nat i) ltac:(lia)) as (t & E1 & E2 & E3).
    exists t. rewrite E. fold offs in E1. rewrite Z2Nat.id in E1 by lia. split; auto. split; auto. lia. }
  destruct (HTT i0 (or_introl eq_refl)) as (t & E1 & E2 & _). exists t. split; auto. split; [lia|].
  split; auto. apply Forall_forall. intros i Hi. destruct (HTT i Hi) as (t' & F1 & _ & F3).
  assert (t' = t) by lia. subst t'; auto.
Qed.
Lemma runs_concat lens idx : concat (map snd (runs lens idx)) = idx.
Proof. destruct (group_runs_ok (map (fun i => (i, tile_of (offsets_from 0 lens) i)) idx)) as [GC _]. unfold runs. rewrite GC, map_map. apply map_id. Qed.
Lemma runs_inc lens idx g : incb idx = true -> In g (runs lens idx) -> incb (snd g) = true.
Proof.
  intros Hi Hg. destruct (in_concat_split (snd g) (map snd (runs lens idx))) as (pp & qq & Epq); [apply in_map; auto|].
  apply (incb_infix pp (snd g) qq). rewrite <- Epq, runs_concat. auto.
Qed.

Lemma gen_mosaic K tiles axis keys ks s : Forall (Pgen O K) tiles ->
  wf (AMosaic tiles axis) -> np_expand keys (ndim (AMosaic tiles axis)) = Ok ks -> sel_keys ks (shape (AMosaic tiles axis)) = Some s ->
  let rk := drop_new ks in let lens := map (fun t => nth axis (shape t) 0) tiles in
  let parts idx := Forall (fun i => 0 <= i < Z.of_nat (sum lens))%Z idx -> forall t is u, In (Z.of_nat t, is) (runs lens idx) -> nth_error tiles t = Some u ->
                     K u (set_nth axis (tile_key (sum (firstn t lens)) is) rk) in
  (forallb key_full_b (skipn axis rk) = true /\ forall t, In t tiles -> K t rk)
  \/ (forallb key_full_b (skipn axis rk) = false /\
      match nth axis rk KBad with
      | KInt i => (0 <= i)%Z /\ forall t j u, tile_of (offsets_from 0 lens) i = Z.of_nat t -> nth_error tiles t = Some u -> j < nth t lens 0 ->
                    i = Z.of_nat (sum (firstn t lens) + j) -> K u (set_nth axis (KInt (Z.of_nat j)) rk)
      | KSlice sl => match s_step sl with Some st => (0 < st)%Z | None => True end
                     /\ exists l, slice_idx sl (sum lens) = Ok l /\ l <> [] /\ parts l
      | KTuple l | KArr l | KList l => l <> [] /\ Forall (fun i => 0 <= i)%Z l /\ parts l
      | _ => False
      end) ->
  exists b, getitem (AMosaic tiles axis) keys = Ok b /\ good (AMosaic tiles axis) b s.
Proof.
  intros IH Hw Hexp Hs rk0 lens0 parts0 Hk. subst rk0. pose proof Hw as (Hne & Hwt & Hst). apply wf_items in Hwt.
  rewrite Forall_forall in Hwt, Hst, IH.
  assert (Hex : exists u0 us, tiles = u0 :: us) by (destruct tiles; [congruence|eauto]). destruct Hex as (u0 & us & Etl).
  cbn [getitem]. apply (base_getitem_ok O (AMosaic tiles axis) _ keys s ks); auto.
  intros cs Hcs. set (fks := drop_new ks) in *.
  set (lens := map (fun t => nth axis (shape t) 0) tiles) in *. subst lens0.
  assert (Hhd : forall t, hd t tiles = u0) by (subst; auto).
  assert (Hu0 : In u0 tiles) by (subst; simpl; auto).
  assert (Hax0 : axis < ndim u0) by (apply (Hst u0); auto).
  assert (Hshape : shape (AMosaic tiles axis) = set_nth axis (sum lens) (shape u0)).
  { unfold lens. rewrite Etl. simpl. rewrite fold_left_add_acc. auto. }
  assert (HNf : nonew fks) by apply drop_new_nonew.
  pose proof (sel_keys_valid _ _ _ Hcs) as Hvs.
  destruct (sel_keys_length _ _ _ HNf Hcs) as [HLf HLc].
  pose proof (sel_keys_fullk _ _ _ Hcs) as [HEf _].
  assert (HLf' : length fks = ndim u0) by (rewrite HLf, Hshape, set_nth_length; auto).
  assert (HLc' : length cs = ndim u0) by (rewrite HLc, Hshape, set_nth_length; auto).
  assert (HFc : Forall (fun d => d <> DNew) cs) by (eapply vsel_nodnew; [|apply Hvs]; auto).
  assert (Hshp : forall t, In t tiles -> shape t = set_nth axis (nth axis (shape t) 0) (shape u0) /\ ndim t = ndim u0).
  { intros t Ht. destruct (Hst t Ht) as (H1 & H2 & H3). rewrite Hhd in *.
    assert (shape t = set_nth axis (nth axis (shape t) 0) (shape u0)) as E by (apply set_nth_remove; auto).
    split; auto. unfold ndim. rewrite E, set_nth_length. auto. }
  assert (HLl : length lens = length tiles) by (unfold lens; apply map_length).
  assert (Hlen : forall t, t < length tiles -> nth t lens 0 = nth axis (shape (nth t tiles u0)) 0).
  { intros t Ht. unfold lens. rewrite (nth_map _ _ _ _ u0) by auto. auto. }
  pose proof (proj1 (sel_keys_nth _ _ cs HNf) Hcs) as (_ & _ & Hnth).
  pose proof (Hnth axis ltac:(rewrite Hshape, set_nth_length; auto)) as Haxk. clear Hnth.
  rewrite Hshape, nth_set_nth_eq in Haxk by auto. rewrite Hshape in Hcs.
  (* one tile, one key on the axis *)
  assert (Htile : forall t k d, t < length tiles -> is_new k = false ->
      sel_key k (nth t lens 0) = Some d ->
      sel_keys (set_nth axis k fks) (shape (nth t tiles u0)) = Some (set_nth axis d cs)).
  { intros t k d Ht Hk1 Hd. destruct (Hshp (nth t tiles u0) (nth_In _ _ Ht)) as [E _]. rewrite E.
    rewrite <- Hlen by auto. rewrite <- (set_nth_set_nth axis _ (sum lens)).
    apply sel_keys_set; auto. rewrite set_nth_length. auto. }
  cbv beta zeta. set (gets := map (fun t => getitem t) tiles).
  assert (Hgets : forall t, t < length tiles -> nth t gets (fun _ => Err IndexError) = getitem (nth t tiles u0)).
  { intros t Ht. unfold gets. rewrite (nth_map _ _ _ _ u0); auto. }
  pose proof (trim_axis fks axis ltac:(lia)) as Htrim.
  destruct Hk as [[Hk1 Hk2]|[Hk1 Hk2]].
  - (* keys leave the axis alone *)
    unfold mosaic_plan. rewrite Htrim, Hk1. simpl bind.
    rewrite Hk1 in Htrim. apply Nat.leb_le in Htrim.
    assert (Ek : nth axis fks KBad = KFull).
    { rewrite (trim_app fks). rewrite app_nth2 by lia. apply nth_repeat_lt. pose proof (trim_le fks). lia. }
    rewrite Ek, sel_key_full in Haxk. injection Haxk as Haxk. symmetry in Haxk.
    assert (Erk : axis - count_if is_scalar (trim_keys fks) = rk cs axis).
    { rewrite <- (rk_scalar fks _ cs axis HNf Hcs) by (rewrite set_nth_length; auto with arith).
      f_equal. rewrite (trim_app fks) at 2. rewrite firstn_app, firstn_all2 by lia. rewrite count_if_app.
      replace (count_if is_scalar (firstn _ (repeat KFull _))) with 0; [lia|]. symmetry. apply count_if_0.
      apply existsb_false_Forall. apply Forall_forall. intros x Hx.
      assert (In x (repeat KFull (length fks - length (trim_keys fks)))).
      { rewrite <- (firstn_skipn (axis - length (trim_keys fks)) (repeat KFull _)). apply in_app_iff. auto. }
      apply repeat_spec in H. subst; auto. }
    rewrite Erk.
    assert (Egets : gets = map (fun t => getitem (nth t tiles u0)) (seq 0 (length tiles))).
    { apply (nth_error_ext_nth (fun _ => Err IndexError)).
      - unfold gets. rewrite !map_length, seq_length. auto.
      - intros t Ht. unfold gets in Ht. rewrite map_length in Ht. rewrite Hgets by auto.
        rewrite nth_map_seq by auto. auto. }
    rewrite Egets, mapM_map.
    destruct (mapM_exists (fun t => getitem (nth t tiles u0) (trim_keys fks))
       (fun t b => t < length tiles /\ good (nth t tiles u0) b (set_nth axis (DLs (seq 0 (nth t lens 0))) cs))
       (seq 0 (length tiles))) as (bs & Ebs & HF2).
    { intros t Ht. apply in_seq in Ht. assert (Ht' : t < length tiles) by lia.
      assert (Hin : In (nth t tiles u0) tiles) by (apply nth_In; auto). destruct (Hwt _ Hin) as [W1 W2].
      destruct (IH _ Hin (trim_keys fks) fks (set_nth axis (DLs (seq 0 (nth t lens 0))) cs)) as (b & Eb & Gb); eauto.
      - apply np_expand_trim; auto. destruct (Hshp _ Hin) as [_ ->]. auto.
      - rewrite <- (set_nth_same axis KBad fks). rewrite Ek. apply Htile; auto. apply sel_key_full. }
    rewrite Ebs. simpl bind. destruct (combine_Forall2 _ _ _ HF2) as (C1 & C2 & C3).
    set (parts := map (fun p => ((fst p, seq 0 (nth (fst p) lens 0)), snd p)) (combine (seq 0 (length tiles)) bs)).
    assert (Ep : map snd parts = bs) by (unfold parts; rewrite map_map; simpl; rewrite <- C2 at 2; auto).
    rewrite <- Ep. apply (mosaic_parts tiles axis u0 cs (seq 0 (sum lens))); auto.
    + intros Hnil. rewrite Hnil in Ep. simpl in Ep. rewrite <- Ep in HF2. rewrite Etl in HF2. inversion HF2.
    + fold lens. unfold parts. rewrite map_map. cbn [fst snd]. rewrite seq_concat. f_equal.
      rewrite HLl. rewrite <- C1 at 1. rewrite map_map. auto.
    + apply Forall_forall. intros p Hp. unfold parts in Hp. apply in_map_iff in Hp as (q & <- & Hq). cbn [fst snd].
      rewrite Forall_forall in C3. destruct (C3 q Hq) as [D1 D2]. split; auto. split; auto. fold lens.
      apply Forall_forall. intros i Hi. apply in_seq in Hi. lia.
  - rewrite Hk1 in Htrim. apply Nat.leb_gt in Htrim.
    unfold mosaic_plan. replace (length (trim_keys fks) <=? axis) with false by lia.
    assert (Enk : nth axis (trim_keys fks) KBad = nth axis fks KBad).
    { rewrite (trim_app fks) at 2. rewrite app_nth1; auto. }
    assert (Erk : axis - count_if is_scalar (firstn axis (trim_keys fks)) = rk cs axis).
    { rewrite <- (rk_scalar fks _ cs axis HNf Hcs) by (rewrite set_nth_length; auto with arith).
      f_equal. rewrite (trim_app fks) at 2. rewrite firstn_app.
      replace (axis - length (trim_keys fks)) with 0 by lia. simpl. rewrite app_nil_r. auto. }
    cbv zeta. rewrite Enk, Erk. set (offs := offsets_from 0 lens).
    assert (Hoff : forall t, t < length lens -> py_nth 0 offs (Z.of_nat t) = sum (firstn t lens)).
    { intros t Ht. unfold py_nth. replace (Z.of_nat t <? 0)%Z with false by lia. rewrite Nat2Z.id.
      unfold offs. rewrite nth_offsets by auto. auto. }
    assert (Hnum : forall t, tile_num (length lens) (Z.of_nat t) = t).
    { intros t. unfold tile_num. replace (Z.of_nat t <? 0)%Z with false by lia. apply Nat2Z.id. }
    (* several tiles *)
    assert (Hmany : forall idx L, idx <> [] -> L = map Z.to_nat idx ->
       Forall (fun i => 0 <= i < Z.of_nat (sum lens))%Z idx -> nth axis cs DNew = DLs L ->
       parts0 idx ->
       exists b, (p <- Ok (PMany (map (fun g => let '(t, is) := g in
                               (tile_num (length lens) t,
                                set_nth axis (tile_key (py_nth 0 offs t) is) (trim_keys fks)))
                                (group_runs (map (fun i => (i, tile_of offs i)) idx))) (rk cs axis)) ;;
                  match p with
                  | PAll ks ax => ts <- mapM (fun g => g ks) gets ;; mk_mosaic ts (Z.of_nat ax)
                  | POne t ks => (nth t gets (fun _ => Err IndexError)) ks
                  | PMany parts ax =>
                      ts <- mapM (fun p => (nth (fst p) gets (fun _ => Err IndexError)) (snd p)) parts ;;
                      mk_mosaic ts (Z.of_nat ax)
                  end) = Ok b /\ good (AMosaic tiles axis) b cs).
    { intros idx L Hidx EL Hb HL Hok. simpl bind. change (group_runs (map (fun i => (i, tile_of offs i)) idx)) with (runs lens idx).
      set (groups := runs lens idx).
      pose proof (runs_concat lens idx) as GC. fold groups in GC.
      assert (HG : forall g, In g groups -> exists t, fst g = Z.of_nat t /\ t < length tiles /\ snd g <> [] /\
          Forall (fun i => Z.of_nat (sum (firstn t lens)) <= i < Z.of_nat (sum (firstn t lens)) + Z.of_nat (nth t lens 0%nat))%Z (snd g)).
      { rewrite <- HLl. exact (runs_ok lens idx Hb). }
      rewrite mapM_map.
      destruct (mapM_exists (fun x => nth (fst (let '(t, is) := x in (tile_num (length lens) t,
                                set_nth axis (tile_key (py_nth 0 offs t) is) (trim_keys fks)))) gets (fun _ => Err IndexError)
                                (snd (let '(t, is) := x in (tile_num (length lens) t,
                                set_nth axis (tile_key (py_nth 0 offs t) is) (trim_keys fks)))))
         (fun g b => good (nth (Z.to_nat (fst g)) tiles u0) b
                       (set_nth axis (DLs (map (fun i => Z.to_nat i - sum (firstn (Z.to_nat (fst g)) lens)) (snd g))) cs))
         groups) as (bs & Ebs & HF2).
      { intros g Hg. destruct (HG g Hg) as (t & Et & Ht & Gne & GB). destruct g as [tz is]. cbn [fst snd] in *. subst tz.
        rewrite Hnum, Hoff by lia. rewrite Nat2Z.id. rewrite Hgets by auto.
        destruct (tile_key_ok false _ _ _ Gne GB ltac:(discriminate)) as [K1 K2].
        assert (K3 : is_new (tile_key (sum (firstn t lens)) is) = false /\ is_ell (tile_key (sum (firstn t lens)) is) = false).
        { destruct (tile_key (sum (firstn t lens)) is); try contradiction; auto. }
        destruct K3 as [K3 K4].
        assert (Hin : In (nth t tiles u0) tiles) by (apply nth_In; auto). destruct (Hwt _ Hin) as [W1 W2].
        apply (IH _ Hin _ (set_nth axis (tile_key (sum (firstn t lens)) is) fks)); auto.
        - apply np_expand_trim_set; auto. destruct (Hshp _ Hin) as [_ ->]. auto.
        - apply (Hok Hb t is); auto. rewrite (nth_error_nth' _ u0) by auto. auto. }
      rewrite Ebs. simpl bind. destruct (combine_Forall2 _ _ _ HF2) as (C1 & C2 & C3).
      set (parts := map (fun p => ((Z.to_nat (fst (fst p)),
             map (fun i => Z.to_nat i - sum (firstn (Z.to_nat (fst (fst p))) lens)) (snd (fst p))), snd p)) (combine groups bs)).
      assert (Ep : map snd parts = bs) by (unfold parts; rewrite map_map; simpl; rewrite <- C2 at 2; auto).
      rewrite <- Ep. apply (mosaic_parts tiles axis u0 cs L); auto.
      + intros Hnil. rewrite Hnil in Ep. simpl in Ep. rewrite <- Ep in HF2.
        assert (Hg0 : groups = []) by (inversion HF2; auto). rewrite Hg0 in GC. simpl in GC. congruence.
      + fold lens. unfold parts. rewrite map_map. cbn [fst snd]. rewrite EL, <- GC.
        rewrite concat_map. f_equal. rewrite map_map. rewrite <- C1 at 1. rewrite map_map.
        apply map_ext_in. intros p Hp. rewrite map_map. apply map_ext_in. intros i Hi.
        assert (Hg : In (fst p) groups) by (rewrite <- C1; apply in_map; auto).
        destruct (HG _ Hg) as (t & Et & Ht & Gne & GB). rewrite Et, Nat2Z.id.
        rewrite Forall_forall in GB. apply GB in Hi. lia.
      + apply Forall_forall. intros p Hp. unfold parts in Hp. apply in_map_iff in Hp as (q & <- & Hq). cbn [fst snd].
        assert (Hg : In (fst q) groups) by (rewrite <- C1; apply in_map; auto).
        destruct (HG _ Hg) as (t & Et & Ht & Gne & GB). rewrite Et, Nat2Z.id.
        split; auto. fold lens. split.
        * apply Forall_forall. intros x Hx. apply in_map_iff in Hx as (i & <- & Hi).
          rewrite Forall_forall in GB. apply GB in Hi. lia.
        * rewrite Forall_forall in C3. specialize (C3 q Hq). rewrite Et, Nat2Z.id in C3. auto. }
    destruct (nth axis fks KBad) as [i|sl|l|l|l|l| | |] eqn:Ek; try contradiction.
    + (* an integer *)
      destruct Hk2 as [Hi Hok]. simpl in Haxk. destruct (norm_int i (sum lens)) as [j|] eqn:Ej; [|discriminate].
      injection Haxk as Haxk. symmetry in Haxk. unfold norm_int in Ej.
      destruct ((- Z.of_nat (sum lens) <=? i) && (i <? Z.of_nat (sum lens)))%Z eqn:E; [|discriminate].
      replace (i <? 0)%Z with false in Ej by lia. injection Ej as <-.
      destruct (tile_of_ok lens (Z.to_nat i) ltac:(lia)) as (t & E1 & E2 & E3). fold offs in E1.
      rewrite Z2Nat.id in E1 by lia. rewrite E1, Hnum, Hoff by auto. simpl bind. rewrite Hgets by lia.
      assert (Hin : In (nth t tiles u0) tiles) by (apply nth_In; lia). destruct (Hwt _ Hin) as [W1 W2].
      set (i' := Z.to_nat i - sum (firstn t lens)).
      replace (i - Z.of_nat (sum (firstn t lens)))%Z with (Z.of_nat i') by lia.
      destruct (IH _ Hin (set_nth axis (KInt (Z.of_nat i')) (trim_keys fks)) (set_nth axis (KInt (Z.of_nat i')) fks)
                 (set_nth axis (DPt i') cs)) as (b & Eb & Gb); auto.
      { apply np_expand_trim_set; auto. destruct (Hshp _ Hin) as [_ ->]. auto. }
      { apply Htile; auto; [lia|]. simpl. rewrite norm_int_nat by lia. auto. }
      { apply (Hok t); [auto|rewrite (nth_error_nth' _ u0) by lia; auto|lia|lia]. }
      exists b. split; auto.
      destruct (sel_pt_set cs axis (Z.to_nat i) i' ltac:(lia) Haxk) as [P1 P2].
      split.
      * apply Gb.
      * intros m. destruct (g_den _ _ _ _ Gb m) as [A1 A2]. simpl in A1. rewrite P1 in A1. split; [auto|].
        rewrite A1. intros o Ho. rewrite A2 by (rewrite A1; auto). simpl.
        rewrite P2 by (auto; apply inb_length; auto). symmetry.
        rewrite (concat_at _ axis _ t i' (den O m u0)).
        -- rewrite map_nth. auto.
        -- rewrite (sel_map_length _ _ _ Hvs) by auto. rewrite Hshape, set_nth_length. auto.
        -- rewrite map_length. lia.
        -- rewrite map_nth, den_shape by auto. rewrite <- Hlen by lia. lia.
        -- rewrite nth_sel_map by (auto; try lia; apply inb_length; auto). rewrite Haxk.
           replace (map (fun t => nth axis (nshape t) 0) (map (den O m) tiles)) with lens; [lia|].
           unfold lens. rewrite map_map. apply map_ext_in. intros u Hu. rewrite den_shape; auto. apply Hwt; auto.
      * intros _. apply (g_dt _ _ _ _ Gb) in W2 as [D1 D2]. split; auto. rewrite D2.
        destruct (Hst _ Hin) as (_ & _ & D3). rewrite D3, Hhd. simpl. rewrite Etl. auto.
      * intros Hnl. apply Gb. simpl in Hnl. rewrite fold_right_and_Forall, Forall_forall in Hnl. auto.
    + (* a slice *)
      destruct Hk2 as (Hstep & l & El & Hl & Hok). rewrite El. simpl bind.
      replace (match s_step sl with Some st => (st <? 0)%Z | None => false end) with false
        by (destruct (s_step sl); auto; lia).
      simpl in Haxk. rewrite El in Haxk. injection Haxk as Haxk. symmetry in Haxk.
      eapply (Hmany l (map Z.to_nat l)); [auto|auto|apply slice_idx_bounds in El; auto|auto|exact Hok].
    + destruct Hk2 as (Hl & Hpos & Hok). simpl in Haxk. destruct (norm_ints l (sum lens)) as [r|] eqn:El; [|discriminate].
      injection Haxk as Haxk. symmetry in Haxk. destruct (norm_ints_nonneg _ _ _ El Hpos) as [-> HB].
      apply (Hmany l (map Z.to_nat l)); simpl; auto.
    + destruct Hk2 as (Hl & Hpos & Hok). simpl in Haxk. destruct (norm_ints l (sum lens)) as [r|] eqn:El; [|discriminate].
      injection Haxk as Haxk. symmetry in Haxk. destruct (norm_ints_nonneg _ _ _ El Hpos) as [-> HB].
      apply (Hmany l (map Z.to_nat l)); simpl; auto.
    + destruct Hk2 as (Hl & Hpos & Hok). simpl in Haxk. destruct (norm_ints l (sum lens)) as [r|] eqn:El; [|discriminate].
      injection Haxk as Haxk. symmetry in Haxk. destruct (norm_ints_nonneg _ _ _ El Hpos) as [-> HB].
      apply (Hmany l (map Z.to_nat l)); simpl; auto.
Qed.

(** [tile_form] covers what a tile is handed. *)
Lemma tile_forms (tiles : list barr) axis idx inc (rk : list key) (okt : barr -> list key -> Prop) :
  let lens := map (fun t => nth axis (shape t) 0) tiles in
  Forall (fun i => 0 <= i < Z.of_nat (sum lens))%Z idx -> (inc = true -> incb idx = true) ->
  (forall t, In t tiles -> forall k', tile_form inc (nth axis (shape t) 0) k' -> okt t (set_nth axis k' rk)) ->
  forall t is u, In (Z.of_nat t, is) (runs lens idx) -> nth_error tiles t = Some u -> okt u (set_nth axis (tile_key (sum (firstn t lens)) is) rk).
Proof.
  intros lens Hb Hi Hok t is u Hg Hu. destruct (runs_ok lens idx Hb _ Hg) as (t' & E & Ht & Gne & GB). cbn [fst snd] in *. assert (t' = t) by lia. subst t'.
  apply Hok; [eapply nth_error_In; eauto|].
  assert (El : nth t lens 0 = nth axis (shape u) 0) by (unfold lens; rewrite (nth_map _ _ _ _ u) by (eapply nth_error_Some; rewrite Hu; discriminate); rewrite (nth_error_nth _ _ _ Hu); auto).
  rewrite <- El. apply (tile_key_ok inc); auto. intros H. apply (runs_inc lens idx (Z.of_nat t, is)); auto.
Qed.

Lemma get_mosaic tiles axis : Forall Pget tiles -> Pget (AMosaic tiles axis).
Proof.
  intros IH keys ks s Hw Hexp Hs Hk. cbn [okk] in Hk. cbv zeta in Hk. eapply gen_mosaic; eauto. cbv zeta.
  destruct Hk as [[Hk1 Hk2]|[Hk1 Hk2]]; [left; split; auto; rewrite fold_right_and_Forall, Forall_forall in Hk2; auto|]. right. split; auto.
  set (rk := drop_new ks) in *. set (lens := map (fun t => nth axis (shape t) 0) tiles) in *.
  destruct (nth axis rk KBad) as [i|sl|l|l|l|l| | |]; auto.
  - destruct Hk2 as [Hi Hok]. split; auto. intros t j u _ Hu Hj ->. rewrite fold_right_and_Forall, Forall_forall in Hok.
    apply (Hok u); [eapply nth_error_In; eauto|].
    assert (El : nth t lens 0 = nth axis (shape u) 0) by (unfold lens; rewrite (nth_map _ _ _ _ u) by (eapply nth_error_Some; rewrite Hu; discriminate); rewrite (nth_error_nth _ _ _ Hu); auto).
    lia.
  - destruct Hk2 as ((l & El & Hl) & Hstep & Hok). split; auto. exists l. split; auto. split; auto. intros Hb.
    rewrite fold_right_and_Forall, Forall_forall in Hok. apply (tile_forms tiles axis l true); auto. intros _. apply (slice_idx_inc _ _ _ El Hstep).
  - destruct Hk2 as (Hl & Hpos & Hok). split; auto. split; auto. intros Hb.
    rewrite fold_right_and_Forall, Forall_forall in Hok. apply (tile_forms tiles axis l (incb l)); auto.
  - destruct Hk2 as (Hl & Hpos & Hok). split; auto. split; auto. intros Hb.
    rewrite fold_right_and_Forall, Forall_forall in Hok. apply (tile_forms tiles axis l (incb l)); auto.
  - destruct Hk2 as (Hl & Hpos & Hok). split; auto. split; auto. intros Hb.
    rewrite fold_right_and_Forall, Forall_forall in Hok. apply (tile_forms tiles axis l (incb l)); auto.
Qed.

End GetMosaic.
