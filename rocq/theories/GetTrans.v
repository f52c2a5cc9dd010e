(** GetTrans: indexing a TransposedArray. *)
From Coq Require Import Permutation.
From Verif Require Import Base PySlice Keys NDArray Arrays Spec Supported Lib SelLemmas KeyLemmas NewAxLemmas GetBase GetSimple GetBcast.

(** Pointwise form of a selection. *)
Lemma sel_keys_nth ks sh s : nonew ks ->
  sel_keys ks sh = Some s <->
  (length ks = length sh /\ length s = length sh /\
   forall i, i < length sh -> sel_key (nth i ks KBad) (nth i sh 0) = Some (nth i s DNew)).
Proof.
  revert sh s; induction ks as [|k ks IH]; intros sh s HN.
  - simpl. destruct sh; split.
    + intros H; injection H as <-. repeat split; auto. intros i Hi; simpl in Hi; lia.
    + intros (_ & H & _). destruct s; [auto|discriminate].
    + discriminate.
    + intros (H & _). discriminate.
  - apply nonew_cons in HN as [HN1 HN2]. split.
    + intros H. destruct sh as [|n sh].
      { apply sel_keys_cons in H as [(-> & _)|(_ & _ & n & sh & d & r & E & _)]; discriminate. }
      apply sel_keys_inv in H as (d & r & -> & Ed & Er); auto.
      apply IH in Er as (E1 & E2 & E3); auto. simpl. repeat split; try lia.
      intros [|i] Hi; auto. apply E3. lia.
    + intros (E1 & E2 & E3). destruct sh as [|n sh]; [discriminate|]. destruct s as [|d s]; [discriminate|].
      simpl in E1, E2. rewrite sel_keys_cons_eq by auto. pose proof (E3 0 ltac:(simpl; lia)) as E30. simpl in E30. rewrite E30.
      replace (sel_keys ks sh) with (Some s); auto. symmetry. apply IH; auto. repeat split; try lia.
      intros i Hi. apply (E3 (S i)); simpl; lia.
Qed.

(** Coordinates of a selection. *)
Lemma nth_sel_map s : forall o i, Forall (fun d => d <> DNew) s -> length o = length (sel_shape s) -> i < length s ->
  nth i (sel_map s o) 0 = match nth i s DNew with
                          | DPt p => p
                          | DLs l => nth (nth (rk s i) o 0) l 0
                          | DNew => 0 end.
Proof.
  induction s as [|d s IH]; intros o i HF HL Hi; [simpl in Hi; lia|].
  inversion HF; subst. unfold rk in *. destruct d; simpl in *; try congruence.
  - destruct i; auto. rewrite IH by (auto; lia). simpl. rewrite count_if_cons. auto.
  - destruct o as [|j o]; [discriminate|]. simpl in HL. destruct i; auto. simpl. rewrite IH by (auto; lia).
    unfold rk. cbn [firstn]. rewrite ?count_if_cons. auto.
Qed.
Lemma nth_sel_shape s : forall i l, Forall (fun d => d <> DNew) s -> i < length s -> nth i s DNew = DLs l ->
  nth (rk s i) (sel_shape s) 0 = length l /\ rk s i < length (sel_shape s).
Proof.
  induction s as [|d s IH]; intros i l HF Hi Hd; [simpl in Hi; lia|].
  inversion HF; subst. unfold rk in *. destruct i as [|i]; simpl in *.
  - subst d. simpl. rewrite count_if_nil. simpl. split; [auto|lia].
  - rewrite count_if_cons. destruct (IH i l H2 ltac:(lia) Hd) as [E1 E2].
    destruct d; simpl in *; try congruence; auto. split; [auto|lia].
Qed.
Definition nonpt (s : list dsel) (i : nat) : bool := negb (is_pt_sel (nth i s DNew)).
Lemma nonpt_list s i : Forall (fun d => d <> DNew) s -> i < length s -> nonpt s i = true ->
  exists l, nth i s DNew = DLs l.
Proof.
  intros HF Hi H. unfold nonpt in H. pose proof (nth_Forall _ _ i DNew HF Hi) as Hn.
  destruct (nth i s DNew); simpl in *; try discriminate; try congruence; eauto.
Qed.
Lemma firstn_seq_nth {A} (d : A) s i : i <= length s -> firstn i s = map (fun j => nth j s d) (seq 0 i).
Proof.
  revert i; induction s as [|x s IH]; intros [|i] Hi; simpl in *; auto; try lia.
  f_equal. rewrite IH by lia. rewrite <- seq_shift, map_map. auto.
Qed.
Lemma count_if_map {A B} (p : B -> bool) (f : A -> B) l : count_if p (map f l) = count_if (fun x => p (f x)) l.
Proof. induction l; simpl; auto. rewrite !count_if_cons. auto. Qed.
Lemma count_if_ext {A} (p q : A -> bool) l : (forall x, In x l -> p x = q x) -> count_if p l = count_if q l.
Proof. induction l; simpl; intros; auto. rewrite !count_if_cons, H, IHl by auto. auto. Qed.
Lemma count_if_negb {A} (p : A -> bool) l : count_if (fun x => negb (p x)) l = length l - count_if p l.
Proof.
  induction l as [|x l IH]; auto. rewrite !count_if_cons. pose proof (count_if_le p l). cbn [length].
  destruct (p x); cbn [negb]; lia.
Qed.
Lemma rk_count s i : i <= length s -> rk s i = i - count_if (fun j => negb (nonpt s j)) (seq 0 i).
Proof.
  intros Hi. unfold rk. rewrite (firstn_seq_nth DNew) by auto. rewrite count_if_map.
  rewrite count_if_negb, seq_length. f_equal. apply count_if_ext. intros x _. unfold nonpt. rewrite negb_involutive. auto.
Qed.

(** The axis list left after dropping the scalar axes. *)
Lemma count_seq_le (f : nat -> bool) j m : count_if f (seq j m) <= m.
Proof. pose proof (count_if_le f (seq j m)). rewrite seq_length in H. auto. Qed.
Lemma drop_fold (f : nat -> bool) axes n : Forall (fun x => x < n) axes -> forall m j, j + m = n ->
  fold_left drop_axis (rev (filter f (seq j m))) axes
  = map (fun ax => ax - count_if f (seq j (ax - j))) (filter (fun ax => negb ((j <=? ax) && f ax)) axes).
Proof.
  intros HF. induction m as [|m IH]; intros j Hj.
  - simpl. rewrite (map_ext_in _ (fun x => x)).
    + rewrite map_id. symmetry. induction HF as [|x l Hx HF IHF]; simpl; auto.
      replace (j <=? x) with false by lia. simpl. f_equal; auto.
    + intros x Hx. apply filter_In in Hx as [Hx _]. rewrite Forall_forall in HF. apply HF in Hx.
      replace (x - j) with 0 by lia. simpl. rewrite count_if_nil. lia.
  - cbn [seq filter]. destruct (f j) eqn:Ef.
    + cbn [rev]. rewrite fold_left_app, IH by lia. cbn [fold_left]. unfold drop_axis.
      clear IH. induction HF as [|x l Hx HF IHF]; auto.
      cbn [filter map].
      destruct (Nat.compare_spec x j) as [E|E|E].
      * subst x. replace (S j <=? j) with false by lia. replace (j <=? j) with true by lia. rewrite Ef.
        cbn [andb negb map filter]. replace (j - S j) with 0 by lia. cbn [seq]. rewrite count_if_nil.
        replace (j - 0 =? j) with true by lia. cbn [negb]. auto.
      * replace (S j <=? x) with false by lia. replace (j <=? x) with false by lia.
        cbn [andb negb map filter]. replace (x - S j) with 0 by lia. replace (x - j) with 0 by lia.
        cbn [seq]. rewrite count_if_nil. replace (x - 0 =? j) with false by lia. cbn [negb map].
        replace (j <=? x - 0) with false by lia. f_equal. auto.
      * replace (S j <=? x) with true by lia. replace (j <=? x) with true by lia. cbn [andb].
        destruct (f x); cbn [negb map filter]; auto.
        pose proof (count_seq_le f (S j) (x - S j)).
        replace (x - count_if f (seq (S j) (x - S j)) =? j) with false by lia. cbn [negb map].
        replace (j <=? x - count_if f (seq (S j) (x - S j))) with true by lia. f_equal; auto.
        replace (x - j) with (S (x - S j)) by lia. cbn [seq]. rewrite count_if_cons, Ef. lia.
    + rewrite IH by lia. clear IH. induction HF as [|x l Hx HF IHF]; auto.
      cbn [filter map].
      assert (HH : (S j <=? x) && f x = (j <=? x) && f x).
      { destruct (Nat.eq_dec x j) as [->|]; [rewrite Ef, !andb_false_r; auto|].
        f_equal. lia. }
      rewrite HH. destruct (negb ((j <=? x) && f x)); cbn [map]; auto. f_equal; auto.
      destruct (Nat.leb_spec x j).
      * replace (x - S j) with 0 by lia. replace (x - j) with 0 by lia. auto.
      * replace (x - j) with (S (x - S j)) by lia. cbn [seq]. rewrite count_if_cons, Ef. lia.
Qed.

Lemma new_order_rank axes ks s n : length ks = n -> length s = n -> Forall (fun x => x < n) axes ->
  (forall i, i < n -> is_scalar (nth i ks KBad) = negb (nonpt s i)) ->
  new_order axes ks = map (rk s) (filter (nonpt s) axes).
Proof.
  intros HL HL2 HF HS. unfold new_order, scalar_positions. rewrite HL.
  rewrite (drop_fold _ axes n HF n 0) by auto.
  rewrite (filter_ext_in _ (nonpt s)).
  - apply map_ext_in. intros x Hx. apply filter_In in Hx as [Hx _]. rewrite Forall_forall in HF.
    pose proof (HF _ Hx). rewrite rk_count by lia. rewrite Nat.sub_0_r. f_equal. apply count_if_ext.
    intros y Hy. apply in_seq in Hy. apply HS. lia.
  - intros x Hx. rewrite Forall_forall in HF. simpl. rewrite HS by auto. apply negb_involutive.
Qed.

Lemma nth_filter_count {A} (p : A -> bool) l j d : j < length l -> p (nth j l d) = true ->
  nth (count_if p (firstn j l)) (filter p l) d = nth j l d /\ count_if p (firstn j l) < length (filter p l).
Proof.
  revert j; induction l as [|x l IH]; intros j Hj Hp; [simpl in Hj; lia|].
  destruct j as [|j]; simpl in *.
  - rewrite Hp, count_if_nil. simpl. split; [auto|lia].
  - rewrite count_if_cons. destruct (IH j ltac:(lia) Hp) as [E1 E2]. destruct (p x); simpl; auto. split; [auto|lia].
Qed.

Lemma rk_inj s i j : Forall (fun d => d <> DNew) s -> i < length s -> j < length s ->
  nonpt s i = true -> nonpt s j = true -> rk s i = rk s j -> i = j.
Proof.
  intros HF.
  assert (W : forall i j, i < j -> j < length s -> nonpt s i = true -> rk s i < rk s j).
  { clear. intros i j Hij Hj Hi. unfold rk. replace j with (i + S (j - i - 1)) by lia.
    rewrite firstn_app_2 || idtac.
    rewrite <- (firstn_skipn i s) at 2. rewrite firstn_app.
    rewrite firstn_length. replace (Nat.min i (length s)) with i by lia.
    replace (i + S (j - i - 1) - i) with (S (j - i - 1)) by lia.
    rewrite firstn_firstn. replace (Nat.min (i + S (j - i - 1)) i) with i by lia.
    rewrite count_if_app. destruct (skipn i s) as [|x r] eqn:E.
    - assert (length (skipn i s) = 0) by (rewrite E; auto). rewrite skipn_length in H. lia.
    - cbn [firstn]. rewrite count_if_cons.
      assert (x = nth i s DNew). { rewrite <- (Nat.add_0_r i), <- nth_skipn_plus, E. auto. }
      subst x. unfold nonpt in Hi. rewrite Hi. lia. }
  intros Hi Hj Pi Pj E. destruct (Nat.lt_trichotomy i j) as [H|[H|H]]; auto.
  - pose proof (W i j H Hj Pi). lia.
  - pose proof (W j i H Hi Pj). lia.
Qed.

Lemma sel_shape_map {A} (g : A -> dsel) l : Forall (fun x => g x <> DNew) l ->
  sel_shape (map g l) = map (fun x => match g x with DLs q => length q | _ => 0 end)
                            (filter (fun x => negb (is_pt_sel (g x))) l).
Proof.
  induction 1 as [|x l Hx HF IH]; simpl; auto. destruct (g x) eqn:E; simpl; try congruence.
  rewrite E. f_equal; auto.
Qed.

Lemma filter_seq_shape s : Forall (fun d => d <> DNew) s ->
  length (filter (nonpt s) (seq 0 (length s))) = length (sel_shape s).
Proof.
  intros HF. replace (sel_shape s) with (sel_shape (map (fun i => nth i s DNew) (seq 0 (length s)))).
  - rewrite sel_shape_map.
    + rewrite map_length. auto.
    + apply Forall_forall. intros i Hi. apply in_seq in Hi. apply nth_Forall; auto. lia.
  - f_equal. rewrite <- (firstn_seq_nth DNew s (length s)) by auto. apply firstn_all.
Qed.

Lemma Permutation_filter' {A} (p : A -> bool) l l' : Permutation l l' -> Permutation (filter p l) (filter p l').
Proof.
  induction 1; simpl; auto.
  - destruct (p x); auto.
  - destruct (p x), (p y); auto. constructor.
  - etransitivity; eauto.
Qed.

Lemma perm_Permutation axes n : perm axes n -> Permutation axes (seq 0 n).
Proof.
  intros (HL & HN & HF). apply NoDup_Permutation_bis; auto.
  - rewrite seq_length. lia.
  - intros x Hx. rewrite Forall_forall in HF. apply in_seq. specialize (HF _ Hx). lia.
Qed.

Lemma NoDup_map_inj {A B} (f : A -> B) l : (forall x y, In x l -> In y l -> f x = f y -> x = y) ->
  NoDup l -> NoDup (map f l).
Proof.
  intros H HN. induction HN as [|x l Hx HN IH]; simpl; constructor.
  - intros Hi. apply in_map_iff in Hi as (y & E & Hy). apply H in E; simpl; auto. subst; auto.
  - apply IH. intros; apply H; simpl; auto.
Qed.

Section GetTrans.
Context {V : Type} (O : numops V).
Notation barr := (@barr V).
Notation good := (good O).
Notation Pget := (Pget O).

Lemma gen_trans K a axes keys ks s : Pgen O K a ->
  wf (ATrans a axes) -> np_expand keys (ndim (ATrans a axes)) = Ok ks -> sel_keys ks (shape (ATrans a axes)) = Some s ->
  K a (apply_inverse KBad axes (drop_new ks)) ->
  exists b, getitem (ATrans a axes) keys = Ok b /\ good (ATrans a axes) b s.
Proof.
  intros IH Hw Hexp Hs Hk. pose proof Hw as (Hwa & HL & HND & HF).
  cbn [getitem]. apply (base_getitem_ok O (ATrans a axes) _ keys s ks); auto.
  intros cs Hcs. cbn [shape] in *. set (fks := drop_new ks) in *.
  set (n := ndim a) in *. assert (HP : perm axes n) by (split; [|split]; auto).
  rewrite (apply_forward_spec 0 axes (shape a) n) in * by auto.
  assert (HNf : nonew fks) by apply drop_new_nonew.
  pose proof (proj1 (sel_keys_nth _ _ _ HNf) Hcs) as (HLk & HLc & Hnth).
  rewrite map_length in HLk, HLc, Hnth. rewrite HL in *.
  assert (HFc : Forall (fun d => d <> DNew) cs).
  { eapply vsel_nodnew; [|eapply sel_keys_valid, Hcs]. rewrite map_length. lia. }
  unfold apply_inverse in *. rewrite HL in *. rewrite (scatter_index axes fks KBad n HP HLk) in *.
  set (pos := fun ax => match index_of ax axes with Some j => j | None => 0 end).
  assert (Hpos : forall ax, ax < n -> index_of ax axes = Some (pos ax) /\ pos ax < n /\ nth (pos ax) axes 0 = ax).
  { intros ax Hax. destruct (index_of_In ax axes) as [j Ej]. eapply perm_In; eauto.
    unfold pos. rewrite Ej. split; auto. apply index_of_Some in Ej. rewrite HL in Ej. auto. }
  assert (Erk : map (fun ax => match index_of ax axes with Some j => nth j fks KBad | None => KBad end) (seq 0 n)
                = map (fun ax => nth (pos ax) fks KBad) (seq 0 n)).
  { apply map_ext_in. intros ax Hax. apply in_seq in Hax. destruct (Hpos ax ltac:(lia)) as (-> & _). auto. }
  rewrite Erk in *. set (rks := map (fun ax => nth (pos ax) fks KBad) (seq 0 n)) in *.
  set (s' := map (fun ax => nth (pos ax) cs DNew) (seq 0 n)).
  assert (HLr : length rks = n) by (unfold rks; rewrite map_length, seq_length; auto).
  assert (HLs : length s' = n) by (unfold s'; rewrite map_length, seq_length; auto).
  assert (Hs' : forall i, i < n -> nth i s' DNew = nth (pos i) cs DNew) by (intros; unfold s'; apply (nth_map_seq (fun ax => nth (pos ax) cs DNew)); auto).
  assert (Hr' : forall i, i < n -> nth i rks KBad = nth (pos i) fks KBad) by (intros; unfold rks; apply (nth_map_seq (fun ax => nth (pos ax) fks KBad)); auto).
  assert (HNr : nonew rks).
  { apply existsb_false_Forall. apply Forall_forall. intros k Hin. apply in_map_iff in Hin as (ax & <- & Hax).
    apply in_seq in Hax. destruct (Hpos ax ltac:(lia)) as (_ & Hp & _).
    apply existsb_false_Forall in HNf. apply nth_Forall; auto. lia. }
  assert (HFs : Forall (fun d => d <> DNew) s').
  { apply Forall_forall. intros d Hd. apply in_map_iff in Hd as (ax & <- & Hax). apply in_seq in Hax.
    destruct (Hpos ax ltac:(lia)) as (_ & Hp & _). apply nth_Forall; auto. lia. }
  assert (Hsel : sel_keys rks (shape a) = Some s').
  { apply sel_keys_nth; auto. split; [auto|]. split; [auto|]. intros i Hi. fold (ndim a) in Hi. fold n in Hi.
    rewrite Hs', Hr' by auto. destruct (Hpos i Hi) as (_ & Hp & Hax).
    specialize (Hnth (pos i) Hp). rewrite (nth_map _ _ _ _ 0) in Hnth by lia. rewrite Hax in Hnth. auto. }
  destruct (Pgen_full _ _ _ _ _ IH Hwa Hsel Hk) as (b & Eb & Gb).
  cbv beta zeta. rewrite Eb. simpl bind.
  assert (Hsc : forall i, i < n -> is_scalar (nth i rks KBad) = negb (nonpt s' i)).
  { intros i Hi. apply sel_keys_nth in Hsel as (_ & _ & Hsel); auto. specialize (Hsel i Hi).
    unfold nonpt. rewrite negb_involutive.
    apply sel_key_kind in Hsel as [(-> & p & ->)|(-> & l & ->)]; auto. }
  rewrite (new_order_rank axes rks s' n) by auto. set (ord := map (rk s') (filter (nonpt s') axes)).
  pose proof (good_shape _ _ _ _ Gb) as Shb.
  assert (HLo : length ord = length (sel_shape s')).
  { unfold ord. rewrite map_length. rewrite <- filter_seq_shape by auto. apply Permutation_length.
    apply Permutation_filter'. rewrite HLs. apply perm_Permutation; auto. }
  assert (HNo : NoDup ord).
  { apply NoDup_map_inj; [|apply NoDup_filter; auto]. rewrite Forall_forall in HF.
    intros x y Hx Hy. apply filter_In in Hx as [Hx1 Hx2]. apply filter_In in Hy as [Hy1 Hy2].
    apply HF in Hx1, Hy1. apply rk_inj; auto; lia. }
  assert (HFo : Forall (fun x => x < length (sel_shape s')) ord).
  { apply Forall_forall. intros y Hy. apply in_map_iff in Hy as (ax & <- & Hax). apply filter_In in Hax as [Hax Hnp].
    rewrite Forall_forall in HF. apply HF in Hax. rewrite <- HLs in Hax.
    destruct (nonpt_list _ _ HFs Hax Hnp) as [l El]. eapply nth_sel_shape; eauto. }
  unfold mk_trans. replace (length ord =? ndim b) with true by (unfold ndim; rewrite Shb; lia).
  eexists; split; [reflexivity|].
  assert (Ecs : cs = map (fun ax => nth ax s' DNew) axes).
  { apply (nth_error_ext_nth DNew); [rewrite map_length; lia|]. intros j Hj. rewrite (nth_map _ _ _ _ 0) by lia.
    assert (Hax : nth j axes 0 < n) by (apply nth_Forall; auto; lia).
    rewrite Hs' by auto. f_equal. unfold pos. rewrite index_of_nth by (auto; lia). auto. }
  assert (Eshp : map (fun ax => nth ax (sel_shape s') 0) ord = sel_shape cs).
  { rewrite Ecs. rewrite sel_shape_map.
    - unfold ord. rewrite map_map. change (fun x => negb (is_pt_sel (nth x s' DNew))) with (nonpt s').
      apply map_ext_in. intros ax Hax. apply filter_In in Hax as [Hax Hnp].
      rewrite Forall_forall in HF. apply HF in Hax. rewrite <- HLs in Hax.
      destruct (nonpt_list _ _ HFs Hax Hnp) as [l El]. rewrite El. eapply nth_sel_shape; eauto.
    - apply Forall_forall. intros ax Hax. rewrite Forall_forall in HF. apply HF in Hax. apply nth_Forall; auto; lia. }
  split.
  - simpl. split; [apply Gb|]. unfold ndim. rewrite Shb. auto.
  - intros m. destruct (g_den _ _ _ _ Gb m) as [A1 A2]. split; simpl.
    + rewrite A1. auto.
    + rewrite A1. simpl. rewrite Eshp. intros o Ho. rewrite HL, HLo. pose proof (inb_length _ _ Ho) as HLoo.
      set (q := map (fun ax => match index_of ax ord with Some d => nth d o 0 | None => 0 end) (seq 0 (length (sel_shape s')))).
      assert (Hq : inb (sel_shape s') q).
      { apply inb_ext. unfold q; rewrite map_length, seq_length; auto. intros i Hi. unfold q. rewrite nth_map_seq by auto.
        destruct (index_of_In i ord) as [d Ed].
        { eapply perm_In; [|apply Hi]. split; [|split]; auto. }
        rewrite Ed. apply index_of_Some in Ed as [Hd1 Hd2].
        assert (nth d o 0 < nth d (sel_shape cs) 0) by (apply inb_nth; auto; rewrite <- Eshp, map_length; auto).
        rewrite <- Eshp in H. rewrite (nth_map _ _ _ _ 0) in H by auto. rewrite Hd2 in H. auto. }
      rewrite A2 by (rewrite A1; auto). simpl. f_equal.
      apply (nth_error_ext_nth 0).
      { rewrite (sel_map_length s' (shape a)) by (auto; eapply sel_keys_valid; eauto). rewrite map_length, seq_length. auto. }
      rewrite (sel_map_length s' (shape a)) by (auto; eapply sel_keys_valid; eauto). intros i Hi. fold (ndim a) in Hi. fold n in Hi.
      rewrite nth_map_seq by auto. destruct (Hpos i Hi) as (Ei & Hp & Hax). rewrite Ei.
      rewrite nth_sel_map by (auto; try lia; apply inb_length; auto).
      rewrite nth_sel_map by (auto; lia).
      rewrite <- Hs' by auto. destruct (nth i s' DNew) as [p|l|] eqn:Ed; auto.
      f_equal. assert (Hnp : nonpt s' i = true) by (unfold nonpt; rewrite Ed; auto).
      destruct (nth_sel_shape s' i l HFs ltac:(lia) Ed) as [_ Hrk].
      unfold q. rewrite nth_map_seq by auto.
      assert (Hidx : nth (rk cs (pos i)) ord 0 = rk s' i /\ rk cs (pos i) < length ord).
      { assert (Ecnt : rk cs (pos i) = count_if (nonpt s') (firstn (pos i) axes)).
        { unfold rk. rewrite Ecs at 1. rewrite firstn_map, count_if_map. auto. }
        destruct (nth_filter_count (nonpt s') axes (pos i) 0) as [F1 F2]; [lia|rewrite Hax; auto|].
        rewrite Ecnt. unfold ord. rewrite map_length. split; auto.
        rewrite (nth_map _ _ _ _ 0) by auto. rewrite F1, Hax. auto. }
      destruct Hidx as [Hi1 Hi2]. rewrite <- Hi1. rewrite index_of_nth by auto. auto.
  - intros Hst. simpl in Hst. apply (g_dt _ _ _ _ Gb) in Hst as [H1 H2]. simpl. auto.
  - simpl. auto.
Qed.
Lemma get_trans a axes : Pget a -> Pget (ATrans a axes).
Proof. intros IH keys ks s Hw Hexp Hs Hk. eapply gen_trans; eauto. Qed.

End GetTrans.
