(** GetBase: induction over array expressions, reported versus denoted shape,
    and the parts of indexing shared by all classes. *)
From Verif Require Import Base PySlice Keys NDArray Arrays Spec Supported Lib SelLemmas KeyLemmas NewAxLemmas.
From Coq Require Import ZifyBool ZifyNat.

(** ** Induction with hypotheses for stack items and tiles *)
Section Ind.
Context {V : Type} (P : @barr V -> Prop).
Hypothesis HConst : forall sh v d, P (AConst sh v d).
Hypothesis HAdapt : forall o c ks, P (AAdapt o c ks).
Hypothesis HNewAx : forall a na, P a -> P (ANewAx a na).
Hypothesis HBcast : forall a dict lead, P a -> P (ABcast a dict lead).
Hypothesis HAsTy : forall a d, P a -> P (AAsTy a d).
Hypothesis HMaskV : forall a v, P a -> P (AMaskV a v).
Hypothesis HTrans : forall a axes, P a -> P (ATrans a axes).
Hypothesis HStack : forall ssh items, Forall P items -> P (AStack ssh items).
Hypothesis HMosaic : forall tiles axis, Forall P tiles -> P (AMosaic tiles axis).
Hypothesis HAgg : forall g a axis d, P a -> P (AAgg g a axis d).
Hypothesis HEl1 : forall o a d, P a -> P (AEl1 o a d).
Hypothesis HEl2 : forall o a b d, P a -> P b -> P (AEl2 o a b d).
Fixpoint barr_ind2 (a : barr) : P a :=
  let fl := fix fl (l : list barr) : Forall P l :=
    match l with [] => Forall_nil P | x :: l' => Forall_cons x (barr_ind2 x) (fl l') end in
  match a with
  | AConst sh v d => HConst sh v d
  | AAdapt o c ks => HAdapt o c ks
  | ANewAx a na => HNewAx a na (barr_ind2 a)
  | ABcast a dict lead => HBcast a dict lead (barr_ind2 a)
  | AAsTy a d => HAsTy a d (barr_ind2 a)
  | AMaskV a v => HMaskV a v (barr_ind2 a)
  | ATrans a axes => HTrans a axes (barr_ind2 a)
  | AStack ssh items => HStack ssh items (fl items)
  | AMosaic tiles axis => HMosaic tiles axis (fl tiles)
  | AAgg g a axis d => HAgg g a axis d (barr_ind2 a)
  | AEl1 o a d => HEl1 o a d (barr_ind2 a)
  | AEl2 o a b d => HEl2 o a b d (barr_ind2 a) (barr_ind2 b)
  end.
End Ind.

(** ** Permutations of axes *)

Definition perm (axes : list nat) (n : nat) : Prop :=
  length axes = n /\ NoDup axes /\ Forall (fun x => x < n) axes.

Lemma perm_In axes n x : perm axes n -> x < n -> In x axes.
Proof.
  intros (HL & HN & HF) Hx.
  assert (H : incl (seq 0 n) axes).
  { apply NoDup_length_incl; auto. rewrite seq_length; lia.
    intros y Hy. apply in_seq. rewrite Forall_forall in HF. apply HF in Hy. lia. }
  apply H. apply in_seq. lia.
Qed.

Lemma scatter_length {A} axes (items acc : list A) : length (scatter axes items acc) = length acc.
Proof. revert items acc; induction axes as [|x axes IH]; intros [|y items] acc; simpl; auto.
  rewrite IH, set_nth_length. auto. Qed.

Lemma nth_scatter_notin {A} axes (items acc : list A) i d : ~ In i axes ->
  nth i (scatter axes items acc) d = nth i acc d.
Proof. revert items acc; induction axes as [|x axes IH]; intros [|y items] acc H; simpl; auto.
  simpl in H. rewrite IH by tauto. apply nth_set_nth_neq. intros E; apply H; auto. Qed.

Lemma nth_scatter {A} axes (items acc : list A) j d : NoDup axes -> length axes = length items ->
  Forall (fun x => x < length acc) axes -> j < length axes ->
  nth (nth j axes 0) (scatter axes items acc) d = nth j items d.
Proof.
  revert items acc j; induction axes as [|x axes IH]; intros [|y items] acc j HN HL HF Hj; simpl in *; try lia.
  inversion HN; subst. inversion HF; subst. destruct j as [|j].
  - rewrite nth_scatter_notin by auto. apply nth_set_nth_eq; auto.
  - apply IH; auto; try lia. rewrite set_nth_length; auto.
Qed.

Lemma scatter_index {A} axes (items : list A) d n : perm axes n -> length items = n ->
  scatter axes items (repeat d n)
  = map (fun ax => match index_of ax axes with Some j => nth j items d | None => d end) (seq 0 n).
Proof.
  intros (HL & HN & HF) HI. apply (nth_error_ext_nth d).
  - rewrite scatter_length, repeat_length, map_length, seq_length. auto.
  - rewrite scatter_length, repeat_length. intros i Hi.
    assert (Hin : In i axes) by (apply (perm_In axes n); [split; [|split]|]; auto).
    destruct (index_of_In _ _ Hin) as [j Ej]. pose proof (index_of_Some _ _ _ Ej) as [Hj Ejn].
    rewrite nth_map_seq by auto. rewrite Ej. rewrite <- Ejn.
    apply nth_scatter; auto; try lia. rewrite repeat_length; auto.
Qed.

Lemma forward_axes_perm axes n : perm axes n -> perm (forward_axes axes) n.
Proof.
  intros HP. pose proof HP as (HL & HN & HF). unfold forward_axes. rewrite HL. split; [|split].
  - rewrite map_length, seq_length; auto.
  - assert (Hinj : forall x y, In x (seq 0 n) -> In y (seq 0 n) ->
      match index_of x axes with Some d => d | None => 0 end =
      match index_of y axes with Some d => d | None => 0 end -> x = y).
    { intros x y Hx Hy E. apply in_seq in Hx. apply in_seq in Hy.
      destruct (index_of_In x axes) as [i Ei]; [eapply perm_In; eauto; lia|].
      destruct (index_of_In y axes) as [j Ej]; [eapply perm_In; eauto; lia|].
      rewrite Ei, Ej in E. subst j. apply index_of_Some in Ei as [_ Ei]. apply index_of_Some in Ej as [_ Ej].
      congruence. }
    pose proof (seq_NoDup n 0) as HS. revert Hinj HS. generalize (seq 0 n). intros l Hinj HS.
    induction HS as [|x l Hx HS IH]; simpl; constructor.
    + intros Hi. apply in_map_iff in Hi as (y & E & Hy). apply Hx.
      rewrite (Hinj x y); simpl; auto.
    + apply IH. intros a b Ha Hb. apply Hinj; simpl; auto.
  - apply Forall_map. apply Forall_forall. intros x Hx. apply in_seq in Hx.
    destruct (index_of_In x axes) as [i Ei]; [eapply perm_In; eauto; lia|]. rewrite Ei.
    apply index_of_Some in Ei as [Hi _]. lia.
Qed.

Lemma apply_forward_spec {A} (d : A) axes items n : perm axes n -> length items = n ->
  apply_forward d axes items = map (fun ax => nth ax items d) axes.
Proof.
  intros HP HI. pose proof HP as (HL & HN & HF). unfold apply_forward.
  pose proof (forward_axes_perm _ _ HP) as HPf. pose proof HPf as (HLf & HNf & HFf).
  apply (nth_error_ext_nth d); rewrite scatter_length, repeat_length.
  - rewrite map_length; auto.
  - intros i Hi. assert (E : nth (nth i axes 0) (forward_axes axes) 0 = i).
    { unfold forward_axes. assert (Hl : nth i axes 0 < length axes).
      { rewrite HL. apply (nth_Forall (fun x => x < n)); auto. }
      rewrite nth_map_seq by auto. rewrite index_of_nth; auto. }
    rewrite (nth_map _ _ _ _ 0) by auto.
    rewrite <- E at 1. apply nth_scatter; auto.
    + lia.
    + rewrite repeat_length, HL; auto.
    + rewrite HLf, <- HL. rewrite HL. apply (nth_Forall (fun x => x < n)); auto.
Qed.

(** ** Broadcast dictionaries *)

Lemma dict_find_In x d n : dict_find x d = Some n -> In (x, n) d.
Proof. unfold dict_find. destruct (find (fun p => fst p =? x) d) as [[y k]|] eqn:E; [|discriminate].
  intros H; injection H as <-. apply find_some in E as [H1 H2]. simpl in *.
  apply Nat.eqb_eq in H2. subst; auto. Qed.
Lemma dict_find_cons x y n d : dict_find x ((y, n) :: d) = if y =? x then Some n else dict_find x d.
Proof. unfold dict_find. simpl. destruct (y =? x); auto. Qed.
Lemma dict_find_notin x d : ~ In x (map fst d) -> dict_find x d = None.
Proof. intros H. destruct (dict_find x d) eqn:E; auto. apply dict_find_In in E.
  exfalso. apply H. apply in_map_iff. exists (x, n); auto. Qed.
Lemma dict_find_is x d : In x (map fst d) -> exists n, dict_find x d = Some n.
Proof. induction d as [|[y n] d IH]; simpl; [tauto|]. intros H. rewrite dict_find_cons.
  destruct (Nat.eqb_spec y x); eauto. destruct H; [congruence|]. auto. Qed.

Definition dict_fits (sh : list nat) (d : list (nat * nat)) : Prop :=
  Forall (fun p => fst p < length sh /\ nth (fst p) sh 0 = 1) d.

Lemma sfd_char d : forall sh sh', NoDup (map fst d) ->
  (shape_from_dict sh d = Ok sh' <->
   dict_fits sh d /\ length sh' = length sh /\
   forall i, i < length sh -> nth i sh' 0 = match dict_find i d with Some n => n | None => nth i sh 0 end).
Proof.
  induction d as [|[ax n] d IH]; intros sh sh' HN; rewrite shape_from_dict_eq; simpl.
  - split.
    + intros H; injection H as <-. repeat split; auto. constructor.
    + intros (_ & HL & H). f_equal. apply (nth_error_ext_nth 0); auto. intros i Hi. symmetry. apply H; auto.
  - simpl in HN. inversion HN as [|x l Hx HN']; subst. clear HN.
    destruct (Nat.leb_spec (length sh) ax) as [L|L].
    { split; [discriminate|]. intros (H & _). inversion H; subst. simpl in *. lia. }
    destruct (Nat.eqb_spec (nth ax sh 0) 1) as [E|E].
    2:{ split; [discriminate|]. intros (H & _). inversion H; subst. simpl in *. lia. }
    rewrite <- shape_from_dict_eq. rewrite IH by auto. rewrite set_nth_length.
    assert (HD : dict_fits (set_nth ax n sh) d <-> dict_fits sh d).
    { unfold dict_fits. rewrite !Forall_forall. split; intros H p Hp; specialize (H p Hp);
        rewrite set_nth_length in *; (rewrite nth_set_nth_neq in * by
          (intros E'; subst ax; apply Hx; apply in_map; auto)); auto. }
    rewrite HD. split.
    + intros (H1 & H2 & H3). split; [constructor; simpl; auto|]. split; auto.
      intros i Hi. rewrite dict_find_cons. rewrite H3 by auto. destruct (Nat.eqb_spec ax i) as [->|N].
      * rewrite dict_find_notin by auto. apply nth_set_nth_eq; auto.
      * destruct (dict_find i d); auto. apply nth_set_nth_neq; auto.
    + intros (H1 & H2 & H3). inversion H1; subst. split; auto. split; auto.
      intros i Hi. specialize (H3 i Hi). rewrite dict_find_cons in H3. destruct (Nat.eqb_spec ax i) as [->|N].
      * rewrite dict_find_notin by auto. rewrite nth_set_nth_eq by auto. auto.
      * rewrite H3. destruct (dict_find i d); auto. symmetry. apply nth_set_nth_neq; auto.
Qed.

Lemma sfd_fits sh d : NoDup (map fst d) -> dict_fits sh d ->
  exists sh', shape_from_dict sh d = Ok sh'.
Proof.
  revert sh; induction d as [|[ax n] d IH]; intros sh HN HF; rewrite shape_from_dict_eq; simpl; eauto.
  inversion HF as [|p l [H1 H2] HF']; subst. simpl in *. inversion HN as [|x l Hx HN']; subst.
  replace (length sh <=? ax) with false by lia. rewrite H2. simpl. rewrite <- shape_from_dict_eq.
  apply IH; auto. unfold dict_fits in *. rewrite Forall_forall in *. intros p Hp. specialize (HF' p Hp).
  rewrite set_nth_length. rewrite nth_set_nth_neq; auto. intros E; subst ax; apply Hx; apply in_map; auto.
Qed.

Lemma dict_find_app x d e : dict_find x (d ++ e) = match dict_find x d with Some n => Some n | None => dict_find x e end.
Proof. induction d as [|[y n] d IH]; simpl; auto. rewrite !dict_find_cons. destruct (y =? x); auto. Qed.

Lemma dict_set_keys d p : map fst (dict_set d p) = if existsb (fun q => fst q =? fst p) d then map fst d
                                                   else map fst d ++ [fst p].
Proof.
  unfold dict_set. destruct (existsb (fun q => fst q =? fst p) d) eqn:E.
  - rewrite map_map. apply map_ext_in. intros q Hq. destruct (Nat.eqb_spec (fst q) (fst p)); auto.
  - rewrite map_app. auto.
Qed.

Lemma dict_set_find d p x : dict_find x (dict_set d p) = if fst p =? x then Some (snd p) else dict_find x d.
Proof.
  unfold dict_set. destruct (existsb (fun q => fst q =? fst p) d) eqn:E.
  - induction d as [|[y n] d IH]; simpl in *; [discriminate|].
    destruct (Nat.eqb_spec y (fst p)) as [->|N].
    + destruct p as [ax k]; simpl in *. rewrite !dict_find_cons.
      destruct (Nat.eqb_spec ax x) as [->|N]; auto.
      clear IH E. induction d as [|[z j] d IH]; simpl; auto.
      destruct (Nat.eqb_spec z ax) as [->|N2]; rewrite !dict_find_cons.
      * replace (ax =? x) with false by (symmetry; apply Nat.eqb_neq; auto). auto.
      * destruct (z =? x); auto.
    + simpl in E. rewrite !dict_find_cons. rewrite IH by auto.
      destruct (Nat.eqb_spec y x) as [->|N2]; auto.
      replace (fst p =? x) with false; auto. symmetry. apply Nat.eqb_neq. auto.
  - rewrite dict_find_app. destruct p as [ax n]; simpl in *. rewrite dict_find_cons.
    destruct (Nat.eqb_spec ax x) as [->|N].
    + rewrite dict_find_notin; auto. intros Hi. apply in_map_iff in Hi as (q & E1 & Hq).
      rewrite existsb_false_Forall in E. rewrite Forall_forall in E. apply E in Hq.
      apply Nat.eqb_neq in Hq. auto.
    + destruct (dict_find x d); auto.
Qed.

Lemma dict_set_NoDup d p : NoDup (map fst d) -> NoDup (map fst (dict_set d p)).
Proof.
  intros H. rewrite dict_set_keys. destruct (existsb (fun q => fst q =? fst p) d) eqn:E; auto.
  rewrite <- (rev_involutive (map fst d ++ [fst p])). apply NoDup_rev. rewrite rev_app_distr. simpl.
  constructor; [|apply NoDup_rev; auto]. rewrite <- in_rev. intros Hi.
  apply in_map_iff in Hi as (q & E1 & Hq).
  rewrite existsb_false_Forall in E. rewrite Forall_forall in E. apply E in Hq.
  apply Nat.eqb_neq in Hq. auto.
Qed.

Lemma dict_set_In d p q : In q (dict_set d p) -> q = p \/ In q d.
Proof.
  unfold dict_set. destruct (existsb _ d).
  - intros H. apply in_map_iff in H as (x & E & Hx). destruct (fst x =? fst p); subst; auto.
  - intros H. apply in_app_iff in H as [H|[H|[]]]; auto.
Qed.

Lemma dict_update_merge d0 d sh sh1 : NoDup (map fst d0) -> NoDup (map fst d) ->
  shape_from_dict sh d0 = Ok sh1 ->
  forall sh2, shape_from_dict sh1 d = Ok sh2 ->
  shape_from_dict sh (dict_update d0 d) = Ok sh2 /\ NoDup (map fst (dict_update d0 d)).
Proof.
  unfold dict_update. revert d0 sh1. induction d as [|[ax n] d IH]; intros d0 sh1 HN0 HN H0 sh2 H.
  - rewrite shape_from_dict_eq in H. simpl in *. injection H as <-. auto.
  - simpl in HN. inversion HN as [|x l Hx HN']; subst. simpl fold_left.
    rewrite shape_from_dict_eq in H. simpl in H.
    destruct (Nat.leb_spec (length sh1) ax) as [L|L]; [discriminate|].
    destruct (Nat.eqb_spec (nth ax sh1 0) 1) as [E|E]; [|discriminate].
    rewrite <- shape_from_dict_eq in H.
    apply (sfd_char d0) in H0 as (F0 & L0 & P0); auto.
    apply (IH (dict_set d0 (ax, n)) (set_nth ax n sh1)); auto.
    + apply dict_set_NoDup; auto.
    + apply sfd_char; [apply dict_set_NoDup; auto|]. split; [|split].
      * unfold dict_fits in *. rewrite Forall_forall in *. intros q Hq.
        apply dict_set_In in Hq as [->|Hq]; auto. simpl. rewrite <- L0. split; auto.
        assert (Ha : ax < length sh) by lia. specialize (P0 ax Ha). rewrite E in P0.
        destruct (dict_find ax d0) as [k|] eqn:Ef; auto.
        apply dict_find_In in Ef. apply F0 in Ef. simpl in Ef. tauto.
      * rewrite set_nth_length; auto.
      * intros i Hi. rewrite dict_set_find. simpl. destruct (Nat.eqb_spec ax i) as [->|N].
        -- apply nth_set_nth_eq; lia.
        -- rewrite nth_set_nth_neq by auto. apply P0; auto.
Qed.

(** ** Broadcast index maps *)

Lemma bidx_length sh o : length o = length sh -> length (bidx sh o) = length sh.
Proof. revert o; induction sh; intros [|i o] H; simpl in *; auto; discriminate. Qed.
Lemma nth_bidx sh o i : length o = length sh ->
  nth i (bidx sh o) 0 = if nth i sh 0 =? 1 then 0 else nth i o 0.
Proof.
  revert o i; induction sh as [|n sh IH]; intros [|j o] i H; simpl in *; try discriminate.
  - destruct i; auto.
  - destruct i; simpl; auto.
Qed.
Lemma bidx_app sh1 sh2 o1 o2 : length o1 = length sh1 ->
  bidx (sh1 ++ sh2) (o1 ++ o2) = bidx sh1 o1 ++ bidx sh2 o2.
Proof. revert o1; induction sh1; intros [|i o] H; simpl in *; try discriminate; auto. f_equal; auto. Qed.
Lemma bidx_inb sh o : inb sh o -> bidx sh o = o.
Proof. revert o; induction sh as [|n sh IH]; intros o H; simpl.
  - apply inb_nil in H; auto.
  - apply inb_cons_inv in H as (i & o' & -> & Hi & H). rewrite IH by auto.
    destruct (Nat.eqb_spec n 1); auto. f_equal; lia. Qed.
Lemma bc_idx_same sh o : length o = length sh -> bc_idx sh o = bidx sh o.
Proof. intros H. unfold bc_idx. rewrite H, Nat.sub_diag. auto. Qed.
Lemma bc_idx_app sh o1 o2 : length o2 = length sh -> bc_idx sh (o1 ++ o2) = bidx sh o2.
Proof. intros H. unfold bc_idx. rewrite app_length, H, Nat.add_sub.
  rewrite skipn_app, skipn_all, Nat.sub_diag. auto. Qed.

Lemma bidx_dict sh d sh' o : NoDup (map fst d) -> shape_from_dict sh d = Ok sh' -> inb sh' o ->
  inb sh (bidx sh o).
Proof.
  intros HN H Ho. apply sfd_char in H as (F & L & P); auto. pose proof (inb_length _ _ Ho) as HL.
  apply inb_ext. rewrite bidx_length; lia. intros i Hi. rewrite nth_bidx by lia.
  destruct (Nat.eqb_spec (nth i sh 0) 1) as [E|E]; [lia|].
  pose proof (inb_nth _ _ i Ho ltac:(lia)) as Hb. rewrite P in Hb by auto.
  destruct (dict_find i d) eqn:Ef; auto. apply dict_find_In in Ef. unfold dict_fits in F.
  rewrite Forall_forall in F. apply F in Ef. simpl in Ef. tauto.
Qed.

Lemma bidx_twice sh d sh1 o : NoDup (map fst d) -> shape_from_dict sh d = Ok sh1 ->
  length o = length sh -> bidx sh (bidx sh1 o) = bidx sh o.
Proof.
  intros HN H HL. apply sfd_char in H as (F & L & P); auto.
  apply (nth_error_ext_nth 0). rewrite !bidx_length; auto; try (rewrite bidx_length; lia); lia.
  intros i Hi. rewrite !nth_bidx by (try (rewrite bidx_length; lia); lia).
  destruct (Nat.eqb_spec (nth i sh 0) 1) as [E|E]; auto.
  rewrite bidx_length in Hi by (rewrite bidx_length; lia).
  rewrite P by auto.
  destruct (dict_find i d) eqn:Ef.
  - apply dict_find_In in Ef. unfold dict_fits in F.
    rewrite Forall_forall in F. apply F in Ef. simpl in Ef. tauto.
  - replace (nth i sh 0 =? 1) with false; auto. symmetry; apply Nat.eqb_neq; auto.
Qed.

(** ** Reported and denoted shapes agree *)
Section Shapes.
Context {V : Type} (O : numops V).
Notation barr := (@barr V).

Lemma wf_items (items : list barr) :
  fold_right (fun it P => (wf it /\ dt_stable it) /\ P) True items <->
  Forall (fun it => wf it /\ dt_stable it) items.
Proof. apply (fold_right_and_Forall (fun it => wf it /\ dt_stable it)). Qed.

Lemma sel_key_stored_list ks : Forall stored_key ks -> existsb is_list ks = false.
Proof. induction 1 as [|k ks Hk H IH]; simpl; auto. destruct k; simpl in *; auto; contradiction. Qed.

Lemma den_shape m (a : barr) : wf a -> nshape (den O m a) = shape a.
Proof.
  induction a as [sh v d|o c ks|a na IH|a dict lead IH|a d IH|a v IH|a axes IH|ssh items IH|tiles axis IH
                  |g a axis d IH|o a d IH|o a b d IH1 IH2] using barr_ind2; intros Hw; simpl in *; auto.
  - destruct Hw as [Hs Hv]. unfold valid_keys in Hv. unfold oindex. simpl.
    destruct (oselect ks (c_shape c)) as [s|] eqn:E; [|congruence]. simpl.
    rewrite (sliced_shape_ok _ _ _ E) by (apply sel_key_stored_list; auto). auto.
  - destruct Hw as [Hw HL]. rewrite IH by auto. unfold ndim in HL.
    assert (EL : length (full_sels (shape a)) = length (shape a))
      by (unfold full_sels; apply map_length).
    rewrite layout_flags by (rewrite EL; auto). rewrite EL.
    rewrite sel_shape_laymk by (apply nK_flags; auto). symmetry. apply layout_flags; auto.
  - destruct Hw as (Hw & _). rewrite IH by auto. auto.
  - destruct Hw as (Hw & HP). rewrite IH by auto. symmetry. eapply apply_forward_spec; [|reflexivity].
    destruct HP as (H1 & H2 & H3). repeat split; eauto.
  - destruct Hw as (Hne & HL & Hw & HF). apply wf_items in Hw. destruct items as [|it items]; [congruence|].
    simpl. inversion IH; subst. inversion Hw; subst. rewrite H1 by tauto. auto.
  - destruct Hw as (Hne & Hw & HF). apply wf_items in Hw. destruct tiles as [|t tiles]; [congruence|].
    simpl. inversion IH as [|x l Ht Hts]; subst. inversion Hw as [|x l Wt Wts]; subst.
    rewrite Ht by tauto. f_equal. rewrite fold_left_add_acc. f_equal. f_equal.
    rewrite map_map. apply map_ext_in. intros t' Hi. rewrite Forall_forall in Hts, Wts.
    rewrite Hts; auto. apply Wts; auto.
  - destruct Hw as [Hw _]. rewrite IH; auto.
  - destruct Hw as (Hw & _). auto.
Qed.

(** What a correct indexing result [b] of [a] is. *)
Record good (a b : barr) (s : list dsel) : Prop := mkGood {
  g_wf : wf b;
  g_den : forall m, nd_eq (den O m b) (nd_sel (den O m a) s);
  g_dt : dt_stable a -> dt_stable b /\ dtype b = dtype a;
  g_lead : nolead a -> nolead b
}.

Lemma good_shape a b s : good a b s -> shape b = sel_shape s.
Proof. intros H. rewrite <- (den_shape false) by apply H. destruct (g_den _ _ _ H false) as [E _]. auto. Qed.

(** ** Building a BroadcastArray *)

Lemma mk_bcast_top (a : barr) dict lead sh' :
  wf a -> NoDup (map fst dict) -> shape_from_dict (shape a) dict = Ok sh' ->
  Forall (fun n => 1 <= n) lead -> (dict = [] \/ forall a0 d0 l0, a = ABcast a0 d0 l0 -> l0 = []) ->
  exists b, mk_bcast a dict lead = Ok b /\ wf b
            /\ (forall m, nd_eq (den O m b) (den O m (ABcast a dict lead)))
            /\ (dt_stable a -> dt_stable b) /\ dtype b = dtype a
            /\ (lead = [] -> nolead a -> nolead b).
Proof.
  intros Hw HN Hs Hl Hc.
  assert (HE : forall l, Forall (fun n => 1 <= n) l -> existsb (fun n => n <? 1) l = false).
  { intros l H. apply existsb_false_Forall. eapply Forall_impl; [|apply H]. simpl; intros; lia. }
  assert (HB : (exists a0 d0 l0, a = ABcast a0 d0 l0) \/ (forall a0 d0 l0, a <> ABcast a0 d0 l0)).
  { destruct a; try (right; intros; discriminate). left; eauto. }
  destruct HB as [(a0 & d0 & l0 & ->)|HB].
  - simpl in Hw. destruct Hw as (Hw0 & HN0 & Hok0 & Hl0).
    destruct (shape_from_dict (shape a0) d0) as [sh1|e] eqn:E0; [|discriminate].
    assert (Hm : shape_from_dict (shape a0) (dict_update d0 dict)
                 = Ok (if match dict with [] => true | _ => false end then sh1 else sh')
                 /\ NoDup (map fst (dict_update d0 dict))
                 /\ (lead ++ l0) ++ (if match dict with [] => true | _ => false end then sh1 else sh')
                    = lead ++ sh').
    { destruct Hc as [->|Hc].
      - simpl. rewrite E0. repeat split; auto. rewrite <- app_assoc. f_equal.
        rewrite shape_from_dict_eq in Hs. simpl in Hs. rewrite E0 in Hs. simpl in Hs. congruence.
      - specialize (Hc _ _ _ eq_refl). subst l0. simpl in Hs. rewrite E0 in Hs. simpl in Hs.
        destruct (dict_update_merge d0 dict _ _ HN0 HN E0 _ Hs) as [M1 M2].
        destruct dict as [|p dict].
        + simpl in *. rewrite shape_from_dict_eq in Hs. simpl in Hs. injection Hs as <-.
          rewrite E0. repeat split; auto. rewrite app_nil_r; auto.
        + rewrite app_nil_r. auto. }
    destruct Hm as (M1 & M2 & M3).
    exists (ABcast a0 (dict_update d0 dict) (lead ++ l0)). unfold mk_bcast.
    rewrite M1. simpl. rewrite HE by (apply Forall_app; auto). split; [auto|].
    split; [|split; [|split; [|split]]]; auto.
    + split; [auto|]. split; [auto|]. split; [|apply Forall_app; auto]. rewrite M1; auto.
    + intros m. simpl. rewrite (den_shape m a0) by auto. rewrite M1, E0. simpl.
      simpl in Hs. rewrite E0 in Hs. simpl in Hs. rewrite Hs. simpl. split; simpl; auto.
      rewrite M3. intros o Ho. f_equal.
      apply inb_split in Ho as [Ho1 Ho2].
      set (o1 := firstn (length lead) o) in *. set (o2 := skipn (length lead) o) in *.
      assert (Eo : o = o1 ++ o2) by (symmetry; apply firstn_skipn). rewrite Eo. clear Eo.
      assert (L2 : length o2 = length (l0 ++ sh1)).
      { rewrite (inb_length _ _ Ho2). apply (sfd_char dict) in Hs as (_ & -> & _); auto. }
      rewrite (bc_idx_app (l0 ++ sh1)) by auto.
      rewrite <- (firstn_skipn (length l0) o2).
      set (p1 := firstn (length l0) o2). set (p2 := skipn (length l0) o2).
      assert (Lp1 : length p1 = length l0) by (unfold p1; rewrite firstn_length; rewrite app_length in L2; lia).
      assert (Lp2 : length p2 = length sh1) by (unfold p2; rewrite skipn_length; rewrite app_length in L2; lia).
      assert (Ls : length sh1 = length (shape a0)) by (apply sfd_char in E0 as (_ & -> & _); auto).
      rewrite app_assoc. rewrite bc_idx_app by lia.
      rewrite bidx_app by auto. rewrite bc_idx_app by (rewrite bidx_length; lia).
      symmetry. apply (bidx_twice _ d0); auto. lia.
    + simpl. intros -> ->. auto.
  - exists (ABcast a dict lead). split; [|split; [|split; [|split; [|split]]]]; auto.
    + unfold mk_bcast. destruct a; try (simpl in *; rewrite Hs; simpl; rewrite HE; auto; fail).
      exfalso; eapply HB; eauto.
    + simpl. rewrite Hs. auto.
    + intros m. apply nd_eq_refl.
Qed.
Lemma mk_bcast_ok (a : barr) dict lead sh' :
  wf a -> NoDup (map fst dict) -> shape_from_dict (shape a) dict = Ok sh' ->
  Forall (fun n => 1 <= n) lead -> (dict = [] \/ nolead a) ->
  exists b, mk_bcast a dict lead = Ok b /\ wf b
            /\ (forall m, nd_eq (den O m b) (den O m (ABcast a dict lead)))
            /\ (dt_stable a -> dt_stable b) /\ dtype b = dtype a
            /\ (lead = [] -> nolead a -> nolead b).
Proof.
  intros Hw HN Hs Hl Hc. apply (mk_bcast_top a dict lead sh'); auto. destruct Hc as [Hc|Hc]; auto. right. intros a0 d0 l0 ->. exact Hc.
Qed.

(** ** Indexing an array with new axes *)

Lemma newax_getitem_ok (child : list key -> res barr) (a : barr) na keys s ks :
  wf a -> length na = S (ndim a) ->
  np_expand keys (length (newax_layout 1 (shape a) na)) = Ok ks ->
  sel_keys ks (newax_layout 1 (shape a) na) = Some s ->
  let fl := newax_layout true (repeat false (ndim a)) na in
  nx_ok false ks fl ->
  (forall cs, sel_keys (nx_ck ks fl) (shape a) = Some cs -> exists c, child (nx_ck ks fl) = Ok c /\ good a c cs) ->
  exists b, newax_getitem child (ndim a) na keys = Ok b
            /\ wf b /\ (forall m, nd_eq (den O m b) (nd_sel (den O m (ANewAx a na)) s))
            /\ (dt_stable a -> dt_stable b /\ dtype b = dtype a) /\ nolead b.
Proof.
  intros Hw Hna Hexp Hsel fl Hok Hchild. unfold ndim in *.
  assert (Hfl : fl = flags (length (shape a)) na) by reflexivity.
  assert (HK : nK (mkf fl) = length (shape a)) by (rewrite Hfl; apply nK_flags; auto).
  rewrite layout_flags in Hexp, Hsel by auto. rewrite <- Hfl in *.
  rewrite (laymk_length 1) in Hexp by auto.
  assert (HLfl : length fl = length (shape a) + fold_right Nat.add 0 na) by (rewrite Hfl; apply flags_length; auto).
  destruct (nx_child _ _ _ _ HK Hsel) as (Hnn & Hcs & HKm).
  destruct (Hchild _ Hcs) as (c & Ec & Gc). pose proof (good_shape _ _ _ Gc) as Shc.
  unfold newax_getitem. rewrite <- HLfl.
  rewrite full_keys_np by (eapply np_expand_count; eauto). rewrite Hexp. unfold bind at 1.
  pose proof (nx_loop ks fl (shape a) s 0 false [] [] [] [] HK Hsel Hok eq_refl) as HLoop.
  simpl app in HLoop. simpl nKS in HLoop. rewrite Hfl, cntKS_flags in HLoop by auto. rewrite <- Hfl in HLoop.
  change (newax_layout true (repeat false (length (shape a))) na) with (flags (length (shape a)) na).
  rewrite <- Hfl. rewrite HLoop. unfold bind at 1. rewrite Ec. unfold bind at 1.
  rewrite combine_cnt. unfold mk_newax. unfold ndim. rewrite Shc, cntK_length, HKm.
  replace (length (sel_shape (nx_cs s fl)) + 1 =? S (length (sel_shape (nx_cs s fl)))) with true
    by (symmetry; apply Nat.eqb_eq; lia).
  unfold bind at 1.
  set (r := ANewAx c (cntK (nx_mks ks fl))).
  assert (Wr : wf r) by (simpl; unfold ndim; rewrite Shc, cntK_length, HKm; split; auto; apply Gc).
  assert (Sr : shape r = laymk 1 (nx_mks ks fl) (sel_shape (nx_cs s fl))).
  { simpl. rewrite Shc. apply layout_cntK; auto. }
  pose proof (nx_shape ks fl (shape a) s 0 false [] HK Hsel Hok (fun _ => eq_refl)) as HSD.
  simpl app in HSD. rewrite <- Sr in HSD.
  destruct (nx_bd_ge ks fl 0) as [_ HND].
  assert (Hden : forall m o, inb (sel_shape s) o ->
            nget (den O m r) (bidx (shape r) o) = nget (nd_sel (den O m (ANewAx a na)) s) o
            /\ inb (shape r) (bidx (shape r) o)).
  { intros m o Ho. pose proof (bidx_dict _ _ _ _ HND HSD Ho) as Hib. split; auto.
    destruct (nx_index ks fl (shape a) s o HK Hsel Ho) as [EI HI].
    simpl. rewrite (den_shape m a) by auto. rewrite (den_shape m c) by apply Gc. rewrite Shc.
    assert (EL : forall sh, length (full_sels sh) = length sh) by (intros; apply map_length).
    rewrite (layout_flags DNew (full_sels (shape a)) na) by (rewrite EL; auto). rewrite EL, <- Hfl, EI.
    rewrite layout_cntK by (rewrite EL; auto).
    rewrite Sr in Hib. rewrite (layout_cntK 1) by auto.
    rewrite sel_laymk_full by auto.
    assert (HLo : length o = length (sel_shape s)) by (apply inb_length; auto).
    assert (ED : dropN (nx_mks ks fl) (bidx (laymk 1 (nx_mks ks fl) (sel_shape (nx_cs s fl))) o)
                 = dropN (nx_mks ks fl) o).
    { transitivity (bidx (sel_shape (nx_cs s fl)) (dropN (nx_mks ks fl) o)); [|apply bidx_inb; auto].
      apply sfd_char in HSD as (_ & HLs & _); auto. rewrite Sr in HLs. rewrite HLs in HLo.
      clear - HLo HKm. revert o HLo HKm. generalize (sel_shape (nx_cs s fl)).
      generalize (nx_mks ks fl). intros mks; induction mks as [|[] mks IH]; intros sh o HL HK; simpl in *; auto.
      - destruct sh; [auto|discriminate].
      - destruct o as [|i o]; [discriminate|]. simpl in *. apply IH; lia.
      - destruct sh as [|n sh]; [discriminate|]. destruct o as [|i o]; [discriminate|]. simpl in *.
        f_equal. apply IH; lia. }
    rewrite ED. destruct (g_den _ _ _ Gc m) as [E1 E2]. rewrite E2; auto.
    rewrite E1. simpl. auto. }
  destruct (nx_bd 0 ks fl) as [|p bd] eqn:EB.
  - exists r. split; auto. split; auto.
    rewrite shape_from_dict_eq in HSD. simpl in HSD. injection HSD as HSD.
    split; [|split].
    + assert (HSr : shape r = sel_shape s) by (simpl; auto).
      intros m. split; [rewrite den_shape by auto; auto|]. rewrite den_shape by auto. rewrite HSr.
      intros o Ho. destruct (Hden m o Ho) as [H1 H2].
      rewrite HSr in H1. rewrite bidx_inb in H1 by auto. auto.
    + simpl. apply Gc.
    + simpl. auto.
  - destruct (mk_bcast_ok r (p :: bd) [] (sel_shape s) Wr HND HSD) as (b & Eb & Wb & Db & T1 & T2 & T3);
      auto; [right; simpl; auto|].
    exists b. split; auto. split; auto. split; [|split].
    + intros m. eapply nd_eq_trans; [apply Db|].
      assert (Er : nshape (den O m r) = shape r) by (apply den_shape; auto).
      split.
      * change (nshape (den O m (ABcast r (p :: bd) []))) with
          (get_ok [] (shape_from_dict (nshape (den O m r)) (p :: bd))). rewrite Er, HSD. auto.
      * change (nshape (den O m (ABcast r (p :: bd) []))) with
          (get_ok [] (shape_from_dict (nshape (den O m r)) (p :: bd))). rewrite Er, HSD.
        intros o Ho.
        change (nget (den O m r) (bc_idx (nshape (den O m r)) o) = nget (nd_sel (den O m (ANewAx a na)) s) o).
        rewrite Er. rewrite bc_idx_same.
        -- apply Hden; auto.
        -- rewrite (inb_length _ _ Ho). simpl. apply sfd_char in HSD as (_ & -> & _); auto.
    + intros Hd. split; [apply T1|rewrite T2]; simpl; apply Gc; auto.
    + apply T3; auto. simpl; auto.
Qed.

(** With no new axes present, the flags are all false. *)
Lemma layout_zeros {A} (one : A) base n : length base + 1 = n -> newax_layout one base (repeat 0 n) = base.
Proof. revert n; induction base as [|b base IH]; intros n H; simpl in *.
  - subst. auto.
  - destruct n; [lia|]. simpl. f_equal. apply IH. lia. Qed.
Lemma nx_ck_false ks n : nx_ck ks (repeat false n) = firstn n (drop_new ks).
Proof. revert n; induction ks as [|k ks IH]; intros n; simpl.
  - destruct n; auto.
  - destruct n; destruct k; simpl; auto; try (f_equal; apply IH); try apply (IH 0); apply (IH (S n)). Qed.
Lemma nx_ok_false seen ks n : nx_ok seen ks (repeat false n).
Proof. revert seen n; induction ks as [|k ks IH]; intros seen [|n]; simpl; auto; destruct k; simpl; auto.
  apply (IH seen 0). apply (IH seen (S n)). Qed.

(** ** The common [__getitem__] *)
Lemma base_getitem_ok (a : barr) (gfk : list key -> res barr) keys s ks :
  wf a -> np_expand keys (ndim a) = Ok ks -> sel_keys ks (shape a) = Some s ->
  (forall cs, sel_keys (drop_new ks) (shape a) = Some cs ->
     exists b, gfk (drop_new ks) = Ok b /\ good a b cs) ->
  exists b, base_getitem gfk (ndim a) keys = Ok b /\ good a b s.
Proof.
  intros Hw Hexp Hsel Hg. unfold base_getitem. unfold ndim in *.
  rewrite full_keys_np by (eapply np_expand_count; eauto). rewrite Hexp. unfold bind at 1.
  destruct (existsb is_new ks) eqn:EN.
  - set (child := fun ks' : list key => ks'' <- full_keys ks' (length (shape a));;
                  (if existsb is_new ks'' then Err Unmodelled else gfk ks'')).
    assert (HF : fullk ks (length (shape a))) by (eapply sel_keys_fullk; eauto).
    assert (HZ : newax_layout 1 (shape a) (repeat 0 (length (shape a) + 1)) = shape a) by (apply layout_zeros; auto).
    assert (HZF : newax_layout true (repeat false (length (shape a))) (repeat 0 (length (shape a) + 1))
                  = repeat false (length (shape a)))
      by (apply layout_zeros; rewrite repeat_length; auto).
    pose proof (sel_keys_drop _ _ _ Hsel) as Hdrop.
    assert (HLd : length (drop_new ks) = length (shape a))
      by (eapply sel_keys_length; eauto using drop_new_nonew).
    assert (HCK : nx_ck ks (repeat false (length (shape a))) = drop_new ks).
    { rewrite nx_ck_false. apply firstn_all2. lia. }
    destruct (newax_getitem_ok child a (repeat 0 (length (shape a) + 1)) ks s ks Hw) as (b & Eb & Wb & Db & Tb & Lb).
    + rewrite repeat_length. unfold ndim; lia.
    + rewrite HZ. apply np_expand_id; auto.
    + rewrite HZ; auto.
    + unfold ndim. rewrite HZF. apply nx_ok_false.
    + unfold ndim. rewrite HZF, HCK. intros cs Hcs.
      destruct (Hg cs Hcs) as (b & Eb & Gb). exists b. split; auto. unfold child.
      rewrite full_keys_id by (eapply sel_keys_fullk; eauto). simpl.
      pose proof (drop_new_nonew ks) as Hnn. unfold nonew in Hnn. rewrite Hnn. auto.
    + exists b. split; auto. unfold ndim in Eb. split; auto.
      intros m. eapply nd_eq_trans; [apply Db|].
      split; [auto|]. intros o Ho. simpl. rewrite (den_shape m a) by auto.
      assert (EL : length (full_sels (shape a)) = length (shape a)) by apply map_length.
      rewrite layout_zeros by (rewrite EL; auto).
      rewrite sel_map_full; auto. eapply sel_map_inb; eauto. eapply sel_keys_valid; eauto.
  - assert (E : drop_new ks = ks) by (apply drop_new_id; auto). rewrite E in Hg. auto.
Qed.

End Shapes.
