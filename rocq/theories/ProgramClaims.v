(** ProgramClaims: every program of biggus calls means what the NumPy program means. *)
From Verif Require Import Base PySlice Keys NDArray Arrays Chunks Handlers Realise Spec Supported Lib SelLemmas KeyLemmas NewAxLemmas GetBase GetSimple GetBcast GetTrans GetStack GetMosaic GetItem ChunkLemmas RealiseOK IndexClaims ClassClaims BroadcastClaims Small SmallClaims Built BuiltClaims Sound Programs.
From Coq Require Import ZifyBool ZifyNat.

Section ProgramClaims.
Context {V : Type} (O : numops V).
Notation cell := (option V).
Notation barr := (@barr V).

Definition good (a : barr) (M : bool -> nd cell) : Prop :=
  wf a /\ dt_stable a /\ forall m, nd_eq (den O m a) (M m).
Lemma good_shape a M m : good a M -> nshape (M m) = shape a.
Proof. intros (H1 & _ & H3). rewrite <- (proj1 (H3 m)). apply den_shape; auto. Qed.

(** inserting new axes is indexing with newaxis keys *)
Lemma newaxes_select na : forall sh, length na = S (length sh) ->
  oselect (newax_layout KNew (repeat KFull (length sh)) na) sh = Some (newax_layout DNew (full_sels sh) na).
Proof.
  intros sh HL. assert (H : sel_keys (newax_layout KNew (repeat KFull (length sh)) na) sh = Some (newax_layout DNew (full_sels sh) na)).
  { revert sh HL. induction na as [|k na IH]; intros sh HL; [discriminate|].
    assert (HK : forall ks r, sel_keys ks sh = Some r -> sel_keys (repeat KNew k ++ ks) sh = Some (repeat DNew k ++ r)).
    { clear. induction k; intros ks r H; cbn [repeat app]; auto. cbn [sel_keys]. rewrite (IHk _ _ H). auto. }
    destruct sh as [|n sh]; cbn [length repeat full_sels map newax_layout]; apply HK; [destruct na; [|discriminate]; auto|].
    change (sel_keys (KFull :: newax_layout KNew (repeat KFull (length sh)) na) (n :: sh) = Some (DLs (seq 0 n) :: newax_layout DNew (full_sels sh) na)).
    pose proof (sel_key_full n) as EF. unfold KFull in *. cbn [sel_keys]. rewrite EF, IH; auto. }
  rewrite oselect_full; auto. eapply sel_keys_fullk; eauto.
Qed.
Lemma newaxes_vsel sh na : length na = S (length sh) -> vsel (newax_layout DNew (full_sels sh) na) sh.
Proof. intros H. eapply oselect_valid. apply newaxes_select; auto. Qed.

(** stretching, as [BroadcastArray] does it and as stated *)
Lemma stretch_eq (a : nd cell) dict lead : NoDup (map fst dict) -> dict_fits (nshape a) dict ->
  nd_eq (mkND (lead ++ get_ok [] (shape_from_dict (nshape a) dict)) (fun o => nget a (bc_idx (nshape a) o))) (np_stretch dict lead a).
Proof.
  intros HN HF. destruct (sfd_fits (nshape a) dict HN HF) as (sh' & Es). rewrite Es. cbn [get_ok].
  pose proof Es as Es'. apply sfd_char in Es' as (S1 & S2 & S3); auto.
  assert (Esh : sh' = map (fun i => match dict_find i dict with Some n => n | None => nth i (nshape a) 0 end) (seq 0 (length (nshape a)))).
  { apply (nth_error_ext_nth 0); [rewrite map_length, seq_length; auto|]. intros i Hi. rewrite S3 by lia.
    rewrite (nth_map_seq (fun i => match dict_find i dict with Some n => n | None => nth i (nshape a) 0 end)) by lia. auto. }
  split; [cbn [nshape np_stretch]; rewrite Esh; auto|]. cbn [nshape nget np_stretch]. intros o Ho. f_equal.
  pose proof Ho as Ho'. apply Forall2_app_inv_r in Ho' as (o1 & o2 & H1 & H2 & ->).
  pose proof (inb_length _ _ H1) as L1. pose proof (inb_length _ _ H2) as L2.
  rewrite bc_idx_app by lia. apply (nth_error_ext_nth 0).
  { rewrite bidx_length, map_length, seq_length by lia. lia. }
  intros i Hi. rewrite bidx_length in Hi by lia.
  rewrite (nth_map_seq (fun i => match dict_find i dict with Some _ => 0 | None => nth (length lead + i) (o1 ++ o2) 0 end)) by lia.
  rewrite nth_bidx by lia. pose proof (inb_nth _ _ i H2 ltac:(lia)) as Hb1. rewrite S3 in Hb1 by lia.
  rewrite app_nth2 by lia. replace (length lead + i - length o1) with i by lia.
  destruct (dict_find i dict) eqn:Ef.
  - apply dict_find_In in Ef. unfold dict_fits in S1. rewrite Forall_forall in S1. apply S1 in Ef. cbn [fst] in Ef. rewrite (proj2 Ef). reflexivity.
  - destruct (nth i (nshape a) 0 =? 1) eqn:E1; auto. apply Nat.eqb_eq in E1. lia.
Qed.
Lemma stretch_cong (a b : nd cell) dict lead : NoDup (map fst dict) -> dict_fits (nshape a) dict -> nd_eq a b ->
  nd_eq (np_stretch dict lead a) (np_stretch dict lead b).
Proof.
  intros HN HF E. eapply nd_eq_trans; [apply nd_eq_sym, stretch_eq; auto|]. eapply nd_eq_trans; [|apply stretch_eq; auto; rewrite <- (proj1 E); auto].
  destruct (sfd_fits (nshape a) dict HN HF) as (sh' & Es). rewrite <- (proj1 E). rewrite Es. cbn [get_ok].
  pose proof (bcast_eq a b dict lead sh' E HN Es) as H. rewrite <- (proj1 E) in H. exact H.
Qed.

(** operands of a broadcast *)
Lemma operand_eq (a : barr) M full c : good a M -> wf c -> dt_stable c -> shape c = full ->
  (forall m o, inb full o -> nget (den O m c) o = nget (den O m a) (bc_idx (shape a) o)) ->
  (forall o, inb full o -> inb (shape a) (bc_idx (shape a) o)) ->
  good c (fun m => np_operand full (M m)).
Proof.
  intros Ha Hw Hd Hs Hg Hb. split; auto. split; auto. intros m. split; [rewrite den_shape; auto|]. rewrite den_shape, Hs by auto. intros o Ho.
  rewrite Hg by auto. cbn [np_operand nget]. rewrite (good_shape a M m Ha). apply Ha. rewrite den_shape by apply Ha. auto.
Qed.

Lemma stretches_inb x full i : stretches x full -> inb full i -> inb x (bc_idx x i).
Proof.
  intros [F1 F2] Hi. pose proof (inb_length _ _ Hi) as Li. unfold bc_idx. apply inb_ext.
  - rewrite bidx_length; [auto|]. rewrite skipn_length; lia.
  - intros j Hj. rewrite nth_bidx by (rewrite skipn_length; lia). rewrite nth_skipn_plus.
    pose proof (inb_nth _ _ (length full - length x + j) Hi ltac:(lia)) as Hn. rewrite Li.
    destruct (F2 j Hj) as [F|F]; destruct (Nat.eqb_spec (nth j x 0) 1); lia.
Qed.
Lemma binary_cong o full m (a b c d : nd cell) : stretches (nshape a) full -> stretches (nshape b) full -> nd_eq a c -> nd_eq b d ->
  nd_eq (np_binary o full m a b) (np_binary o full m c d).
Proof.
  intros Ha Hb E1 E2. split; auto. cbn [np_binary nshape nget]. intros i Hi. rewrite <- (proj1 E1), <- (proj1 E2).
  rewrite (proj2 E1), (proj2 E2) by (apply (stretches_inb _ full); auto). auto.
Qed.
Lemma aggregate_cong g axis m (a b : nd cell) : axis < length (nshape a) -> nd_eq a b ->
  nd_eq (np_aggregate O g axis m a) (np_aggregate O g axis m b).
Proof.
  intros Hax E. split; cbn [np_aggregate nshape nget]; [rewrite (proj1 E); auto|]. intros o Ho. f_equal. unfold column. rewrite <- (proj1 E).
  apply map_ext_in. intros i Hi. apply in_seq in Hi. apply E. rewrite <- (insert_remove axis 0 (nshape a)) by auto.
  apply insert_at_inb; auto; [rewrite remove_at_length by auto; lia|lia].
Qed.
Lemma stack_cong ssh (l l' : list (nd cell)) sh0 : length l = prodn ssh -> Forall2 nd_eq l l' -> Forall (fun d => nshape d = sh0) l -> l <> [] ->
  nd_eq (nd_stack ssh l) (nd_stack ssh l').
Proof.
  intros HL HF HS Hne. assert (Hsh : match l with [] => [] | it :: _ => nshape it end = sh0) by (destruct l; [congruence|inversion HS; auto]).
  split; cbn [nd_stack nshape nget].
  - f_equal. destruct HF as [|x y l l' [E _] _]; auto.
  - rewrite Hsh. intros o Ho. apply Forall2_app_inv_r in Ho as (o1 & o2 & H1 & H2 & ->). pose proof (inb_length _ _ H1) as L1.
    rewrite firstn_app, skipn_app, <- L1, firstn_all, skipn_all, Nat.sub_diag. cbn [firstn skipn]. rewrite app_nil_r. cbn [app].
    set (k := ravel ssh o1). assert (Hk : k < length l) by (rewrite HL; apply ravel_lt; auto).
    clearbody k. clear - HF HS Hk H2. revert k Hk. induction HF as [|x y l l' E HF IH]; intros k Hk; [cbn in Hk; lia|].
    inversion HS; subst. destruct k; cbn [nth]; [apply E; auto|]. apply IH; auto. cbn in Hk. lia.
Qed.
Lemma inb_remove k : forall sh o, inb sh o -> inb (remove_at k sh) (remove_at k o).
Proof.
  unfold inb, remove_at. induction k; intros sh o H; destruct H; cbn; auto. constructor; auto. apply IHk; auto.
Qed.
Lemma concat_cong axis (l l' : list (nd cell)) com : Forall2 nd_eq l l' ->
  Forall (fun d => axis < length (nshape d) /\ remove_at axis (nshape d) = com) l ->
  nd_eq (nd_concat l axis) (nd_concat l' axis).
Proof.
  intros HF HS.
  assert (HN : map (fun t => nth axis (nshape t) 0) l = map (fun t => nth axis (nshape t) 0) l').
  { clear HS. induction HF as [|x y l l' [E _] HF IH]; cbn; auto. rewrite E, IH. auto. }
  split; cbn [nd_concat nshape nget].
  - rewrite <- HN. destruct HF as [|x y l l' [E _] _]; auto. rewrite E. auto.
  - assert (G : forall o, axis < length o -> inb com (remove_at axis o) -> nth axis o 0 < fold_right Nat.add 0 (map (fun t => nth axis (nshape t) 0) l) ->
        concat_get l axis o = concat_get l' axis o).
    { clear HN. induction HF as [|x y l l' E HF IH]; intros o Ho Hr Hb; auto. inversion HS as [|? ? [S1 S2] S3]; subst. cbn [concat_get].
      rewrite <- (proj1 E). destruct (Nat.ltb_spec (nth axis o 0) (nth axis (nshape x) 0)) as [Hlt|Hge].
      - apply E. rewrite <- (insert_remove axis 0 (nshape x)) by auto. rewrite <- (insert_remove axis 0 o) by auto.
        apply insert_at_inb; auto. rewrite remove_at_length by auto. lia.
      - cbn [map fold_right] in Hb. apply IH; auto.
        + rewrite set_nth_length. auto.
        + rewrite remove_set_nth. auto.
        + rewrite nth_set_nth_eq by auto. lia. }
    intros o Ho. destruct HF as [|x y l l' E HF]; [auto|]. inversion HS as [|? ? [S1 S2] S3]; subst.
    cbv zeta in Ho. pose proof (inb_length _ _ Ho) as Lo. rewrite set_nth_length in Lo. apply G; try lia.
    + rewrite <- (remove_set_nth axis (fold_right Nat.add 0 (map (fun t => nth axis (nshape t) 0) (x :: l))) (nshape x)). apply inb_remove; auto.
    + pose proof (inb_nth _ _ axis Ho) as Hn. rewrite set_nth_length, nth_set_nth_eq in Hn by auto. auto.
Qed.

Lemma program_good a M : program O a M -> good a M.
Proof.
  induction 1 as [sh v d|o c a E|a M keys b Hp IH Hv Hk E|a M na b Hp IH E|a M dict lead b Hp IH HN HF HL Hc E
    |a M b N full c d Ha IHa Hb IHb Ef Ba Bb E|a M b N full c d Ha IHa Hb IHb Ef Ba Bb E|a M d Hp IH Hn|a M v Hp IH|a M axes b Hp IH Hx E
    |ssh parts b Hp IH HL E|parts axis b Hp IH E|g a M i axis ax b Hp IH Hi Hx E|o a M Hp IH|o a M b N py full c Ha IHa Hb IHb Ef Ba Bb Hn E].
  - split; [exact I|]. split; [exact I|]. intros m. apply nd_eq_refl.
  - unfold mk_adapter in E. cbn [length combine mapM bind] in E. replace (length (c_shape c) <? 0) with false in E by (symmetry; apply Nat.ltb_ge; lia).
    injection E as <-.
    assert (Es : oselect [] (c_shape c) = Some (full_sels (c_shape c))).
    { unfold oselect, np_expand. cbn [count_if n_real existsb Nat.ltb Nat.leb app]. rewrite Nat.sub_0_r. apply sel_keys_repeat_full. }
    split; [split; [constructor|]|split; [exact I|]].
    + unfold valid_keys. rewrite Es. discriminate.
    + intros m. cbn [den]. apply nd_map_eq. unfold oindex. cbn [nshape]. rewrite Es. apply (nd_sel_full (mkND (c_shape c) (c_cell c))).
  - pose proof (good_shape a M true IH) as HS. rewrite HS in Hv. destruct IH as (H1 & H2 & H3).
    destruct (getitem_sound O a b keys H1 Hv Hk E) as (B1 & B2 & B3). split; auto. split; [apply B3; auto|]. intros m.
    eapply nd_eq_trans; [apply B2|]. apply oindex_eq; auto. rewrite den_shape; auto.
  - unfold mk_newax in E. destruct (ndim a + 1 =? length na) eqn:El; [|discriminate]. injection E as <-. apply Nat.eqb_eq in El. pose proof IH as (H1 & H2 & H3).
    split; [split; auto; lia|]. split; auto. intros m. rewrite (good_shape a M m IH). unfold oindex. rewrite (good_shape a M m IH), newaxes_select by (unfold ndim in El; lia).
    cbn [den]. rewrite den_shape by auto. apply nd_sel_eq; auto. rewrite den_shape by auto. apply newaxes_vsel. unfold ndim in El; lia.
  - pose proof (good_shape a M true IH) as HS. rewrite HS in HF. pose proof IH as (H1 & H2 & H3).
    destruct (sfd_fits (shape a) dict HN HF) as (sh' & Es). destruct (mk_bcast_ok O a dict lead sh' H1 HN Es HL Hc) as (b' & Eb & B1 & B2 & B3 & _).
    assert (b' = b) by congruence. subst b'. split; auto. split; auto. intros m. eapply nd_eq_trans; [apply B2|]. cbn [den].
    eapply nd_eq_trans; [apply stretch_eq; auto; rewrite den_shape; auto|]. apply stretch_cong; auto. rewrite den_shape; auto.
  - rewrite (good_shape a M true IHa), (good_shape b N true IHb) in Ef.
    destruct (broadcast_arrays_ok O a b full (proj1 IHa) (proj1 IHb) Ba Bb Ef) as (a' & b' & Eab & Wa & Wb & Sa & Sb & Da & Db & _ & _ & Ta & _ & Tb & _).
    assert (a' = c) by congruence. subst a'. apply (operand_eq a M full c); auto; [apply Ta, IHa|].
    intros o Ho. apply (stretches_inb _ full); auto. apply np_bshape_stretch in Ef. tauto.
  - rewrite (good_shape a M true IHa), (good_shape b N true IHb) in Ef.
    destruct (broadcast_arrays_ok O a b full (proj1 IHa) (proj1 IHb) Ba Bb Ef) as (a' & b' & Eab & Wa & Wb & Sa & Sb & Da & Db & _ & _ & Ta & _ & Tb & _).
    assert (b' = d) by congruence. subst b'. apply (operand_eq b N full d); auto; [apply Tb, IHb|].
    intros o Ho. apply (stretches_inb _ full); auto. apply np_bshape_stretch in Ef. tauto.
  - assert (Ea : astype a d = AAsTy a d) by (destruct a; auto; tauto). rewrite Ea. pose proof IH as (H1 & H2 & H3).
    split; auto. split; [exact I|]. intros m. cbn [den]. apply nd_map_eq. auto.
  - pose proof IH as (H1 & H2 & H3). split; auto. split; auto. intros m. cbn [masked_equal den]. apply nd_map_eq. auto.
  - pose proof (good_shape a M true IH) as HS. pose proof IH as (H1 & H2 & H3).
    set (l := match axes with None => rev (seq 0 (ndim a)) | Some l => l end).
    assert (Eb : b = ATrans a l /\ perm l (ndim a)).
    { unfold mk_trans in E. unfold l. destruct axes as [ax|].
      - destruct (length ax =? ndim a) eqn:El; [|discriminate]. injection E as <-. apply Nat.eqb_eq in El. rewrite HS in Hx. split; auto. split; auto.
      - injection E as <-. split; auto. split; [rewrite rev_length, seq_length; auto|]. split; [apply NoDup_rev, seq_NoDup|].
        apply Forall_rev, Forall_forall. intros x Hx'. apply in_seq in Hx'. lia. }
    destruct Eb as [-> HP]. split; [split; auto; destruct HP as (P1 & P2 & P3); auto|]. split; auto. intros m.
    replace (match axes with Some l => l | None => rev (seq 0 (length (nshape (M m)))) end) with l by (unfold l; rewrite (good_shape a M m IH); auto).
    cbn [den]. apply transpose_eq; auto. rewrite den_shape by auto. auto.
  - unfold mk_stack in E. destruct parts as [|p0 ps]; [discriminate|]. set (parts := p0 :: ps) in *.
    change (map fst parts) with (fst p0 :: map fst ps) in E. cbv beta iota in E.
    match type of E with (if ?c then _ else _) = _ => destruct c eqn:Ef; [|discriminate] end. change (fst p0 :: map fst ps) with (map fst parts) in Ef, E. injection E as <-. rewrite forallb_forall in Ef.
    assert (HF : forall x, In x (map fst parts) -> shape x = shape (fst p0) /\ dtype x = dtype (fst p0)).
    { intros x Hx. apply Ef in Hx. apply andb_true_iff in Hx as [X1 X2]. apply shape_eqb_eq in X1. apply Nat.eqb_eq in X2. auto. }
    assert (HG : forall x, In x (map fst parts) -> wf x /\ dt_stable x).
    { intros x Hx. apply in_map_iff in Hx as (q & <- & Hq). split; apply IH; auto. }
    change (fst p0 :: map fst ps) with (map fst parts).
    split; [|split].
    + split; [discriminate|]. split; [rewrite map_length; auto|]. split; [apply wf_items, Forall_forall; auto|]. apply Forall_forall. intros x Hx.
      unfold parts. cbn [map hd]. auto.
    + cbn [dt_stable]. apply (fold_right_and_Forall (fun it => dt_stable it)). apply Forall_forall. intros x Hx. apply HG; auto.
    + intros m. cbn [den]. rewrite map_map. apply (stack_cong ssh _ _ (shape (fst p0))).
      * rewrite map_length. auto.
      * assert (HH : forall p, In p parts -> nd_eq (den O m (fst p)) (snd p m)) by (intros p Hq; apply (IH p Hq)).
        clear - HH. induction parts as [|p l IHl]; cbn; constructor; [apply HH; left; auto|]. apply IHl. intros q Hq. apply HH. right. auto.
      * apply Forall_forall. intros d Hd. apply in_map_iff in Hd as (q & <- & Hq). rewrite den_shape by (apply IH; auto). apply HF, in_map, Hq.
      * discriminate.
  - unfold mk_mosaic in E. destruct parts as [|p0 ps]; [discriminate|]. set (parts := p0 :: ps) in *. change (map fst parts) with (fst p0 :: map fst ps) in E. cbv beta iota in E.
    match type of E with (if ?c then _ else _) = _ => destruct c eqn:Eax; [discriminate|] end. apply bind_ok in E as (u & Em & E). injection E as <-. set (ax := Z.to_nat axis) in *.
    assert (Hax : ax < ndim (fst p0)) by (unfold ax; lia).
    assert (HF : forall x, In x (map fst parts) -> ax < ndim x /\ remove_at ax (shape x) = remove_at ax (shape (fst p0)) /\ dtype x = dtype (fst p0)).
    { intros x [<-|Hx]; auto. destruct (mapM_each _ _ _ Em x Hx) as (y & Ey). destruct (ndim x <=? ax) eqn:E1; [discriminate|].
      destruct (negb (shape_eqb _ _)) eqn:E2; [discriminate|]. destruct (negb (_ =? _)) eqn:E3; [discriminate|].
      apply Nat.leb_gt in E1. apply negb_false_iff in E2, E3. apply shape_eqb_eq in E2. apply Nat.eqb_eq in E3. auto. }
    assert (HG : forall x, In x (map fst parts) -> wf x /\ dt_stable x).
    { intros x Hx. apply in_map_iff in Hx as (q & <- & Hq). split; apply IH; auto. }
    change (fst p0 :: map fst ps) with (map fst parts).
    split; [|split].
    + split; [discriminate|]. split; [apply wf_items, Forall_forall; auto|]. apply Forall_forall. intros x Hx. unfold parts. cbn [map hd]. auto.
    + cbn [dt_stable]. apply (fold_right_and_Forall (fun it => dt_stable it)). apply Forall_forall. intros x Hx. apply HG; auto.
    + intros m. cbn [den]. rewrite map_map. apply (concat_cong ax _ _ (remove_at ax (shape (fst p0)))).
      * assert (HH : forall p, In p parts -> nd_eq (den O m (fst p)) (snd p m)) by (intros p Hq; apply (IH p Hq)).
        clear - HH. induction parts as [|p l IHl]; cbn; constructor; [apply HH; left; auto|]. apply IHl. intros q Hq. apply HH. right. auto.
      * apply Forall_forall. intros d Hd. apply in_map_iff in Hd as (q & <- & Hq). rewrite den_shape by (apply IH; auto).
        destruct (HF (fst q) (in_map fst _ _ Hq)) as (A & B & _). auto.
  - pose proof (good_shape a M true IH) as HS. rewrite HS in Hi. apply aggregate_accepts in E as (i' & j & Hx' & Hj & ->).
    assert (i' = i) by (destruct Hx, Hx'; congruence). subst i'. assert (j = axis) by (unfold ndim in Hj; congruence). subst j.
    pose proof IH as (H1 & H2 & H3). assert (Hax : axis < ndim a) by (apply norm_int_iff in Hj as (N1 & N2 & ->); unfold zpos; destruct (i <? 0)%Z eqn:Ez; lia).
    split; [split; auto|]. split; [exact I|]. intros m. change (nd_eq (np_aggregate O g axis m (den O m a)) (np_aggregate O g axis m (M m))).
    apply aggregate_cong; auto. rewrite den_shape; auto.
  - pose proof IH as (H1 & H2 & H3). split; auto. split; [split; auto|]. intros m. cbn [mk_el1 den]. apply nd_map_eq. auto.
  - rewrite (good_shape a M true IHa), (good_shape b N true IHb) in Ef.
    destruct (broadcast_arrays_ok O a b full (proj1 IHa) (proj1 IHb) Ba Bb Ef) as (a' & b' & Eab & Wa & Wb & Sa & Sb & Da & Db & _ & _ & Ta & Xa & Tb & Xb & _).
    unfold mk_el2 in E. rewrite Eab in E. cbn [bind] in E. injection E as <-.
    split; [split; auto; split; auto; congruence|]. split.
    + split; [apply Ta, IHa|]. split; [apply Tb, IHb|]. rewrite Xa, Xb. destruct py; auto.
    + intros m. apply np_bshape_stretch in Ef as (Fa & Fb & _).
      eapply nd_eq_trans; [|apply (binary_cong o full m (den O m a) (den O m b)); [rewrite den_shape by apply IHa; auto|rewrite den_shape by apply IHb; auto|apply IHa|apply IHb]].
      split; cbn [den nshape np_binary nget]; [rewrite den_shape; auto|]. intros i Hi. rewrite den_shape, Sa in Hi by auto.
      rewrite Da, Db by auto. rewrite !den_shape by (apply IHa || apply IHb). auto.
Qed.
End ProgramClaims.
