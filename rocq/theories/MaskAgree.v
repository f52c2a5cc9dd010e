(** MaskAgree: the two meanings of an expression, related cell by cell. *)
From Verif Require Import Base PySlice Keys NDArray Arrays Spec Supported Lib SelLemmas KeyLemmas NewAxLemmas GetBase GetSimple GetStack GetMosaic GetItem ChunkLemmas RealiseOK ClassClaims ProgramClaims MaskSpec.
From Coq Require Import ZifyBool ZifyNat.

Section MaskAgree.
Context {V : Type} (O : numops V).
Notation cell := (option V).
Notation barr := (@barr V).

Section Rel.
Variable R : cell -> cell -> Prop.
Definition nd_rel (x y : nd cell) : Prop := nshape x = nshape y /\ forall i, inb (nshape x) i -> R (nget x i) (nget y i).
Lemma rel_sel x y s : nd_rel x y -> vsel s (nshape x) -> nd_rel (nd_sel x s) (nd_sel y s).
Proof. intros [H1 H2] Hv. split; auto. simpl. intros i Hi. apply H2, sel_map_inb; auto. Qed.
Lemma rel_bcast x y dict lead sh' : nd_rel x y -> NoDup (map fst dict) -> shape_from_dict (nshape x) dict = Ok sh' ->
  nd_rel (mkND (lead ++ sh') (fun o => nget x (bc_idx (nshape x) o))) (mkND (lead ++ sh') (fun o => nget y (bc_idx (nshape y) o))).
Proof.
  intros [E1 E2] HN HS. split; auto. simpl. intros o Ho. rewrite <- E1. apply E2.
  apply Forall2_app_inv_r in Ho as (o1 & o2 & H1 & H2 & ->).
  pose proof (inb_length _ _ H2) as L2. pose proof HS as E'. apply sfd_char in E' as (_ & HL & _); auto.
  rewrite bc_idx_app by lia. eapply bidx_dict; eauto.
Qed.
Lemma rel_trans x y axes : perm axes (length (nshape x)) -> nd_rel x y -> nd_rel (nd_transpose axes x) (nd_transpose axes y).
Proof.
  intros HP [E1 E2]. unfold nd_transpose. split; cbn [nshape nget]; [rewrite E1; auto|]. intros o Ho. apply E2. apply transpose_inb; auto.
Qed.
Lemma rel_stack ssh l l' sh0 : length l = prodn ssh -> Forall2 nd_rel l l' -> Forall (fun d => nshape d = sh0) l -> l <> [] ->
  nd_rel (nd_stack ssh l) (nd_stack ssh l').
Proof.
  intros HL HF HS Hne. assert (Hsh : match l with [] => [] | it :: _ => nshape it end = sh0) by (destruct l; [congruence|inversion HS; auto]).
  split; cbn [nd_stack nshape nget].
  - f_equal. destruct HF as [|x y l l' [E _] _]; auto.
  - rewrite Hsh. intros o Ho. apply Forall2_app_inv_r in Ho as (o1 & o2 & H1 & H2 & ->). pose proof (inb_length _ _ H1) as L1.
    rewrite firstn_app, skipn_app, <- L1, firstn_all, skipn_all, Nat.sub_diag. cbn [firstn skipn]. rewrite app_nil_r. cbn [app].
    set (k := ravel ssh o1). assert (Hk : k < length l) by (rewrite HL; apply ravel_lt; auto).
    clearbody k. clear - HF HS Hk H2. revert k Hk. induction HF as [|x y l l' E HF IH]; intros k Hk; [cbn in Hk; lia|].
    inversion HS; subst. destruct k; cbn [nth]; [apply E; auto|]. apply IH; auto. cbn in Hk. lia.
Qed.
Lemma rel_concat axis l l' com : Forall2 nd_rel l l' -> l <> [] ->
  Forall (fun d => axis < length (nshape d) /\ remove_at axis (nshape d) = com) l ->
  nd_rel (nd_concat l axis) (nd_concat l' axis).
Proof.
  intros HF Hne HS.
  assert (HN : map (fun t => nth axis (nshape t) 0) l = map (fun t => nth axis (nshape t) 0) l').
  { clear HS Hne. induction HF as [|x y l l' [E _] HF IH]; cbn; auto. rewrite E, IH. auto. }
  split; cbn [nd_concat nshape nget].
  - rewrite <- HN. destruct HF as [|x y l l' [E _] _]; auto. rewrite E. auto.
  - assert (G : forall o, axis < length o -> inb com (remove_at axis o) -> nth axis o 0 < fold_right Nat.add 0 (map (fun t => nth axis (nshape t) 0) l) ->
        R (concat_get l axis o) (concat_get l' axis o)).
    { clear HN Hne. induction HF as [|x y l l' E HF IH]; intros o Ho Hr Hb; [cbn in Hb; lia|]. inversion HS as [|? ? [S1 S2] S3]; subst. cbn [concat_get].
      rewrite <- (proj1 E). destruct (Nat.ltb_spec (nth axis o 0) (nth axis (nshape x) 0)) as [Hlt|Hge].
      - apply E. rewrite <- (insert_remove axis 0 (nshape x)) by auto. rewrite <- (insert_remove axis 0 o) by auto.
        apply insert_at_inb; auto. rewrite remove_at_length by auto. lia.
      - cbn [map fold_right] in Hb. apply IH; auto.
        + rewrite set_nth_length. auto.
        + rewrite remove_set_nth. auto.
        + rewrite nth_set_nth_eq by auto. lia. }
    intros o Ho. destruct HF as [|x y l l' E HF]; [congruence|]. inversion HS as [|? ? [S1 S2] S3]; subst.
    cbv zeta in Ho. pose proof (inb_length _ _ Ho) as Lo. rewrite set_nth_length in Lo. apply G; try lia.
    + rewrite <- (remove_set_nth axis (fold_right Nat.add 0 (map (fun t => nth axis (nshape t) 0) (x :: l))) (nshape x)). apply inb_remove; auto.
    + pose proof (inb_nth _ _ axis Ho) as Hn. rewrite set_nth_length, nth_set_nth_eq in Hn by auto. auto.
Qed.

(** The forms of arrays put together from related parts are related. *)
Definition both (a : barr) : Prop := nd_rel (den O true a) (den O false a).
Lemma both_list (l : list barr) : Forall both l -> Forall2 nd_rel (map (den O true) l) (map (den O false) l).
Proof. induction 1; cbn; constructor; auto. Qed.
Lemma both_newax a na : wf (ANewAx a na) -> both a -> both (ANewAx a na).
Proof.
  intros [Hw HL] H. pose proof (den_shape O true a Hw) as E1. pose proof (den_shape O false a Hw) as E2.
  unfold both. cbn [den]. rewrite E1, E2. apply rel_sel; [exact H|]. rewrite E1. apply newaxes_vsel. auto.
Qed.
Lemma both_bcast a dict lead : wf (ABcast a dict lead) -> both a -> both (ABcast a dict lead).
Proof.
  intros (Hw & HN & HS & _) H. unfold both. cbn [den]. pose proof (den_shape O true a Hw) as E1. pose proof (den_shape O false a Hw) as E2.
  destruct (shape_from_dict (shape a) dict) as [sh'|] eqn:Es; [|discriminate].
  pose proof (rel_bcast _ _ dict lead sh' H HN) as HB. rewrite E1, E2 in *. rewrite Es in *. apply HB; auto.
Qed.
Lemma both_trans a axes : wf (ATrans a axes) -> both a -> both (ATrans a axes).
Proof. intros (Hw & H1 & H2 & H3) H. apply (rel_trans (den O true a) (den O false a)); [|exact H]. rewrite den_shape by auto. split; auto. Qed.
Lemma both_stack ssh items : wf (AStack ssh items) -> Forall both items -> both (AStack ssh items).
Proof.
  intros (Hne & HL & Hw & HF) H. apply wf_items in Hw. unfold both. cbn [den].
  apply (rel_stack ssh _ _ (shape (hd (AConst [] (v0 O) 0) items))).
  - rewrite map_length; auto.
  - apply both_list; auto.
  - apply Forall_map. rewrite Forall_forall in *. intros x Hx. rewrite den_shape by (apply Hw; auto). rewrite (proj1 (HF x Hx)). destruct items; [contradiction|]. auto.
  - destruct items; [congruence|discriminate].
Qed.
Lemma both_mosaic tiles axis : wf (AMosaic tiles axis) -> Forall both tiles -> both (AMosaic tiles axis).
Proof.
  intros (Hne & Hw & HF) H. apply wf_items in Hw. unfold both. cbn [den].
  apply (rel_concat axis _ _ (remove_at axis (shape (hd (AConst [] (v0 O) 0) tiles)))).
  - apply both_list; auto.
  - destruct tiles; [congruence|discriminate].
  - apply Forall_map. rewrite Forall_forall in *. intros x Hx. rewrite den_shape by (apply Hw; auto). destruct (HF x Hx) as (F1 & F2 & _). split; auto.
    rewrite F2. destruct tiles; [contradiction|]. auto.
Qed.
End Rel.

(** ** No masked elements *)
Definition same (c c' : cell) : Prop := c = c' /\ c <> None.
Lemma never_masked_same (a : barr) : wf a -> never_masked O a -> both same a.
Proof.
  induction a as [sh v d|o c ks|a na IH|a dict lead IH|a d IH|a v IH|a axes IH|ssh items IH|tiles axis IH|g a axis d IH|o a d IH|o a b d IH1 IH2] using barr_ind2;
    intros Hw Hn.
  - split; auto. intros i Hi. split; cbn; congruence.
  - destruct Hw as [_ Hv]. cbn [never_masked] in Hn. unfold valid_keys in Hv. destruct (oselect ks (c_shape c)) as [s|] eqn:Es; [|congruence].
    unfold both. cbn [den]. unfold oindex. cbn [nshape]. rewrite Es. split; auto. cbn [nd_map nd_sel nshape nget]. intros i Hi.
    pose proof (Hn _ (sel_map_inb s _ i (oselect_valid _ _ _ Es) Hi)) as HN. destruct (c_cell c (sel_map s i)); [|congruence]. split; cbn; congruence.
  - apply both_newax; auto. apply IH; auto. apply Hw.
  - apply both_bcast; auto. apply IH; auto. apply Hw.
  - destruct (IH Hw Hn) as [E1 E2]. split; auto. cbn [den nd_map nshape nget]. intros i Hi. destruct (E2 i Hi) as [E3 E4]. rewrite E3 in *.
    destruct (nget (den O false a) i); [|congruence]. split; cbn; congruence.
  - destruct Hn as [Hn Hv]. destruct (IH Hw Hn) as [E1 E2]. split; auto. cbn [den nd_map nshape nget]. intros i Hi. destruct (E2 i Hi) as [E3 E4]. rewrite E3 in *.
    rewrite den_shape in Hi by auto. destruct (nget (den O false a) i) eqn:En; [|congruence]. unfold eq_mask. rewrite (Hv i _ Hi En). split; congruence.
  - apply both_trans; auto. apply IH; auto. apply Hw.
  - apply both_stack; auto. cbn [never_masked] in Hn. apply (fold_right_and_Forall (never_masked O)) in Hn. pose proof (proj1 (wf_items _) (proj1 (proj2 (proj2 Hw)))) as Hi.
    rewrite Forall_forall in *. intros x Hx. apply IH; auto. apply Hi; auto.
  - apply both_mosaic; auto. cbn [never_masked] in Hn. apply (fold_right_and_Forall (never_masked O)) in Hn. pose proof (proj1 (wf_items _) (proj1 (proj2 Hw))) as Hi.
    rewrite Forall_forall in *. intros x Hx. apply IH; auto. apply Hi; auto.
  - destruct Hw as [Hw Hax]. destruct Hn as [Hn Hg]. destruct (IH Hw Hn) as [E1 E2]. split; [cbn [den nshape]; rewrite E1; auto|]. cbn [den nshape nget]. intros o Ho.
    assert (EC : exists xs, length xs = nth axis (shape a) 0 /\ column (den O true a) axis o = map Some xs /\ column (den O false a) axis o = map Some xs).
    { unfold column. rewrite <- E1. rewrite den_shape in * by auto.
      assert (HI : forall i, In i (seq 0 (nth axis (shape a) 0)) -> inb (shape a) (insert_at axis i o)).
      { intros i Hi. apply in_seq in Hi. rewrite <- (insert_remove axis 0 (shape a)) by auto. apply insert_at_inb; auto; [rewrite remove_at_length by auto; unfold ndim in *; lia|lia]. }
      revert HI. generalize (seq_length (nth axis (shape a) 0) 0). generalize (nth axis (shape a) 0) at 2 4. generalize (seq 0 (nth axis (shape a) 0)).
      intros l n HL HI. subst n. induction l as [|j l IHl]; [exists []; auto|].
      destruct IHl as (xs & X1 & X2 & X3); [intros i Hi; apply HI; right; auto|]. destruct (E2 _ (HI j (or_introl eq_refl))) as [E3 E4].
      destruct (nget (den O true a) (insert_at axis j o)) as [x|] eqn:Ex; [|congruence]. exists (x :: xs). cbn [map length]. rewrite X1, X2, X3, Ex, <- E3. auto. }
    destruct EC as (xs & L & -> & ->). destruct (Hg xs L) as (v & -> & ->). split; congruence.
  - destruct Hn as [Hn (f & Ef & Hf)]. destruct (IH Hw Hn) as [E1 E2]. split; auto. cbn [den nd_map nshape nget]. intros i Hi. destruct (E2 i Hi) as [E3 E4]. rewrite E3 in *.
    unfold op1_sem. rewrite Ef. destruct (nget (den O false a) i); [|congruence]. rewrite Hf. split; cbn; congruence.
  - destruct Hw as (Hwa & Hwb & Es). destruct Hn as (Hna & Hnb & (f & Ef & Hf)). destruct (IH1 Hwa Hna) as [A1 A2]. destruct (IH2 Hwb Hnb) as [B1 B2].
    split; auto. cbn [den nshape nget]. intros i Hi. destruct (A2 i Hi) as [A3 A4]. rewrite den_shape in * by auto. rewrite Es in Hi. destruct (B2 i Hi) as [B3 B4]. rewrite A3, B3 in *.
    unfold op2_sem. rewrite Ef. destruct (nget (den O false a) i); [|congruence]. destruct (nget (den O false b) i); [|congruence]. rewrite Hf. split; cbn; congruence.
Qed.

(** ** Masked elements *)
Definition fills (f : V) (c c' : cell) : Prop := c' = Some (match c with Some v => v | None => f end).
Lemma rearranged_fills f (a : barr) : wf a -> rearranged O f a -> both (fills f) a.
Proof.
  induction a as [sh v d|o c ks|a na IH|a dict lead IH|a d IH|a v IH|a axes IH|ssh items IH|tiles axis IH|g a axis d IH|o a d IH|o a b d IH1 IH2] using barr_ind2;
    intros Hw Hn; try contradiction.
  - split; auto. intros i Hi. reflexivity.
  - cbn [rearranged] in Hn. unfold both. cbn [den]. rewrite Hn. split; auto. cbn [nd_map nget]. intros i _. destruct (nget _ i); reflexivity.
  - apply both_newax; auto. apply IH; auto. apply Hw.
  - apply both_bcast; auto. apply IH; auto. apply Hw.
  - apply both_trans; auto. apply IH; auto. apply Hw.
  - apply both_stack; auto. cbn [rearranged] in Hn. apply (fold_right_and_Forall (rearranged O f)) in Hn. pose proof (proj1 (wf_items _) (proj1 (proj2 (proj2 Hw)))) as Hi.
    rewrite Forall_forall in *. intros x Hx. apply IH; auto. apply Hi; auto.
  - apply both_mosaic; auto. cbn [rearranged] in Hn. apply (fold_right_and_Forall (rearranged O f)) in Hn. pose proof (proj1 (wf_items _) (proj1 (proj2 Hw))) as Hi.
    rewrite Forall_forall in *. intros x Hx. apply IH; auto. apply Hi; auto.
Qed.
End MaskAgree.
