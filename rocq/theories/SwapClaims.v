(** SwapClaims: indexing a wrapper around any array, in terms of indexing that
    array: the wrapper treats every source alike, so what holds over a plain source
    with the same elements holds over it. *)
From Verif Require Import Base PySlice Keys NDArray Arrays Chunks Handlers Realise Spec Supported Lib SelLemmas KeyLemmas NewAxLemmas GetBase GetSimple GetBcast GetTrans GetItem HandlerLemmas Realisable RealiseOK IndexClaims ClassClaims BuiltClaims.

Lemma loop_plain keys : forall ki na comb fl ckeys eaa bd r, Forall (eq false) fl ->
  newax_loop keys ki na comb fl ckeys eaa bd = Ok r -> exists na' comb', r = (na', comb', ckeys ++ drop_new keys, bd).
Proof.
  induction keys as [|k keys IH]; intros ki na comb fl ckeys eaa bd r HF H.
  - cbn in H. injection H as <-. cbn. rewrite app_nil_r. eauto.
  - destruct (is_new k) eqn:EN.
    + destruct k; try discriminate. cbn [newax_loop] in H. unfold drop_new. cbn [filter is_new negb]. apply (IH _ _ _ _ _ _ _ _ HF H).
    + destruct fl as [|b fl]; [destruct k; discriminate|]. inversion HF; subst.
      assert (E : drop_new (k :: keys) = k :: drop_new keys) by (unfold drop_new; cbn [filter]; rewrite EN; auto). rewrite E.
      assert (H' : newax_loop keys (S ki) na (if is_scalar k then eaa :: comb else comb) fl (ckeys ++ [k]) (S eaa) bd = Ok r) by (destruct k; cbn [newax_loop] in H; auto; discriminate).
      destruct (IH _ _ _ _ _ _ _ _ H3 H') as (na' & comb' & ->). rewrite <- app_assoc. eauto.
Qed.

Section Swap.
Context {V : Type} (O : numops V).
Notation cell := (option V).
Notation barr := (@barr V).
Variable maxc : nat.
Variable garbage : list nat -> cell.
Variable m : bool.
Variable fuel : nat.
Notation reads := (reads O maxc garbage m fuel).

(** [base_getitem] only asks for the keys without newaxis. *)
Lemma base_inner (g : list key -> res barr) n keys ks (b : barr) :
  full_keys keys n = Ok ks -> fullk ks n -> fullk (drop_new ks) n -> base_getitem g n keys = Ok b -> exists c, g (drop_new ks) = Ok c.
Proof.
  intros HF HK HK' HB. unfold base_getitem in *. rewrite HF in *. cbn [bind] in *. destruct (existsb is_new ks) eqn:EN; [|rewrite drop_new_id by auto; eauto].
  unfold newax_getitem in *. apply bind_ok in HB as (ks' & E1 & HB). apply bind_ok in HB as (t & E2 & HB).
  assert (Eks : ks' = ks).
  { assert (Hid : fold_right Nat.add 0 (repeat 0 (n + 1)) = 0) by (generalize (n + 1); intros j; induction j; auto). rewrite Hid, Nat.add_0_r in E1.
    rewrite full_keys_id in E1; [congruence|auto]. }
  subst ks'. assert (HZ : newax_layout true (repeat false n) (repeat 0 (n + 1)) = repeat false n) by (apply layout_zeros; rewrite repeat_length; auto). rewrite HZ in *.
  assert (HFa : Forall (eq false) (repeat false n)) by (apply Forall_forall; intros x Hx; apply repeat_spec in Hx; auto).
  destruct (loop_plain _ _ _ _ _ _ _ _ _ HFa E2) as (na' & comb' & ->). cbn [app] in *.
  assert (Ec : full_keys (drop_new ks) n = Ok (drop_new ks)) by (apply full_keys_id; auto). rewrite Ec in *. cbn [bind] in *.
  pose proof (drop_new_nonew ks) as Hnn. unfold nonew in Hnn. rewrite Hnn in *. apply bind_ok in HB as (c & E & _). eauto.
Qed.
(** What [base_getitem] makes of the indexed array. *)
Lemma base_swap (g1 g2 : list key -> res barr) n keys ks (c1 c2 b1 : barr) :
  full_keys keys n = Ok ks -> fullk ks n -> fullk (drop_new ks) n ->
  g1 (drop_new ks) = Ok c1 -> g2 (drop_new ks) = Ok c2 -> ndim c1 = ndim c2 -> base_getitem g1 n keys = Ok b1 ->
  (b1 = c1 /\ base_getitem g2 n keys = Ok c2) \/ exists na, length na = S (ndim c2) /\ b1 = ANewAx c1 na /\ base_getitem g2 n keys = Ok (ANewAx c2 na).
Proof.
  intros HF HK HK' H1 H2 HD HB. unfold base_getitem in *. rewrite HF in *. cbn [bind] in *. destruct (existsb is_new ks) eqn:EN.
  - right. unfold newax_getitem in *. apply bind_ok in HB as (ks' & E1 & HB). rewrite E1. cbn [bind]. apply bind_ok in HB as (t & E2 & HB).
    assert (Eks : ks' = ks).
    { assert (Hid : fold_right Nat.add 0 (repeat 0 (n + 1)) = 0) by (generalize (n + 1); intros j; induction j; auto). rewrite Hid, Nat.add_0_r in E1.
      rewrite full_keys_id in E1; [congruence|auto]. }
    subst ks'. assert (HZ : newax_layout true (repeat false n) (repeat 0 (n + 1)) = repeat false n) by (apply layout_zeros; rewrite repeat_length; auto). rewrite HZ in *.
    rewrite E2. cbn [bind].
    assert (HFa : Forall (eq false) (repeat false n)) by (apply Forall_forall; intros x Hx; apply repeat_spec in Hx; auto).
    destruct (loop_plain _ _ _ _ _ _ _ _ _ HFa E2) as (na' & comb' & ->). cbn [app] in *.
    assert (Ec : full_keys (drop_new ks) n = Ok (drop_new ks)) by (apply full_keys_id; auto). rewrite Ec in *. cbn [bind] in *.
    pose proof (drop_new_nonew ks) as Hnn. unfold nonew in Hnn. rewrite Hnn in *. rewrite H1 in HB. rewrite H2. cbn [bind] in *.
    unfold mk_newax in *. rewrite <- HD. destruct (ndim c1 + 1 =? length (combine_axes na' comb')) eqn:En; [|discriminate]. cbn [bind] in *. injection HB as <-.
    apply Nat.eqb_eq in En. exists (combine_axes na' comb'). split; [lia|]. auto.
  - left. rewrite drop_new_id in H1, H2 by auto. split; [congruence|auto].
Qed.

(** [newaxis] on realised arrays. *)
Lemma read_newax (c : barr) na d : reads c d -> nshape d = shape c -> length na = S (ndim c) ->
  exists r, reads (ANewAx c na) r /\ nd_eq r (nd_sel d (newax_layout DNew (full_sels (nshape d)) na)).
Proof.
  intros Hr Hs HL. unfold ClassClaims.reads in *. destruct fuel as [|f]; [discriminate|].
  change (realise O maxc garbage (S f) m (ANewAx c na)) with (d <- realise O maxc garbage (S f) m c ;; np_index d (newax_layout KNew (repeat KFull (ndim c)) na)).
  rewrite Hr. cbn [bind]. unfold ndim. rewrite <- Hs. apply newax_real. rewrite Hs. auto.
Qed.
Lemma read_trans (c : barr) axes d : reads c d -> reads (ATrans c axes) (np_transpose d axes).
Proof.
  intros Hr. unfold ClassClaims.reads in *. destruct fuel as [|f]; [discriminate|].
  change (realise O maxc garbage (S f) m (ATrans c axes)) with (d <- realise O maxc garbage (S f) m c ;; Ok (np_transpose d axes)).
  rewrite Hr. auto.
Qed.

(** A plain source with given elements. *)
Definition plain (d : nd cell) : barr := AAdapt true (mkC (nshape d) (nget d) None 0) [].
Lemma plain_wf d : wf (plain d).
Proof. split; auto. unfold valid_keys, oselect, np_expand. cbn. rewrite Nat.sub_0_r, sel_keys_full. discriminate. Qed.
Lemma plain_den d : nd_eq (den O true (plain d)) d.
Proof.
  cbn [den plain]. unfold oindex, oselect, np_expand. cbn. rewrite Nat.sub_0_r, sel_keys_full.
  pose proof (nd_sel_full (mkND (nshape d) (nget d))) as [H1 H2]. cbn [nshape] in H1, H2. split.
  - cbn [nd_map nshape]. exact H1.
  - intros i Hi. cbn [nd_map nget nshape] in *. rewrite H2 by exact Hi. cbn [nget]. unfold fill_cell. destruct (nget d i); auto.
Qed.
Lemma plain_shape d : shape (plain d) = nshape d.
Proof. rewrite <- (den_shape O true) by apply plain_wf. apply plain_den. Qed.
Lemma plain_ok d keys : supported (plain d) keys.
Proof. intros ks _. cbn [okk plain]. constructor. Qed.

Theorem trans_index (a : barr) axes da keys ks sk b0 d0 :
  NoDup axes -> length axes = ndim a -> Forall (fun x => x < ndim a) axes ->
  reads a da -> nshape da = shape a ->
  np_expand keys (ndim a) = Ok ks -> valid_keys keys (shape (ATrans a axes)) ->
  length sk = ndim a -> (forall j, j < ndim a -> nth (nth j axes 0) sk KBad = nth j (drop_new ks) KBad) ->
  getitem a sk = Ok b0 -> reads b0 d0 -> nshape d0 = shape b0 -> nd_eq d0 (oindex da sk) ->
  exists b dt db, getitem (ATrans a axes) keys = Ok b /\ reads (ATrans a axes) dt /\ reads b db /\ nd_eq db (oindex dt keys).
Proof.
  intros HND HL HF HR HS Hexp HV Hsk Hnth HB HR0 HS0 H0.
  set (n := ndim a) in *. assert (HP : perm axes n) by (split; [|split]; auto).
  assert (EA : shape (plain da) = shape a) by (rewrite plain_shape; auto).
  assert (EN : ndim (plain da) = n) by (unfold ndim; rewrite EA; auto).
  assert (ET : shape (ATrans (plain da) axes) = shape (ATrans a axes)) by (cbn [shape]; rewrite EA; auto).
  assert (ESh : shape (ATrans a axes) = map (fun ax => nth ax (shape a) 0) axes) by (cbn [shape]; apply (apply_forward_spec 0 axes (shape a) n); auto).
  assert (WT : wf (ATrans (plain da) axes)).
  { split; [apply plain_wf|]. rewrite EN. auto. }
  (* the selection *)
  pose proof HV as HV'. unfold valid_keys, oselect in HV'. rewrite ESh, map_length, HL, Hexp in HV'.
  destruct (sel_keys ks (map (fun ax => nth ax (shape a) 0) axes)) as [s|] eqn:Es; [|congruence]. clear HV'.
  pose proof (sel_keys_drop _ _ _ Es) as Hcs. set (cs := drop_dnew s) in Hcs.
  assert (HNf : nonew (drop_new ks)) by apply drop_new_nonew.
  pose proof (proj1 (sel_keys_nth _ _ _ HNf) Hcs) as (HLk & HLc & Hnc). rewrite map_length in HLk, HLc, Hnc. rewrite HL in HLk, HLc, Hnc.
  set (pos := fun ax => match index_of ax axes with Some j => j | None => 0 end).
  assert (Hpos : forall ax, ax < n -> index_of ax axes = Some (pos ax) /\ pos ax < n /\ nth (pos ax) axes 0 = ax).
  { intros ax Hax. destruct (index_of_In ax axes) as [j Ej]. eapply perm_In; eauto.
    unfold pos. rewrite Ej. split; auto. apply index_of_Some in Ej. rewrite HL in Ej. auto. }
  assert (Hsk' : forall i, i < n -> nth i sk KBad = nth (pos i) (drop_new ks) KBad).
  { intros i Hi. destruct (Hpos i Hi) as (_ & Hp & Hax). rewrite <- (Hnth (pos i) Hp), Hax. auto. }
  assert (Erk : apply_inverse KBad axes (drop_new ks) = sk).
  { unfold apply_inverse. rewrite HL, (scatter_index axes (drop_new ks) KBad n HP HLk). apply (nth_error_ext_nth KBad); [rewrite map_length, seq_length; auto|].
    rewrite map_length, seq_length. intros i Hi. rewrite nth_map_seq by auto. destruct (Hpos i Hi) as (-> & _). rewrite Hsk'; auto. }
  assert (HNs : nonew sk).
  { apply existsb_false_Forall. apply Forall_forall. intros k Hin. apply (In_nth _ _ KBad) in Hin as (i & Hi & <-). rewrite Hsk in Hi.
    rewrite Hsk' by auto. destruct (Hpos i Hi) as (_ & Hp & _). apply existsb_false_Forall in HNf. apply nth_Forall; auto. lia. }
  set (s' := map (fun ax => nth (pos ax) cs DNew) (seq 0 n)).
  assert (Hsel : sel_keys sk (shape a) = Some s').
  { apply sel_keys_nth; auto. split; [auto|]. split; [unfold s'; rewrite map_length, seq_length; auto|]. intros i Hi. change (i < n) in Hi.
    unfold s'. rewrite (nth_map_seq (fun ax => nth (pos ax) cs DNew)), Hsk' by auto. destruct (Hpos i Hi) as (_ & Hp & Hax).
    specialize (Hnc (pos i) Hp). rewrite (nth_map _ _ _ _ 0) in Hnc by lia. rewrite Hax in Hnc. auto. }
  (* the plain source *)
  assert (VA : valid_keys sk (shape (plain da))).
  { rewrite EA. unfold valid_keys. rewrite oselect_full by (eapply sel_keys_fullk; eauto). congruence. }
  destruct (getitem_ok O (plain da) sk (plain_wf da) VA (plain_ok da sk)) as (A' & EA' & WA' & DA' & _).
  assert (DA : nd_eq (den O true A') d0).
  { eapply nd_eq_trans; [apply DA'|]. eapply nd_eq_trans; [|apply nd_eq_sym, H0]. apply oindex_eq; [apply plain_den|]. rewrite den_shape by apply plain_wf. auto. }
  assert (SA : shape A' = shape b0) by (rewrite <- (den_shape O true A' WA'), (proj1 DA); auto).
  assert (VT : valid_keys keys (shape (ATrans (plain da) axes))) by (rewrite ET; auto).
  assert (ST : supported (ATrans (plain da) axes) keys) by (intros ks' _; cbn [okk plain]; constructor).
  destruct (getitem_ok O (ATrans (plain da) axes) keys WT VT ST) as (bT & EbT & WbT & DbT & _).
  assert (HFk : full_keys keys n = Ok ks).
  { rewrite full_keys_np; auto. eapply np_expand_count; eauto. }
  assert (HK : fullk ks n). { pose proof (sel_keys_fullk _ _ _ Es) as H. rewrite map_length, HL in H. auto. }
  assert (HK' : fullk (drop_new ks) n). { pose proof (sel_keys_fullk _ _ _ Hcs) as H. rewrite map_length, HL in H. auto. }
  cbn [getitem] in EbT |- *.
  replace (ndim (ATrans (plain da) axes)) with n in EbT by (unfold ndim; rewrite ET, ESh, map_length; auto).
  replace (ndim (ATrans a axes)) with n by (unfold ndim; rewrite ESh, map_length; auto).
  match type of EbT with base_getitem ?g _ _ = _ => set (g1 := g) in * end.
  match goal with |- context [base_getitem ?g _ _] => set (g2 := g) end.
  destruct (base_inner g1 n keys ks bT HFk HK HK' EbT) as [c1 Ec1].
  assert (E1 : g1 (drop_new ks) = mk_trans A' (Some (new_order axes sk))) by (unfold g1; rewrite Erk, EA'; auto).
  assert (E2 : g2 (drop_new ks) = mk_trans b0 (Some (new_order axes sk))) by (unfold g2; rewrite Erk, HB; auto).
  assert (EC : c1 = ATrans A' (new_order axes sk) /\ mk_trans b0 (Some (new_order axes sk)) = Ok (ATrans b0 (new_order axes sk))).
  { rewrite E1 in Ec1. unfold mk_trans in *. unfold ndim in *. rewrite <- SA. destruct (_ =? _); [|discriminate]. split; [congruence|auto]. }
  destruct EC as [-> Ec2]. rewrite Ec2 in E2. set (ord := new_order axes sk) in *.
  assert (HD : ndim (ATrans A' ord) = ndim (ATrans b0 ord)) by (unfold ndim; cbn [shape]; rewrite SA; auto).
  assert (DT : nd_eq (np_transpose da axes) (den O true (ATrans (plain da) axes))).
  { cbn [den]. eapply nd_eq_trans; [apply transpose_real; rewrite HS; auto|]. apply transpose_eq; [rewrite HS; auto|]. apply nd_eq_sym, plain_den. }
  assert (VD : valid_keys keys (nshape (den O true (ATrans (plain da) axes)))) by (rewrite den_shape; auto).
  assert (Hend : forall db, nd_eq db (den O true bT) -> nd_eq db (oindex (np_transpose da axes) keys)).
  { intros db Hdb. eapply nd_eq_trans; [exact Hdb|]. eapply nd_eq_trans; [apply DbT|]. apply oindex_eq; auto. apply nd_eq_sym, DT. }
  assert (Hc : wf (ATrans A' ord) -> nd_eq (np_transpose d0 ord) (den O true (ATrans A' ord)) /\ nshape (np_transpose d0 ord) = shape (ATrans b0 ord)).
  { intros (W0 & W1 & W2 & W3). assert (HPo : perm ord (length (nshape d0))) by (rewrite HS0, <- SA; split; [|split]; auto).
    assert (H : nd_eq (np_transpose d0 ord) (den O true (ATrans A' ord))).
    { cbn [den]. eapply nd_eq_trans; [apply transpose_real; auto|]. apply transpose_eq; auto. apply nd_eq_sym, DA. }
    split; auto. rewrite (proj1 H), den_shape by (split; [|split]; auto). cbn [shape]. rewrite SA. auto. }
  destruct (base_swap g1 g2 n keys ks _ _ bT HFk HK HK' Ec1 E2 HD EbT) as [[-> Eb]|(na & Hna & -> & Eb)].
  - exists (ATrans b0 ord), (np_transpose da axes), (np_transpose d0 ord). split; auto. split; [apply read_trans; auto|]. split; [apply read_trans; auto|].
    apply Hend. apply Hc; auto.
  - destruct WbT as [W1 W2]. destruct (Hc W1) as [D1 D2].
    destruct (read_newax (ATrans b0 ord) na (np_transpose d0 ord) (read_trans _ _ _ HR0) D2 Hna) as (r & Hr & Dr).
    exists (ANewAx (ATrans b0 ord) na), (np_transpose da axes), r. split; auto. split; [apply read_trans; auto|]. split; auto.
    apply Hend. eapply nd_eq_trans; [exact Dr|]. change (den O true (ANewAx (ATrans A' ord) na)) with (nd_sel (den O true (ATrans A' ord)) (newax_layout DNew (full_sels (nshape (den O true (ATrans A' ord)))) na)). rewrite (proj1 D1). apply nd_sel_eq; auto.
    rewrite (proj1 D1), den_shape by auto. eapply sel_keys_valid. apply layout_keys. exact W2.
Qed.
End Swap.
