(** ReadOnce: blocks of an array take each element of its sources once. *)
From Verif Require Import Base PySlice Keys NDArray Arrays Chunks Handlers Realise Spec Supported Lib SelLemmas KeyLemmas NewAxLemmas GetBase GetSimple GetBcast GetTrans GetStack GetMosaic GetItem ChunkLemmas AssignLemmas HandlerLemmas Realisable NumpyApply StreamLemmas RealOK RealiseOK ChunkClaims BoundClaims Steady SteadyReal SteadyClaims Reads ReadSpec ReadLemmas.
From Coq Require Import ZifyBool ZifyNat.
From Coq Require Import Permutation.

Definition arrk (k : key) : bool := match k with KArr _ => true | _ => false end.
Lemma count_nx f : forall ks fl, count_if f (nx_ck ks fl) <= count_if f ks.
Proof.
  induction ks as [|k ks IH]; intros fl; auto. rewrite count_if_cons.
  assert (H : forall fl, count_if f (nx_ck ks fl) <= (if f k then 1 else 0) + count_if f ks) by (intros fl'; specialize (IH fl'); lia).
  destruct k; cbn [nx_ck]; auto; (destruct fl as [|[|] fl]; [rewrite count_if_nil; lia|auto|rewrite count_if_cons; specialize (IH fl); lia]).
Qed.
Lemma count_set f axis (k : key) : forall ks, count_if f (set_nth axis k ks) <= S (count_if f ks).
Proof.
  revert axis. intros axis ks. revert axis. induction ks as [|k0 ks IH]; intros [|axis]; cbn [set_nth]; rewrite ?count_if_cons; auto.
  - destruct (f k), (f k0); lia.
  - specialize (IH axis). lia.
Qed.
Lemma count_sub f (l l' : list key) : Permutation l l' -> count_if f l = count_if f l'.
Proof. induction 1; rewrite ?count_if_cons; auto; try lia. Qed.
Lemma count_set_same f axis (k : key) ks : f k = false -> count_if f (set_nth axis k ks) <= count_if f ks.
Proof.
  intros Hf. revert axis. induction ks as [|k0 ks IH]; intros [|axis]; cbn [set_nth]; rewrite ?count_if_cons; auto.
  - rewrite Hf. destruct (f k0); lia.
  - specialize (IH axis). lia.
Qed.

Section Once.
Context {V : Type} (O : numops V).
Variable ints : bool.
Notation cell := (option V).
Notation barr := (@barr V).

Lemma pos_one sh na : Forall (fun d => 1 <= d) sh -> length na = S (length sh) -> Forall (fun d => 1 <= d) (newax_layout 1 sh na).
Proof.
  intros H. revert na. induction H as [|d sh Hd H IH]; intros [|n na] HL; cbn [length] in HL; try lia; cbn [newax_layout].
  - destruct na; [|discriminate]. apply Forall_forall. intros x Hx. apply in_app_iff in Hx as [Hx|[]]. apply repeat_spec in Hx. lia.
  - apply Forall_app. split; [apply Forall_forall; intros x Hx; apply repeat_spec in Hx; lia|]. constructor; auto.
Qed.
Lemma layout_pos (a : barr) : forall n, wf a -> layout ints n a -> Forall (fun d => 1 <= d) (shape a).
Proof.
  induction a as [sh v d|o c ks|a na IH|a dict lead IH|a d IH|a v IH|a axes IH|ssh items IH|tiles axis IH
    |g a axis d IH|o a d IH|o a b d IH1 IH2] using barr_ind2; intros n Hw Hl; cbn [layout] in Hl; try contradiction; eauto.
  - tauto.
  - destruct Hw as [Hw HL]. cbn [shape]. apply pos_one; eauto.
  - destruct Hw as (Hwa & HL & HND & HFx). assert (HP : perm axes (ndim a)) by (split; [|split]; auto).
    cbn [shape]. rewrite (apply_forward_spec _ _ _ (ndim a)) by auto. apply Forall_forall. intros x Hx. apply in_map_iff in Hx as (i & <- & Hi).
    pose proof (IH n Hwa Hl) as H. rewrite Forall_forall in H, HFx. apply H. apply nth_In. apply HFx. auto.
  - pose proof Hw as (Hne & HLi & Hwi & Hsi). destruct Hl as [_ Hl]. rewrite fold_right_and_Forall in Hl, Hwi. rewrite Forall_forall in *.
    destruct items as [|it its]; [congruence|]. cbn [shape]. intros x Hx. apply in_app_iff in Hx as [Hx|Hx].
    + assert (H : Forall (fun d => 1 <= d) ssh) by (apply (@Steady.prodn_pos V (fun _ _ => True)); rewrite <- HLi; cbn [length]; lia). rewrite Forall_forall in H. auto.
    + assert (Hin : In it (it :: its)) by (simpl; auto). pose proof (IH it Hin n (proj1 (Hwi _ Hin)) (Hl _ Hin)) as H. rewrite Forall_forall in H. auto.
  - pose proof Hw as (Hne & Hwt & Hsame). rewrite fold_right_and_Forall in Hl, Hwt. rewrite Forall_forall in *.
    destruct tiles as [|t ts]; [congruence|]. assert (Hin : In t (t :: ts)) by (simpl; auto). pose proof (IH t Hin _ (proj1 (Hwt _ Hin)) (Hl _ Hin)) as H.
    cbn [shape]. rewrite <- Forall_forall. apply Forall_set_nth; auto. rewrite fold_left_add_acc.
    assert (Hax : axis < ndim t) by (apply (Hsame t); auto). rewrite Forall_forall in H. specialize (H (nth axis (shape t) 0) (nth_In _ _ Hax)). lia.
Qed.

Lemma layout_thrift (a : barr) : forall n, layout ints n a -> thrifty a.
Proof.
  induction a as [sh v d|o c ks|a na IH|a dict lead IH|a d IH|a v IH|a axes IH|ssh items IH|tiles axis IH
    |g a axis d IH|o a d IH|o a b d IH1 IH2] using barr_ind2; intros n; cbn [layout thrifty]; eauto; rewrite ?fold_right_and_Forall; rewrite ?Forall_forall in *; eauto.
  - intros (_ & _ & [->|(-> & _)]); auto. right. unfold numpy_ok, one_seq. cbn. auto.
  - intros [_ H]. eauto.
Qed.
Lemma layout_steady maxc (HG : @agg V -> nat -> Prop) (a : barr) : forall n arrs, wf a -> layout ints n a -> (n = 0 -> arrs = false) -> steady maxc true HG ints arrs false 1 a.
Proof.
  induction a as [sh v d|o c ks|a na IH|a dict lead IH|a d IH|a v IH|a axes IH|ssh items IH|tiles axis IH
    |g a axis d IH|o a d IH|o a b d IH1 IH2] using barr_ind2; intros n arrs Hw Hl Ha; cbn [layout] in Hl; try contradiction; cbn [steady]; try (solve [eauto]).
  - destruct Hl as (H1 & H2 & H3). repeat split; auto. destruct H3 as [->|(-> & _ & [H|[H|H]])]; auto; right; left; auto.
  - destruct Hw. eauto.
  - destruct Hw. eauto.
  - destruct Hw as (Hne & HLi & Hwi & Hsi). destruct Hl as [Hn Hl]. rewrite fold_right_and_Forall in *. rewrite Forall_forall in *.
    split; [destruct Hn; auto|]. split; [discriminate|]. intros it Hit. eapply IH; eauto. apply (Hwi it Hit).
  - pose proof (layout_pos (AMosaic tiles axis) n Hw Hl) as HP. pose proof Hw as (Hne & Hwt & Hsame). rewrite fold_right_and_Forall in *. rewrite Forall_forall in *.
    split; [|split; [discriminate|]].
    + apply HP. apply nth_In. destruct tiles as [|t ts]; [congruence|]. cbn [shape]. rewrite set_nth_length. apply (Hsame t). simpl; auto.
    + intros t Ht. apply (IH t Ht (S n)); auto; [apply (Hwt t Ht)|lia].
Qed.

Definition Pth (a : barr) : Prop := forall n arrs ks b, wf a -> layout ints n a -> (n = 0 -> arrs = false) -> Forall2 (keyok ints arrs) ks (shape a) ->
  count_if arrk ks <= n -> getitem a ks = Ok b -> thrifty b.


Notation HG0 := (fun (_ : @agg V) (_ : nat) => True).
Lemma th_adapt o c src : Pth (AAdapt o c src).
Proof.
  intros n arrs ks b Hw Hl Ha HF Hc Hb. pose proof (layout_steady 1 HG0 _ n arrs Hw Hl Ha) as Hs.
  destruct (steady_get O 1 true HG0 ints _ arrs false 1 ks Hw Hs HF) as [Hk K]. destruct (K b Hb) as [Sb _]. clear K Hs.
  destruct Hl as (Hp & HM & Hkind).
  cbn [getitem] in Hb. rewrite (base_steady ints _ _ _ _ _ HF eq_refl) in Hb.
  destruct (remap_keys (c_shape c) src ks) as [ks'|] eqn:Er; [|discriminate]. cbn [bind] in Hb. unfold mk_adapter in Hb.
  destruct (length (c_shape c) <? length ks'); [discriminate|].
  destruct (mapM (fun kn => cleanup_key (fst kn) (snd kn)) (combine ks' (c_shape c))); [|discriminate]. cbn [bind] in Hb. injection Hb as <-.
  cbn [thrifty]. destruct o; [left; reflexivity|]. destruct Hkind as [|(-> & Hn & _)]; [left; assumption|]. right.
  assert (Ec : count_if is_tup ks' = count_if arrk ks).
  { cbn [shape] in HF. pose proof Hw as [HSt HV]. unfold valid_keys in HV. destruct (oselect [] (c_shape c)) as [ssrc|] eqn:Esrc; [|congruence].
    pose proof (sliced_shape_ok _ _ _ Esrc (sel_key_stored_list _ HSt)) as Hsh. rewrite Hsh in HF. cbn [get_ok] in HF.
    apply oselect_stored in Esrc as [HLs Esrc]; auto. cbn [length app] in Esrc.
    assert (Essrc : ssrc = full_sels (c_shape c)) by (apply (sel_keys_stored_app [] (c_shape c) ssrc); auto). subst ssrc. rewrite sel_shape_full in HF.
    clear - HF Er. cbn [remap_keys] in Er. revert ks' Er.
    induction HF as [|k d ks sh Hk HF IH]; intros ks' Er; cbn in Er.
    - injection Er as <-. auto.
    - destruct (cleanup_key k d) as [k1|] eqn:E1; [|discriminate]. cbn [bind] in Er.
      destruct (mapM (fun kn => cleanup_key (fst kn) (snd kn)) (combine ks sh)) as [r|] eqn:E2; [|discriminate]. injection Er as <-.
      rewrite !count_if_cons, (IH r eq_refl). f_equal. destruct k; cbn in Hk; try contradiction; cbn in E1.
      + destruct ((Z.of_nat d <=? i) || (i <? - Z.of_nat d))%Z; [discriminate|]. injection E1 as <-. reflexivity.
      + injection E1 as <-. reflexivity.
      + destruct (existsb (fun i => (Z.of_nat d <=? i) || (i <? - Z.of_nat d))%Z l); [discriminate|]. injection E1 as <-. reflexivity. }
  split; [rewrite Ec; lia|]. destruct Sb as (_ & _ & _ & [H|[[-> _]|[_ H]]] & _); auto; try discriminate.
  unfold numpy_ok, one_seq; cbn; auto.
Qed.

Lemma th_newax a na : Pth a -> Pth (ANewAx a na).
Proof.
  intros IH n arrs ks b Hw Hl Ha HF Hc Hb. pose proof Hw as (Hwa & HL). cbn [layout] in Hl.
  set (fl := flags (ndim a) na) in *. assert (HK : nK (mkf fl) = length (shape a)) by (apply nK_flags; auto).
  assert (HF' : Forall2 (keyok ints arrs) ks (laymk 1 (mkf fl) (shape a))).
  { pose proof HF as HF2. cbn [shape] in HF2. rewrite layout_flags in HF2 by auto. exact HF2. }
  destruct (nx_all 1 HG0 ints arrs fl (shape a) ks false 0 HK HF') as (N1 & N2 & N3).
  cbn [getitem] in Hb. unfold newax_getitem in Hb.
  assert (HLfl : length fl = ndim a + fold_right Nat.add 0 na) by (apply flags_length; auto).
  rewrite <- HLfl in Hb. rewrite <- (laymk_length 1 fl (shape a) HK) in Hb. rewrite (keysok_full _ _ _ _ HF') in Hb. cbn [bind] in Hb.
  destruct (keysok_sel HG0 _ _ _ _ HF') as (s & Es).
  pose proof (nx_loop ks fl (shape a) s 0 false [] [] [] [] HK Es N1 eq_refl) as HLoop. cbn [app nKS] in HLoop.
  unfold fl in HLoop at 1. rewrite cntKS_flags in HLoop by auto.
  change (newax_layout true (repeat false (ndim a)) na) with fl in Hb. rewrite HLoop in Hb. cbn [bind] in Hb. rewrite N2 in Hb. cbn zeta iota in Hb.
  destruct (getitem a (nx_ck ks fl)) as [c'|] eqn:Ec; [|discriminate]. cbn [bind] in Hb. unfold mk_newax in Hb.
  match type of Hb with context [if ?c then _ else _] => destruct c; [|discriminate] end. cbn [bind] in Hb. injection Hb as <-.
  cbn [thrifty]. apply (IH n arrs _ _ Hwa Hl Ha N3); auto. pose proof (count_nx arrk ks fl). lia.
Qed.
Lemma th_asty a d : Pth a -> Pth (AAsTy a d).
Proof.
  intros IH n arrs ks b Hw Hl Ha HF Hc Hb. cbn [getitem] in Hb. destruct (getitem a ks) as [c'|] eqn:E; [|discriminate]. cbn [bind] in Hb. injection Hb as <-.
  cbn [thrifty]. eapply IH; eauto.
Qed.
Lemma th_maskv a v : Pth a -> Pth (AMaskV a v).
Proof.
  intros IH n arrs ks b Hw Hl Ha HF Hc Hb. cbn [getitem] in Hb. destruct (getitem a ks) as [c'|] eqn:E; [|discriminate]. cbn [bind] in Hb. injection Hb as <-.
  cbn [thrifty]. eapply IH; eauto.
Qed.
Lemma scatter_count f axes m (ks : list key) : perm axes m -> length ks = length axes -> count_if f (apply_inverse KBad axes ks) = count_if f ks.
Proof.
  intros HP HL. pose proof HP as (HL' & HND & HFx).
  assert (E : map (fun i => nth i (apply_inverse KBad axes ks) KBad) axes = ks).
  { apply nth_ext with (d := KBad) (d' := KBad); [rewrite map_length; auto|]. intros j Hj. rewrite map_length in Hj. rewrite (nth_map _ _ _ _ 0) by auto.
    unfold apply_inverse. apply nth_scatter; auto. rewrite repeat_length. rewrite HL'. auto. }
  transitivity (count_if f (map (fun i => nth i (apply_inverse KBad axes ks) KBad) axes)); [|rewrite E; auto].
  apply count_sub. set (r := apply_inverse KBad axes ks).
  assert (Erl : length r = length axes) by (unfold r, apply_inverse; rewrite scatter_length, repeat_length; auto). clearbody r.
  rewrite (perm_Permutation axes m HP). rewrite <- HL', <- Erl. rewrite nth_list_eq. reflexivity.
Qed.
Lemma th_trans a axes : Pth a -> Pth (ATrans a axes).
Proof.
  intros IH n arrs ks b Hw Hl Ha HF Hc Hb. pose proof Hw as (Hwa & HL & HND & HFx). assert (HP : perm axes (ndim a)) by (split; [|split]; auto).
  cbn [layout] in Hl. set (rk := apply_inverse KBad axes ks).
  assert (HLk : length ks = length axes).
  { rewrite (Forall2_length _ _ _ HF). cbn [shape]. unfold apply_forward. rewrite scatter_length, repeat_length. auto. }
  assert (HR : Forall2 (keyok ints arrs) rk (shape a)).
  { assert (Erl : length rk = ndim a) by (unfold rk, apply_inverse; rewrite scatter_length, repeat_length; auto).
    apply (F2_of_nth 1 HG0 _ _ _ KBad 0); [exact Erl|]. intros i Hi. rewrite Erl in Hi. assert (Hin : In i axes) by (eapply perm_In; eauto).
    apply (In_nth _ _ 0) in Hin as (j & Hj & <-).
    assert (Ern : nth (nth j axes 0) rk KBad = nth j ks KBad).
    { unfold rk, apply_inverse. apply nth_scatter; auto. rewrite repeat_length, HL. auto. }
    rewrite Ern. assert (Hj' : j < length ks) by lia. pose proof (F2_nth 1 HG0 _ _ _ j KBad 0 HF Hj') as HK. cbn [shape] in HK.
    rewrite (apply_forward_spec _ _ _ (ndim a)) in HK by auto. rewrite (nth_map _ _ _ _ 0) in HK by auto. exact HK. }
  cbn [getitem] in Hb. rewrite (base_steady ints _ _ _ _ _ HF eq_refl) in Hb. cbn zeta in Hb. fold rk in Hb.
  destruct (getitem a rk) as [c'|] eqn:E; [|discriminate]. cbn [bind mk_trans] in Hb.
  match type of Hb with context [if ?c then _ else _] => destruct c; [|discriminate] end. injection Hb as <-.
  cbn [thrifty]. apply (IH n arrs rk c'); auto. unfold rk. rewrite (scatter_count arrk axes (ndim a)); auto.
Qed.
Lemma th_stack ssh items : Forall Pth items -> Pth (AStack ssh items).
Proof.
  intros IH n arrs ks b Hw [Hn Hl] Ha HF Hc Hb. pose proof Hw as (Hne & HLi & Hwi & Hsi).
  rewrite fold_right_and_Forall in Hl. rewrite fold_right_and_Forall in Hwi. rewrite Forall_forall in IH, Hl, Hwi, Hsi.
  destruct items as [|it0 its0] eqn:Eits; [congruence|]. rewrite <- Eits in *.
  assert (Hsh : shape (AStack ssh items) = ssh ++ shape it0) by (rewrite Eits; reflexivity).
  assert (Hsh0 : forall it, In it items -> shape it = shape it0).
  { intros it Hit. apply Hsi in Hit as [Hit _]. rewrite Eits in Hit. exact Hit. }
  pose proof HF as HFa. rewrite Hsh in HFa. apply Forall2_app_inv_r in HFa as (sk & ik & HF1 & HF2 & Eks).
  assert (HLsk : length sk = length ssh) by (eapply Forall2_length; eauto).
  assert (Efn : firstn (length ssh) ks = sk) by (rewrite Eks, <- HLsk, firstn_app, firstn_all, Nat.sub_diag; cbn [firstn]; apply app_nil_r).
  assert (Esn : skipn (length ssh) ks = ik) by (rewrite Eks, <- HLsk, skipn_app, skipn_all, Nat.sub_diag; auto).
  assert (HIt : forall it, In it items -> forall b, getitem it ik = Ok b -> thrifty b).
  { intros it Hit b' Hb'. assert (HFi : Forall2 (keyok ints arrs) ik (shape it)) by (rewrite Hsh0; auto).
    apply (IH it Hit n arrs ik b' (proj1 (Hwi _ Hit)) (Hl _ Hit) Ha HFi); auto. rewrite Eks, count_if_app in Hc. lia. }
  destruct (keysok_nonew _ _ _ _ HF1) as (HN1 & HE1 & HL1).
  cbn [getitem] in Hb. rewrite (base_steady ints _ _ _ _ _ HF eq_refl) in Hb. cbn zeta in Hb.
  rewrite Efn, Esn in Hb. destruct (keysok_sel HG0 _ _ _ _ HF1) as (s1 & Hs1). rewrite (sliced_shape_ok sk ssh s1) in Hb; auto.
  2:{ rewrite oselect_full; auto. eapply sel_keys_fullk; eauto. }
  cbn [bind] in Hb. destruct (np_index (mkND ssh (ravel ssh)) sk) as [st|]; [|discriminate]. cbn [bind] in Hb.
  destruct (sel_shape s1) as [|n1 r1] eqn:Es1.
  - apply nth_gets in Hb as (it & Hin & E). apply (HIt it Hin b E).
  - rewrite <- Es1 in Hb. destruct (shape_eqb (nshape st) (sel_shape s1)); [|discriminate].
    destruct (mapM _ _) as [its|] eqn:EM; [|discriminate]. cbn [bind] in Hb. unfold mk_stack in Hb.
    destruct its as [|i0 its1] eqn:Ei; [discriminate|]. rewrite <- Ei in *. destruct (forallb _ _); [|discriminate]. injection Hb as <-.
    cbn [thrifty]. rewrite fold_right_and_Forall. apply mapM_ok in EM. apply Forall_forall. intros x Hx. clear - EM Hx HIt.
    induction EM as [|i y l l' Hi EM IHm]; [contradiction|]. destruct Hx as [<-|Hx]; auto.
    apply nth_gets in Hi as (it & Hin & E). apply (HIt _ Hin _ E).
Qed.
Lemma th_mosaic tiles axis : Forall Pth tiles -> Pth (AMosaic tiles axis).
Proof.
  intros IH n arrs ks b Hw Hl Ha HF Hc Hb. pose proof (layout_pos _ n Hw Hl) as HPos. pose proof Hw as (Hne & Hwt & Hsame). cbn [layout] in Hl.
  rewrite fold_right_and_Forall in Hl. rewrite fold_right_and_Forall in Hwt. rewrite Forall_forall in IH, Hl, Hwt, Hsame.
  assert (Hex : exists u0 us, tiles = u0 :: us) by (destruct tiles; [congruence|eauto]). destruct Hex as (u0 & us & Etl).
  set (lens := map (fun t => nth axis (shape t) 0) tiles) in *.
  assert (Hhd : forall t, hd t tiles = u0) by (subst; auto). assert (Hu0 : In u0 tiles) by (subst; simpl; auto).
  assert (Hax0 : axis < ndim u0) by (apply (Hsame u0); auto).
  assert (Hshape : shape (AMosaic tiles axis) = set_nth axis (fold_right Nat.add 0 lens) (shape u0)).
  { unfold lens. rewrite Etl. cbn [shape map fold_right]. rewrite fold_left_add_acc. auto. }
  assert (Hshp : forall t, In t tiles -> shape t = set_nth axis (nth axis (shape t) 0) (shape u0) /\ ndim t = ndim u0).
  { intros t Ht. destruct (Hsame t Ht) as (H1 & H2 & H3). rewrite Hhd in *.
    assert (shape t = set_nth axis (nth axis (shape t) 0) (shape u0)) as E by (apply set_nth_remove; auto).
    split; auto. unfold ndim. rewrite E, set_nth_length. auto. }
  assert (HLl : length lens = length tiles) by (unfold lens; apply map_length).
  pose proof HF as HFs. rewrite Hshape in HFs. pose proof (Forall2_length _ _ _ HFs) as HLk. rewrite set_nth_length in HLk. fold (ndim u0) in HLk.
  destruct (keysok_nonew _ _ _ _ HF) as (HN & HE & _).
  assert (Hax : axis < length ks) by lia.
  assert (HK : keyok ints arrs (nth axis ks KBad) (fold_right Nat.add 0 lens)).
  { pose proof (F2_nth 1 HG0 _ _ _ axis KBad 0 HFs Hax) as HK. rewrite nth_set_nth_eq in HK by auto. exact HK. }
  (* one tile *)
  assert (Htile : forall t k, In t tiles -> keyok ints true k (nth axis (shape t) 0) ->
     forall b, getitem t (set_nth axis k ks) = Ok b -> thrifty b).
  { intros t k Ht Hk b' Hb'. destruct (Hshp t Ht) as [Es En].
    assert (HFt : Forall2 (keyok ints true) (set_nth axis k ks) (shape t)).
    { rewrite Es. rewrite <- (set_nth_set_nth axis _ (fold_right Nat.add 0 lens)). eapply F2_set; eauto. }
    apply (IH t Ht (S n) true _ b' (proj1 (Hwt _ Ht)) (Hl _ Ht) ltac:(lia) HFt); auto. pose proof (count_set arrk axis k ks). lia. }
  assert (Hnorm : forall t k, In t tiles -> is_new k = false -> is_ell k = false -> axis < length (trim_keys ks) ->
     getitem t (set_nth axis k (trim_keys ks)) = getitem t (set_nth axis k ks)).
  { intros t k Ht H1 H2 Htr. destruct (Hshp t Ht) as [_ En]. apply getitem_norm; [apply Hwt; auto| |].
    - apply full_expand. apply np_expand_trim_set; auto. congruence.
    - apply full_keys_id. assert (HN' : nonew (set_nth axis k ks) /\ existsb is_ell (set_nth axis k ks) = false).
      { unfold nonew in *. apply existsb_false_Forall in HN, HE. split; apply existsb_false_Forall; apply Forall_set_nth; auto. }
      destruct HN' as [N1 N2]. split; auto. rewrite nonew_nreal by auto. rewrite set_nth_length. congruence. }
  pose proof (trim_axis ks axis ltac:(lia)) as Htrim.
  cbn [getitem] in Hb. rewrite (base_steady ints _ _ _ _ _ HF eq_refl) in Hb. cbn zeta in Hb. fold lens in Hb. unfold mosaic_plan in Hb. rewrite Htrim in Hb.
  assert (Hmk : forall ts ax, (forall x, In x ts -> thrifty x) -> mk_mosaic ts (Z.of_nat ax) = Ok b -> thrifty b).
  { intros ts ax Ht Hm. unfold mk_mosaic in Hm. destruct ts as [|t ts]; [discriminate|]. destruct (negb _); [discriminate|]. cbn zeta in Hm.
    destruct (mapM _ _); [|discriminate]. cbn [bind] in Hm. injection Hm as <-. cbn [thrifty]. rewrite fold_right_and_Forall. apply Forall_forall. exact Ht. }
  destruct (forallb key_full_b (skipn axis ks)) eqn:Efull.
  - cbn [bind] in Hb. apply Nat.leb_le in Htrim.
    assert (Ek : nth axis ks KBad = KFull).
    { rewrite (trim_app ks). rewrite app_nth2 by lia. apply nth_repeat_lt. pose proof (trim_le ks). lia. }
    rewrite mapM_map in Hb. destruct (mapM _ _) as [ts|] eqn:EM; [|discriminate]. cbn [bind] in Hb.
    refine (Hmk ts _ _ Hb).
    intros x Hx. apply mapM_ok in EM. assert (Hin : exists t, In t tiles /\ getitem t (trim_keys ks) = Ok x).
    { clear - EM Hx. induction EM as [|t y l l' Hi EM IHm]; [contradiction|]. destruct Hx as [<-|Hx]; [exists t; simpl; auto|].
      destruct (IHm Hx) as (t' & H1 & H2). exists t'. simpl. auto. }
    destruct Hin as (t & Ht & E). apply (Htile t KFull Ht (keyok_full _ _ _)). rewrite <- E. rewrite <- Ek, set_nth_same. symmetry.
    destruct (Hshp t Ht) as [_ En]. apply getitem_norm; [apply Hwt; auto| |].
    * apply full_expand. rewrite np_expand_trim by (auto; congruence). reflexivity.
    * apply full_keys_id. split; auto. rewrite nonew_nreal by auto. congruence.
  - apply Nat.leb_gt in Htrim.
    assert (Ekt : nth axis (trim_keys ks) KBad = nth axis ks KBad) by (rewrite (trim_app ks) at 2; rewrite app_nth1 by auto; auto).
    assert (Eft : firstn axis (trim_keys ks) = firstn axis ks).
    { rewrite (trim_app ks) at 2. rewrite firstn_app. replace (axis - length (trim_keys ks)) with 0 by lia. cbn [firstn]. rewrite app_nil_r. auto. }
    rewrite Ekt, Eft in Hb.
    assert (Hmany : forall idx, incb idx = true -> Forall (fun i => 0 <= i < Z.of_nat (fold_right Nat.add 0%nat lens))%Z idx ->
      (ts <- mapM (fun p => (nth (fst p) (map (fun t => getitem t) tiles) (fun _ => Err IndexError)) (snd p))
                  (map (fun g => let '(t, is) := g in
                               (tile_num (length lens) t,
                                set_nth axis (tile_key (py_nth 0 (offsets_from 0 lens) t) is) (trim_keys ks)))
                       (group_runs (map (fun i => (i, tile_of (offsets_from 0 lens) i)) idx))) ;;
       mk_mosaic ts (Z.of_nat (axis - count_if is_scalar (firstn axis ks)))) = Ok b ->
      thrifty b).
    { intros idx Hinc Hidx Hm. destruct (mapM _ _) as [ts|] eqn:EM; [|discriminate]. cbn [bind] in Hm. refine (Hmk ts _ _ Hm).
      intros x Hx. rewrite mapM_map in EM. apply mapM_ok in EM.
      assert (Hg : exists g, In g (group_runs (map (fun i => (i, tile_of (offsets_from 0 lens) i)) idx)) /\
         nth (tile_num (length lens) (fst g)) (map (fun t => getitem t) tiles) (fun _ => Err IndexError)
             (set_nth axis (tile_key (py_nth 0 (offsets_from 0 lens) (fst g)) (snd g)) (trim_keys ks)) = Ok x).
      { clear - EM Hx. induction EM as [|g y l l' Hi EM IHm]; [contradiction|]. destruct Hx as [<-|Hx].
        - exists g. destruct g. simpl in *. auto.
        - destruct (IHm Hx) as (g' & H1 & H2). exists g'. simpl. auto. }
      destruct Hg as (g & Hg & Eg). destruct (tile_keys 1 HG0 lens idx g Hinc Hidx Hg) as (t & Et & Ht & HTF). rewrite Et in Eg at 1.
      assert (Hnum : tile_num (length lens) (Z.of_nat t) = t) by (unfold tile_num; replace (Z.of_nat t <? 0)%Z with false by lia; apply Nat2Z.id).
      rewrite Hnum in Eg. rewrite (nth_map _ _ _ _ u0) in Eg by lia. assert (Hin : In (nth t tiles u0) tiles) by (apply nth_In; lia).
      assert (Hlt : nth t lens 0 = nth axis (shape (nth t tiles u0)) 0) by (unfold lens; rewrite (nth_map _ _ _ _ u0) by lia; auto).
      rewrite Hlt in HTF. rewrite Hnorm in Eg; auto.
      - apply (Htile _ _ Hin (tile_form_ok HG0 _ _ _ HTF)). exact Eg.
      - destruct (tile_key (py_nth 0 (offsets_from 0 lens) (fst g)) (snd g)); try contradiction; auto.
      - destruct (tile_key (py_nth 0 (offsets_from 0 lens) (fst g)) (snd g)); try contradiction; auto. }
    destruct (nth axis ks KBad) as [i|sl|l|l|l|l| | |] eqn:Ek; simpl in HK; try contradiction.
    + cbn [bind] in Hb. destruct HK as [Hints Hi].
      destruct (tile_of_ok lens (Z.to_nat i) ltac:(lia)) as (t & E1 & E2 & E3). rewrite Z2Nat.id in E1 by lia. rewrite E1 in Hb.
      assert (Hnum : tile_num (length lens) (Z.of_nat t) = t) by (unfold tile_num; replace (Z.of_nat t <? 0)%Z with false by lia; apply Nat2Z.id).
      rewrite Hnum in Hb.
      assert (Hoff : py_nth 0 (offsets_from 0 lens) (Z.of_nat t) = fold_right Nat.add 0 (firstn t lens)).
      { unfold py_nth. replace (Z.of_nat t <? 0)%Z with false by lia. rewrite Nat2Z.id. rewrite nth_offsets by auto. auto. }
      rewrite Hoff in Hb. rewrite (nth_map _ _ _ _ u0) in Hb by lia. assert (Hin : In (nth t tiles u0) tiles) by (apply nth_In; lia).
      assert (Hlt : nth t lens 0 = nth axis (shape (nth t tiles u0)) 0) by (unfold lens; rewrite (nth_map _ _ _ _ u0) by lia; auto).
      rewrite Hnorm in Hb by auto. refine (Htile _ _ Hin _ b Hb). simpl. split; auto. lia.
    + destruct (slice_idx sl (fold_right Nat.add 0 lens)) as [l|] eqn:El; [|discriminate]. cbn [bind] in Hb.
      assert (Hst' : match s_step sl with Some st => (0 < st)%Z | None => True end) by (destruct HK as [->|[HK _]]; [exact I|exact HK]).
      replace (match s_step sl with Some st => (st <? 0)%Z | None => false end) with false in Hb by (destruct (s_step sl); auto; lia).
      apply (Hmany l); auto; [eapply slice_idx_inc; eauto|eapply slice_idx_bounds; eauto].
    + cbn [bind] in Hb. destruct HK as (_ & H2 & H3 & H4). apply (Hmany l); auto.
Qed.
(** Blocks of such arrays take exactly what they keep. *)
Lemma layout_thrifty (a : barr) : Pth a.
Proof.
  induction a as [sh v d|o c ks0|a na IH|a dict lead IH|a d IH|a v IH|a axes IH|ssh items IH|tiles axis IH
    |g a axis d IH|o a d IH|o a b0 d IH1 IH2] using barr_ind2; try (intros ? ? ? ? ? []; fail).
  - apply th_adapt.
  - apply th_newax; auto.
  - apply th_asty; auto.
  - apply th_maskv; auto.
  - apply th_trans; auto.
  - apply th_stack; auto.
  - apply th_mosaic; auto.
Qed.

(** What all blocks take is what the array consists of. *)
Lemma block_taken (a : barr) k : wf a -> layout ints 0 a -> Forall2 (keyok ints false) k (shape a) ->
  exists b, getitem a k = Ok b /\ reads b = Ok (parts b) /\ Permutation (parts b) (map (nget (den (raw O) true a)) (positions (shape a) k)).
Proof.
  intros Hw Hl HF.
  pose proof (layout_steady 1 HG0 _ 0 false Hw Hl ltac:(auto)) as Hs.
  destruct (steady_get O 1 true HG0 ints _ false false 1 k Hw Hs HF) as [Hok _].
  destruct (keysok_sel HG0 _ _ _ _ HF) as (s & Es).
  destruct (Pget_full (raw O) a k s (getitem_all (raw O) a) Hw Es Hok) as (b & Eb & Gb). pose proof (g_wf _ _ _ _ Gb) as Hwb.
  assert (Hth : thrifty b).
  { apply (layout_thrifty a 0 false k b Hw Hl ltac:(auto) HF); auto. apply Nat.le_0_r. apply count_if_0.
    clear - HF. induction HF as [|k d ks sh Hk HF IH]; auto. cbn [existsb]. rewrite IH. destruct k; auto. destruct Hk; discriminate. }
  exists b. split; auto. split; [apply reads_parts; auto|].
  rewrite (parts_den O b Hwb (thrifty_solid b Hth)). rewrite (elements_eq _ _ (g_den _ _ _ _ Gb true)). unfold elements.
  unfold positions. rewrite (oselect_full k (shape a)) by (eapply sel_keys_fullk; eauto). rewrite Es. cbn [nd_sel nshape nget]. rewrite map_map. reflexivity.
Qed.
Lemma keys_taken (a : barr) ks : wf a -> layout ints 0 a -> Forall (fun k => Forall2 (keyok ints false) k (shape a)) ks ->
  exists l, taken_by a ks = Ok l /\ Permutation l (map (nget (den (raw O) true a)) (flat_map (positions (shape a)) ks)).
Proof.
  intros Hw Hl. unfold taken_by. induction ks as [|k ks IH]; intros HF.
  - exists []. auto.
  - inversion HF as [|? ? Hk HF']; subst. destruct (block_taken a k Hw Hl Hk) as (b & Eb & Er & HP). destruct (IH HF') as (l & El & HPl).
    cbn [mapM]. rewrite Eb. cbn [bind]. rewrite Er. cbn [bind].
    destruct (mapM (fun k0 => b0 <- getitem a k0 ;; reads b0) ks) as [ls|]; [|discriminate]. cbn [bind] in El |- *. injection El as <-.
    eexists. split; [reflexivity|]. cbn [concat flat_map]. rewrite map_app. apply Permutation_app; auto.
Qed.
Lemma all_taken maxc (a : barr) order : wf a -> layout ints 0 a -> perm order (ndim a) ->
  exists l, taken_by a (chunk_index_gen maxc (shape a) order) = Ok l /\ Permutation l (parts a).
Proof.
  intros Hw Hl HP.
  destruct (keys_taken a (chunk_index_gen maxc (shape a) order) Hw Hl) as (l & El & HPl).
  { apply Forall_forall. intros k Hk. apply (drawn_keyok maxc HG0). apply (gen_keys_drawn (V := V) maxc (fun _ => None) _ _ order (all_slices_good maxc (shape a)) HP k Hk). }
  exists l. split; auto. rewrite HPl. rewrite (chunk_perm maxc (shape a) order HP). rewrite (parts_den O a Hw (layout_solid a ints 0 Hl)).
  unfold elements. rewrite (den_shape (raw O) true a Hw). reflexivity.
Qed.
Lemma saved_taken maxc (a : barr) : ints = true -> wf a -> layout ints 0 a ->
  exists l, taken_by a (save_keys maxc (shape a)) = Ok l /\ Permutation l (parts a).
Proof.
  intros Hi Hw Hl.
  destruct (keys_taken a (save_keys maxc (shape a)) Hw Hl) as (l & El & HPl).
  { apply Forall_forall. intros k Hk. rewrite Hi. eapply save_cutting; eauto. }
  exists l. split; auto. rewrite HPl. rewrite (save_perm maxc (shape a)). rewrite (parts_den O a Hw (layout_solid a ints 0 Hl)).
  unfold elements. rewrite (den_shape (raw O) true a Hw). reflexivity.
Qed.
(** Nor does any part of them take an element twice. *)
Lemma taken_app (a : barr) ks ks' l : taken_by a (ks ++ ks') = Ok l -> exists l1 l2, taken_by a ks = Ok l1 /\ taken_by a ks' = Ok l2 /\ l = l1 ++ l2.
Proof.
  unfold taken_by. revert l. induction ks as [|k ks IH]; intros l H; cbn [app mapM] in *.
  - cbn [bind] in *. exists [], l. auto.
  - destruct (b <- getitem a k ;; reads b) as [r|]; [|discriminate]. cbn [bind] in *.
    destruct (mapM _ (ks ++ ks')) as [ls|]; [|discriminate]. cbn [bind] in *. injection H as <-.
    destruct (IH _ eq_refl) as (l1 & l2 & E1 & E2 & E). destruct (mapM _ ks) as [ls1|]; [|discriminate]. cbn [bind] in *. injection E1 as <-.
    exists (concat (r :: ls1)), l2. split; auto. split; auto. cbn [concat]. rewrite E, app_assoc. reflexivity.
Qed.
End Once.
