(** BoundClaims: out-of-range indices (property C15).  The definitions before the
    first lemma state which dimensions check their indices; nothing here models
    /repo. *)
From Verif Require Import Base PySlice Keys NDArray Arrays Spec Supported Lib SelLemmas KeyLemmas GetBase GetSimple GetBcast GetStack GetMosaic StreamLemmas.
From Coq Require Import ZifyBool ZifyNat.

(** Integers and slices with a step other than zero; with [seqs] also tuples and
    index arrays. *)
Definition plain (seqs : bool) (k : key) : Prop :=
  match k with
  | KInt _ => True
  | KSlice s => s_step s <> Some 0%Z
  | KTuple _ | KArr _ => seqs = true
  | _ => False
  end.

Definition is_mask (k : key) : bool := match k with KMask _ => true | _ => false end.

Section Checked.
Context {V : Type}.
Notation barr := (@barr V).

(** The dimensions of [a] whose indices are checked at indexing time, when the
    keys are [plain seqs].  Not checked: a ConstantArray, an adapter that stores a
    boolean mask, the leading dimensions
    of a BroadcastArray, a computed array whose first operand does not check. *)
Fixpoint checked (seqs : bool) (a : barr) : list bool :=
  match a with
  | AConst sh _ _ => repeat false (length sh)
  | AAdapt _ _ ks => repeat (negb (existsb is_mask ks)) (ndim a)
  | ANewAx c na => if seqs then repeat false (ndim a) else newax_layout true (checked seqs c) na
  | ABcast c dict lead =>
      if seqs then repeat false (ndim a)
      else repeat false (length lead)
           ++ map (fun ic => match dict_find (fst ic) dict with Some _ => true | None => snd ic end)
                  (combine (seq 0 (ndim c)) (checked seqs c))
  | AAsTy c _ | AMaskV c _ | AEl1 _ c _ | AEl2 _ c _ _ => checked seqs c
  | ATrans c axes => map (fun ax => nth ax (checked seqs c) false) axes
  | AStack ssh items =>
      if seqs then repeat false (ndim a)
      else repeat true (length ssh)
           ++ map (fun d => forallb (fun x => nth d x false) (map (checked seqs) items))
                  (seq 0 (ndim a - length ssh))
  | AMosaic tiles axis =>
      if seqs then repeat false (ndim a)
      else map (fun d => forallb (fun x => nth d x false) (map (checked false) tiles)
                         && forallb (fun x => nth d x false) (map (checked true) tiles))
               (seq 0 (ndim a))
  | AAgg _ c axis _ => remove_at axis (checked seqs c)
  end.

(** Some key addresses a checked dimension outside its range. *)
Definition hits (ck : list bool) (ks : list key) (sh : list nat) : Prop :=
  exists d, nth d ck false = true /\ d < length ks /\ sel_key (nth d ks KBad) (nth d sh 0) = None.

(** ** Keys *)
Lemma Forall_firstn {A} (P : A -> Prop) n l : Forall P l -> Forall P (firstn n l).
Proof. intros H. revert n. induction H; intros [|n]; simpl; auto. Qed.
Lemma Forall_skipn {A} (P : A -> Prop) n l : Forall P l -> Forall P (skipn n l).
Proof. intros H. revert n. induction H; intros [|n]; simpl; auto. Qed.
Lemma plain_nonew s ks : Forall (plain s) ks -> nonew ks /\ existsb is_ell ks = false.
Proof. unfold nonew. induction 1 as [|k ks Hk H [I1 I2]]; simpl; auto. destruct k; simpl in *; auto; contradiction. Qed.
Lemma plain_full s ks : Forall (plain s) ks -> full_keys ks (length ks) = Ok ks.
Proof. intros H. destruct (plain_nonew _ _ H). apply full_keys_id. split; auto. apply nonew_nreal; auto. Qed.
Lemma plain_mono ks : Forall (plain false) ks -> Forall (plain true) ks.
Proof. apply Forall_impl. intros [] H; simpl in *; auto; discriminate. Qed.
Lemma slice_idx_step s n : s_step s <> Some 0%Z -> exists l, slice_idx s n = Ok l.
Proof.
  intros H. unfold slice_idx, slice_indices. destruct (s_step s) as [v|]; cbn zeta; [|simpl; eauto].
  destruct (Z.eqb_spec v 0) as [->|]; [congruence|]. simpl. eauto.
Qed.
Lemma plain_slice_sel s n : s_step s <> Some 0%Z -> sel_key (KSlice s) n <> None.
Proof. intros H. simpl. destruct (slice_idx_step s n H) as [l ->]. discriminate. Qed.

Lemma norm_out i n : norm_int i n = None <-> ((Z.of_nat n <=? i) || (i <? - Z.of_nat n))%Z = true.
Proof. unfold norm_int. destruct ((- Z.of_nat n <=? i)%Z && (i <? Z.of_nat n)%Z) eqn:E; split; intros H; try discriminate; auto; lia. Qed.
Lemma norms_out l n : norm_ints l n = None <-> existsb (fun i => (Z.of_nat n <=? i) || (i <? - Z.of_nat n))%Z l = true.
Proof.
  induction l as [|i l IH]; simpl; [split; discriminate|]. destruct (norm_int i n) eqn:E.
  - assert (H : ((Z.of_nat n <=? i) || (i <? - Z.of_nat n))%Z = false).
    { destruct ((Z.of_nat n <=? i) || (i <? - Z.of_nat n))%Z eqn:F; auto. apply norm_out in F. congruence. }
    rewrite H. simpl. rewrite <- IH. destruct (norm_ints l n); split; auto; discriminate.
  - apply norm_out in E. rewrite E. simpl. split; auto.
Qed.

(** ** Adapters *)
Lemma cleanup_err k n : plain true k -> match cleanup_key k n with Ok _ => sel_key k n <> None | Err e => e = IndexError end.
Proof.
  destruct k; simpl; intros H; try contradiction.
  - destruct ((Z.of_nat n <=? i) || (i <? - Z.of_nat n))%Z eqn:E; auto. intros H1.
    destruct (norm_int i n) eqn:F; [discriminate|]. apply norm_out in F. congruence.
  - apply plain_slice_sel; auto.
  - destruct (existsb (fun i => (Z.of_nat n <=? i) || (i <? - Z.of_nat n))%Z l) eqn:E; auto. intros H1.
    destruct (norm_ints l n) eqn:F; [discriminate|]. apply norms_out in F. congruence.
  - destruct (existsb (fun i => (Z.of_nat n <=? i) || (i <? - Z.of_nat n))%Z l) eqn:E; auto. intros H1.
    destruct (norm_ints l n) eqn:F; [discriminate|]. apply norms_out in F. congruence.
Qed.
Lemma remap_err ind k : plain true k -> match remap_key ind k with Ok _ => sel_key k (length ind) <> None | Err e => e = IndexError end.
Proof.
  destruct k; simpl; intros H; try contradiction.
  - destruct ((Z.of_nat (length ind) <=? i) || (i <? - Z.of_nat (length ind)))%Z eqn:E; auto. intros H1.
    destruct (norm_int i (length ind)) eqn:F; [discriminate|]. apply norm_out in F. congruence.
  - destruct (slice_idx_step s (length ind) H) as [l E]. rewrite E. simpl. discriminate.
  - destruct (existsb _ l) eqn:E; auto. intros H1.
    destruct (norm_ints l (length ind)) eqn:F; [discriminate|]. apply norms_out in F. congruence.
  - destruct (existsb _ l) eqn:E; auto. intros H1.
    destruct (norm_ints l (length ind)) eqn:F; [discriminate|]. apply norms_out in F. congruence.
Qed.
Lemma cleanups_err ks : forall sh, Forall (plain true) ks -> length ks = length sh ->
  match mapM (fun kn => cleanup_key (fst kn) (snd kn)) (combine ks sh) with
  | Ok _ => Forall2 (fun k n => sel_key k n <> None) ks sh | Err e => e = IndexError end.
Proof.
  induction ks as [|k ks IH]; intros [|n sh] HP HL; simpl in *; try discriminate; auto. inversion HP; subst.
  pose proof (cleanup_err k n H1) as HC. destruct (cleanup_key k n) as [k'|e]; simpl; auto.
  specialize (IH sh H2 ltac:(lia)). destruct (mapM _ _); simpl; auto.
Qed.
Lemma remaps_err src : forall sh new ssrc,
  Forall stored_key src -> Forall (fun k => match k with KMask _ => False | _ => True end) src ->
  length src <= length sh -> sel_keys (src ++ repeat KFull (length sh - length src)) sh = Some ssrc ->
  Forall (plain true) new -> length new = length (sel_shape ssrc) ->
  match remap_keys sh src new with
  | Ok _ => Forall2 (fun k n => sel_key k n <> None) new (sel_shape ssrc) | Err e => e = IndexError end.
Proof.
  induction src as [|k0 src IH]; intros sh new ssrc HS HM HL Hsrc HP Hlen; pose proof (sel_keys_stored_app _ _ _ HS HL Hsrc) as HA.
  - simpl in HA. subst ssrc. rewrite sel_shape_full in *. simpl. apply cleanups_err; auto.
  - destruct HA as (n & sh' & d & r & -> & -> & Hd & HL' & Hr).
    inversion HS as [|x l Hk HS']; subst. inversion HM as [|x l Hm HM']; subst. destruct new as [|k new].
    + destruct (sel_shape (d :: r)); [simpl; constructor|discriminate].
    + apply sel_key_kind in Hd as Hkind. destruct Hkind as [(Esc & i & ->)|(Esc & l0 & ->)].
      * destruct k0; simpl in Esc; try discriminate. cbn [sel_shape] in *.
        specialize (IH sh' (k :: new) r HS' HM' HL' Hr HP Hlen). cbn [remap_keys]. destruct (remap_keys sh' src (k :: new)); simpl; auto.
      * simpl sel_shape in *. inversion HP; subst. specialize (IH sh' new r HS' HM' HL' Hr H2 ltac:(simpl in Hlen; lia)).
        assert (HR : exists ind, length ind = length l0 /\
          remap_keys (n :: sh') (k0 :: src) (k :: new) = bind (remap_key ind k) (fun k' => bind (remap_keys sh' src new) (fun r => Ok (k' :: r)))).
        { destruct k0; simpl in Esc, Hk, Hm; try contradiction; try discriminate.
          - simpl in Hd. destruct (slice_idx s n) as [ind|] eqn:E; [|discriminate]. injection Hd as <-.
            exists ind. rewrite map_length. split; auto. simpl. rewrite E. reflexivity.
          - simpl in Hd. destruct (norm_ints l n) as [q|] eqn:E; [|discriminate]. injection Hd as <-.
            exists l. split; [symmetry; eapply norm_ints_length; eauto|]. reflexivity. }
        destruct HR as (ind & El & ->). pose proof (remap_err ind k H1) as HE. rewrite El in HE.
        destruct (remap_key ind k); simpl; auto. destruct (remap_keys sh' src new); simpl; auto.
Qed.
Lemma F2_nohit ck ks sh : Forall2 (fun k n => sel_key k n <> None) ks sh -> ~ hits ck ks sh.
Proof.
  intros H (d & _ & Hd & HN). revert d Hd HN. induction H as [|k n ks sh H1 H2 IH]; intros [|d] Hd HN; simpl in *; try lia; auto.
  apply (IH d); auto. lia.
Qed.

(** The claim for one array. *)
Definition Pbad (a : barr) : Prop := wf a -> forall seqs keys ks,
  full_keys keys (ndim a) = Ok ks -> length ks = ndim a -> Forall (plain seqs) ks ->
  hits (checked seqs a) ks (shape a) -> getitem a keys = Err IndexError.

Definition nostored (ks : list key) : Prop := Forall (fun k => match k with KMask _ => False | _ => True end) ks.

Lemma base_bad (gfk : list key -> res barr) nd keys ks seqs : full_keys keys nd = Ok ks -> Forall (plain seqs) ks ->
  gfk ks = Err IndexError -> base_getitem gfk nd keys = Err IndexError.
Proof. intros H HP HG. unfold base_getitem. rewrite H. simpl. destruct (plain_nonew _ _ HP) as [HN _]. unfold nonew in HN. rewrite HN. auto. Qed.
Lemma plain_any s ks : Forall (plain s) ks -> Forall (plain true) ks.
Proof. destruct s; auto. apply plain_mono. Qed.
Lemma bad_adapt o c src : Pbad (AAdapt o c src).
Proof.
  intros HW seqs keys ks HF HL HP HH.
  assert (HM : nostored src).
  { destruct HH as (d & Hd & _). cbn [checked] in Hd. destruct (existsb is_mask src) eqn:E.
    - cbn [negb] in Hd. rewrite nth_repeat in Hd. discriminate.
    - apply existsb_false_Forall in E. eapply Forall_impl; [|exact E]. intros []; simpl; auto; discriminate. } cbn [getitem]. eapply base_bad; eauto. pose proof HW as [HS HV]. unfold valid_keys in HV.
  destruct (oselect src (c_shape c)) as [ssrc|] eqn:Esrc; [|congruence].
  pose proof (sliced_shape_ok _ _ _ Esrc (sel_key_stored_list _ HS)) as Hsh. unfold ndim in HL. simpl shape in *. rewrite Hsh in *. simpl get_ok in *.
  apply oselect_stored in Esrc as [HL' Esrc]; auto.
  pose proof (remaps_err src (c_shape c) ks ssrc HS HM HL' Esrc (plain_any _ _ HP) HL) as HR.
  destruct (remap_keys (c_shape c) src ks) as [r|e]; simpl; [|congruence]. exfalso. eapply F2_nohit; eauto.
Qed.

(** ** The other classes *)
Lemma checked_length seqs a : wf a -> length (checked seqs a) = ndim a.
Proof.
  unfold ndim. revert seqs. induction a as [sh v d|o c ks|a na IH|a dict lead IH|a d IH|a v IH|a axes IH|ssh items IH|tiles axis IH
    |g a axis d IH|o a d IH|o a b d IH1 IH2] using barr_ind2; intros seqs Hw; cbn [checked]; auto.
  - apply repeat_length.
  - apply repeat_length.
  - destruct seqs; [apply repeat_length|]. destruct Hw as [Hw HL]. cbn [shape]. specialize (IH false Hw). unfold ndim in HL.
    clear Hw. revert HL IH. generalize (checked false a) as ck. generalize (shape a) as sh.
    induction na as [|n na IH]; intros sh ck HL HC; cbn [length] in HL; [lia|].
    destruct ck, sh; cbn [newax_layout length] in *; try lia; rewrite !app_length, !repeat_length; auto. f_equal. cbn [length]. f_equal. apply IH; lia.
  - destruct seqs; [apply repeat_length|]. destruct Hw as (Hw & Hnd & Hok & Hl). cbn [shape]. rewrite !app_length, repeat_length, map_length, combine_length, seq_length.
    rewrite IH by auto. destruct (shape_from_dict (shape a) dict) as [sh'|] eqn:E; [|discriminate]. simpl.
    apply sfd_char in E as (_ & E & _); auto. rewrite E. unfold ndim. lia.
  - destruct Hw as (Hw & HL & HN & HF). rewrite map_length. cbn [shape]. unfold apply_forward. rewrite scatter_length, repeat_length. auto.
  - destruct seqs; [apply repeat_length|]. rewrite app_length, repeat_length, map_length, seq_length. unfold ndim. cbn [shape].
    rewrite ?app_length. lia.
  - destruct seqs; [apply repeat_length|]. rewrite map_length, seq_length. auto.
  - destruct Hw as [Hw Hax]. cbn [shape]. unfold ndim in Hax. rewrite !remove_at_length, IH; auto. rewrite IH; auto.
  - destruct Hw as (Hw & _). cbn [shape]. apply IH1; auto.
Qed.

Lemma full_len seqs ks n : Forall (plain seqs) ks -> length ks = n -> full_keys ks n = Ok ks.
Proof. intros H <-. eapply plain_full; eauto. Qed.

Lemma bad_trans a axes : Pbad a -> Pbad (ATrans a axes).
Proof.
  intros IH (Hw & HL & HN & HF) seqs keys ks HFK Hlen HP (d & Hd & Hk & Hs). cbn [getitem]. eapply base_bad; eauto. cbn zeta.
  assert (Hpm : perm axes (ndim a)) by (split; [|split]; auto). unfold ndim in Hlen. cbn [shape] in Hlen, Hs.
  unfold apply_forward in Hlen. rewrite scatter_length, repeat_length in Hlen.
  set (rk := apply_inverse KBad axes ks).
  assert (Ern : forall j, j < length axes -> nth (nth j axes 0) rk KBad = nth j ks KBad).
  { intros j Hj. unfold rk, apply_inverse. apply nth_scatter; auto. rewrite repeat_length. rewrite HL. auto. }
  assert (Erl : length rk = ndim a) by (unfold rk, apply_inverse; rewrite scatter_length, repeat_length; auto).
  assert (HPr : Forall (plain seqs) rk).
  { apply Forall_nth. intros i x Hi. rewrite Erl in Hi. assert (Hin : In i axes) by (eapply perm_In; eauto).
    apply (In_nth _ _ 0) in Hin as (j & Hj & <-). rewrite (nth_indep _ x KBad) by (rewrite Erl; auto). rewrite Ern by auto.
    rewrite Forall_forall in HP. apply HP. apply nth_In. lia. }
  rewrite (IH Hw seqs rk rk (full_len _ _ _ HPr Erl) Erl HPr); [reflexivity|].
  cbn [checked] in Hd. rewrite (apply_forward_spec _ _ _ (ndim a)) in Hs; auto.
  assert (Hd' : d < length axes) by lia. rewrite (nth_map _ _ _ _ 0) in Hd by auto. rewrite (nth_map _ _ _ _ 0) in Hs by auto.
  exists (nth d axes 0). split; auto. split.
  - rewrite Erl. rewrite Forall_forall in HF. apply HF. apply nth_In; auto.
  - rewrite Ern; auto.
Qed.

Lemma bad_agg g a axis d : Pbad a -> Pbad (AAgg g a axis d).
Proof.
  intros IH (Hw & Hax) seqs keys ks HFK Hlen HP (e & Hd & Hk & Hs). cbn [getitem]. eapply base_bad; eauto. cbn zeta.
  unfold ndim in Hlen, Hax. cbn [shape checked] in *. rewrite remove_at_length in Hlen by auto.
  assert (El : length (insert_at axis KFull ks) = ndim a) by (unfold ndim; rewrite insert_at_length; lia).
  assert (HPr : Forall (plain seqs) (insert_at axis KFull ks)).
  { unfold insert_at. apply Forall_app. split; [apply Forall_firstn; auto|]. constructor; [simpl; discriminate|apply Forall_skipn; auto]. }
  rewrite (IH Hw seqs _ _ (full_len _ _ _ HPr El) El HPr); [reflexivity|].
  exists (if e <? axis then e else S e). rewrite insert_at_length. destruct (Nat.ltb_spec e axis) as [L|L].
  - rewrite nth_remove_lt in Hd by auto. rewrite nth_remove_lt in Hs by auto. rewrite nth_insert_lt by lia. repeat split; auto.
  - rewrite nth_remove_ge in Hd by auto. rewrite nth_remove_ge in Hs by auto. rewrite nth_insert_gt by lia. repeat split; auto. lia.
Qed.


Lemma nth_true_lt (l : list bool) d : nth d l false = true -> d < length l.
Proof. intros H. destruct (Nat.lt_ge_cases d (length l)); auto. rewrite nth_overflow in H by auto. discriminate. Qed.

(** *** Broadcasts *)
Lemma bcast_loop_err dict ks : forall sh ax removed, Forall (plain false) ks -> length ks = length sh ->
  match bcast_loop dict ks sh ax removed with
  | Ok r => fst r = bc_ck dict ks ax /\
            forall i, i < length ks -> dict_find (ax + i) dict <> None -> sel_key (nth i ks KBad) (nth i sh 0) <> None
  | Err e => e = IndexError
  end.
Proof.
  induction ks as [|k ks IH]; intros [|n sh] ax removed HP HL; cbn [bcast_loop bc_ck length] in *; try discriminate.
  - split; auto. intros; lia.
  - inversion HP as [|x l Hk HP']; subst. cbn [hd tl]. destruct (dict_find ax dict) as [q|] eqn:Eq.
    + destruct k; simpl in Hk; try contradiction; try discriminate.
      * destruct ((- Z.of_nat n <=? i)%Z && (i <? Z.of_nat n)%Z) eqn:Ei; [|reflexivity].
        specialize (IH sh (S ax) (S removed) HP' ltac:(lia)). destruct (bcast_loop dict ks sh (S ax) (S removed)) as [r|e]; simpl; auto.
        destruct IH as [E1 E2]. split; [f_equal; auto|]. intros [|j] Hj Hf; cbn [nth].
        -- simpl. destruct (norm_int i n) eqn:F; [discriminate|]. apply norm_out in F. lia.
        -- apply E2; [lia|]. replace (S ax + j) with (ax + S j) by lia. auto.
      * destruct (slice_idx_step s n Hk) as [l El]. rewrite El. cbn [bind].
        specialize (IH sh (S ax) removed HP' ltac:(lia)). destruct (bcast_loop dict ks sh (S ax) removed) as [r|e]; simpl; auto.
        destruct IH as [E1 E2]. split; [f_equal; auto|]. intros [|j] Hj Hf; cbn [nth].
        -- apply plain_slice_sel; auto.
        -- apply E2; [lia|]. replace (S ax + j) with (ax + S j) by lia. auto.
    + specialize (IH sh (S ax) (if is_scalar k then S removed else removed) HP' ltac:(lia)).
      destruct (bcast_loop dict ks sh (S ax) (if is_scalar k then S removed else removed)) as [r|e]; cbn [bind]; auto.
      destruct IH as [E1 E2]. split; [cbn [fst]; f_equal; auto|]. intros [|j] Hj Hf; cbn [nth].
      * rewrite Nat.add_0_r in Hf. congruence.
      * apply E2; [lia|]. replace (S ax + j) with (ax + S j) by lia. auto.
Qed.
Lemma bc_ck_plain dict ks ax : Forall (plain false) ks -> Forall (plain false) (bc_ck dict ks ax).
Proof.
  intros H. revert ax. induction H as [|k ks Hk H IH]; intros ax; cbn [bc_ck]; constructor; auto.
  destruct (dict_find ax dict); auto. destruct k; simpl in *; auto; discriminate.
Qed.
Lemma bc_ck_length dict ks ax : length (bc_ck dict ks ax) = length ks.
Proof. revert ax. induction ks; intros; simpl; auto. Qed.
Lemma bc_ck_nth dict ks ax i : i < length ks -> dict_find (ax + i) dict = None -> nth i (bc_ck dict ks ax) KBad = nth i ks KBad.
Proof.
  revert ax i. induction ks as [|k ks IH]; intros ax [|i] Hi Hf; cbn [bc_ck nth length] in *; auto; try lia.
  - rewrite Nat.add_0_r in Hf. rewrite Hf. auto.
  - apply IH; [lia|]. replace (S ax + i) with (ax + S i) by lia. auto.
Qed.
Lemma all_full_plain ks : Forall (plain false) ks -> exists b, all_full ks = Ok b /\ (b = true -> Forall (fun k => k = KFull) ks).
Proof.
  induction 1 as [|k ks Hk H (b & E & Hb)]; simpl; eauto. destruct k; simpl in *; try contradiction; try discriminate.
  - exists false. split; auto. discriminate.
  - destruct (slice_eqb s full_slice) eqn:Es; cbn [bind]; [|exists false; split; auto; discriminate].
    exists b. split; auto. intros Hbt. constructor; auto. apply slice_eqb_full in Es. subst. reflexivity.
Qed.
Lemma full_not_bad ck ks sh : Forall (fun k => k = KFull) ks -> ~ hits ck ks sh.
Proof.
  intros H (d & _ & Hd & Hs). rewrite Forall_forall in H. rewrite (H (nth d ks KBad)) in Hs by (apply nth_In; auto).
  revert Hs. apply plain_slice_sel. discriminate.
Qed.
Lemma no_hits_false n ks sh : ~ hits (repeat false n) ks sh.
Proof. intros (d & Hd & _). rewrite nth_repeat in Hd. discriminate. Qed.

Lemma bad_bcast a dict lead : Pbad a -> Pbad (ABcast a dict lead).
Proof.
  intros IH (Hw & Hnd & Hok & Hl) seqs keys ks HFK Hlen HP HH. cbn [getitem checked] in *.
  destruct seqs; [exfalso; eapply no_hits_false; eauto|]. eapply base_bad; eauto.
  destruct (shape_from_dict (shape a) dict) as [sh'|] eqn:Esh; [|discriminate]. pose proof Esh as Esh'.
  apply sfd_char in Esh' as (F & EL & EN); auto. unfold ndim in Hlen. cbn [shape] in *. rewrite Esh in *. cbn [get_ok] in *.
  rewrite app_length in Hlen. set (nl := length lead) in *.
  assert (Hsl : exists l', sliced_shape lead (firstn nl ks) = Ok l').
  { assert (HPf : Forall (plain false) (firstn nl ks)) by (apply Forall_firstn; auto). unfold sliced_shape.
    rewrite (full_len false) by (auto; rewrite firstn_length; lia). cbn [bind].
    assert (HLf : length (firstn nl ks) = length lead) by (rewrite firstn_length; lia).
    revert HLf HPf. generalize (firstn nl ks) as q. clear. induction lead as [|n lead IH]; intros [|k q] HL HP; simpl in *; try discriminate; eauto.
    inversion HP; subst. destruct (IH q ltac:(lia) H2) as [l' E]. destruct k; simpl in H1; try contradiction; try discriminate.
    - eauto.
    - destruct (slice_idx_step s n H1) as [l El]. rewrite El, E. simpl. eauto. }
  destruct Hsl as [l' ->]. cbn [bind].
  assert (Esk : skipn nl (lead ++ sh') = sh') by (unfold nl; rewrite skipn_app, skipn_all, Nat.sub_diag; auto). rewrite Esk.
  assert (HPs : Forall (plain false) (skipn nl ks)) by (apply Forall_skipn; auto).
  assert (HLs : length (skipn nl ks) = length sh') by (rewrite skipn_length; lia).
  pose proof (bcast_loop_err dict (skipn nl ks) sh' 0 0 HPs HLs) as HB.
  destruct (bcast_loop dict (skipn nl ks) sh' 0 0) as [r|e]; cbn [bind]; [|congruence]. destruct HB as [E1 E2].
  assert (HC : hits (checked false a) (bc_ck dict (skipn nl ks) 0) (shape a)).
  { destruct HH as (d & Hd & Hk & Hs). pose proof (nth_true_lt _ _ Hd) as Hdl.
    destruct (Nat.lt_ge_cases d nl) as [L|L].
    { rewrite app_nth1 in Hd by (rewrite repeat_length; auto). rewrite nth_repeat in Hd. discriminate. }
    rewrite app_nth2 in Hd by (rewrite repeat_length; auto). rewrite repeat_length in Hd. fold nl in Hd.
    rewrite app_nth2 in Hs by auto. fold nl in Hs. set (j := d - nl) in *.
    assert (Hj : j < length sh') by (unfold j; lia). rewrite EL in Hj.
    replace (nth d ks KBad) with (nth j (skipn nl ks) KBad) in Hs by (rewrite nth_skipn_plus; f_equal; unfold j; lia).
    assert (Hc2 : length (combine (seq 0 (ndim a)) (checked false a)) = length (shape a)).
    { rewrite combine_length, seq_length, checked_length by auto. unfold ndim. lia. }
    rewrite (nth_map _ _ _ _ (0, false)) in Hd by lia.
    rewrite combine_nth in Hd by (rewrite seq_length, checked_length; auto). cbn [fst snd] in Hd.
    rewrite seq_nth in Hd by auto. cbn [Nat.add] in Hd.
    destruct (dict_find j dict) as [q|] eqn:Ej.
    - exfalso. apply (E2 j); [lia| |exact Hs]. cbn [Nat.add]. rewrite Ej. discriminate.
    - exists j. split; auto. rewrite bc_ck_length. split; [lia|]. rewrite bc_ck_nth by (auto; lia).
      rewrite EN in Hs by auto. rewrite Ej in Hs. auto. }
  rewrite E1. pose proof (bc_ck_plain dict _ 0 HPs) as HPc. destruct (all_full_plain _ HPc) as (b & Eb & Hb). rewrite Eb. cbn [bind].
  destruct b; [exfalso; apply (full_not_bad _ _ _ (Hb eq_refl) HC)|].
  assert (HLc : length (bc_ck dict (skipn nl ks) 0) = ndim a) by (rewrite bc_ck_length; unfold ndim; lia).
  rewrite (IH Hw false _ _ (full_len _ _ _ HPc HLc) HLc HPc HC). reflexivity.
Qed.

(** *** New axes *)
Fixpoint hitl (ck : list bool) (ks : list key) (sh : list nat) : Prop :=
  match ck, ks, sh with
  | c :: ck', k :: ks', n :: sh' => (c = true /\ sel_key k n = None) \/ hitl ck' ks' sh'
  | _, _, _ => False
  end.
Lemma hitl_hits ck ks sh : length ks = length sh -> hitl ck ks sh <-> hits ck ks sh.
Proof.
  revert ks sh. induction ck as [|c ck IH]; intros [|k ks] [|n sh] HL; try discriminate; cbn [hitl].
  - split; [tauto|]. intros (d & Hd & _). destruct d; discriminate.
  - split; [tauto|]. intros (d & Hd & _). destruct d; discriminate.
  - split; [tauto|]. intros (d & _ & Hd & _). simpl in Hd. lia.
  - rewrite IH by (simpl in HL; lia). split.
    + intros [[H1 H2]|(d & H1 & H2 & H3)]; [exists 0; simpl; repeat split; auto; lia|exists (S d); simpl; repeat split; auto; lia].
    + intros ([|d] & H1 & H2 & H3); simpl in *; [left; auto|right; exists d; repeat split; auto; lia].
Qed.
Fixpoint newgood (ks : list key) (fl : list bool) : Prop :=
  match ks, fl with
  | k :: ks', f :: fl' => (f = true -> sel_key k 1 <> None) /\ newgood ks' fl'
  | _, _ => True
  end.
Lemma newax_err ks : forall ki na comb fl ckeys eaa bd, Forall (plain false) ks -> length ks = length fl ->
  match newax_loop ks ki na comb fl ckeys eaa bd with
  | Ok (_, _, ck, _) => ck = ckeys ++ nx_ck ks fl /\ newgood ks fl
  | Err e => e = IndexError
  end.
Proof.
  induction ks as [|k ks IH]; intros ki na comb [|f fl] ckeys eaa bd HP HL; try discriminate.
  - simpl. rewrite app_nil_r. auto.
  - inversion HP as [|x l Hk HP']; subst. cbn [length] in HL. destruct f.
    + destruct k; simpl in Hk; try contradiction; try discriminate; cbn [newax_loop].
      * destruct ((-1 <=? i)%Z && (i <? 1)%Z) eqn:Ei; [|reflexivity].
        specialize (IH (S ki) (set_nth eaa (pred (nth eaa na 0)) na) comb fl ckeys eaa bd HP' ltac:(lia)).
        destruct (newax_loop ks (S ki) (set_nth eaa (pred (nth eaa na 0)) na) comb fl ckeys eaa bd) as [[[[? ?] ?] ?]|]; auto. destruct IH as [E1 E2].
        split; auto. split; auto. intros _. simpl. destruct (norm_int i 1) eqn:F; [discriminate|]. apply norm_out in F. lia.
      * destruct (slice_idx_step s 1 Hk) as [l El]. rewrite El. cbn [bind].
        specialize (IH (S ki) na comb fl ckeys eaa (if length l =? 1 then bd else bd ++ [(ki, length l)]) HP' ltac:(lia)).
        destruct (newax_loop ks (S ki) na comb fl ckeys eaa _) as [[[[? ?] ?] ?]|]; auto. destruct IH as [E1 E2].
        split; auto. split; auto. intros _. apply plain_slice_sel; auto.
    + assert (E : newax_loop (k :: ks) ki na comb (false :: fl) ckeys eaa bd =
        newax_loop ks (S ki) na (if is_scalar k then eaa :: comb else comb) fl (ckeys ++ [k]) (S eaa) bd)
        by (destruct k; simpl in Hk; try contradiction; try discriminate; reflexivity). rewrite E.
      specialize (IH (S ki) na (if is_scalar k then eaa :: comb else comb) fl (ckeys ++ [k]) (S eaa) bd HP' ltac:(lia)).
      destruct (newax_loop ks (S ki) na _ fl (ckeys ++ [k]) (S eaa) bd) as [[[[? ?] ?] ?]|]; auto. destruct IH as [-> E2].
      rewrite <- app_assoc. assert (Ec : nx_ck (k :: ks) (false :: fl) = k :: nx_ck ks fl) by (destruct k; simpl in Hk; try contradiction; try discriminate; reflexivity).
      rewrite Ec. split; auto. split; auto. discriminate.
Qed.
Lemma nx_ck_new k ks fl : plain false k -> nx_ck (k :: ks) (true :: fl) = nx_ck ks fl.
Proof. destruct k; simpl; intros H; try contradiction; try discriminate; reflexivity. Qed.
Lemma nx_ck_old k ks fl : plain false k -> nx_ck (k :: ks) (false :: fl) = k :: nx_ck ks fl.
Proof. destruct k; simpl; intros H; try contradiction; try discriminate; reflexivity. Qed.
Lemma repeat_skip n : forall ks ck sh fl, Forall (plain false) ks -> newgood ks (repeat true n ++ fl) ->
  hitl (repeat true n ++ ck) ks (repeat 1 n ++ sh) ->
  exists q, Forall (plain false) q /\ newgood q fl /\ hitl ck q sh /\ nx_ck ks (repeat true n ++ fl) = nx_ck q fl.
Proof.
  induction n as [|n IH]; intros ks ck sh fl HP HG HH; cbn [repeat app] in *; [eauto|].
  destruct ks as [|k ks]; cbn [hitl newgood] in *; [contradiction|]. inversion HP; subst. destruct HG as [G1 G2].
  destruct HH as [[_ HH]|HH]; [exfalso; apply G1; auto|]. destruct (IH ks ck sh fl H2 G2 HH) as (q & Q1 & Q2 & Q3 & Q4).
  exists q. rewrite nx_ck_new; auto.
Qed.
Lemma newax_hit na : forall ck ks sh, Forall (plain false) ks -> length na = S (length sh) -> length ck = length sh ->
  newgood ks (newax_layout true (repeat false (length sh)) na) ->
  hitl (newax_layout true ck na) ks (newax_layout 1 sh na) ->
  hitl ck (nx_ck ks (newax_layout true (repeat false (length sh)) na)) sh.
Proof.
  induction na as [|n na IH]; intros ck ks sh HP HL HC HG HH; [discriminate|].
  destruct sh as [|x sh], ck as [|c ck]; try discriminate; cbn [length repeat newax_layout] in *.
  - destruct (repeat_skip n ks [] [] [] HP HG HH) as (q & _ & _ & Q & _). destruct q; contradiction.
  - destruct (repeat_skip n ks _ _ _ HP HG HH) as (q & Q1 & Q2 & Q3 & ->).
    destruct q as [|k q]; [contradiction|]. inversion Q1; subst. rewrite nx_ck_old by auto. cbn [hitl newgood] in *.
    destruct Q3 as [Q3|Q3]; [left; auto|]. right. apply IH; auto; try lia. apply Q2.
Qed.
Lemma nx_ck_plain ks fl : Forall (plain false) ks -> Forall (plain false) (nx_ck ks fl).
Proof.
  intros H. revert fl. induction H as [|k ks Hk H IH]; intros fl; [constructor|]. destruct fl as [|[|] fl].
  - destruct k; simpl in *; try contradiction; try discriminate; constructor.
  - rewrite nx_ck_new; auto.
  - rewrite nx_ck_old; auto.
Qed.
Lemma nx_ck_len ks fl : Forall (plain false) ks -> length ks = length fl -> length (nx_ck ks fl) = count_if negb fl.
Proof.
  intros H. revert fl. induction H as [|k ks Hk H IH]; intros [|[|] fl] HL; try discriminate; auto; cbn [length] in HL; rewrite count_if_cons; cbn [negb].
  - rewrite nx_ck_new by auto. apply IH. lia.
  - rewrite nx_ck_old by auto. cbn [length Nat.add]. f_equal. apply IH. lia.
Qed.
Lemma count_layout nd na : length na = S nd -> count_if negb (newax_layout true (repeat false nd) na) = nd.
Proof.
  assert (HR : forall n l, count_if negb (repeat true n ++ l) = count_if negb l).
  { induction n; intros; auto. cbn [repeat app]. rewrite count_if_cons. simpl. auto. }
  revert na. induction nd as [|nd IH]; intros [|n na] HL; try discriminate; cbn [repeat newax_layout]; rewrite HR; auto.
  rewrite count_if_cons. cbn [negb Nat.add]. f_equal. apply IH. simpl in HL. lia.
Qed.
Lemma layout_len {A} (one : A) base na : length na = S (length base) -> length (newax_layout one base na) = length base + fold_right Nat.add 0 na.
Proof.
  revert na. induction base as [|x base IH]; intros [|n na] HL; try discriminate; cbn [newax_layout]; rewrite app_length, repeat_length.
  - destruct na; [|discriminate]. simpl. lia.
  - cbn [length fold_right]. rewrite IH by (simpl in HL; lia). lia.
Qed.
Lemma bad_newax a na : Pbad a -> Pbad (ANewAx a na).
Proof.
  intros IH (Hw & HL) seqs keys ks HFK Hlen HP HH. cbn [getitem checked] in *.
  destruct seqs; [exfalso; eapply no_hits_false; eauto|]. unfold newax_getitem, ndim in *. cbn [shape] in *.
  rewrite layout_len in HFK, Hlen by auto. rewrite HFK. cbn [bind].
  set (fl := newax_layout true (repeat false (length (shape a))) na) in *.
  assert (Hfl : length ks = length fl). { unfold fl. rewrite layout_len; rewrite repeat_length; auto. }
  pose proof (newax_err ks 0 na [] fl [] 0 [] HP Hfl) as HE.
  destruct (newax_loop ks 0 na [] fl [] 0 []) as [[[[na' comb] ck] bd]|e]; cbn [bind]; [|congruence].
  destruct HE as [-> HG]. cbn [app].
  assert (Hll : length (newax_layout 1 (shape a) na) = length ks) by (rewrite layout_len; auto).
  apply hitl_hits in HH; [|auto].
  assert (Hc : length (nx_ck ks fl) = length (shape a)). { rewrite nx_ck_len by auto. apply count_layout. auto. }
  assert (HX : hitl (checked false a) (nx_ck ks fl) (shape a)).
  { apply newax_hit; auto. apply checked_length; auto. }
  apply hitl_hits in HX; auto. pose proof (nx_ck_plain _ fl HP) as HPc.
  rewrite (IH Hw false _ _ (full_len _ _ _ HPc Hc) Hc HPc HX). reflexivity.
Qed.

(** *** Stacks *)
Lemma np_isels_err ks : forall sh, Forall (plain false) ks -> length ks = length sh ->
  match np_isels ks sh with
  | Ok s => existsb is_adv s = false /\ Forall2 (fun k n => sel_key k n <> None) ks sh
  | Err e => e = IndexError end.
Proof.
  induction ks as [|k ks IH]; intros [|n sh] HP HL; try discriminate; [simpl; auto|].
  inversion HP as [|x l Hk HP']; subst. cbn [length] in HL. specialize (IH sh HP' ltac:(lia)).
  rewrite np_isels_cons by (destruct k; simpl in Hk; try contradiction; reflexivity).
  destruct k; simpl in Hk; try contradiction; try discriminate; cbn [np_isel].
  - destruct (norm_int i n) eqn:Ei; cbn [bind]; [|reflexivity]. destruct (np_isels ks sh); cbn [bind]; auto.
    destruct IH as [I1 I2]. split; auto. constructor; auto. simpl. rewrite Ei. discriminate.
  - destruct (slice_idx_step s n Hk) as [l El]. rewrite El. cbn [bind]. destruct (np_isels ks sh); cbn [bind]; auto.
    destruct IH as [I1 I2]. split; auto. constructor; auto. simpl. rewrite El. discriminate.
Qed.
Lemma mapM_err {A B} (f : A -> res B) l e : (forall x, In x l -> f x = Err e) -> l <> [] -> mapM f l = Err e.
Proof. destruct l as [|x l]; [congruence|]. intros H _. simpl. rewrite (H x) by (left; auto). reflexivity. Qed.
Lemma plain_sliced lead : forall ks, Forall (plain false) ks -> length ks = length lead -> exists l', sliced_shape lead ks = Ok l'.
Proof.
  intros ks HPf HLf. unfold sliced_shape. rewrite (full_len false) by auto. cbn [bind].
  revert ks HLf HPf. induction lead as [|n lead IH]; intros [|k q] HL HP; simpl in *; try discriminate; eauto.
  inversion HP; subst. destruct (IH q ltac:(lia) H2) as [l' E]. destruct k; simpl in H1; try contradiction; try discriminate.
  - eauto.
  - destruct (slice_idx_step s n H1) as [l El]. rewrite El, E. simpl. eauto.
Qed.
Lemma bad_stack ssh items : Forall Pbad items -> Pbad (AStack ssh items).
Proof.
  intros IH (Hne & HLi & Hw & HF) seqs keys ks HFK Hlen HP HH. cbn [getitem checked] in *.
  destruct seqs; [exfalso; eapply no_hits_false; eauto|]. eapply base_bad; eauto. cbn zeta.
  apply wf_items in Hw. set (nl := length ssh) in *. destruct items as [|it0 items]; [congruence|]. set (its := it0 :: items) in *.
  unfold ndim in *. cbn [shape] in *. unfold its in Hlen, HH. cbv iota in Hlen, HH. fold its in HH. rewrite app_length in *. fold nl in Hlen, HH.
  replace (nl + length (shape it0) - nl) with (length (shape it0)) in HH by lia.
  assert (HPf : Forall (plain false) (firstn nl ks)) by (apply Forall_firstn; auto).
  assert (HLf : length (firstn nl ks) = length ssh) by (rewrite firstn_length; unfold nl in *; lia).
  destruct (plain_sliced ssh _ HPf HLf) as [l' ->]. cbn [bind].
  assert (HPs : Forall (plain false) (skipn nl ks)) by (apply Forall_skipn; auto).
  assert (HLs : length (skipn nl ks) = length (shape it0)) by (rewrite skipn_length; lia).
  pose proof (np_isels_err (firstn nl ks) ssh HPf HLf) as HI. unfold np_index. cbn [nshape].
  destruct (plain_nonew _ _ HPf) as [Hnn Hne'].
  rewrite np_expand_id by (split; auto; rewrite nonew_nreal by auto; auto). cbn [bind].
  destruct (np_isels (firstn nl ks) ssh) as [s|e]; cbn [bind]; [|congruence]. destruct HI as [Hadv HI]. rewrite Hadv. cbn [bind nshape nget].
  assert (HG : forall i, nth i (map (fun it => getitem it) its) (fun _ => Err IndexError) (skipn nl ks) = Err IndexError).
  { intros i. destruct (Nat.lt_ge_cases i (length its)) as [Hi|Hi]; [|rewrite nth_overflow by (rewrite map_length; auto); reflexivity].
    rewrite (nth_map _ _ _ _ it0) by auto. set (it := nth i its it0). assert (Hin : In it its) by (apply nth_In; auto).
    rewrite Forall_forall in IH, Hw, HF. destruct (HF it Hin) as [Hs _]. unfold its in Hs. cbn [hd] in Hs. destruct (Hw it Hin) as [Hwi _].
    assert (Hli : length (skipn nl ks) = ndim it) by (unfold ndim; rewrite Hs; auto).
    apply (IH it Hin Hwi false _ _ (full_len _ _ _ HPs Hli) Hli HPs). rewrite Hs.
    destruct HH as (d & Hd & Hk & Hsel). destruct (Nat.lt_ge_cases d nl) as [L|L].
    - exfalso. apply (F2_nohit (repeat true nl) _ _ HI). exists d. rewrite nth_repeat_lt by auto. split; auto. rewrite HLf. split; [unfold nl in *; lia|].
      rewrite nth_firstn_lt by auto. rewrite app_nth1 in Hsel by auto. auto.
    - rewrite app_nth2 in Hd by (rewrite repeat_length; auto). rewrite repeat_length in Hd. rewrite app_nth2 in Hsel by auto. fold nl in Hsel.
      pose proof (nth_true_lt _ _ Hd) as Hdl. rewrite map_length, seq_length in Hdl.
      rewrite (nth_map _ _ _ _ 0) in Hd by (rewrite seq_length; auto). rewrite seq_nth in Hd by auto. cbn [Nat.add] in Hd.
      rewrite forallb_forall in Hd. exists (d - nl). split; [apply Hd, in_map, Hin|]. split; [lia|].
      rewrite nth_skipn_plus. replace (nl + (d - nl)) with d by lia. auto. }
  destruct l' as [|x l']; [apply HG|]. destruct (shape_eqb (basic_shape s) (x :: l')); [|reflexivity].
  destruct (ndindex (x :: l')) as [|o os] eqn:Eo; [reflexivity|].
  rewrite (mapM_err _ (o :: os) IndexError); [reflexivity|intros; apply HG|discriminate].
Qed.


(** *** Mosaics *)
Lemma full_expand keys n ks : np_expand keys n = Ok ks -> full_keys keys n = Ok ks.
Proof. intros H. rewrite full_keys_np; auto. eapply np_expand_count; eauto. Qed.
Lemma Forall_set_nth {A} (P : A -> Prop) i x l : Forall P l -> P x -> Forall P (set_nth i x l).
Proof. intros H Hx. revert i. induction H as [|y l Hy H IH]; intros [|i]; simpl; auto. Qed.
Lemma sum_last lens : lens <> [] -> nth (length lens - 1) (offsets_from 0 lens) 0 + nth (length lens - 1) lens 0 = sum lens.
Proof.
  intros H. assert (HL : 0 < length lens) by (destruct lens; simpl in *; [congruence|lia]). rewrite nth_offsets by lia.
  destruct (exists_last H) as (l' & x & ->). rewrite app_length in *. cbn [length] in *. replace (length l' + 1 - 1) with (length l') by lia.
  rewrite firstn_app, firstn_all, Nat.sub_diag. cbn [firstn]. rewrite app_nil_r. rewrite app_nth2, Nat.sub_diag by lia. cbn [nth].
  clear. induction l' as [|y l' IH]; simpl in *; lia.
Qed.
Lemma offsets_le lens : forall o x, In x (offsets_from o lens) -> o <= x <= o + sum lens.
Proof.
  induction lens as [|n lens IH]; intros o x H; simpl in H; [contradiction|]. destruct H as [<-|H]; [simpl; lia|].
  apply IH in H. simpl. lia.
Qed.
Lemma count_all {A} (p : A -> bool) l : (forall x, In x l -> p x = true) -> count_if p l = length l.
Proof. induction l as [|x l IH]; intros H; auto. rewrite count_if_cons, (H x) by (left; auto). simpl. rewrite IH; auto. intros; apply H; right; auto. Qed.
Lemma count_no {A} (p : A -> bool) l : (forall x, In x l -> p x = false) -> count_if p l = 0.
Proof. induction l as [|x l IH]; intros H; auto. rewrite count_if_cons, (H x) by (left; auto). simpl. apply IH. intros; apply H; right; auto. Qed.
(** An index outside the mosaic goes to the last tile, and is outside it. *)
Lemma tile_out lens i : lens <> [] -> norm_int i (sum lens) = None ->
  let t := tile_of (offsets_from 0 lens) i in
  tile_num (length lens) t = length lens - 1 /\
  norm_int (i - Z.of_nat (py_nth 0%nat (offsets_from 0 lens) t)) (nth (length lens - 1) lens 0) = None.
Proof.
  intros Hne H. cbn zeta. apply norm_out in H. assert (HL : 0 < length lens) by (destruct lens; simpl in *; [congruence|lia]).
  pose proof (sum_last lens Hne) as HS. unfold tile_of. destruct (Z.leb_spec (Z.of_nat (sum lens)) i) as [L|L].
  - rewrite count_all. 2:{ intros x Hx. apply offsets_le in Hx. lia. } rewrite offsets_length. unfold tile_num, py_nth.
    replace (Z.of_nat (length lens) - 1 <? 0)%Z with false by lia. replace (Z.to_nat (Z.of_nat (length lens) - 1)) with (length lens - 1) by lia.
    split; auto. apply norm_out. lia.
  - rewrite count_no. 2:{ intros x Hx. apply offsets_le in Hx. lia. } unfold tile_num, py_nth.
    replace (Z.of_nat 0 - 1 <? 0)%Z with true by lia. rewrite offsets_length. replace (Z.to_nat (Z.of_nat (length lens) + (Z.of_nat 0 - 1))) with (length lens - 1) by lia.
    split; auto. apply norm_out. lia.
Qed.

Lemma bad_mosaic tiles axis : Forall Pbad tiles -> Pbad (AMosaic tiles axis).
Proof.
  intros IH Hw seqs keys ks HFK Hlen HP HH. pose proof Hw as (Hne & Hwt & Hst). apply wf_items in Hwt.
  rewrite Forall_forall in Hwt, Hst, IH. cbn [checked] in HH. destruct seqs; [exfalso; eapply no_hits_false; eauto|].
  assert (Hex : exists u0 us, tiles = u0 :: us) by (destruct tiles; [congruence|eauto]). destruct Hex as (u0 & us & Etl).
  set (lens := map (fun t => nth axis (shape t) 0) tiles) in *.
  assert (Hhd : forall t, hd t tiles = u0) by (subst; auto). assert (Hu0 : In u0 tiles) by (subst; simpl; auto).
  assert (Hax0 : axis < ndim u0) by (apply (Hst u0); auto).
  assert (Hshape : shape (AMosaic tiles axis) = set_nth axis (sum lens) (shape u0)).
  { unfold lens. rewrite Etl. simpl. rewrite fold_left_add_acc. auto. }
  assert (Hshp : forall t, In t tiles -> shape t = set_nth axis (nth axis (shape t) 0) (shape u0) /\ ndim t = ndim u0).
  { intros t Ht. destruct (Hst t Ht) as (H1 & H2 & H3). rewrite Hhd in *.
    assert (shape t = set_nth axis (nth axis (shape t) 0) (shape u0)) as E by (apply set_nth_remove; auto).
    split; auto. unfold ndim. rewrite E, set_nth_length. auto. }
  assert (Hnd : ndim (AMosaic tiles axis) = ndim u0) by (unfold ndim; rewrite Hshape, set_nth_length; auto). rewrite Hnd in Hlen.
  destruct (plain_nonew _ _ HP) as [HN HE]. assert (HLl : length lens = length tiles) by (unfold lens; apply map_length).
  assert (Hlne : lens <> []) by (unfold lens; rewrite Etl; discriminate).
  destruct HH as (d & Hd & Hk & Hsel). pose proof (nth_true_lt _ _ Hd) as Hdl. rewrite map_length, seq_length, Hnd in Hdl.
  rewrite (nth_map _ _ _ _ 0) in Hd by (rewrite seq_length, Hnd; auto). rewrite seq_nth in Hd by (rewrite Hnd; auto). cbn [Nat.add] in Hd.
  apply andb_true_iff in Hd as [Hd1 Hd2]. rewrite forallb_forall in Hd1, Hd2.
  assert (Hck : forall s t, In t tiles -> nth d (checked s t) false = true) by (intros [|] t Ht; [apply Hd2|apply Hd1]; apply in_map; auto).
  clear Hd1 Hd2. rewrite Hshape in Hsel.
  (* one tile *)
  assert (Htile : forall s t q k, In t tiles -> plain s k -> full_keys q (ndim t) = Ok (set_nth axis k ks) ->
     (d = axis -> sel_key k (nth axis (shape t) 0) = None) -> getitem t q = Err IndexError).
  { intros s t q k Ht Hpk Hq Hda. destruct (Hwt t Ht) as [Hwt' _]. destruct (Hshp t Ht) as [Es En].
    apply (IH t Ht Hwt' s q _ Hq).
    - rewrite set_nth_length. congruence.
    - apply Forall_set_nth; auto. destruct s; auto. apply plain_mono; auto.
    - exists d. split; [auto|]. rewrite set_nth_length. split; [auto|]. destruct (Nat.eq_dec d axis) as [->|N].
      + rewrite nth_set_nth_eq by lia. auto.
      + rewrite nth_set_nth_neq by auto. rewrite nth_set_nth_neq in Hsel by auto. rewrite Es. rewrite nth_set_nth_neq by auto. auto. }
  cbn [getitem]. eapply base_bad; eauto. cbv zeta. fold lens. unfold mosaic_plan.
  rewrite trim_axis by lia. destruct (forallb key_full_b (skipn axis ks)) eqn:Efull.
  - (* every tile, same keys *)
    cbn [bind]. assert (Ek : nth axis ks KBad = KFull).
    { pose proof (trim_axis ks axis ltac:(lia)) as Htrim. rewrite Efull in Htrim. apply Nat.leb_le in Htrim.
      rewrite (trim_app ks). rewrite app_nth2 by lia. apply nth_repeat_lt. pose proof (trim_le ks). lia. }
    rewrite mapM_map. rewrite (mapM_err _ tiles IndexError); [reflexivity| |congruence].
    intros t Ht. apply (Htile false t _ KFull Ht).
    + simpl. discriminate.
    + destruct (Hshp t Ht) as [_ En]. apply full_expand. rewrite np_expand_trim by (auto; congruence).
      f_equal. rewrite <- Ek. symmetry. apply set_nth_same.
    + intros ->. exfalso. rewrite Ek in Hsel. revert Hsel. apply plain_slice_sel. discriminate.
  - pose proof (trim_axis ks axis ltac:(lia)) as Htrim. rewrite Efull in Htrim. apply Nat.leb_gt in Htrim.
    assert (Ekt : nth axis (trim_keys ks) KBad = nth axis ks KBad).
    { rewrite (trim_app ks) at 2. rewrite app_nth1 by auto. auto. }
    rewrite Ekt. assert (Hpk : plain false (nth axis ks KBad)) by (rewrite Forall_forall in HP; apply HP; apply nth_In; lia).
    assert (Hq : forall t k, In t tiles -> is_new k = false -> is_ell k = false ->
       full_keys (set_nth axis k (trim_keys ks)) (ndim t) = Ok (set_nth axis k ks)).
    { intros t k Ht H1 H2. destruct (Hshp t Ht) as [_ En]. apply full_expand. apply np_expand_trim_set; auto. congruence. }
    destruct (nth axis ks KBad) as [i|s|l|l|l|l| | |] eqn:Ek; simpl in Hpk; try contradiction; try discriminate.
    + (* one tile *)
      cbn [bind]. set (tt := tile_num (length lens) (tile_of (offsets_from 0 lens) i)).
      destruct (Nat.lt_ge_cases tt (length tiles)) as [Ht|Ht]; [|rewrite nth_overflow by (rewrite map_length; auto); reflexivity].
      rewrite (nth_map _ _ _ _ u0) by auto. assert (Hin : In (nth tt tiles u0) tiles) by (apply nth_In; auto).
      eapply (Htile false _ _ _ Hin); [|apply Hq; auto|]; [exact I|].
      intros ->. rewrite Ek, nth_set_nth_eq in Hsel by auto. cbn [sel_key] in Hsel. destruct (norm_int i (sum lens)) eqn:Ei; [discriminate|].
      destruct (tile_out lens i Hlne Ei) as [T1 T2]. fold tt in T1. cbn [sel_key].
      replace (nth axis (shape (nth tt tiles u0)) 0) with (nth (length lens - 1) lens 0); [rewrite T2; reflexivity|].
      rewrite T1. unfold lens. rewrite (nth_map _ _ _ _ u0); auto. rewrite map_length, Etl. simpl. lia.
    + (* the tiles of a slice *)
      destruct (slice_idx_step s (fold_right Nat.add 0 lens) Hpk) as [l El]. rewrite El. cbn [bind].
      assert (Hda : d <> axis). { intros ->. rewrite Ek in Hsel. revert Hsel. apply plain_slice_sel. auto. }
      match goal with |- context [map ?f (group_runs ?g)] => set (parts := map f (group_runs g)) end.
      assert (HPt : forall p, In p parts -> nth (fst p) (map (fun t => getitem t) tiles) (fun _ => Err IndexError) (snd p) = Err IndexError).
      { intros p Hp. unfold parts in Hp. apply in_map_iff in Hp as ([tt is] & <- & _). cbn [fst snd].
        destruct (Nat.lt_ge_cases (tile_num (length lens) tt) (length tiles)) as [Ht|Ht]; [|rewrite nth_overflow by (rewrite map_length; auto); reflexivity].
        rewrite (nth_map _ _ _ _ u0) by auto. assert (Hin : In (nth (tile_num (length lens) tt) tiles u0) tiles) by (apply nth_In; auto).
        eapply (Htile true _ _ (tile_key (py_nth 0 (offsets_from 0 lens) tt) is) Hin); [|apply Hq; auto|].
        - unfold tile_key. destruct is as [|z [|z' is']]; simpl; auto. discriminate.
        - unfold tile_key. destruct is as [|z [|z' is']]; auto.
        - unfold tile_key. destruct is as [|z [|z' is']]; auto.
        - intros E. contradiction. }
      set (ps := if (match s_step s with Some st => (st <? 0)%Z | None => false end) then rev parts else parts).
      assert (HPs : forall p, In p ps -> In p parts) by (intros p; unfold ps; destruct (match s_step s with Some st => (st <? 0)%Z | None => false end); auto; intros; apply in_rev; auto).
      destruct ps as [|p ps]; [reflexivity|]. rewrite (mapM_err _ (p :: ps) IndexError); [reflexivity| |discriminate].
      intros x Hx. apply HPt, HPs, Hx.
Qed.

(** ** All classes *)
Theorem bad_getitem a : Pbad a.
Proof.
  induction a as [sh v d|o c ks|a na IH|a dict lead IH|a d IH|a v IH|a axes IH|ssh items IH|tiles axis IH
    |g a axis d IH|o a d IH|o a b d IH1 IH2] using barr_ind2.
  - intros _ seqs keys ks _ _ _ H. exfalso. eapply no_hits_false; exact H.
  - apply bad_adapt.
  - apply bad_newax; auto.
  - apply bad_bcast; auto.
  - intros Hw seqs keys ks H1 H2 H3 H4. cbn [getitem]. rewrite (IH Hw seqs keys ks); auto.
  - intros Hw seqs keys ks H1 H2 H3 H4. cbn [getitem]. rewrite (IH Hw seqs keys ks); auto.
  - apply bad_trans; auto.
  - apply bad_stack; auto.
  - apply bad_mosaic; auto.
  - apply bad_agg; auto.
  - intros Hw seqs keys ks H1 H2 H3 H4. cbn [getitem]. eapply base_bad; eauto. rewrite (IH Hw seqs ks ks); auto. eapply full_len; eauto.
  - intros (Hw & _ & _) seqs keys ks H1 H2 H3 H4. cbn [getitem]. eapply base_bad; eauto. rewrite (IH1 Hw seqs ks ks); auto. eapply full_len; eauto.
Qed.

End Checked.
