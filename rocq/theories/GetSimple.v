(** GetSimple: indexing of constants, adapters, aggregations and elementwise
    operations. *)
From Verif Require Import Base PySlice Keys NDArray Arrays Spec Supported Lib SelLemmas KeyLemmas NewAxLemmas GetBase.
From Coq Require Import ZifyBool ZifyNat.

(** ** Adapter keys *)

Definition compose1 (l0 : list nat) (d : dsel) : dsel :=
  match d with
  | DPt i => DPt (nth i l0 0)
  | DLs q => DLs (map (fun i => nth i l0 0) q)
  | DNew => DNew
  end.

Definition zpos (i : Z) (n : nat) : nat := Z.to_nat (if (i <? 0)%Z then i + Z.of_nat n else i).

Lemma norm_int_iff i n j : norm_int i n = Some j <->
  ((- Z.of_nat n <= i)%Z /\ (i < Z.of_nat n)%Z /\ j = zpos i n).
Proof.
  unfold norm_int, zpos. destruct ((- Z.of_nat n <=? i) && (i <? Z.of_nat n))%Z eqn:E; split; intros H.
  - injection H as <-. lia.
  - destruct H as (_ & _ & ->). auto.
  - discriminate.
  - lia.
Qed.

Lemma norm_ints_nth l n r i : norm_ints l n = Some r -> i < length l ->
  norm_int (nth i l 0%Z) n = Some (nth i r 0).
Proof. intros H Hi. apply norm_ints_Forall2 in H. eapply (Forall2_nth _ l r 0%Z 0) in H; eauto. Qed.

Lemma norm_ints_pick l n r q : norm_ints l n = Some r -> Forall (fun i => i < length l) q ->
  norm_ints (map (fun i => nth i l 0%Z) q) n = Some (map (fun i => nth i r 0) q).
Proof.
  intros H Hq. apply norm_ints_Forall2. apply Forall2_map_l, Forall2_map_r.
  induction Hq; constructor; auto. eapply norm_ints_nth; eauto.
Qed.

Lemma slice_idx_norm s n l : slice_idx s n = Ok l -> norm_ints l n = Some (map Z.to_nat l).
Proof.
  intros H. apply slice_idx_bounds in H. apply norm_ints_Forall2. apply Forall2_map_r.
  induction H as [|z l Hz H IH]; constructor; auto. apply norm_int_iff. unfold zpos.
  destruct (z <? 0)%Z eqn:E; lia.
Qed.

Lemma norm_ints_range l n r : norm_ints l n = Some r ->
  existsb (fun i => (Z.of_nat n <=? i) || (i <? - Z.of_nat n))%Z l = false.
Proof.
  intros H. apply existsb_false_Forall. apply norm_ints_Forall2 in H.
  induction H as [|i j l r Hij H IH]; constructor; auto. apply norm_int_iff in Hij. lia.
Qed.

Lemma norm_ints_zpos l n r : norm_ints l n = Some r -> r = map (fun i => zpos i n) l.
Proof. intros H. apply norm_ints_Forall2 in H. induction H as [|i j l r Hij H IH]; simpl; auto.
  apply norm_int_iff in Hij as (_ & _ & ->). f_equal; auto. Qed.

Lemma remap_key_ok ind n l0 k d : norm_ints ind n = Some l0 -> sel_key k (length ind) = Some d ->
  exists k', remap_key ind k = Ok k' /\ stored_key k' /\ sel_key k' n = Some (compose1 l0 d)
             /\ match k' with KMask _ => False | _ => True end.
Proof.
  intros Hl Hk. destruct k; simpl in Hk; try discriminate; unfold remap_key.
  - destruct (norm_int i (length ind)) as [j|] eqn:E; [|discriminate]. injection Hk as <-.
    pose proof (norm_int_bound _ _ _ E) as Hj. apply norm_int_iff in E as (H1 & H2 & ->).
    replace ((Z.of_nat (length ind) <=? i) || (i <? - Z.of_nat (length ind)))%Z with false by lia.
    eexists; split; [reflexivity|]. split; [simpl; auto|]. split; auto. simpl.
    fold (zpos i (length ind)). rewrite (norm_ints_nth _ _ _ _ Hl) by auto. auto.
  - destruct (slice_idx s (length ind)) as [q|] eqn:E; [|discriminate]. injection Hk as <-. simpl.
    eexists; split; [reflexivity|]. split; [simpl; auto|]. split; auto. simpl.
    pose proof (slice_idx_bounds _ _ _ E) as Hb.
    replace (map (fun i => nth (Z.to_nat (if (i <? 0)%Z then i + Z.of_nat (length ind) else i)%Z) ind 0%Z) q)
      with (map (fun i => nth i ind 0%Z) (map Z.to_nat q)).
    + rewrite (norm_ints_pick _ _ _ _ Hl). auto.
      apply Forall_map. eapply Forall_impl; [|apply Hb]. simpl; intros; lia.
    + rewrite map_map. apply map_ext_in. intros z Hz. rewrite Forall_forall in Hb. apply Hb in Hz.
      destruct (z <? 0)%Z eqn:E2; auto; lia.
  - destruct (norm_ints l (length ind)) as [q|] eqn:E; [|discriminate]. injection Hk as <-.
    rewrite (norm_ints_range _ _ _ E). eexists; split; [reflexivity|]. split; [simpl; auto|]. split; auto. simpl.
    pose proof (norm_ints_zpos _ _ _ E) as Ez. pose proof (norm_ints_bound _ _ _ E) as Hb.
    replace (map (fun i => nth (Z.to_nat (if (i <? 0)%Z then i + Z.of_nat (length ind) else i)%Z) ind 0%Z) l)
      with (map (fun i => nth i ind 0%Z) q) by (subst q; rewrite map_map; auto).
    rewrite (norm_ints_pick _ _ _ _ Hl) by auto. auto.
  - destruct (norm_ints l (length ind)) as [q|] eqn:E; [|discriminate]. injection Hk as <-.
    rewrite (norm_ints_range _ _ _ E). eexists; split; [reflexivity|]. split; [simpl; auto|]. split; auto. simpl.
    pose proof (norm_ints_zpos _ _ _ E) as Ez. pose proof (norm_ints_bound _ _ _ E) as Hb.
    replace (map (fun i => nth (Z.to_nat (if (i <? 0)%Z then i + Z.of_nat (length ind) else i)%Z) ind 0%Z) l)
      with (map (fun i => nth i ind 0%Z) q) by (subst q; rewrite map_map; auto).
    rewrite (norm_ints_pick _ _ _ _ Hl) by auto. auto.
  - destruct (norm_ints l (length ind)) as [q|] eqn:E; [|discriminate]. injection Hk as <-.
    rewrite (norm_ints_range _ _ _ E). eexists; split; [reflexivity|]. split; [simpl; auto|]. split; auto. simpl.
    pose proof (norm_ints_zpos _ _ _ E) as Ez. pose proof (norm_ints_bound _ _ _ E) as Hb.
    replace (map (fun i => nth (Z.to_nat (if (i <? 0)%Z then i + Z.of_nat (length ind) else i)%Z) ind 0%Z) l)
      with (map (fun i => nth i ind 0%Z) q) by (subst q; rewrite map_map; auto).
    rewrite (norm_ints_pick _ _ _ _ Hl) by auto. auto.
  - destruct (Nat.eqb_spec (length l) (length ind)) as [E|E]; [|discriminate]. injection Hk as <-.
    replace (length ind <? length l) with false by lia.
    eexists; split; [reflexivity|]. split; [simpl; auto|]. split; auto. simpl.
    rewrite (norm_ints_pick _ _ _ _ Hl). auto. rewrite <- E. apply mask_nonzero_bound.
Qed.

Lemma cleanup_ok k n d : sel_key k n = Some d ->
  exists k', cleanup_key k n = Ok k' /\ stored_key k' /\ sel_key k' n = Some d.
Proof.
  intros Hk. destruct k; simpl in Hk; try discriminate; unfold cleanup_key.
  - destruct (norm_int i n) as [j|] eqn:E; [|discriminate].
    pose proof E as E'. apply norm_int_iff in E' as (H1 & H2 & _).
    replace ((Z.of_nat n <=? i) || (i <? - Z.of_nat n))%Z with false by lia.
    eexists; split; [reflexivity|]. simpl. rewrite E. auto.
  - eexists; split; [reflexivity|]. simpl. auto.
  - destruct (norm_ints l n) as [q|] eqn:E; [|discriminate].
    rewrite (norm_ints_range _ _ _ E). eexists; split; [reflexivity|]. simpl. rewrite E. auto.
  - destruct (norm_ints l n) as [q|] eqn:E; [|discriminate].
    rewrite (norm_ints_range _ _ _ E). eexists; split; [reflexivity|]. simpl. rewrite E. auto.
  - destruct (norm_ints l n) as [q|] eqn:E; [|discriminate].
    rewrite (norm_ints_range _ _ _ E). eexists; split; [reflexivity|]. simpl. rewrite E. auto.
  - destruct (Nat.eqb_spec (length l) n) as [E|E]; [|discriminate].
    replace (n <? length l) with false by lia. eexists; split; [reflexivity|]. simpl.
    rewrite E, Nat.eqb_refl. auto.
Qed.

Lemma cleanups_ok ks sh s : nonew ks -> sel_keys ks sh = Some s ->
  exists ks', mapM (fun kn => cleanup_key (fst kn) (snd kn)) (combine ks sh) = Ok ks'
              /\ Forall stored_key ks' /\ sel_keys ks' sh = Some s.
Proof.
  revert sh s; induction ks as [|k ks IH]; intros sh s HN H.
  - destruct sh; simpl in H; [|discriminate]. injection H as <-. exists []. repeat split; auto.
  - apply nonew_cons in HN as [HN1 HN2].
    apply sel_keys_cons in H as [(-> & r & -> & H)|(Hn & He & n & sh' & d & r & -> & -> & Hd & H)]; [discriminate|].
    destruct (IH _ _ HN2 H) as (ks' & E1 & E2 & E3). destruct (cleanup_ok _ _ _ Hd) as (k' & F1 & F2 & F3).
    exists (k' :: ks'). simpl. rewrite F1, E1. split; auto. split; auto.
    rewrite F3, E3. destruct k'; simpl in F2; auto; contradiction.
Qed.

Lemma stored_nonew ks : Forall stored_key ks -> nonew ks /\ existsb is_ell ks = false.
Proof. unfold nonew. induction 1 as [|k ks Hk H [IH1 IH2]]; simpl; auto.
  destruct k; simpl in *; auto; contradiction. Qed.
Lemma nonew_nreal ks : nonew ks -> existsb is_ell ks = false -> n_real ks = length ks.
Proof. unfold nonew, n_real. induction ks as [|k ks IH]; simpl; intros H1 H2; auto.
  apply orb_false_iff in H1 as [H1 H3]. apply orb_false_iff in H2 as [H2 H4].
  rewrite count_if_cons, H1, H2, IH; auto. Qed.

(** Stored keys are read with full slices appended. *)
Lemma oselect_stored ks sh s : Forall stored_key ks ->
  oselect ks sh = Some s <->
  length ks <= length sh /\ sel_keys (ks ++ repeat KFull (length sh - length ks)) sh = Some s.
Proof.
  intros H. destruct (stored_nonew _ H) as [H1 H2]. unfold oselect, np_expand.
  assert (HC : count_if is_ell ks = 0) by (apply count_if_0; auto).
  rewrite HC, H2. simpl. rewrite nonew_nreal by auto.
  destruct (Nat.ltb_spec (length sh) (length ks)) as [L|L]; split; intros E; auto; try discriminate; try lia.
  tauto.
Qed.

Lemma sel_full_id s sh o : vsel s sh -> inb (sel_shape s) o -> sel_map (full_sels sh) (sel_map s o) = sel_map s o.
Proof. intros H1 H2. apply sel_map_full. eapply sel_map_inb; eauto. Qed.

Lemma sel_keys_stored_app ks sh s : Forall stored_key ks -> length ks <= length sh ->
  sel_keys (ks ++ repeat KFull (length sh - length ks)) sh = Some s ->
  match ks with
  | [] => s = full_sels sh
  | k :: ks' => exists n sh' d r, sh = n :: sh' /\ s = d :: r /\ sel_key k n = Some d /\ length ks' <= length sh'
                /\ sel_keys (ks' ++ repeat KFull (length sh' - length ks')) sh' = Some r
  end.
Proof.
  intros HS HL H. destruct ks as [|k ks].
  - simpl in H. rewrite Nat.sub_0_r, sel_keys_repeat_full in H. congruence.
  - destruct sh as [|n sh]; simpl in HL; [lia|]. simpl app in H.
    replace (length (n :: sh) - length (k :: ks)) with (length sh - length ks) in H by (simpl; lia).
    inversion HS; subst.
    apply sel_keys_cons in H as [(-> & r & -> & H)|(Hn & He & n' & sh' & d & r & E & -> & Hd & H)].
    + simpl in H2. contradiction.
    + injection E as <- <-. exists n, sh, d, r. repeat split; auto. lia.
Qed.

Lemma remap_ok src : forall sh new ssrc snew,
  Forall stored_key src -> Forall (fun k => match k with KMask _ => False | _ => True end) src ->
  length src <= length sh ->
  sel_keys (src ++ repeat KFull (length sh - length src)) sh = Some ssrc ->
  nonew new -> sel_keys new (sel_shape ssrc) = Some snew ->
  exists ks' s', remap_keys sh src new = Ok ks' /\ Forall stored_key ks' /\ length ks' <= length sh
    /\ sel_keys (ks' ++ repeat KFull (length sh - length ks')) sh = Some s'
    /\ sel_shape s' = sel_shape snew
    /\ (forall o, inb (sel_shape snew) o -> sel_map s' o = sel_map ssrc (sel_map snew o)).
Proof.
  induction src as [|k0 src IH]; intros sh new ssrc snew HS HM HL Hsrc HN Hnew;
    pose proof (sel_keys_stored_app _ _ _ HS HL Hsrc) as HA.
  - simpl in HA. subst ssrc. rewrite sel_shape_full in Hnew.
    destruct (cleanups_ok _ _ _ HN Hnew) as (ks' & E1 & E2 & E3).
    exists ks', snew. simpl. split; auto. split; auto.
    assert (HL' : length ks' = length sh).
    { eapply sel_keys_length; eauto. apply stored_nonew; auto. }
    split; [lia|]. rewrite HL', Nat.sub_diag. simpl. rewrite app_nil_r. split; auto. split; auto.
    intros o Ho. symmetry. apply sel_full_id; auto. eapply sel_keys_valid; eauto.
  - destruct HA as (n & sh' & d & r & -> & -> & Hd & HL' & Hr).
    inversion HS as [|x l Hk HS']; subst. inversion HM as [|x l Hm HM']; subst.
    destruct new as [|k new].
    + simpl remap_keys. exists (k0 :: src), (d :: r).
      assert (HE : sel_shape (d :: r) = []).
      { destruct (sel_shape (d :: r)); [auto|simpl in Hnew; discriminate]. }
      rewrite HE in Hnew. simpl in Hnew. injection Hnew as <-.
      repeat split; auto. intros o Ho. simpl in Ho. apply inb_nil in Ho. subst. auto.
    + apply sel_key_kind in Hd as Hkind. destruct Hkind as [(Esc & i & ->)|(Esc & l0 & ->)].
      * destruct k0; simpl in Esc; try discriminate. cbn [sel_shape] in Hnew.
        destruct (IH sh' (k :: new) r snew HS' HM' HL' Hr HN Hnew) as (ks' & s' & E1 & E2 & E3 & E4 & E5 & E6).
        exists (KInt i0 :: ks'), (DPt i :: s'). cbn [remap_keys]. rewrite E1. simpl bind.
        split; auto. split; [constructor; simpl; auto|]. split; [simpl; lia|]. split.
        -- cbn [app length Nat.sub]. rewrite sel_keys_cons_eq, Hd, E4 by auto. auto.
        -- split; auto. intros o Ho. simpl. f_equal; auto.
      * simpl sel_shape in Hnew. apply nonew_cons in HN as [HN1 HN2].
        rewrite sel_keys_cons_eq in Hnew by auto.
        destruct (sel_key k (length l0)) as [dk|] eqn:Edk; [|discriminate].
        destruct (sel_keys new (sel_shape r)) as [rn|] eqn:Ern; [|discriminate]. injection Hnew as <-.
        destruct (IH sh' new r rn HS' HM' HL' Hr HN2 Ern) as (ks' & s' & E1 & E2 & E3 & E4 & E5 & E6).
        assert (HR : exists ind, norm_ints ind n = Some l0 /\
                  forall k', remap_key ind k = Ok k' -> remap_keys (n :: sh') (k0 :: src) (k :: new) = Ok (k' :: ks')).
        { destruct k0; simpl in Esc, Hk, Hm; try contradiction; try discriminate.
          - simpl in Hd. destruct (slice_idx s n) as [ind|] eqn:E; [|discriminate]. injection Hd as <-.
            exists ind. split; [eapply slice_idx_norm; eauto|]. intros k' Hk'. simpl. rewrite E. simpl.
            rewrite Hk'. simpl. rewrite E1. auto.
          - simpl in Hd. destruct (norm_ints l n) as [q|] eqn:E; [|discriminate]. injection Hd as <-.
            exists l. split; auto. intros k' Hk'. simpl. rewrite Hk'. simpl. rewrite E1. auto. }
        destruct HR as (ind & Hind & HR).
        rewrite (norm_ints_length _ _ _ Hind) in Edk.
        destruct (remap_key_ok _ _ _ _ _ Hind Edk) as (k' & F1 & F2 & F3 & _).
        exists (k' :: ks'), (compose1 l0 dk :: s'). split; [auto|]. split; [constructor; auto|].
        split; [simpl; lia|]. split; [|split].
        -- cbn [app length Nat.sub].
           rewrite sel_keys_cons_eq by (destruct k'; auto; contradiction). rewrite F3, E4. auto.
        -- apply sel_key_kind in Edk as [(_ & i & ->)|(_ & q & ->)]; simpl; auto. rewrite map_length. f_equal; auto.
        -- intros o Ho. pose proof (sel_key_valid _ _ _ Edk) as Hv.
           apply sel_key_kind in Edk as [(_ & i & ->)|(_ & q & ->)]; simpl in *.
           ++ f_equal; auto.
           ++ apply inb_cons_inv in Ho as (j & o' & -> & Hj & Ho).
              rewrite (nth_map _ _ _ _ 0) by auto. f_equal; auto.
Qed.

Section GetSimple.
Context {V : Type} (O : numops V).
Notation barr := (@barr V).
Notation good := (good O).

(** The statement proved for every class, under a condition [K] on the keys. *)
Definition Pgen (K : barr -> list key -> Prop) (a : barr) : Prop := forall keys ks s,
  wf a -> np_expand keys (ndim a) = Ok ks -> sel_keys ks (shape a) = Some s -> K a ks ->
  exists b, getitem a keys = Ok b /\ good a b s.
Definition Pget (a : barr) : Prop := Pgen okk a.

(** The same on full keys without newaxis. *)
Lemma Pgen_full K a ks s : Pgen K a -> wf a -> sel_keys ks (shape a) = Some s -> K a ks ->
  exists b, getitem a ks = Ok b /\ good a b s.
Proof. intros HP Hw Hs Hk. apply (HP ks ks s); auto. apply np_expand_id. eapply sel_keys_fullk; eauto. Qed.
Lemma Pget_full a ks s : Pget a -> wf a -> sel_keys ks (shape a) = Some s -> okk a ks ->
  exists b, getitem a ks = Ok b /\ good a b s.
Proof. intros HP Hw Hs Hk. apply (HP ks ks s); auto. apply np_expand_id. eapply sel_keys_fullk; eauto. Qed.

Lemma get_const sh v d : Pget (AConst sh v d).
Proof.
  intros keys ks s Hw Hexp Hs Hk. simpl in *. unfold sliced_shape. unfold ndim in Hexp. simpl in Hexp.
  rewrite full_keys_np by (eapply np_expand_count; eauto). rewrite Hexp. simpl.
  rewrite (sliced_loop_ok _ _ _ Hs Hk). simpl. eexists; split; [reflexivity|]. split; simpl; auto.
  intros m. split; auto.
Qed.

Lemma get_adapt o c src : Pget (AAdapt o c src).
Proof.
  intros keys ks s Hw Hexp Hs Hk. pose proof Hw as [HS HV]. simpl in Hk.
  cbn [getitem]. apply (base_getitem_ok O (AAdapt o c src) _ keys s ks); auto.
  intros cs Hcs. unfold valid_keys in HV. destruct (oselect src (c_shape c)) as [ssrc|] eqn:Esrc; [|congruence].
  pose proof (sliced_shape_ok _ _ _ Esrc (sel_key_stored_list _ HS)) as Hsh.
  simpl shape in Hcs. rewrite Hsh in Hcs. simpl get_ok in Hcs.
  pose proof Esrc as Esrc'. apply oselect_stored in Esrc as [HL Esrc]; auto.
  destruct (remap_ok src (c_shape c) (drop_new ks) ssrc cs HS Hk HL Esrc (drop_new_nonew _) Hcs)
    as (ks' & s' & E1 & E2 & E3 & E4 & E5 & E6).
  rewrite E1. simpl bind.
  assert (Eo : oselect ks' (c_shape c) = Some s') by (apply oselect_stored; auto).
  assert (HM : exists r, mapM (fun kn => cleanup_key (fst kn) (snd kn)) (combine ks' (c_shape c)) = Ok r).
  { clear - E2 E3 E4. revert E3 s' E4. generalize (c_shape c) as sh. induction ks' as [|k ks' IH]; intros sh HL s H.
    - simpl. eauto.
    - apply sel_keys_stored_app in H as (n & sh' & d & r & -> & -> & Hd & HL' & Hr); auto.
      inversion E2; subst. destruct (IH H2 _ HL' _ Hr) as [q Eq]. destruct (cleanup_ok _ _ _ Hd) as (k' & F & _).
      simpl. rewrite F, Eq. eauto. }
  destruct HM as [r Hr]. unfold mk_adapter.
  replace (length (c_shape c) <? length ks') with false by lia. rewrite Hr. simpl bind.
  eexists; split; [reflexivity|]. split; simpl; auto.
  - split; auto. unfold valid_keys. rewrite Eo. discriminate.
  - intros m. unfold oindex. simpl. rewrite Eo, Esrc'. split; simpl; auto.
    rewrite E5. intros idx Hi. rewrite E6 by auto. auto.
Qed.

Lemma gen_newax K a na keys ks s : Pgen K a ->
  wf (ANewAx a na) -> np_expand keys (ndim (ANewAx a na)) = Ok ks -> sel_keys ks (shape (ANewAx a na)) = Some s ->
  let fl := newax_layout true (repeat false (ndim a)) na in nx_ok false ks fl -> K a (nx_ck ks fl) ->
  exists b, getitem (ANewAx a na) keys = Ok b /\ good (ANewAx a na) b s.
Proof.
  intros IH Hw Hexp Hs fl Hk1 Hk2. simpl in Hw. destruct Hw as [Hw HL]. unfold ndim in Hexp. simpl shape in *.
  destruct (newax_getitem_ok O (getitem a) a na keys s ks Hw HL Hexp Hs Hk1) as (b & Eb & Wb & Db & Tb & Lb).
  - intros cs Hcs. apply (Pgen_full K); auto.
  - exists b. split; auto. split; auto.
Qed.
Lemma get_newax a na : Pget a -> Pget (ANewAx a na).
Proof. intros IH keys ks s Hw Hexp Hs [Hk1 Hk2]. eapply gen_newax; eauto. Qed.

Lemma gen_asty K a d keys ks s : Pgen K a ->
  wf (AAsTy a d) -> np_expand keys (ndim (AAsTy a d)) = Ok ks -> sel_keys ks (shape (AAsTy a d)) = Some s -> K a ks ->
  exists b, getitem (AAsTy a d) keys = Ok b /\ good (AAsTy a d) b s.
Proof.
  intros IH Hw Hexp Hs Hk. simpl in *. destruct (IH keys ks s Hw Hexp Hs Hk) as (b & Eb & Gb).
  rewrite Eb. simpl. eexists; split; [reflexivity|]. split; simpl; try apply Gb; auto.
  intros m. eapply nd_eq_trans; [apply nd_map_eq, Gb|]. apply nd_map_sel.
Qed.
Lemma get_asty a d : Pget a -> Pget (AAsTy a d).
Proof. intros IH keys ks s Hw Hexp Hs Hk. eapply gen_asty; eauto. Qed.

Lemma gen_maskv K a v keys ks s : Pgen K a ->
  wf (AMaskV a v) -> np_expand keys (ndim (AMaskV a v)) = Ok ks -> sel_keys ks (shape (AMaskV a v)) = Some s -> K a ks ->
  exists b, getitem (AMaskV a v) keys = Ok b /\ good (AMaskV a v) b s.
Proof.
  intros IH Hw Hexp Hs Hk. simpl in *. destruct (IH keys ks s Hw Hexp Hs Hk) as (b & Eb & Gb).
  rewrite Eb. simpl. eexists; split; [reflexivity|]. split; simpl; try apply Gb; auto.
  intros m. eapply nd_eq_trans; [apply nd_map_eq, Gb|]. apply nd_map_sel.
Qed.
Lemma get_maskv a v : Pget a -> Pget (AMaskV a v).
Proof. intros IH keys ks s Hw Hexp Hs Hk. eapply gen_maskv; eauto. Qed.

Lemma gen_el1 K o a d keys ks s : Pgen K a ->
  wf (AEl1 o a d) -> np_expand keys (ndim (AEl1 o a d)) = Ok ks -> sel_keys ks (shape (AEl1 o a d)) = Some s -> K a (drop_new ks) ->
  exists b, getitem (AEl1 o a d) keys = Ok b /\ good (AEl1 o a d) b s.
Proof.
  intros IH Hw Hexp Hs Hk. simpl in Hw.
  cbn [getitem]. apply (base_getitem_ok O (AEl1 o a d) _ keys s ks); auto.
  intros cs Hcs. simpl shape in Hcs. destruct (Pgen_full _ _ _ _ IH Hw Hcs Hk) as (b & Eb & Gb).
  cbv beta. rewrite Eb. simpl. eexists; split; [reflexivity|]. split; simpl; try apply Gb; auto.
  - intros m. eapply nd_eq_trans; [apply nd_map_eq, Gb|]. apply nd_map_sel.
  - intros [H1 ->]. destruct (g_dt _ _ _ _ Gb H1) as [H2 H3]. split; [split; auto|congruence].
Qed.
Lemma get_el1 o a d : Pget a -> Pget (AEl1 o a d).
Proof. intros IH keys ks s Hw Hexp Hs Hk. eapply gen_el1; eauto. Qed.

(** Two arrays of one shape broadcast to themselves. *)
Lemma compute_bshape_same sh : compute_bshape sh sh = Ok sh.
Proof.
  unfold compute_bshape, pad_ones. rewrite Nat.sub_diag. simpl.
  induction sh as [|n sh IH]; simpl; auto. rewrite Nat.eqb_refl, IH. auto.
Qed.
Lemma bdict_same_aux sh i : flat_map (fun t => let '(ax, (f, s)) := t in if f =? s then [] else [(ax, f)])
           (combine (seq i (length sh)) (combine sh sh)) = @nil (nat * nat).
Proof. revert i; induction sh as [|n sh IH]; intros i; simpl; auto. rewrite Nat.eqb_refl, IH. auto. Qed.
Lemma broadcast_same (a b : barr) : shape a = shape b -> broadcast_arrays a b = Ok (a, b).
Proof.
  intros E. unfold broadcast_arrays, broadcast_one. unfold ndim. rewrite <- E, compute_bshape_same. simpl.
  rewrite Nat.sub_diag. simpl. unfold bdict. rewrite <- ?E, !bdict_same_aux. auto.
Qed.

Lemma gen_el2 K o a b d keys ks s : Pgen K a -> Pgen K b ->
  wf (AEl2 o a b d) -> np_expand keys (ndim (AEl2 o a b d)) = Ok ks -> sel_keys ks (shape (AEl2 o a b d)) = Some s ->
  K a (drop_new ks) -> K b (drop_new ks) ->
  exists r, getitem (AEl2 o a b d) keys = Ok r /\ good (AEl2 o a b d) r s.
Proof.
  intros IHa IHb Hw Hexp Hs Hka Hkb. simpl in Hw. pose proof Hw as (Hwa & Hwb & Hsh).
  cbn [getitem]. apply (base_getitem_ok O (AEl2 o a b d) _ keys s ks); auto.
  intros cs Hcs. simpl shape in Hcs. destruct (Pgen_full _ _ _ _ IHa Hwa Hcs Hka) as (x & Ex & Gx).
  rewrite Hsh in Hcs. destruct (Pgen_full _ _ _ _ IHb Hwb Hcs Hkb) as (y & Ey & Gy).
  cbv beta. rewrite Ex, Ey. simpl. unfold mk_el2.
  assert (Exy : shape x = shape y) by (rewrite (good_shape _ _ _ _ Gx), (good_shape _ _ _ _ Gy); auto).
  rewrite broadcast_same by auto. simpl.
  eexists; split; [reflexivity|]. split; simpl; auto.
  - split; [apply Gx|]. split; [apply Gy|auto].
  - intros m. destruct (g_den _ _ _ _ Gx m) as [A1 A2]. destruct (g_den _ _ _ _ Gy m) as [B1 B2].
    split; simpl; auto. intros i Hi. rewrite A2 by auto. rewrite B2.
    + auto.
    + rewrite B1. rewrite A1 in Hi. auto.
  - intros (H1 & H2 & ->). destruct (g_dt _ _ _ _ Gx H1) as [H3 H4]. destruct (g_dt _ _ _ _ Gy H2) as [H5 H6].
    split; [repeat split; auto|congruence].
Qed.
Lemma get_el2 o a b d : Pget a -> Pget b -> Pget (AEl2 o a b d).
Proof. intros IHa IHb keys ks s Hw Hexp Hs [Hka Hkb]. eapply gen_el2; eauto. Qed.

(** ** Aggregations *)

(** Number of kept dimensions before position i. *)
Definition is_pt_sel (d : dsel) : bool := match d with DPt _ => true | _ => false end.
Definition rk (s : list dsel) (i : nat) : nat := count_if (fun d => negb (is_pt_sel d)) (firstn i s).

Lemma sel_keys_insert ks sh cs axis n : nonew ks -> sel_keys ks (remove_at axis sh) = Some cs ->
  axis < length sh -> n = nth axis sh 0 ->
  sel_keys (insert_at axis KFull ks) sh = Some (insert_at axis (DLs (seq 0 n)) cs)
  /\ axis - count_if is_scalar (firstn axis (insert_at axis KFull ks)) = rk cs axis.
Proof.
  revert sh cs axis; induction ks as [|k ks IH]; intros sh cs axis HN H Hax ->.
  - simpl in H. destruct (remove_at axis sh) eqn:E; [|discriminate]. injection H as <-.
    pose proof (remove_at_length axis sh Hax) as HL. rewrite E in HL. simpl in HL.
    destruct sh as [|n [|m sh]]; simpl in *; try lia. assert (axis = 0) by lia. subst. split; auto.
    rewrite !insert_at_0, sel_keys_cons_eq, sel_key_full by auto. auto.
  - destruct sh as [|n sh]; [simpl in Hax; lia|]. apply nonew_cons in HN as [HN1 HN2].
    destruct axis as [|axis].
    + rewrite remove_at_0 in H. rewrite !insert_at_0. rewrite sel_keys_cons_eq by auto.
      rewrite sel_key_full, H. split; auto.
    + rewrite remove_at_S in H. rewrite insert_at_S. rewrite sel_keys_cons_eq in H |- * by auto.
      destruct (sel_key k n) as [d|] eqn:Ed; [|discriminate].
      destruct (sel_keys ks (remove_at axis sh)) as [r|] eqn:Er; [|discriminate]. injection H as <-.
      simpl in Hax. destruct (IH sh r axis HN2 Er ltac:(lia) eq_refl) as [E1 E2].
      simpl nth. rewrite E1, insert_at_S. split; auto. simpl firstn.
      unfold rk in *. simpl firstn. rewrite !count_if_cons. rewrite <- E2.
      pose proof (count_if_le is_scalar (firstn axis (insert_at axis KFull ks))) as Hle.
      rewrite firstn_length in Hle.
      apply sel_key_kind in Ed as [(-> & i & ->)|(-> & l & ->)]; cbn [is_pt_sel negb]; lia.
Qed.

Lemma insert_at_inb axis n sh o i : axis <= length sh -> inb sh o -> i < n -> inb (insert_at axis n sh) (insert_at axis i o).
Proof.
  revert sh o; induction axis as [|axis IH]; intros sh o Hax Ho Hi.
  - rewrite !insert_at_0. apply inb_cons; auto.
  - destruct sh as [|m sh]; [simpl in Hax; lia|]. apply inb_cons_inv in Ho as (j & o' & -> & Hj & Ho).
    rewrite !insert_at_S. apply inb_cons. split; auto. apply IH; auto. simpl in Hax; lia.
Qed.

Lemma vsel_nodnew s sh : length s = length sh -> vsel s sh -> Forall (fun d => d <> DNew) s.
Proof.
  revert sh; induction s as [|d s IH]; intros sh HL Hv; constructor.
  - intros ->. simpl in Hv. simpl in HL.
    assert (forall s sh, vsel s sh -> length sh <= length s) as W.
    { clear. induction s as [|[]]; intros sh H; simpl in *; destruct sh; simpl; try tauto; try lia.
      - destruct H as [_ H]. apply IHs in H. lia.
      - destruct H as [_ H]. apply IHs in H. lia.
      - apply IHs in H. simpl in H. lia. }
    assert (vsel s sh) by (destruct sh; auto). apply W in H. lia.
  - destruct sh as [|n sh]; [discriminate|]. simpl in HL. apply (IH sh); [lia|].
    destruct d; simpl in Hv; try tauto.
    exfalso. assert (forall s sh, vsel s sh -> length sh <= length s) as W.
    { clear. induction s as [|[]]; intros sh H; simpl in *; destruct sh; simpl; try tauto; try lia.
      - destruct H as [_ H]. apply IHs in H. lia.
      - destruct H as [_ H]. apply IHs in H. lia.
      - apply IHs in H. simpl in H. lia. }
    apply W in Hv. simpl in Hv. lia.
Qed.

Lemma sel_shape_insert cs axis l : Forall (fun d => d <> DNew) cs -> axis <= length cs ->
  sel_shape (insert_at axis (DLs l) cs) = insert_at (rk cs axis) (length l) (sel_shape cs)
  /\ rk cs axis <= length (sel_shape cs).
Proof.
  revert axis; induction cs as [|d cs IH]; intros axis HF Hax.
  - simpl in Hax. assert (axis = 0) by lia. subst. split; auto.
  - destruct axis as [|axis]; [split; [reflexivity|unfold rk; simpl; rewrite count_if_nil; lia]|]. rewrite insert_at_S. inversion HF; subst.
    simpl in Hax. destruct (IH axis H2 ltac:(lia)) as [E1 E2].
    unfold rk in *. simpl firstn. rewrite count_if_cons.
    destruct d; simpl; try congruence.
    + split; auto.
    + rewrite insert_at_S. split; [f_equal; auto|lia].
Qed.

Lemma sel_map_insert cs axis l i o : Forall (fun d => d <> DNew) cs -> axis <= length cs ->
  length o = length (sel_shape cs) ->
  sel_map (insert_at axis (DLs l) cs) (insert_at (rk cs axis) i o) = insert_at axis (nth i l 0) (sel_map cs o).
Proof.
  revert axis o; induction cs as [|d cs IH]; intros axis o HF Hax HL.
  - simpl in Hax. assert (axis = 0) by lia. subst. destruct o; [|discriminate]. auto.
  - destruct axis as [|axis]; [reflexivity|]. rewrite insert_at_S. inversion HF; subst.
    simpl in Hax. unfold rk in *. simpl firstn. rewrite count_if_cons.
    destruct d; simpl in *; try congruence.
    + rewrite insert_at_S. f_equal. apply IH; auto; lia.
    + destruct o as [|j o]; [discriminate|]. rewrite !insert_at_S. simpl. f_equal. apply IH; auto; simpl in *; lia.
Qed.

Lemma gen_agg K g a axis d keys ks s : Pgen K a ->
  wf (AAgg g a axis d) -> np_expand keys (ndim (AAgg g a axis d)) = Ok ks -> sel_keys ks (shape (AAgg g a axis d)) = Some s ->
  K a (insert_at axis KFull (drop_new ks)) ->
  exists b, getitem (AAgg g a axis d) keys = Ok b /\ good (AAgg g a axis d) b s.
Proof.
  intros IH Hw Hexp Hs Hk. pose proof Hw as [Hwa Hax]. unfold ndim in Hax.
  cbn [getitem]. apply (base_getitem_ok O (AAgg g a axis d) _ keys s ks); auto.
  intros cs Hcs. simpl shape in Hcs.
  destruct (sel_keys_insert _ _ _ axis _ (drop_new_nonew ks) Hcs Hax eq_refl) as [Hins Hrk].
  destruct (Pgen_full _ _ _ _ IH Hwa Hins Hk) as (b & Eb & Gb).
  cbv beta zeta. rewrite Eb. simpl bind. rewrite Hrk.
  pose proof (sel_keys_valid _ _ _ Hcs) as Hv.
  destruct (sel_keys_length _ _ _ (drop_new_nonew ks) Hcs) as [_ HLcs].
  pose proof (vsel_nodnew _ _ HLcs Hv) as HF. rewrite remove_at_length in HLcs by auto.
  destruct (sel_shape_insert cs axis (seq 0 (nth axis (shape a) 0)) HF ltac:(lia)) as [HSI Hle].
  rewrite seq_length in HSI. pose proof (good_shape _ _ _ _ Gb) as Shb. rewrite HSI in Shb.
  eexists; split; [reflexivity|]. split; auto.
  - split; [apply Gb|]. unfold ndim. rewrite Shb, insert_at_length. lia.
  - intros m. split.
    + simpl. rewrite den_shape by apply Gb. rewrite Shb, remove_insert by auto. auto.
    + simpl. rewrite den_shape by apply Gb. rewrite Shb, remove_insert by auto. intros o Ho. f_equal.
      unfold column. rewrite den_shape by apply Gb. rewrite den_shape by auto.
      rewrite Shb, nth_insert_at by auto. apply map_ext_in. intros i Hi. apply in_seq in Hi.
      destruct (g_den _ _ _ _ Gb m) as [A1 A2]. rewrite A2.
      * simpl. rewrite sel_map_insert by (auto; try lia; apply inb_length; auto).
        rewrite seq_nth by lia. auto.
      * rewrite den_shape by apply Gb. rewrite Shb. apply insert_at_inb; auto; lia.
Qed.
Lemma get_agg g a axis d : Pget a -> Pget (AAgg g a axis d).
Proof. intros IH keys ks s Hw Hexp Hs Hk. eapply gen_agg; eauto. Qed.

End GetSimple.
