(** BroadcastClaims: combination of two operands (C09) and what aggregations and
    elementwise operations realise to. *)
From Verif Require Import Base PySlice Keys NDArray Arrays Chunks Handlers Realise Spec Supported Lib SelLemmas KeyLemmas NewAxLemmas GetBase GetSimple GetBcast GetTrans GetStack GetMosaic GetItem ChunkLemmas AssignLemmas HandlerLemmas Realisable NumpyApply StreamLemmas RealOK RealiseOK IndexClaims ClassClaims.
From Coq Require Import ZifyBool ZifyNat.

Definition bstep (xy : nat * nat) : res nat :=
  let '(x, y) := xy in
  if x =? y then Ok x else if x =? 1 then Ok y else if y =? 1 then Ok x else Err ValueError.
Definition to_res (o : option nat) : res nat := match o with Some z => Ok z | None => Err ValueError end.
Lemma bstep_bdim x y : bstep (x, y) = to_res (bdim x y).
Proof. unfold bstep, bdim. destruct (x =? y), (x =? 1), (y =? 1); auto. Qed.

Lemma bshape_pad_l b : forall a k, length a + k = length b -> bshape_rev (a ++ repeat 1 k) b = bshape_rev a b.
Proof.
  induction b as [|y b IH]; intros [|x a] k H; simpl in H; try lia.
  - replace k with 0 by lia. auto.
  - simpl. destruct k as [|k]; [lia|]. simpl. specialize (IH [] k ltac:(simpl; lia)). cbn [app bshape_rev] in IH.
    rewrite IH.
    unfold bdim. destruct (Nat.eqb_spec 1 y); subst; auto.
  - simpl. rewrite IH by lia. auto.
Qed.
Lemma bshape_comm a : forall b, bshape_rev a b = bshape_rev b a.
Proof.
  induction a as [|x a IH]; intros [|y b]; simpl; auto. rewrite IH.
  replace (bdim x y) with (bdim y x); auto. unfold bdim. rewrite (Nat.eqb_sym y x).
  destruct (Nat.eqb_spec x y); subst; auto. destruct (Nat.eqb_spec x 1), (Nat.eqb_spec y 1); auto. lia.
Qed.
Lemma mapM_app {A B} (f : A -> res B) l1 l2 : mapM f (l1 ++ l2) = (r1 <- mapM f l1 ;; r2 <- mapM f l2 ;; Ok (r1 ++ r2)).
Proof.
  induction l1 as [|x l1 IH]; simpl. { destruct (mapM f l2); auto. }
  destruct (f x); auto. rewrite IH. destruct (mapM f l1); simpl; auto. destruct (mapM f l2); auto.
Qed.
Lemma combine_app_eq {A B} (a1 a2 : list A) (b1 b2 : list B) : length a1 = length b1 ->
  combine (a1 ++ a2) (b1 ++ b2) = combine a1 b1 ++ combine a2 b2.
Proof. revert b1; induction a1; intros [|y b1] H; simpl in *; try discriminate; auto. rewrite IHa1; auto. Qed.
Definition flip_res (o : option (list nat)) : res (list nat) := match o with Some r => Ok (rev r) | None => Err ValueError end.
Lemma mapM_bstep a : forall b, length a = length b ->
  mapM bstep (combine a b) = flip_res (bshape_rev (rev a) (rev b)).
Proof.
  induction a as [|x a IH] using rev_ind; intros b H.
  - destruct b; [|discriminate]. auto.
  - destruct b as [|y b _] using rev_ind; [rewrite app_length in H; simpl in H; lia|].
    rewrite !app_length in H; simpl in H. rewrite combine_app_eq by lia. rewrite mapM_app, IH by lia. rewrite !rev_app_distr.
    cbn [rev app bshape_rev combine mapM]. rewrite bstep_bdim. destruct (bdim x y), (bshape_rev (rev a) (rev b)); simpl; auto.
Qed.
Lemma rev_repeat {A} (x : A) n : rev (repeat x n) = repeat x n.
Proof. induction n; simpl; auto. rewrite IHn. clear. induction n; simpl; auto. rewrite IHn. auto. Qed.

(** [_compute_broadcast_shape] is NumPy's rule. *)
Lemma compute_bshape_ok s1 s2 : compute_bshape s1 s2 = match np_bshape s1 s2 with Some r => Ok r | None => Err ValueError end.
Proof.
  unfold compute_bshape, np_bshape. change (fun xy : nat * nat => _) with bstep.
  rewrite mapM_bstep by (unfold pad_ones; rewrite !app_length, !repeat_length; lia).
  unfold pad_ones. rewrite !rev_app_distr, !rev_repeat.
  assert (E : bshape_rev (rev s1 ++ repeat 1 (length s2 - length s1)) (rev s2 ++ repeat 1 (length s1 - length s2)) = bshape_rev (rev s1) (rev s2)).
  { destruct (Nat.le_ge_cases (length s1) (length s2)) as [L|L].
    - replace (length s1 - length s2) with 0 by lia. cbn [repeat]. rewrite app_nil_r. apply bshape_pad_l. rewrite !rev_length. lia.
    - replace (length s2 - length s1) with 0 by lia. cbn [repeat]. rewrite app_nil_r, bshape_comm. rewrite bshape_pad_l by (rewrite !rev_length; lia).
      apply bshape_comm. }
  rewrite E. unfold flip_res. destruct (bshape_rev (rev s1) (rev s2)); auto.
Qed.

(** [full] is a shape that [sh] broadcasts to: as many leading dimensions as
    needed, the others kept or stretched from length one. *)
Definition stretches (sh full : list nat) : Prop :=
  length sh <= length full /\
  forall i, i < length sh -> nth (length full - length sh + i) full 0 = nth i sh 0 \/ nth i sh 0 = 1.

Lemma bshape_rev_stretch a : forall b r, bshape_rev a b = Some r ->
  (length a <= length r /\ forall i, i < length a -> nth i r 0 = nth i a 0 \/ nth i a 0 = 1)
  /\ (length b <= length r /\ forall i, i < length b -> nth i r 0 = nth i b 0 \/ nth i b 0 = 1)
  /\ length r = Nat.max (length a) (length b).
Proof.
  induction a as [|x a IH]; intros [|y b] r H; simpl in H.
  - injection H as <-. simpl. repeat split; auto; intros; lia.
  - injection H as <-. simpl. repeat split; auto; intros; lia.
  - injection H as <-. simpl. repeat split; auto; intros; lia.
  - destruct (bdim x y) as [z|] eqn:Ez; [|discriminate]. destruct (bshape_rev a b) as [r'|] eqn:Er; [|discriminate]. injection H as <-.
    destruct (IH _ _ Er) as ((A1 & A2) & (B1 & B2) & C). simpl. unfold bdim in Ez.
    assert ((z = x \/ x = 1) /\ (z = y \/ y = 1)) as [Z1 Z2].
    { destruct (Nat.eqb_spec x y); [injection Ez as <-; subst; auto|]. destruct (Nat.eqb_spec x 1); [injection Ez as <-; auto|].
      destruct (Nat.eqb_spec y 1); [injection Ez as <-; auto|discriminate]. }
    repeat split; try lia; intros [|i] Hi; auto; [apply A2|apply B2]; lia.
Qed.
Lemma nth_rev {A} (l : list A) i d : i < length l -> nth i l d = nth (length l - S i) (rev l) d.
Proof. intros H. rewrite rev_nth by lia. f_equal. lia. Qed.
Lemma np_bshape_stretch a b r : np_bshape a b = Some r ->
  stretches a r /\ stretches b r /\ length r = Nat.max (length a) (length b).
Proof.
  unfold np_bshape. destruct (bshape_rev (rev a) (rev b)) as [r0|] eqn:E; [|discriminate]. intros H; injection H as <-.
  apply bshape_rev_stretch in E as ((A1 & A2) & (B1 & B2) & C). rewrite !rev_length in *.
  unfold stretches. rewrite rev_length. split; [|split]; auto.
  - split; auto. intros i Hi. rewrite (nth_rev (rev r0)) by (rewrite rev_length; lia). rewrite rev_involutive, rev_length.
    rewrite (nth_rev a) by auto. replace (length r0 - S (length r0 - length a + i)) with (length a - S i) by lia. apply A2; lia.
  - split; auto. intros i Hi. rewrite (nth_rev (rev r0)) by (rewrite rev_length; lia). rewrite rev_involutive, rev_length.
    rewrite (nth_rev b) by auto. replace (length r0 - S (length r0 - length b + i)) with (length b - S i) by lia. apply B2; lia.
Qed.

(** The dictionary of changed axes. *)
Lemma bdict_gen full sh : forall k, length full = length sh ->
  let d := flat_map (fun t => let '(ax, (f, s)) := t in if f =? s then [] else [(ax, f)])
           (combine (seq k (length sh)) (combine full sh)) in
  NoDup (map fst d) /\ Forall (fun p => k <= fst p < k + length sh) d
  /\ forall i, i < length sh -> dict_find (k + i) d = if nth i full 0 =? nth i sh 0 then None else Some (nth i full 0).
Proof.
  revert full. induction sh as [|s sh IH]; intros [|f full] k HL; try discriminate.
  - simpl. repeat split; auto; [constructor|]. intros; lia.
  - cbn [length seq combine flat_map]. simpl in HL. specialize (IH full (S k) ltac:(lia)). cbv zeta in IH |- *.
    set (d := flat_map _ (combine (seq (S k) (length sh)) (combine full sh))) in *. destruct IH as (I1 & I2 & I3).
    assert (HK : ~ In k (map fst d)). { intros H. apply in_map_iff in H as (p & E & Hp). rewrite Forall_forall in I2. apply I2 in Hp. lia. }
    destruct (Nat.eqb_spec f s) as [->|N]; cbn [app].
    + split; auto. split; [eapply Forall_impl; [|apply I2]; simpl; intros; lia|].
      intros [|i] Hi; cbn [nth]. { rewrite Nat.eqb_refl, Nat.add_0_r. apply dict_find_notin; auto. }
      rewrite <- I3 by lia. f_equal. lia.
    + cbn [map fst]. split; [constructor; auto|]. split; [constructor; simpl; [lia|eapply Forall_impl; [|apply I2]; simpl; intros; lia]|].
      intros [|i] Hi; cbn [nth]; rewrite dict_find_cons.
      * rewrite Nat.add_0_r, Nat.eqb_refl. destruct (Nat.eqb_spec f s); [lia|auto].
      * replace (k =? k + S i) with false by lia. rewrite <- I3 by lia. f_equal. lia.
Qed.
Lemma bdict_nil full sh : length full = length sh -> bdict full sh = [] -> full = sh.
Proof.
  intros HL H. destruct (bdict_gen full sh 0 HL) as (_ & _ & D). unfold bdict in H. rewrite H in D. cbn in D.
  apply (nth_error_ext_nth 0); auto. intros i Hi. specialize (D i ltac:(lia)). destruct (Nat.eqb_spec (nth i full 0) (nth i sh 0)); auto. discriminate.
Qed.

Section Bcast.
Context {V : Type} (O : numops V).
Notation cell := (option V).
Notation barr := (@barr V).

(** An operand whose own dimensions are stretched must not have broadcast leading
    dimensions. *)
Definition extendable (a : barr) (full : list nat) : Prop :=
  (forall a0 d0 l0, a = ABcast a0 d0 l0 -> l0 = []) \/ skipn (length full - ndim a) full = shape a.
Lemma nolead_extendable a full : nolead a -> extendable a full.
Proof. left. intros a0 d0 l0 ->. auto. Qed.
Lemma bdict_same full : bdict full full = [].
Proof.
  destruct (bdict_gen full full 0 eq_refl) as (_ & D2 & D3). fold (bdict full full) in D2, D3. destruct (bdict full full) as [|[p n] r]; auto. exfalso.
  pose proof (Forall_inv D2) as H. cbn [fst] in H. specialize (D3 p (proj2 H)). cbn [Nat.add] in D3. rewrite Nat.eqb_refl, dict_find_cons, Nat.eqb_refl in D3. discriminate.
Qed.
Lemma broadcast_one_ok (a : barr) full off : wf a -> extendable a full -> off + ndim a = length full -> stretches (shape a) full ->
  Forall (fun n => 1 <= n) (firstn off full) ->
  exists b, broadcast_one a full off = Ok b /\ wf b /\ shape b = full
    /\ (forall m o, inb full o -> nget (den O m b) o = nget (den O m a) (bc_idx (shape a) o))
    /\ (shape a = full -> b = a) /\ (dt_stable a -> dt_stable b) /\ dtype b = dtype a
    /\ (b = a \/ exists dict lead, mk_bcast a dict lead = Ok b).
Proof.
  intros Hw Hnl HL [HS1 HS2] Hlead. unfold broadcast_one. unfold ndim in HL.
  assert (Hk : length (skipn off full) = length (shape a)) by (rewrite skipn_length; lia).
  assert (Hoff : length full - length (shape a) = off) by lia. rewrite Hoff in HS2. clear Hoff.
  assert (Hlen : length (firstn off full) = off) by (rewrite firstn_length; lia).
  pose proof (bdict_gen (skipn off full) (shape a) 0 Hk) as HD. cbv zeta in HD. fold (bdict (skipn off full) (shape a)) in HD.
  destruct HD as (D1 & D2 & D3).
  destruct (list_eq_dec Nat.eq_dec (shape a) full) as [Efull|Nfull].
  - assert (off = 0) by (apply (f_equal (@length nat)) in Efull; lia). subst off. rewrite skipn_O in *. cbn [firstn].
    assert (Ed : bdict full (shape a) = []).
    { destruct (bdict full (shape a)) as [|p r] eqn:Ed; auto. exfalso. pose proof (Forall_inv D2) as H.
      specialize (D3 (fst p) (proj2 H)). rewrite Efull in D3. cbn [Nat.add] in D3. rewrite Nat.eqb_refl in D3.
      destruct p as [p n]. cbn [fst] in D3. rewrite dict_find_cons, Nat.eqb_refl in D3. discriminate. }
    rewrite Ed. exists a. split; auto. split; auto. split; auto. split; [|split; [|split]]; auto.
    intros m o Ho. f_equal. rewrite <- Efull in Ho. rewrite bc_idx_same by (apply inb_length in Ho; auto). symmetry. apply bidx_inb; auto.
  - set (dict := bdict (skipn off full) (shape a)) in *. set (lead := firstn off full) in *.
    assert (HE : match lead, dict with [], [] => Ok a | _, _ => mk_bcast a dict lead end = mk_bcast a dict lead).
    { destruct lead as [|l0 lead'] eqn:El; auto. destruct dict as [|p r] eqn:Ed; auto. exfalso. apply Nfull.
      assert (off = 0) by (cbn [length] in Hlen; lia). subst off. rewrite skipn_O in *. symmetry. apply bdict_nil; auto. }
    assert (HF : Forall (fun p => fst p < length (shape a) /\ nth (fst p) (shape a) 0 = 1) dict).
    { rewrite Forall_forall in D2 |- *. intros p Hp. pose proof (D2 p Hp) as H. split; [apply H|].
      specialize (D3 (fst p) (proj2 H)). cbn [Nat.add] in D3.
      assert (Hin : In (fst p) (map fst dict)) by (apply in_map; auto). destruct (dict_find_is _ _ Hin) as (n & En). rewrite En in D3.
      destruct (Nat.eqb_spec (nth (fst p) (skipn off full) 0) (nth (fst p) (shape a) 0)) as [|N]; [discriminate|].
      rewrite nth_skipn_plus in N. destruct (HS2 (fst p) (proj2 H)); auto. congruence. }
    destruct (sfd_fits (shape a) dict D1 HF) as (sh' & Es).
    assert (Hsh' : sh' = skipn off full).
    { pose proof Es as Es'. apply sfd_char in Es' as (S1 & S2 & S3); auto. apply (nth_error_ext_nth 0); [lia|].
      intros i Hi. rewrite S2 in Hi. rewrite S3 by auto. specialize (D3 i Hi). cbn [Nat.add] in D3. rewrite D3.
      destruct (Nat.eqb_spec (nth i (skipn off full) 0) (nth i (shape a) 0)); auto. }
    assert (Hd : dict = [] \/ forall a0 d0 l0, a = ABcast a0 d0 l0 -> l0 = []).
    { destruct Hnl as [Hnl|Hnl]; [auto|]. left. unfold ndim in Hnl. replace (length full - length (shape a)) with off in Hnl by lia. unfold dict. rewrite Hnl. apply bdict_same. }
    destruct (mk_bcast_top O a dict lead sh' Hw D1 Es Hlead Hd) as (b & Eb & Wb & Db & Tb1 & Tb2 & _).
    assert (Hshb : shape b = full).
    { rewrite <- (den_shape O false) by auto. rewrite (proj1 (Db false)). cbn [den nshape]. rewrite den_shape by auto. rewrite Es. cbn [get_ok].
      rewrite Hsh'. apply firstn_skipn. }
    exists b. rewrite HE. split; auto. split; auto. split; auto. split; [|split; [|split; [|split]]]; auto.
    + intros m o Ho. rewrite (proj2 (Db m)). 2:{ rewrite den_shape by auto. rewrite Hshb. auto. }
      cbn [den nget]. rewrite den_shape by auto. auto.
    + congruence.
    + right. exists dict, lead. auto.
Qed.
Lemma dict_find_update_out i d : forall d0, dict_find i d = None -> dict_find i (dict_update d0 d) = dict_find i d0.
Proof.
  unfold dict_update. induction d as [|p d IH]; intros d0 H; auto. destruct p as [x n]. rewrite dict_find_cons in H. cbn [fold_left]. destruct (Nat.eqb_spec x i); [discriminate|].
  rewrite IH by auto. rewrite dict_set_find. cbn [fst]. destruct (Nat.eqb_spec x i); [congruence|auto].
Qed.
Lemma dict_update_NoDup d : forall d0, NoDup (map fst d0) -> NoDup (map fst (dict_update d0 d)).
Proof. unfold dict_update. induction d as [|p d IH]; intros d0 H; auto. cbn [fold_left]. apply IH. apply dict_set_NoDup; auto. Qed.
Lemma bind_inv {A B} (r : res A) (f : A -> res B) b : (x <- r ;; f x) = Ok b -> exists x, r = Ok x /\ f x = Ok b.
Proof. destruct r as [x|]; [exists x; auto|discriminate]. Qed.
Lemma broadcast_one_only (a : barr) full off b : wf a -> off + ndim a = length full ->
  broadcast_one a full off = Ok b -> shape b = full -> extendable a full /\ Forall (fun n => 1 <= n) (firstn off full).
Proof.
  intros Hw HL E Hs. unfold broadcast_one in E. unfold ndim in HL.
  set (lead := firstn off full) in *. assert (Hlen : length lead = off) by (unfold lead; rewrite firstn_length; lia).
  assert (Hk : length (skipn off full) = length (shape a)) by (rewrite skipn_length; lia).
  assert (Hoff : length full - ndim a = off) by (unfold ndim; lia).
  set (dict := bdict (skipn off full) (shape a)) in *.
  assert (HE : (lead = [] /\ dict = [] /\ b = a) \/ mk_bcast a dict lead = Ok b).
  { destruct lead as [|l0 lead']; [|auto]. destruct dict as [|p r]; auto. left. repeat split; auto. congruence. }
  destruct HE as [(H1 & H2 & ->)|HE].
  { rewrite H1 in Hlen. cbn in Hlen. split; [|rewrite H1; constructor]. right. unfold ndim. rewrite Hs, Nat.sub_diag. reflexivity. }
  clear E. destruct (Nat.eq_dec (length dict) 0) as [Hd|Hd].
  { assert (Ed : dict = []) by (destruct dict; [auto|discriminate]).
    split. { right. rewrite Hoff. apply bdict_nil; auto. }
    unfold mk_bcast in HE. destruct a; cbn [bind] in HE; apply bind_inv in HE as (x & _ & HE); destruct (existsb (fun n => n <? 1) _) eqn:Ex; try discriminate;
      apply existsb_false_Forall in Ex; try (apply Forall_app in Ex as [Ex _]); (eapply Forall_impl; [|exact Ex]; cbn beta; intros; lia). }
  assert (HB : (exists a0 d0 l0, a = ABcast a0 d0 l0) \/ (forall a0 d0 l0, a <> ABcast a0 d0 l0)).
  { destruct a; try (right; intros; discriminate). left; eauto. }
  destruct HB as [(a0 & d0 & l0 & ->)|HB].
  - unfold mk_bcast in HE. apply bind_inv in HE as (sh2 & E2 & HE). destruct (existsb (fun n => n <? 1) (lead ++ l0)) eqn:Ex; [discriminate|]. injection HE as <-.
    apply existsb_false_Forall in Ex. apply Forall_app in Ex as [Ex _].
    split; [|eapply Forall_impl; [|exact Ex]; cbn beta; intros; lia]. left. intros a1 d1 l1 [= <- <- <-].
    destruct Hw as (Hw0 & HN0 & Hok0 & Hl0). destruct (shape_from_dict (shape a0) d0) as [sh1|e] eqn:E1; [|discriminate].
    assert (Edict : dict = bdict (skipn off full) (shape (ABcast a0 d0 l0))) by reflexivity. clearbody dict. clear Hoff.
    cbn [shape] in Hs, Hk, HL, Edict. rewrite E1 in Hk, HL, Edict. rewrite E2 in Hs. cbn [get_ok] in *.
    destruct l0 as [|z l0]; auto. exfalso. set (l := z :: l0) in *. assert (Hl : 1 <= length l) by (unfold l; cbn; lia). clearbody l. clear z l0.
    destruct (bdict_gen (skipn off full) (l ++ sh1) 0 Hk) as (D1 & D2 & D3). fold (bdict (skipn off full) (l ++ sh1)) in D1, D2, D3. rewrite <- Edict in D1, D2, D3. clear Edict. cbn [Nat.add] in D3.
    assert (EF : skipn off full = l ++ sh2). { rewrite <- Hs. rewrite <- app_assoc. rewrite <- Hlen. rewrite skipn_app, skipn_all, Nat.sub_diag. auto. }
    rewrite EF in Hk, D3. assert (HNu : NoDup (map fst (dict_update d0 dict))).
    { apply dict_update_NoDup; auto. }
    pose proof (proj1 (sfd_char _ _ _ HN0) E1) as (_ & L1 & N1). pose proof (proj1 (sfd_char _ _ _ HNu) E2) as (_ & L2 & N2).
    assert (G : forall i, i < length (l ++ sh1) -> dict_find i dict = None).
    { induction i as [i IH] using (well_founded_induction lt_wf). intros Hi. rewrite D3 by auto. replace (nth i (l ++ sh2) 0 =? nth i (l ++ sh1) 0) with true; auto. symmetry. apply Nat.eqb_eq.
      destruct (Nat.lt_ge_cases i (length l)) as [Hlt|Hge]; [rewrite !app_nth1 by auto; auto|]. rewrite !app_nth2 by auto. rewrite app_length in Hi.
      rewrite N1, N2 by lia. rewrite (dict_find_update_out (i - length l) dict d0); auto. apply IH; [lia|]. rewrite app_length. lia. }
    destruct dict as [|[p n] r] eqn:Ed; [cbn in Hd; lia|]. pose proof (Forall_inv D2) as H. cbn [fst] in H. specialize (G p (proj2 H)). rewrite dict_find_cons, Nat.eqb_refl in G. discriminate.
  - split; [left; intros a0 d0 l0 H; exfalso; eapply HB; eauto|]. unfold mk_bcast in HE.
    destruct a; try (exfalso; eapply HB; reflexivity); apply bind_inv in HE as (x & _ & HE); destruct (existsb (fun n => n <? 1) _) eqn:Ex; try discriminate;
      apply existsb_false_Forall in Ex; (eapply Forall_impl; [|exact Ex]; cbn beta; intros; lia).
Qed.
(** An operand that can be brought to the shape [full]: its own dimensions can be
    stretched, and no dimension added in front has length zero. *)
Definition broadcastable (a : barr) (full : list nat) : Prop :=
  extendable a full /\ Forall (fun n => 1 <= n) (firstn (length full - ndim a) full).
(** C09 *)
Lemma broadcast_arrays_ok (a b : barr) full : wf a -> wf b -> broadcastable a full -> broadcastable b full ->
  np_bshape (shape a) (shape b) = Some full ->
  exists a' b', broadcast_arrays a b = Ok (a', b') /\ wf a' /\ wf b' /\ shape a' = full /\ shape b' = full
    /\ (forall m o, inb full o -> nget (den O m a') o = nget (den O m a) (bc_idx (shape a) o))
    /\ (forall m o, inb full o -> nget (den O m b') o = nget (den O m b) (bc_idx (shape b) o))
    /\ (shape a = full -> a' = a) /\ (shape b = full -> b' = b)
    /\ (dt_stable a -> dt_stable a') /\ dtype a' = dtype a /\ (dt_stable b -> dt_stable b') /\ dtype b' = dtype b
    /\ (a' = a \/ exists dict lead, mk_bcast a dict lead = Ok a') /\ (b' = b \/ exists dict lead, mk_bcast b dict lead = Ok b').
Proof.
  intros Wa Wb [Na La] [Nb Lb] E. pose proof E as E0. apply np_bshape_stretch in E0 as (Sa & Sb & HL). unfold ndim in *.
  unfold broadcast_arrays. rewrite compute_bshape_ok, E. cbn [bind]. unfold ndim.
  replace (length full - length (shape a)) with (length (shape b) - length (shape a)) in La by lia.
  replace (length full - length (shape b)) with (length (shape a) - length (shape b)) in Lb by lia.
  destruct (broadcast_one_ok a full (length (shape b) - length (shape a)) Wa Na ltac:(unfold ndim; lia) Sa La) as (a' & A1 & A2 & A3 & A4 & A5 & A6 & A7 & A8).
  destruct (broadcast_one_ok b full (length (shape a) - length (shape b)) Wb Nb ltac:(unfold ndim; lia) Sb Lb) as (b' & B1 & B2 & B3 & B4 & B5 & B6 & B7 & B8).
  rewrite A1. cbn [bind]. rewrite B1. cbn [bind]. exists a', b'. repeat (split; auto).
Qed.

Lemma broadcast_arrays_refused (a b : barr) : np_bshape (shape a) (shape b) = None -> broadcast_arrays a b = Err ValueError.
Proof. intros E. unfold broadcast_arrays. rewrite compute_bshape_ok, E. auto. Qed.

Lemma broadcast_arrays_iff (a b : barr) full : wf a -> wf b -> np_bshape (shape a) (shape b) = Some full ->
  (exists a' b', broadcast_arrays a b = Ok (a', b') /\ shape a' = full /\ shape b' = full)
  <-> broadcastable a full /\ broadcastable b full.
Proof.
  intros Wa Wb E. pose proof E as E0. apply np_bshape_stretch in E0 as (Sa & Sb & HL).
  assert (Ha : length full - ndim a = ndim b - ndim a) by (unfold ndim; lia).
  assert (Hb : length full - ndim b = ndim a - ndim b) by (unfold ndim; lia).
  unfold broadcastable. rewrite Ha, Hb. unfold broadcast_arrays. rewrite compute_bshape_ok, E. cbn [bind]. split.
  - intros (a' & b' & H & Ha' & Hb'). apply bind_inv in H as (x & Ex & H). apply bind_inv in H as (y & Ey & H). injection H as -> ->.
    split; eapply broadcast_one_only; eauto; unfold ndim; lia.
  - intros [[A1 A2] [B1 B2]].
    destruct (broadcast_one_ok a full (ndim b - ndim a) Wa A1 ltac:(unfold ndim; lia) Sa A2) as (a' & E1 & _ & S1 & _).
    destruct (broadcast_one_ok b full (ndim a - ndim b) Wb B1 ltac:(unfold ndim; lia) Sb B2) as (b' & E2 & _ & S2 & _).
    rewrite E1. cbn [bind]. rewrite E2. cbn [bind]. eauto.
Qed.

Variable maxc : nat.
Variable garbage : list nat -> cell.
Variable m : bool.
Variable HG : @agg V -> nat -> Prop.
Variable fuel : nat.
Hypothesis HR : forall g, handler_right O m g (HG g).
Notation usable := (usable maxc m HG fuel).
Notation reads := (reads O maxc garbage m fuel).

(** Aggregations: each element is the aggregate of its column. *)
Lemma agg_claim g a axis d : usable a -> usable (AAgg g a axis d) ->
  exists da r, reads a da /\ reads (AAgg g a axis d) r /\ nshape r = remove_at axis (nshape da)
    /\ forall o, inb (nshape r) o -> nget r o = agg_spec O m g (column da axis o).
Proof.
  intros Hu Hg. destruct (usable_reads O maxc garbage m HG fuel HR a Hu) as (da & Ea & Da).
  destruct (usable_reads O maxc garbage m HG fuel HR _ Hg) as (r & Er & Dr). exists da, r. split; auto. split; auto.
  split; [rewrite (proj1 Dr), (proj1 Da); auto|]. intros o Ho. rewrite (proj2 Dr) by auto. cbn [den nget]. f_equal.
  unfold column. rewrite (proj1 Da). apply map_ext_in. intros i Hi. apply in_seq in Hi. symmetry. apply (proj2 Da).
  rewrite (proj1 Dr) in Ho. cbn [den nshape] in Ho. rewrite (proj1 Da).
  destruct Hg as [[Wa Hax] _]. pose proof (den_shape O m a Wa) as Hd. unfold ndim in Hax. rewrite Hd in *.
  apply inb_ext.
  - rewrite insert_at_length. apply inb_length in Ho. rewrite remove_at_length in Ho by auto. lia.
  - intros j Hj. pose proof (inb_length _ _ Ho) as Ll. rewrite remove_at_length in Ll by auto.
    rewrite <- (insert_remove axis 0 (shape a)) by auto. 
    enough (inb (insert_at axis (nth axis (shape a) 0) (remove_at axis (shape a))) (insert_at axis i o)).
    { apply inb_nth; auto. rewrite insert_remove; auto. }
    unfold insert_at. apply inb_app; [rewrite !firstn_length, remove_at_length by auto; lia|].
    rewrite <- (firstn_skipn axis o), <- (firstn_skipn axis (remove_at axis (shape a))) in Ho.
    apply inb_app in Ho; [|rewrite !firstn_length, remove_at_length by auto; lia]. split; [tauto|]. constructor; [lia|tauto].
Qed.

Lemma el1_claim o a d : usable a -> usable (AEl1 o a d) ->
  exists da r, reads a da /\ reads (AEl1 o a d) r /\ nshape r = nshape da
    /\ forall i, inb (nshape da) i -> nget r i = op1_sem m o (nget da i).
Proof.
  intros Hu Hg. destruct (usable_reads O maxc garbage m HG fuel HR a Hu) as (da & Ea & Da).
  destruct (usable_reads O maxc garbage m HG fuel HR _ Hg) as (r & Er & Dr). exists da, r. split; auto. split; auto.
  split; [rewrite (proj1 Dr), (proj1 Da); auto|]. intros i Hi. rewrite (proj2 Dr). 2:{ rewrite (proj1 Dr). cbn [den nd_map nshape]. rewrite <- (proj1 Da). auto. }
  cbn [den nd_map nget]. rewrite (proj2 Da); auto.
Qed.

Lemma el2_claim o a b d : usable a -> usable b -> usable (AEl2 o a b d) ->
  exists da db r, reads a da /\ reads b db /\ reads (AEl2 o a b d) r /\ nshape r = nshape da /\ nshape r = nshape db
    /\ forall i, inb (nshape r) i -> nget r i = op2_sem m o (nget da i) (nget db i).
Proof.
  intros Hu Hv Hg. destruct (usable_reads O maxc garbage m HG fuel HR a Hu) as (da & Ea & Da).
  destruct (usable_reads O maxc garbage m HG fuel HR b Hv) as (db & Eb & Db).
  destruct (usable_reads O maxc garbage m HG fuel HR _ Hg) as (r & Er & Dr). exists da, db, r. split; auto. split; auto. split; auto.
  assert (H1 : nshape r = nshape da) by (rewrite (proj1 Dr), (proj1 Da); auto).
  assert (H2 : nshape r = nshape db).
  { rewrite H1, (proj1 Da), (proj1 Db). destruct Hg as [(Wa & Wb & Hs) _]. rewrite !den_shape by auto. auto. }
  split; auto. split; auto. intros i Hi. rewrite (proj2 Dr) by auto. cbn [den nget]. rewrite (proj2 Da), (proj2 Db) by congruence. auto.
Qed.

(** A binary operation on arrays of any two shapes that broadcast together. *)
Lemma mk_el2_claim o a b py full : usable a -> usable b -> broadcastable a full -> broadcastable b full ->
  np_bshape (shape a) (shape b) = Some full ->
  (forall e, mk_el2 o a b py = Ok e -> realisable maxc m HG fuel e) ->
  exists e da db r, mk_el2 o a b py = Ok e /\ reads a da /\ reads b db /\ reads e r /\ nshape r = full
    /\ forall i, inb full i -> nget r i = op2_sem m o (nget da (bc_idx (nshape da) i)) (nget db (bc_idx (nshape db) i)).
Proof.
  intros Ha Hb Na Nb E HRe.
  destruct (broadcast_arrays_ok a b full (proj1 Ha) (proj1 Hb) Na Nb E)
    as (a' & b' & Eab & Wa & Wb & Sa & Sb & Da & Db & _ & _ & _ & _ & _ & _ & _ & _).
  set (d := match py with Some isf => o2_dtpy o (dtype a') isf | None => o2_dt o (dtype a') (dtype b') end).
  assert (Ee : mk_el2 o a b py = Ok (AEl2 o a' b' d)) by (unfold mk_el2; rewrite Eab; reflexivity).
  assert (We : wf (AEl2 o a' b' d)) by (split; [auto|split; auto; congruence]).
  destruct (usable_reads O maxc garbage m HG fuel HR _ (conj We (HRe _ Ee))) as (r & Er & Dr).
  destruct (usable_reads O maxc garbage m HG fuel HR a Ha) as (da & Ea & DDa).
  destruct (usable_reads O maxc garbage m HG fuel HR b Hb) as (db & Eb & DDb).
  exists (AEl2 o a' b' d), da, db, r. split; auto. split; auto. split; auto. split; auto.
  assert (Hs : nshape r = full). { rewrite (proj1 Dr), den_shape by auto. cbn [shape]. auto. }
  split; auto. intros i Hi. rewrite (proj2 Dr) by (rewrite Hs; auto). cbn [den nget]. rewrite Da, Db by auto.
  apply np_bshape_stretch in E as (Fa & Fb & _).
  assert (HB : forall x, stretches x full -> inb x (bc_idx x i)).
  { intros x [F1 F2]. pose proof (inb_length _ _ Hi) as Li. unfold bc_idx. apply inb_ext.
    - rewrite bidx_length; [auto|]. rewrite skipn_length; lia.
    - intros j Hj. rewrite nth_bidx by (rewrite skipn_length; lia). rewrite nth_skipn_plus.
      pose proof (inb_nth _ _ (length full - length x + j) Hi ltac:(lia)) as Hn. rewrite Li.
      destruct (F2 j Hj) as [F|F]; destruct (Nat.eqb_spec (nth j x 0) 1); lia. }
  pose proof (reads_shape O maxc garbage m HG fuel HR a da Ha Ea) as S1. pose proof (reads_shape O maxc garbage m HG fuel HR b db Hb Eb) as S2.
  rewrite S1, S2. rewrite (proj2 DDa), (proj2 DDb); auto; rewrite ?S1, ?S2; auto.
Qed.

End Bcast.
