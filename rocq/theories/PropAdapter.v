(** C04 and C03 in full for keys without boolean masks: what a NumpyArrayAdapter
    returns, whatever keys it holds, and after any sequence of indexings. *)
From Verif Require Import Base PySlice Keys NDArray Arrays Chunks Handlers Realise Spec Supported Lib SelLemmas KeyLemmas NewAxLemmas GetBase GetSimple GetBcast GetTrans GetStack GetMosaic GetItem ChunkLemmas Realisable NumpyApply RealiseOK AdapterClaims IndexClaims Samples SteadyClaims PropRefuted.

(** The dimension of the result that the first sequence among [ks] selects from:
    the keys before it, integers not counted. *)
Fixpoint seq_dim (ks : list key) : nat :=
  match ks with
  | [] => 0
  | k :: ks => if is_seq k then 0 else if is_scalar k then seq_dim ks else S (seq_dim ks)
  end.
(** Dimension [p] moved to the front: [np.moveaxis(x, p, 0)]. *)
Definition to_front {A} (p : nat) (x : nd A) : nd A :=
  mkND (nth p (nshape x) 0 :: remove_at p (nshape x)) (fun o => nget x (insert_at p (hd 0 o) (tl o))).

(** *** One index list, anywhere *)
Fixpoint adv_dim (is : list isel) : nat :=
  match is with
  | [] => 0
  | i :: is => if is_adv i then 0 else if is_pt i then adv_dim is else S (adv_dim is)
  end.
Lemma adv_any is : count_if is_adv is = 1 ->
  exists n, adv_len is = Ok n /\ sel_shape (map tod is) = insert_at (adv_dim is) n (basic_shape is) /\ adv_dim is <= length (basic_shape is)
    /\ forall j o, j < n -> length o = length (basic_shape is) -> isel_map is j o = sel_map (map tod is) (insert_at (adv_dim is) j o).
Proof.
  induction is as [|i is IH]; [discriminate|]. rewrite count_if_cons. intros H. destruct i; cbn [is_adv is_pt adv_dim map tod] in *.
  - destruct (IH H) as (n & E1 & E2 & E3 & E4). exists n. cbn [adv_len basic_shape sel_shape]. repeat split; auto.
    intros j o Hj Ho. cbn [isel_map sel_map]. f_equal. auto.
  - assert (Hn : existsb is_adv is = false) by (apply count_if_0; lia). destruct (basic_sel is Hn) as [B1 B2].
    exists (length l). cbn [adv_len basic_shape sel_shape]. rewrite adv_len_none by auto. cbn [bind Nat.eqb]. rewrite !insert_at_0, B1.
    repeat split; auto; [lia|]. intros j o Hj Ho. rewrite insert_at_0. cbn [isel_map sel_map]. rewrite B2.
    destruct (Nat.eqb_spec (length l) 1) as [E|E]; auto. replace j with 0 by lia. auto.
  - destruct (IH H) as (n & E1 & E2 & E3 & E4). exists n. cbn [adv_len basic_shape sel_shape]. rewrite insert_at_S, E2.
    repeat split; auto; [cbn; lia|]. intros j o Hj Ho. destruct o as [|x o]; [discriminate|]. rewrite insert_at_S. cbn [isel_map sel_map]. f_equal. apply E4; auto.
  - destruct (IH H) as (n & E1 & E2 & E3 & E4). exists n. cbn [adv_len basic_shape sel_shape]. rewrite insert_at_S, E2.
    repeat split; auto; [cbn; lia|]. intros j o Hj Ho. destruct o as [|x o]; [discriminate|]. rewrite insert_at_S. cbn [isel_map sel_map]. apply E4; auto.
Qed.
Lemma adv_dim_kk ks is : Forall2 kk ks is -> existsb is_list ks = false -> adv_dim is = seq_dim ks.
Proof.
  induction 1 as [|k i ks is [K1 K2] HF IH]; auto. cbn [existsb]. intros H. apply orb_false_iff in H as [H1 H2]. cbn [adv_dim seq_dim]. rewrite K1, K2.
  replace (is_seql k) with (is_seq k) by (destruct k; auto; discriminate). rewrite IH by auto. auto.
Qed.
Lemma np_index_moved {W} (a : nd W) keys ks s : np_expand keys (length (nshape a)) = Ok ks -> sel_keys ks (nshape a) = Some s -> existsb is_list ks = false ->
  count_if is_seq ks = 1 -> one_block ks = false ->
  exists r, np_index a keys = Ok r /\ nd_eq r (to_front (seq_dim ks) (nd_sel a s)).
Proof.
  intros He Hs Hl Hc Hb. unfold np_index. rewrite He. cbn [bind]. destruct (np_isels_sel _ _ _ Hs) as (is & E & M & K). rewrite E. cbn [bind].
  destruct (is_seql_nolist ks Hl) as [Q1 Q2]. rewrite <- Q1, (count_kk _ _ K) in Hc. rewrite <- Q2, (one_block_contig _ _ K) in Hb. subst s.
  rewrite <- (adv_dim_kk _ _ K Hl).
  destruct (existsb is_adv is) eqn:Ea; [|apply count_if_0 in Ea; lia].
  destruct (adv_any is Hc) as (n & E1 & E2 & E3 & E4). rewrite E1. cbn [bind]. rewrite Hb. cbv zeta. rewrite insert_at_0.
  eexists; split; [reflexivity|]. unfold to_front. split; cbn [nshape nget nd_sel].
  - rewrite E2, nth_insert_at, remove_insert by auto. auto.
  - intros o Ho. apply inb_cons_inv in Ho as (j & o' & -> & Hj & Ho). rewrite remove_at_0. cbn [nth hd tl]. rewrite E4; auto. eapply inb_length; eauto.
Qed.

Lemma foldM_err {A S} (f : S -> A -> res S) l x r s s' e : foldM f s l = Ok s' -> f s' x = Err e -> foldM f s (l ++ x :: r) = Err e.
Proof. intros H1 H2. rewrite foldM_app, H1. cbn [bind foldM]. rewrite H2. auto. Qed.
Lemma first_empty ks : In (KTuple []) ks -> exists pre post, ks = pre ++ KTuple [] :: post /\ forall l, In (KTuple l) pre -> l <> [].
Proof.
  induction ks as [|k ks IH]; [intros []|]. intros H.
  assert (D : {k = KTuple []} + {k <> KTuple []}) by (destruct k as [i|sl|[|z l]|l|l|l| | |]; auto; right; discriminate).
  destruct D as [->|D]; [exists [], ks; split; auto; intros l []|]. destruct H as [H|H]; [congruence|].
  destruct (IH H) as (pre & post & -> & Hp). exists (k :: pre), post. split; auto. intros l [->|Hl]; auto. intros ->. auto.
Qed.
Lemma no_tuples i ks : (forall l, ~ In (KTuple l) ks) -> tup_from i ks = [].
Proof.
  intros H. assert (HL : length (tup_from i ks) = 0); [|destruct (tup_from i ks); auto; discriminate].
  rewrite tup_from_length. apply count_if_0. apply existsb_false_Forall, Forall_forall. intros [] Hk; auto. destruct (H _ Hk).
Qed.
Lemma tup_from_app i k1 k2 : tup_from i (k1 ++ k2) = tup_from i k1 ++ tup_from (i + length k1) k2.
Proof.
  revert i. induction k1 as [|k k1 IH]; intros i; [cbn; rewrite Nat.add_0_r; auto|].
  cbn [app]. unfold tup_from. cbn [length seq combine flat_map]. fold (tup_from (S i) (k1 ++ k2)). fold (tup_from (S i) k1). rewrite IH, <- app_assoc.
  replace (i + S (length k1)) with (S i + length k1) by lia. auto.
Qed.
Lemma cut_cut ks : cut_keys (cut_keys ks) = cut_keys ks.
Proof. unfold cut_keys. rewrite map_map. apply map_ext. intros []; auto. Qed.
Lemma cut_no_tuples ks l : ~ In (KTuple l) (cut_keys ks).
Proof. unfold cut_keys. intros H. apply in_map_iff in H as ([] & E & _); discriminate. Qed.
Lemma cut_app k1 k2 : cut_keys (k1 ++ k2) = cut_keys k1 ++ cut_keys k2.
Proof. apply map_app. Qed.

Lemma mixed_sel pre q sh s s0 : nonew (pre ++ KTuple [] :: q) -> sel_keys (pre ++ KTuple [] :: q) sh = Some s ->
  sel_keys (cut_keys (pre ++ KTuple [] :: q)) sh = Some s0 -> exists s', sel_keys (pre ++ KFull :: cut_keys q) sh = Some s'.
Proof.
  revert sh s s0. induction pre as [|k pre IH]; intros sh s s0 HN Hk E0; [eexists; exact E0|].
  apply nonew_cons in HN as [N1 N2]. cbn [app] in *. destruct sh as [|n sh]; [destruct k; discriminate|].
  apply sel_keys_inv in Hk as (d & r & -> & E1 & E2); auto. cbn [cut_keys map] in E0. fold (cut_keys (pre ++ KTuple [] :: q)) in E0.
  apply sel_keys_inv in E0 as (d0 & r0 & -> & E3 & E4); [|destruct k; auto].
  destruct (IH sh r r0 N2 E2 E4) as (s' & Es). exists (d :: s'). rewrite sel_keys_cons_eq by auto. rewrite E1, Es. auto.
Qed.

Lemma seq_dim_full ks r : 1 <= count_if is_seq ks -> seq_dim (ks ++ r) = seq_dim ks.
Proof.
  induction ks as [|k ks IH]; [cbn; lia|]. rewrite count_if_cons. intros Hc. cbn [app seq_dim]. destruct (is_seq k); auto. rewrite IH by lia. auto.
Qed.

Section C04.
Context {V : Type} (O : numops V).
Notation cell := (option V).
Variable maxc : nat.
Variable garbage : list nat -> cell.
Variable fuel : nat.

Lemma first_cut (a : nd cell) ks s s0 : let m := length (nshape a) - length ks in
  Forall stored_key ks -> oselect ks (nshape a) = Some s -> existsb is_mask ks = false ->
  sel_keys (cut_keys (ks ++ repeat KFull m)) (nshape a) = Some s0 ->
  exists r0, (if count_if is_tup ks =? length ks then np_index a [KEll] else np_index a (cut_keys ks)) = Ok r0 /\ nd_eq r0 (nd_sel a s0).
Proof.
  intros m HS Hs Hm E0. destruct (stored_valid _ _ _ HS Hs) as (HL & Hk & HN). fold m in Hk, HN. rewrite cut_app in E0.
  assert (Ecx : cut_keys (repeat KFull m) = repeat KFull m) by (clear; induction m; cbn; auto; f_equal; auto). rewrite Ecx in E0.
  assert (HSc : Forall stored_key (cut_keys ks)).
  { unfold cut_keys. apply Forall_map. eapply Forall_impl; [|apply HS]. intros []; cbn; auto. }
  assert (HLc : length (cut_keys ks) = length ks) by (unfold cut_keys; apply map_length).
  destruct (Nat.eqb_spec (count_if is_tup ks) (length ks)) as [Ec|Nc].
  - assert (Hcf : cut_keys ks ++ repeat KFull m = repeat KFull (length (nshape a))).
    { replace (length (nshape a)) with (length ks + m) by lia. rewrite repeat_app. f_equal.
      clear -Ec. induction ks as [|k ks IH]; auto. rewrite count_if_cons in Ec. simpl in Ec. pose proof (count_if_le is_tup ks).
      destruct (is_tup k) eqn:Ek; [|lia]. cbn [cut_keys map length repeat]. fold (cut_keys ks). rewrite IH by lia.
      destruct k; try discriminate. auto. }
    rewrite Hcf, sel_keys_repeat_full in E0. injection E0 as <-.
    destruct (np_index_sel a [KEll] (repeat KFull (length (nshape a))) (full_sels (nshape a))) as (r & R1 & R2); eauto.
    + unfold np_expand. simpl. rewrite Nat.sub_0_r, app_nil_r. auto.
    + apply sel_keys_repeat_full.
    + left. apply count_if_0. clear. induction (length (nshape a)); auto.
  - apply np_index_stored; auto.
    + unfold oselect. rewrite stored_expand by (auto; lia). rewrite HLc. fold m. auto.
    + left. apply count_if_0, existsb_false_Forall. apply existsb_false_Forall in Hm. unfold cut_keys. apply Forall_map. rewrite Forall_forall in *.
      intros k Hx. specialize (Hm k Hx). specialize (HS k Hx). destruct k; cbn in *; auto; try contradiction; congruence.
Qed.
Lemma takes_stop (a : nd cell) ks s : Forall stored_key ks -> oselect ks (nshape a) = Some s -> 2 <= count_if is_tup ks -> In (KTuple []) ks ->
  existsb is_mask ks = false -> apply_numpy a ks = Err TypeError.
Proof.
  intros HS Hs H2 Hin Hm. destruct (stored_valid _ _ _ HS Hs) as (HL & Hk & HN). destruct (first_empty ks Hin) as (pre & post & Ek & Hpre).
  set (m := length (nshape a) - length ks) in *.
  destruct (cut_keys_sel _ _ _ HN Hk) as (s0 & E0 & _). destruct (first_cut a ks s s0 HS Hs Hm E0) as (r0 & R1 & R2).
  unfold apply_numpy. cbv zeta. change (tuple_keys ks) with (tup_from 0 ks). rewrite tup_from_length.
  destruct (Nat.ltb_spec 1 (count_if is_tup ks)); [|lia]. rewrite R1. cbn [bind].
  (* the keys up to the empty tuple, the others cut *)
  set (ks' := pre ++ KFull :: cut_keys (post ++ repeat KFull m)).
  assert (EC : cut_keys ks' = cut_keys (ks ++ repeat KFull m)).
  { unfold ks'. rewrite Ek, <- app_assoc, !(cut_app pre). f_equal. cbn [cut_keys map is_tuple app]. f_equal. apply cut_cut. }
  assert (HN' : nonew ks').
  { unfold nonew, ks' in *. rewrite Ek, <- app_assoc in HN. rewrite existsb_app in *. apply orb_false_iff in HN as [N1 N2]. rewrite N1. cbn [existsb app] in *.
    apply orb_false_iff in N2 as [_ N2]. cbn [is_new orb]. apply existsb_false_Forall. apply existsb_false_Forall in N2. unfold cut_keys. apply Forall_map.
    eapply Forall_impl; [|apply N2]. intros []; auto. }
  assert (Hs' : exists s', sel_keys ks' (nshape a) = Some s').
  { unfold ks'. rewrite Ek, <- app_assoc in Hk, E0, HN. exact (mixed_sel _ _ _ _ _ HN Hk E0). }
  destruct Hs' as (s' & Es'). rewrite <- EC in E0.
  destruct (takes_ok a ks' [] [] (nshape a) [] s' s0 r0) as (r & T1 & T2); auto.
  { reflexivity. }
  { intros l Hl. unfold ks' in Hl. apply in_app_iff in Hl as [Hl|[Hl|Hl]]; [apply Hpre; auto|discriminate|destruct (cut_no_tuples _ _ Hl)]. }
  cbn [length app] in T1. unfold ks' in T1 at 2. rewrite tup_from_app in T1.
  assert (Hz : tup_from (0 + length pre) (KFull :: cut_keys (post ++ repeat KFull m)) = []).
  { apply no_tuples. intros l [Hl|Hl]; [discriminate|destruct (cut_no_tuples _ _ Hl)]. }
  rewrite Hz, app_nil_r in T1. replace (tup_from 0 ks) with (tup_from 0 pre ++ (length pre, @nil Z) :: tup_from (S (length pre)) post)
    by (rewrite Ek, tup_from_app; reflexivity).
  apply (foldM_err _ _ _ _ _ r); [|reflexivity]. rewrite <- T1. apply foldM_ext. intros x it Hit. apply tup_from_In in Hit as (_ & Hi & _).
  f_equal. f_equal. f_equal. rewrite EC, cut_app. rewrite firstn_app. replace (S (fst it) - length (cut_keys ks)) with 0; [rewrite firstn_O, app_nil_r; auto|].
  unfold cut_keys. rewrite map_length, Ek, app_length. cbn [length]. lia.
Qed.

(** C04, every case without boolean masks.  With [x] the orthogonal selection:
    - two or more tuples, one of them empty: TypeError;
    - one tuple that an integer key is separated from by a slice: [x] with the
      tuple's dimension moved to the front;
    - otherwise [x]. *)
Definition is_empty_tuple (k : key) : bool := match k with KTuple [] => true | _ => false end.
Definition separated (ks : list key) : bool := (count_if is_tup ks =? 1) && negb (one_block ks).
Theorem C04_outcome m c ks : Forall stored_key ks -> valid_keys ks (c_shape c) -> existsb is_mask ks = false ->
  (m = true \/ shape (AAdapt false c ks) <> [] \/ forall i, c_cell c i <> None) ->
  let x := nd_map (fill_cell m (src_fill O c)) (oindex (source c) ks) in
  if (2 <=? count_if is_tup ks) && existsb is_empty_tuple ks
  then realise O maxc garbage (S fuel) m (AAdapt false c ks) = Err TypeError
  else exists d, realise O maxc garbage (S fuel) m (AAdapt false c ks) = Ok d
         /\ nd_eq d (if separated ks then to_front (seq_dim ks) x else x).
Proof.
  intros HS HV Hm H0 x. change (realise O maxc garbage (S fuel) m (AAdapt false c ks)) with (realise_adapter O m false c ks).
  pose proof HV as HV'. unfold valid_keys in HV'. destruct (oselect ks (c_shape c)) as [s|] eqn:Es; [|congruence].
  assert (Hseq : count_if is_seq ks = count_if is_tup ks).
  { apply count_if_ext. intros k Hk. apply existsb_false_Forall in Hm. rewrite Forall_forall in *. specialize (Hm k Hk). specialize (HS k Hk).
    destruct k; auto; cbn in *; try contradiction; congruence. }
  destruct (Nat.leb_spec 2 (count_if is_tup ks)) as [H2|H2]; cbn [andb].
  - destruct (existsb is_empty_tuple ks) eqn:Ee.
    + apply existsb_exists in Ee as (k & Hk & Ek). assert (k = KTuple []) as -> by (destruct k as [ | |[|]| | | | | | ]; auto; discriminate).
      unfold realise_adapter. rewrite (takes_stop (mkND (c_shape c) (c_cell c)) ks s); auto.
    + unfold separated. destruct (Nat.eqb_spec (count_if is_tup ks) 1); [lia|]. cbn [andb].
      apply (adapter_real O m false c ks HS HV); auto. right. unfold numpy_ok. destruct (Nat.leb_spec 2 (count_if is_tup ks)); [|lia]. split.
      * intros l Hl ->. assert (Hx : existsb is_empty_tuple ks = true); [|congruence].
        apply existsb_exists. exists (KTuple []). auto.
      * left. apply count_if_0, existsb_false_Forall, Forall_map, Forall_forall. intros k Hk. apply existsb_false_Forall in Hm. rewrite Forall_forall in *.
        specialize (Hm k Hk). specialize (HS k Hk). destruct k; cbn in *; auto; try contradiction; congruence.
  - unfold separated. destruct (Nat.eqb_spec (count_if is_tup ks) 1) as [H1|H1]; cbn [andb].
    + destruct (one_block ks) eqn:Eb; cbn [negb].
      * apply (adapter_real O m false c ks HS HV); auto. right. unfold numpy_ok. destruct (Nat.leb_spec 2 (count_if is_tup ks)); [lia|]. right. rewrite Hseq. auto.
      * destruct (stored_valid _ _ _ HS Es) as (HL & Hk & HN). set (q := length (c_shape c) - length ks) in *.
        destruct (np_index_moved (mkND (c_shape c) (c_cell c)) ks (ks ++ repeat KFull q) s) as (r & R1 & R2).
        { cbn [nshape]. apply stored_expand; auto. }
        { auto. }
        { rewrite existsb_app, (stored_nolist _ HS). apply nolist_repeat. }
        { rewrite count_if_app, Hseq, H1. replace (count_if is_seq (repeat KFull q)) with 0; auto. clear. induction q; auto. }
        { rewrite one_block_full. auto. }
        assert (EA : apply_numpy (mkND (c_shape c) (c_cell c)) ks = Ok r).
        { unfold apply_numpy. cbv zeta. change (tuple_keys ks) with (tup_from 0 ks). rewrite tup_from_length, H1. exact R1. }
        unfold realise_adapter. rewrite EA. cbn [bind]. eexists; split; [reflexivity|].
        assert (ED : seq_dim (ks ++ repeat KFull q) = seq_dim ks).
        { apply seq_dim_full. rewrite Hseq, H1. auto. }
        rewrite ED in R2. destruct R2 as [R2 R3]. unfold x, oindex. cbn [source nshape]. rewrite Es. cbn [nshape] in *.
        destruct r as [rs rg]. cbn [nshape nget] in *. subst rs. split; [reflexivity|]. cbn [nd_map nshape nget]. intros o Ho. rewrite (R3 o Ho).
        unfold to_front, source. cbn [nshape nget nd_map nd_sel]. unfold adapter_cell, fill_cell, src_fill. destruct (c_cell c _); auto.
    + apply (adapter_real O m false c ks HS HV); auto. right. unfold numpy_ok. destruct (Nat.leb_spec 2 (count_if is_tup ks)); [lia|]. left. lia.
Qed.

(** So the selection is orthogonal whenever no tuple of several is empty, and a tuple
    separated from an integer selects from the first dimension of the result. *)
Lemma to_front_0 {A} (x : nd A) : nshape x <> [] -> nd_eq (to_front 0 x) x.
Proof.
  intros H. unfold to_front. destruct (nshape x) as [|n sh] eqn:E; [congruence|]. split; cbn [nshape nget nth]; rewrite remove_at_0; [auto|].
  intros o Ho. apply inb_cons_inv in Ho as (j & o' & -> & _). rewrite insert_at_0. auto.
Qed.
Theorem C04_orthogonal_partial m c ks : Forall stored_key ks -> valid_keys ks (c_shape c) -> existsb is_mask ks = false ->
  (m = true \/ shape (AAdapt false c ks) <> [] \/ forall i, c_cell c i <> None) ->
  (2 <= count_if is_tup ks -> ~ In (KTuple []) ks) -> (separated ks = true -> seq_dim ks = 0) ->
  exists d, realise O maxc garbage (S fuel) m (AAdapt false c ks) = Ok d /\ nd_eq d (nd_map (fill_cell m (src_fill O c)) (oindex (source c) ks)).
Proof.
  intros HS HV Hm H0 He Hp. pose proof (C04_outcome m c ks HS HV Hm H0) as H. cbv zeta in H.
  assert (E : (2 <=? count_if is_tup ks) && existsb is_empty_tuple ks = false).
  { destruct (Nat.leb_spec 2 (count_if is_tup ks)) as [H2|H2]; auto. cbn [andb]. destruct (existsb is_empty_tuple ks) eqn:Ee; auto.
    apply existsb_exists in Ee as (k & Hk & Ek). destruct k as [ | |[|]| | | | | | ]; try discriminate. destruct (He H2 Hk). }
  rewrite E in H. destruct H as (d & E1 & E2). exists d. split; auto. destruct (separated ks) eqn:Es; auto. rewrite Hp in E2 by auto.
  eapply nd_eq_trans; [exact E2|]. apply to_front_0. cbn [nd_map nshape]. intros Hn.
  unfold separated in Es. apply andb_prop in Es as [Es _]. apply Nat.eqb_eq in Es. unfold oindex in Hn. unfold valid_keys in HV. cbn [source nshape] in Hn.
  destruct (oselect ks (c_shape c)) as [s|] eqn:Eo; [|congruence]. destruct (stored_valid _ _ _ HS Eo) as (_ & Hk & HN). cbn [nd_sel nshape] in Hn.
  assert (Ht : 1 <= count_if is_tup ks) by lia. clear - Ht Hk HN Hn. set (q := length (c_shape c) - length ks) in *. clearbody q.
  revert Ht Hk HN Hn. generalize (c_shape c) as sh. revert s. induction ks as [|k ks IH]; [cbn; lia|]. intros s sh. rewrite count_if_cons. cbn [app]. intros Ht Hk HN Hn.
  apply nonew_cons in HN as [N1 N2]. destruct sh as [|n sh]; [destruct k; discriminate|]. apply sel_keys_inv in Hk as (e & r & -> & E1 & E2); auto.
  destruct k; cbn [is_tup] in Ht; cbn [sel_shape] in Hn; destruct e; try discriminate.
  all: try (apply (IH r sh); auto; lia).
  all: cbn [sel_key] in E1; repeat match type of E1 with context [match ?t with _ => _ end] => destruct t end; discriminate.
Qed.
End C04.

(** [x[0, :, (0, 1)]] (moved), [x[(1, 0), :, 0]] (separated too, but the moved
    dimension is the first already), [x[(), (0, 1)]] and [x[::2, (1, 1), 0]]. *)
Example C04_outcome_case :
  let c := numbered [2;3;4] in
  let keys := [[KInt 0; KFull; KTuple [0;1]%Z]; [KTuple [1;0]%Z; KFull; KInt 0]; [KTuple []; KTuple [0;1]%Z; KInt 0]; [S3 0 2 2; KTuple [1;1]%Z; KInt 0]] in
  Forall (fun ks => Forall stored_key ks /\ valid_keys ks (c_shape c) /\ existsb is_mask ks = false) keys
  /\ map separated keys = [true; true; false; false] /\ map seq_dim keys = [1; 0; 0; 1]
  /\ map (fun ks => flat (realise z_ops 100 blank 3 false (AAdapt false c ks))) keys
     = [Ok ([2;3], [Some 0; Some 4; Some 8; Some 1; Some 5; Some 9]%Z); Ok ([2;3], [Some 12; Some 16; Some 20; Some 0; Some 4; Some 8]%Z);
        Err TypeError; Ok ([1;2], [Some 4; Some 4]%Z)].
Proof.
  cbv zeta. split; [|repeat split; vm_compute; reflexivity].
  repeat (constructor; [repeat split; repeat constructor; valid|]). constructor.
Qed.
Print Assumptions C04_outcome.
Print Assumptions C04_orthogonal_partial.

(** ** C03: sequences of key tuples on a NumpyArrayAdapter *)
Definition as_stored (k : key) : key := match k with KTuple l | KArr l | KList l => KTuple l | k => k end.
Lemma cleanup_stored new : forall sh ks', length new = length sh -> existsb is_mask new = false ->
  mapM (fun kn => cleanup_key (fst kn) (snd kn)) (combine new sh) = Ok ks' -> ks' = map as_stored new.
Proof.
  induction new as [|k new IH]; intros sh ks' HL HM H.
  - cbn in H. injection H as <-. auto.
  - destruct sh as [|n sh]; [discriminate|]. cbn [combine mapM fst snd] in H. cbn [existsb] in HM. apply orb_false_iff in HM as [M1 M2].
    destruct (cleanup_key k n) as [k'|] eqn:Ek; [|discriminate]. cbn [bind] in H.
    destruct (mapM _ (combine new sh)) as [r|] eqn:Er; [|discriminate]. cbn [bind] in H. injection H as <-. cbn [map]. f_equal.
    + destruct k; cbn in Ek; try discriminate; repeat match type of Ek with (if ?c then _ else _) = _ => destruct c; try discriminate end; injection Ek as <-; reflexivity.
    + apply (IH sh); auto.
Qed.
Lemma settled_block ks : Forall settled_key ks -> one_block ks = true.
Proof.
  intros Hl. unfold one_block.
  assert (E1 : drop_while (fun k => negb (is_point k)) ks = ks) by (destruct ks as [|x l]; auto; inversion Hl; subst; destruct x; try contradiction; auto).
  rewrite E1. assert (E2 : drop_while is_point ks = []) by (clear -Hl; induction Hl as [|x l Hx Hl IH]; auto; destruct x; try contradiction; auto).
  rewrite E2. auto.
Qed.
Lemma settled_shape ks : forall sh s, Forall settled_key ks -> sel_keys ks sh = Some s ->
  count_if is_tup ks = length (sel_shape s) /\ existsb is_empty_tuple ks = existsb (Nat.eqb 0) (sel_shape s).
Proof.
  induction ks as [|k ks IH]; intros sh s HS H.
  - destruct sh; [|discriminate]. injection H as <-. auto.
  - inversion HS as [|? ? S1 S2]; subst. apply sel_keys_cons in H as [[-> _]|(_ & _ & n & sh' & d & r & -> & -> & Hd & Hr)]; [contradiction|].
    destruct (IH _ _ S2 Hr) as [I1 I2]. rewrite count_if_cons. cbn [existsb]. rewrite I1, I2. destruct k; try contradiction; cbn [sel_key] in Hd.
    + destruct (norm_int i n); [|discriminate]. injection Hd as <-. auto.
    + destruct (norm_ints l n) as [q|] eqn:E; [|discriminate]. injection Hd as <-. cbn [sel_shape length existsb is_tup]. split; [lia|].
      apply norm_ints_length in E. f_equal. destruct l, q; try discriminate; reflexivity.
Qed.
Lemma to_front_eq {A} p (x y : nd A) : nd_eq x y -> nd_eq (to_front p x) (to_front p y).
Proof.
  intros [H1 H2]. unfold to_front. split; cbn [nshape nget]; [rewrite H1; auto|]. intros o Ho. apply H2.
  apply inb_cons_inv in Ho as (j & o' & -> & Hj & Ho). cbn [hd tl].
  destruct (Nat.lt_ge_cases p (length (nshape x))) as [Hp|Hp]; [|rewrite nth_overflow in Hj by exact Hp; lia].
  rewrite <- (insert_remove p 0 (nshape x) Hp). apply insert_at_inb; [rewrite remove_at_length by exact Hp; lia|exact Ho|exact Hj].
Qed.

Section C03.
Context {V : Type} (O : numops V).
Variable maxc : nat.
Variable garbage : list nat -> option V.
Variable fuel : nat.
Notation source := (@source V).

Lemma stored_after o c kss : Forall posn_keys kss -> valid_seq (source c) kss ->
  exists ks', getitems (AAdapt o c []) kss = Ok (AAdapt o c ks') /\ existsb is_mask ks' = false /\ wf (AAdapt o c ks')
    /\ (forall m, nd_eq (nd_map (fill_cell m (src_fill O c)) (oindex (source c) ks')) (nd_map (fill_cell m (src_fill O c)) (oindexes (source c) kss)))
    /\ shape (AAdapt o c ks') = nshape (oindexes (source c) kss)
    /\ (1 <= length kss -> length ks' = length (c_shape c)) /\ (2 <= length kss -> Forall settled_key ks').
Proof.
  intros HP HV.
  assert (Hw : wf (@AAdapt V o c [])).
  { split; auto. unfold valid_keys, oselect, np_expand. cbn [count_if filter length n_real]. cbn. rewrite Nat.sub_0_r, sel_keys_full. discriminate. }
  assert (Hd : forall m, nd_eq (den O m (AAdapt o c [])) (nd_map (fill_cell m (src_fill O c)) (source c))).
  { intros m'. cbn [den]. apply nd_map_eq. unfold oindex, oselect, np_expand. cbn. rewrite Nat.sub_0_r, sel_keys_full. apply nd_sel_full. }
  assert (HV' : valid_seq (den O false (AAdapt o c [])) kss).
  { eapply valid_seq_shape; [|exact HV]. symmetry. exact (proj1 (Hd false)). }
  destruct (adapter_seq O o c kss [] Hw (Forall_nil _) HP HV') as (ks' & E & M & W & D & L & S).
  assert (HD : forall m, nd_eq (den O m (AAdapt o c ks')) (nd_map (fill_cell m (src_fill O c)) (oindexes (source c) kss))).
  { intros m'. eapply nd_eq_trans; [apply D|].
    assert (HVm : valid_seq (den O m' (AAdapt o c [])) kss).
    { eapply valid_seq_shape; [|exact HV]. symmetry. exact (proj1 (Hd m')). }
    eapply nd_eq_trans; [apply (oindexes_eq kss _ _ (Hd m') HVm)|]. apply oindexes_map. auto. }
  exists ks'. split; [exact E|]. split.
  { apply existsb_false_Forall. eapply Forall_impl; [|exact M]. intros k Hk. destruct k; auto; contradiction. }
  split; [exact W|]. split; [exact HD|]. split; [|split; [exact L|intros H; apply S; [lia|auto]]].
  rewrite <- (den_shape O false) by exact W. exact (proj1 (HD false)).
Qed.

(** Indexed twice or more often, with any keys but boolean masks: the selections
    one after the other, except that a result with two or more dimensions of
    which one has length 0 cannot be realised (TypeError). *)
Theorem C03_again m c kss : 2 <= length kss ->
  Forall (fun ks => existsb (fun k => is_mask k || is_new k) ks = false) kss -> valid_seq (source c) kss ->
  (m = true \/ nshape (oindexes (source c) kss) <> [] \/ forall i, c_cell c i <> None) ->
  let x := nd_map (fill_cell m (src_fill O c)) (oindexes (source c) kss) in
  exists b, getitems (AAdapt false c []) kss = Ok b /\
    if (2 <=? length (nshape x)) && existsb (Nat.eqb 0) (nshape x)
    then realise O maxc garbage (S fuel) m b = Err TypeError
    else exists d, realise O maxc garbage (S fuel) m b = Ok d /\ nd_eq d x.
Proof.
  intros HL HP HV H0 x. destruct (stored_after false c kss HP HV) as (ks & E & M & W & HD & Hs & L & S). specialize (S HL). specialize (L ltac:(lia)).
  exists (AAdapt false c ks). split; [exact E|]. destruct W as [W1 W2].
  assert (H0' : m = true \/ shape (AAdapt false c ks) <> [] \/ forall i, c_cell c i <> None) by (rewrite Hs; exact H0).
  pose proof (C04_outcome O maxc garbage fuel m c ks W1 W2 M H0') as HO. cbv zeta in HO.
  pose proof W2 as W2'. unfold valid_keys in W2'. destruct (oselect ks (c_shape c)) as [s|] eqn:Es; [|congruence].
  destruct (stored_valid _ _ _ W1 Es) as (_ & Hk & _). rewrite L, Nat.sub_diag in Hk. cbn [repeat] in Hk. rewrite app_nil_r in Hk.
  destruct (settled_shape ks _ _ S Hk) as [C1 C2].
  assert (Hx : nshape x = sel_shape s).
  { unfold x. rewrite <- (proj1 (HD m)). cbn [nd_map nshape]. unfold oindex. cbn [source nshape]. rewrite Es. reflexivity. }
  rewrite Hx, <- C1, <- C2. destruct ((2 <=? count_if is_tup ks) && existsb is_empty_tuple ks); [exact HO|].
  destruct HO as (d & E1 & E2). exists d. split; [exact E1|]. unfold separated in E2. rewrite (settled_block ks S), andb_false_r in E2.
  eapply nd_eq_trans; [exact E2|apply HD].
Qed.
(** Indexed once, with the full keys [fk] of the key tuple (Ellipsis and missing
    dimensions filled in): as C04 says. *)
Theorem C03_once m c keys fk : np_expand keys (length (c_shape c)) = Ok fk ->
  existsb (fun k => is_mask k || is_new k) keys = false -> valid_keys keys (c_shape c) ->
  (m = true \/ nshape (oindex (source c) keys) <> [] \/ forall i, c_cell c i <> None) ->
  let x := nd_map (fill_cell m (src_fill O c)) (oindex (source c) keys) in
  let ks := map as_stored fk in
  exists b, getitem (AAdapt false c []) keys = Ok b /\
    if (2 <=? count_if is_tup ks) && existsb is_empty_tuple ks
    then realise O maxc garbage (S fuel) m b = Err TypeError
    else exists d, realise O maxc garbage (S fuel) m b = Ok d /\ nd_eq d (if separated ks then to_front (seq_dim ks) x else x).
Proof.
  intros Hf HP HV H0 x ks.
  assert (HVs : valid_seq (source c) [keys]) by (cbn; split; auto; exact HV).
  destruct (stored_after false c [keys] (Forall_cons _ HP (Forall_nil _)) HVs) as (ks' & E & M & W & HD & Hs & L & _). specialize (L ltac:(cbn; lia)).
  cbn [getitems] in E. destruct (getitem (AAdapt false c []) keys) as [b|] eqn:Eb; [|discriminate]. cbn [bind] in E. injection E as ->.
  exists (AAdapt false c ks'). split; [reflexivity|].
  assert (Ek : ks' = ks).
  { pose proof Eb as Eb'. cbn [getitem] in Eb'. unfold base_getitem in Eb'. unfold valid_keys in HV.
    destruct (oselect keys (c_shape c)) as [s|] eqn:Es; [|congruence].
    assert (Hsh : shape (AAdapt false c []) = c_shape c) by (apply (shape_fresh O true false c)).
    assert (Es' : oselect keys (shape (AAdapt false c [])) = Some s) by (rewrite Hsh; exact Es).
    destruct (oselect_expand _ _ _ Es') as (fk' & E1 & E2 & E3 & E4). unfold ndim in Eb'. rewrite E2 in Eb'. cbn [bind] in Eb'.
    rewrite Hsh in E1. assert (fk' = fk) by congruence. subst fk'.
    destruct (posn_expand _ _ _ E1 HP) as [M1 M2]. rewrite M2 in Eb'.
    destruct (remap_keys (c_shape c) [] fk) as [k2|] eqn:Er; [|discriminate]. cbn [bind] in Eb'.
    unfold mk_adapter in Eb'. destruct (length (c_shape c) <? length k2); [discriminate|].
    destruct (mapM _ (combine k2 _)); [|discriminate]. cbn [bind] in Eb'. injection Eb' as ->.
    cbn [remap_keys] in Er. apply (cleanup_stored fk (c_shape c)); [|  |exact Er].
    - pose proof (mapM_length _ _ _ Er) as HL. rewrite combine_length in HL. destruct E3 as [_ E3]. rewrite Hsh in E3. rewrite <- E3. unfold n_real. clear -M2 E1.
      pose proof (np_expand_full _ _ _ E1) as [F _]. clear E1.
      unfold nonew in M2. induction fk as [|k fk IH]; auto. simpl in M2, F. apply orb_false_iff in M2 as [A B]. apply orb_false_iff in F as [C D].
      rewrite count_if_cons, A, C. simpl. f_equal. apply IH; auto.
    - apply existsb_false_Forall. eapply Forall_impl; [|exact M1]. intros k Hk. destruct k; auto; contradiction. }
  subst ks'. destruct W as [W1 W2].
  assert (H0' : m = true \/ shape (AAdapt false c ks) <> [] \/ forall i, c_cell c i <> None) by (rewrite Hs; exact H0).
  pose proof (C04_outcome O maxc garbage fuel m c ks W1 W2 M H0') as HO. cbv zeta in HO.
  destruct ((2 <=? count_if is_tup ks) && existsb is_empty_tuple ks); [exact HO|].
  destruct HO as (d & E1 & E2). exists d. split; [exact E1|]. eapply nd_eq_trans; [exact E2|].
  pose proof (HD m) as HDm. unfold oindexes in HDm. cbn [fold_left] in HDm. destruct (separated ks); [|exact HDm]. apply to_front_eq. exact HDm.
Qed.
End C03.
Print Assumptions C03_again.
Print Assumptions C03_once.
(** [x[0:2][()]] and [x[0, :, (0, 1)]] for a NumPy array [x]: TypeError instead of
    an empty array, and the transposed array. *)
Theorem C03_sequence_refuted :
  (exists (c : @concrete Z) kss, Forall (fun ks => existsb (fun k => is_mask k || is_new k) ks = false) kss /\ valid_seq (source c) kss
     /\ (b <- getitems (AAdapt false c []) kss ;; realise z_ops 100 blank 3 false b) = Err TypeError)
  /\ (exists (c : @concrete Z) kss, Forall (fun ks => existsb (fun k => is_mask k || is_new k) ks = false) kss /\ valid_seq (source c) kss
     /\ match b <- getitems (AAdapt false c []) kss ;; realise z_ops 100 blank 3 false b with Ok d => nshape d = [2;3] | Err _ => False end
     /\ nshape (oindexes (source c) kss) = [3;2]).
Proof.
  split.
  - exists (numbered [2;3]), [[S3 0 2 1]; [KTuple []]]. split; [repeat constructor|]. split; [repeat split; valid|]. vm_compute. reflexivity.
  - exists (numbered [2;3;4]), [[KInt 0; KFull; KTuple [0;1]%Z]]. split; [repeat constructor|]. split; [repeat split; valid|]. vm_compute. split; reflexivity.
Qed.
Print Assumptions C03_sequence_refuted.
Definition c234 := numbered [2;3;4].
Definition twice : list (list key) := [[KEll; S3 0 4 2]; [KInt (-1); KList [2;0]%Z]].
Example C03_again_hyp : 2 <= length twice /\ Forall (fun ks => existsb (fun k => is_mask k || is_new k) ks = false) twice /\ valid_seq (source c234) twice
  /\ nshape (oindexes (source c234) twice) = [2;2].
Proof. split; [cbn; lia|]. split; [repeat constructor|]. split; [repeat split; valid|reflexivity]. Qed.
Example C03_again_case garbage : exists b d, getitems (AAdapt false c234 []) twice = Ok b /\ realise z_ops 100 garbage 1 false b = Ok d
  /\ nget d [0;1] = Some 22%Z.
Proof.
  destruct C03_again_hyp as (H1 & H2 & H3 & H4).
  destruct (C03_again z_ops 100 garbage 0 false c234 twice H1 H2 H3) as (b & E1 & E2).
  { right. left. rewrite H4. discriminate. }
  cbv zeta in E2. cbn [nd_map nshape] in E2. rewrite H4 in E2. cbn [length existsb Nat.eqb Nat.leb andb orb] in E2. destruct E2 as (d & E2 & [E3 E4]).
  exists b, d. split; [exact E1|]. split; [exact E2|]. rewrite E4; [vm_compute; reflexivity|]. rewrite E3. cbn [nd_map nshape]. rewrite H4. repeat constructor.
Qed.
Example C03_once_case garbage : exists b d, getitem (AAdapt false c234 []) [KInt 0; KFull; KList [1;0]%Z] = Ok b
  /\ realise z_ops 100 garbage 1 false b = Ok d /\ nget d [1;0] = Some 0%Z /\ nget d [1;2] = Some 8%Z.
Proof.
  assert (Hn : nshape (oindex (source c234) [KInt 0; KFull; KList [1;0]%Z]) = [3;2]) by (vm_compute; reflexivity).
  assert (Hf : np_expand [KInt 0; KFull; KList [1;0]%Z] (length (c_shape c234)) = Ok [KInt 0; KFull; KList [1;0]%Z]) by reflexivity.
  destruct (C03_once z_ops 100 garbage 0 false c234 [KInt 0; KFull; KList [1;0]%Z] _ Hf eq_refl) as (b & E1 & E2).
  - valid.
  - right. left. rewrite Hn. discriminate.
  - cbv zeta in E2. change (count_if is_tup (map as_stored [KInt 0; KFull; KList [1;0]%Z])) with 1 in E2.
    change (separated (map as_stored [KInt 0; KFull; KList [1;0]%Z])) with true in E2.
    change (seq_dim (map as_stored [KInt 0; KFull; KList [1;0]%Z])) with 1 in E2.
    cbn [Nat.leb andb] in E2. destruct E2 as (d & E2 & [E3 E4]).
    assert (Hd : nshape d = [2;3]) by (rewrite E3; unfold to_front; cbn [nshape nd_map]; rewrite Hn; reflexivity).
    exists b, d. split; [exact E1|]. split; [exact E2|]. split; (rewrite E4; [vm_compute; reflexivity|rewrite Hd; repeat constructor]).
Qed.
