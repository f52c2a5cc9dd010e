(** What a BroadcastArray does with every valid key tuple (C08), including the
    keys for which it is not what NumPy does. *)
From Verif Require Import Base PySlice Keys NDArray Arrays Spec Supported Lib SelLemmas KeyLemmas NewAxLemmas GetBase GetSimple GetBcast GetTrans GetMosaic GetItem BuiltClaims Sound Samples PropRefuted PropAdapter PropMosaic PropBcast.

(** A stretched dimension ([dict] gives its length), counted from [ax], is given a
    key that is neither an integer nor a slice. *)
Fixpoint odd_key (dict : list (nat * nat)) (ks : list key) (ax : nat) : bool :=
  match ks with
  | [] => false
  | k :: ks => match dict_find ax dict, k with
               | None, _ | Some _, (KInt _ | KSlice _) => false
               | Some _, _ => true
               end || odd_key dict ks (S ax)
  end.
(** The first of the keys other than [slice(None)] is an array or a mask of two or
    more elements. *)
Fixpoint meets_array (ks : list key) : bool :=
  match ks with
  | [] => false
  | k :: ks => if key_full_b k then meets_array ks
               else match k with KArr l => 1 <? length l | KMask l => 1 <? length l | _ => false end
  end.

Lemma all_full_char ks : all_full ks = if meets_array ks then Err ValueError else Ok (forallb key_full_b ks).
Proof.
  induction ks as [|k ks IH]; auto. cbn [all_full meets_array forallb]. destruct k; cbn [key_is_full key_full_b bind andb]; auto.
  - destruct (slice_eqb s full_slice); cbn [bind andb]; auto.
  - destruct (1 <? length l); auto.
  - destruct (1 <? length l); auto.
Qed.
Lemma odd_some dict ks : forall ax, odd_key dict ks ax = false -> bc_some dict ks ax.
Proof.
  induction ks as [|k ks IH]; intros ax H; [exact I|]. cbn [odd_key bc_some] in *. apply orb_false_iff in H as [H1 H2]. split; auto.
  destruct (dict_find ax dict), k; auto; discriminate.
Qed.
Lemma odd_loop dict ks : forall sh s ax removed, nonew ks -> sel_keys ks sh = Some s ->
  (forall i, i < length sh -> match dict_find (ax + i) dict with Some n => nth i sh 0 = n | None => True end) ->
  odd_key dict ks ax = true -> bcast_loop dict ks sh ax removed = Err NotImplementedErr.
Proof.
  induction ks as [|k ks IH]; intros sh s ax removed HN Hs Hd Ho; [discriminate|]. apply nonew_cons in HN as [N1 N2].
  destruct sh as [|n sh]; [destruct k; discriminate|]. apply sel_keys_inv in Hs as (d & r & -> & Ed & Er); auto.
  assert (Hd' : forall i, i < length sh -> match dict_find (S ax + i) dict with Some n => nth i sh 0 = n | None => True end).
  { intros i Hi. specialize (Hd (S i) ltac:(cbn; lia)). rewrite Nat.add_succ_r in Hd. exact Hd. }
  cbn [odd_key bcast_loop hd tl] in *. destruct (dict_find ax dict) as [q|].
  - destruct k; auto; cbn [orb] in Ho; cbn [sel_key] in Ed.
    + unfold norm_int in Ed. destruct ((- Z.of_nat n <=? i) && (i <? Z.of_nat n))%Z; [|discriminate]. rewrite (IH sh r) by auto. auto.
    + destruct (slice_idx s n); [|discriminate]. cbn [bind]. rewrite (IH sh r) by auto. auto.
  - cbn [orb] in Ho. rewrite (IH sh r) by auto. auto.
Qed.

Section Stretch.
Context {V : Type} (O : numops V).
Implicit Types c : @barr V.

Lemma mk_bcast_err c dict lead e : mk_bcast c dict lead = Err e -> e = ValueError.
Proof.
  rewrite mk_shape. destruct (shape_from_dict _ _) eqn:E; cbn [bind]; [|intros H; injection H as <-; apply sfd_error in E; auto].
  destruct (existsb _ _); congruence.
Qed.

(** C08: every valid key tuple without Python lists on the leading dimensions, with
    [lk] the keys of the leading dimensions and [ck] those of the others.
    - anything but an integer or a slice on a stretched dimension:
      NotImplementedError;
    - the first of the source's keys that is not [slice(None)] is an array (or a
      mask) of two or more elements: ValueError;
    - an error of the source;
    - an empty selection of the leading dimensions: ValueError;
    - otherwise the orthogonal selection, wherever the source's own indexing is
      right ([safe]).
    The source's keys are the user's, with 0 for an integer and [slice(None)] for a
    slice on a stretched dimension ([bc_ck]).  [nolead c]: the source does not
    itself end in broadcast leading dimensions (see C09). *)
Theorem C08_index_outcome c dict lead lk ck : let a := ABcast c dict lead in
  wf a -> nolead c -> Forall one_dim lk -> Forall one_dim ck -> length lk = length lead -> length ck = ndim c ->
  existsb is_list lk = false -> valid_keys (lk ++ ck) (shape a) ->
  let src := bc_ck dict ck 0 in safe c src ->
  if odd_key dict ck 0 then getitem a (lk ++ ck) = Err NotImplementedErr
  else if meets_array src then getitem a (lk ++ ck) = Err ValueError
  else match (if forallb key_full_b src then Ok c else getitem c src) with
       | Err e => getitem a (lk ++ ck) = Err e
       | Ok _ => if existsb (fun n => n =? 0) (nshape (oindex (mkND lead (fun _ => tt)) lk)) then getitem a (lk ++ ck) = Err ValueError
                 else exists b, getitem a (lk ++ ck) = Ok b /\ wf b /\ forall m, nd_eq (den O m b) (oindex (den O m a) (lk ++ ck))
       end.
Proof.
  intros a Hw Hnl Hlk Hck HLl HLc Hl HV src Hsafe. pose proof Hw as (Hwc & HND & Hok & Hlead).
  assert (HF : Forall one_dim (lk ++ ck)) by (apply Forall_app; auto). destruct (one_dims _ HF) as [N1 N2]. pose proof (one_dims_real _ HF) as Nr.
  destruct (one_dims _ Hlk) as [L1 L2]. destruct (one_dims _ Hck) as [C1 C2].
  assert (Hsh : exists sh', shape_from_dict (shape c) dict = Ok sh' /\ shape a = lead ++ sh').
  { destruct (shape_from_dict (shape c) dict) as [sh'|] eqn:E; [|discriminate Hok]. exists sh'. split; auto. unfold a. cbn [shape]. rewrite E. auto. }
  destruct Hsh as (sh' & Esh & Ea). pose proof (proj1 (sfd_char dict (shape c) sh' HND) Esh) as (Hfit & HLsh & Hnth).
  assert (Hnd : ndim a = length (lk ++ ck)) by (unfold ndim; rewrite Ea, !app_length, HLsh, HLl, HLc; auto).
  assert (Hex : np_expand (lk ++ ck) (ndim a) = Ok (lk ++ ck)) by (apply np_expand_id; split; auto; congruence).
  unfold valid_keys, oselect in HV. fold (ndim a) in HV. rewrite Hex in HV. destruct (sel_keys (lk ++ ck) (shape a)) as [s|] eqn:Es; [|congruence]. clear HV.
  pose proof Es as Es'. rewrite Ea in Es'. apply sel_keys_app in Es' as (s1 & s2 & -> & Hs1 & Hs2); auto.
  assert (Hlo : oselect lk lead = Some s1).
  { unfold oselect. rewrite np_expand_id; auto. split; auto. rewrite one_dims_real; auto. }
  assert (Elead : nshape (oindex (mkND lead (fun _ => tt)) lk) = sel_shape s1) by (unfold oindex; cbn [nshape]; rewrite Hlo; auto).
  assert (Eg : getitem a (lk ++ ck) =
    (r <- bcast_loop dict ck sh' 0 0 ;; b <- all_full (fst r) ;; sub <- (if b then Ok c else getitem c (fst r)) ;; mk_bcast sub (snd r) (sel_shape s1))).
  { unfold a. cbn [getitem]. fold a. unfold base_getitem. rewrite full_keys_id by (split; auto; congruence). cbn [bind].
    unfold nonew in N1. rewrite N1. rewrite Ea, <- HLl, firstn_app, firstn_all, Nat.sub_diag, skipn_app, skipn_all, Nat.sub_diag. cbn [firstn skipn app].
    rewrite app_nil_r. rewrite (sliced_shape_ok _ _ _ Hlo Hl). cbn [bind]. rewrite HLl, skipn_app, skipn_all, Nat.sub_diag. reflexivity. }
  destruct (odd_key dict ck 0) eqn:Eo.
  { rewrite Eg, (odd_loop dict ck sh' s2); auto. intros i Hi. cbn [plus]. specialize (Hnth i ltac:(lia)). destruct (dict_find i dict); auto. }
  apply odd_some in Eo.
  destruct (bcast_loop_ok dict ck (shape c) sh' s2 0 0) as (dict' & sc & E1 & E2 & E3 & E4 & E5 & E6 & E7); auto.
  { intros i Hi. rewrite HLsh in Hi. specialize (Hnth i Hi). simpl. destruct (dict_find i dict) as [q|] eqn:Eq; auto. split; auto.
    apply dict_find_In in Eq. unfold dict_fits in Hfit. rewrite Forall_forall in Hfit. apply Hfit in Eq. tauto. }
  fold src in E1, E2. rewrite E1 in Eg. cbn [bind fst snd] in Eg. rewrite all_full_char in Eg.
  destruct (meets_array src) eqn:Em; [exact Eg|]. cbn [bind] in Eg.
  destruct (if forallb key_full_b src then Ok c else getitem c src) as [sub|e] eqn:Esub; [|exact Eg]. cbn [bind] in Eg.
  rewrite Elead. destruct (existsb (fun n => n =? 0) (sel_shape s1)) eqn:Ez.
  - rewrite Eg. destruct (mk_bcast sub dict' (sel_shape s1)) as [b|e] eqn:Eb; [|apply mk_bcast_err in Eb; subst; auto].
    exfalso. apply mk_bcast_lead in Eb. apply existsb_exists in Ez as (n & Hn & E0). rewrite Forall_forall in Eb. apply Eb in Hn. apply Nat.eqb_eq in E0. lia.
  - destruct (gen_bcast O KS c dict lead (lk ++ ck) (lk ++ ck) (s1 ++ s2) (forallb key_full_b src)) as (b & B1 & B2); auto.
    + apply sound_all.
    + rewrite drop_new_id by auto. rewrite <- HLl, firstn_app, firstn_all, Nat.sub_diag. cbn [firstn]. rewrite app_nil_r. auto.
    + rewrite drop_new_id by auto. rewrite <- HLl, firstn_app, firstn_all, Nat.sub_diag. cbn [firstn]. rewrite app_nil_r.
      intros s' Hs'. replace s' with s1 by congruence. apply existsb_false_Forall in Ez. eapply Forall_impl; [|apply Ez]. cbv beta. intros n Hn. apply Nat.eqb_neq in Hn. lia.
    + rewrite drop_new_id by auto. rewrite <- HLl, skipn_app, skipn_all, Nat.sub_diag. cbn [skipn app]. auto.
    + rewrite drop_new_id by auto. rewrite <- HLl, skipn_app, skipn_all, Nat.sub_diag. cbn [skipn app]. fold src. rewrite all_full_char, Em. auto.
    + rewrite drop_new_id by auto. rewrite <- HLl, skipn_app, skipn_all, Nat.sub_diag. cbn [skipn app]. fold src. intros Hf. apply all_full_true. rewrite all_full_char, Em, Hf. auto.
    + rewrite drop_new_id by auto. rewrite <- HLl, skipn_app, skipn_all, Nat.sub_diag. cbn [skipn app]. fold src. intros Hf. rewrite Hf in Esub. split; eauto.
    + exists b. split; auto. split; [apply B2|]. intros m. unfold oindex. rewrite den_shape by auto. unfold oselect. fold (ndim a). rewrite Hex, Es. apply B2.
Qed.
End Stretch.
Print Assumptions C08_index_outcome.

(** Shape (2, 3, 4), the first dimension leading, the second stretched: the
    hypotheses hold for five key tuples, one for each outcome and an index array
    that is accepted because an integer comes before it. *)
Definition wide : @barr Z := ABcast (arr [1;4]) [(0, 3)] [2].
Example C08_index_outcome_case :
  let keys := [([KFull], [KTuple [0;1]%Z; KFull]); ([KFull], [S3 0 2 1; KArr [0;1]%Z]); ([S3 1 1 1], [KFull; KInt 2]);
               ([KInt 1], [KInt 2; KArr [3;0]%Z]); ([KTuple [1;0;1]%Z], [S3 0 2 1; KTuple [3]%Z])] in
  wf wide /\ nolead (arr [1;4])
  /\ Forall (fun k => Forall one_dim (fst k) /\ Forall one_dim (snd k) /\ length (fst k) = 1 /\ length (snd k) = 2
       /\ existsb is_list (fst k) = false /\ valid_keys (fst k ++ snd k) (shape wide) /\ safe (arr [1;4]) (bc_ck [(0,3)] (snd k) 0)) keys
  /\ map (fun k => before true wide (fst k ++ snd k)) keys
     = [Err NotImplementedErr; Err ValueError; Err ValueError; Ok ([2], [Some 3; Some 0]%Z);
        Ok ([3;2;1], [Some 3; Some 3; Some 3; Some 3; Some 3; Some 3]%Z)].
Proof.
  cbv zeta. split; [repeat split; try constructor; try constructor; cbn; try valid; intuition|]. split; [exact I|]. split.
  - repeat (constructor; [cbn [fst snd]; repeat split; try (repeat constructor; fail); valid|]). constructor.
  - vm_compute. reflexivity.
Qed.
