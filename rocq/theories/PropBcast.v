(** Properties C08 and C43, continued: what constructing a BroadcastArray does in every case,
    also on an array that is a BroadcastArray already (its docstring: "Only length 1
    dimensions, or those already being broadcast, may be (further) broadcast"). *)
From Verif Require Import Base PySlice Keys NDArray Arrays Chunks Handlers Realise Spec Supported Lib SelLemmas KeyLemmas NewAxLemmas GetBase Samples BroadcastClaims Small HeapClaims PropSmall.

Section S.
Context {V : Type} (O : numops V).
Implicit Types a b : @barr V.

(** The array whose dimensions can be stretched, the dimensions already put before
    it and the lengths already given: an array that is not a BroadcastArray is its
    own. *)
Definition under a : barr := match a with ABcast a0 _ _ => a0 | _ => a end.
Definition put_before a : list nat := match a with ABcast _ _ l0 => l0 | _ => [] end.
Definition given a (ax : nat) : option nat := match a with ABcast _ d0 _ => dict_find ax d0 | _ => None end.

Lemma update_find d : forall d0 x, dict_find x (dict_update d0 d) =
  match dict_find x (rev d) with Some n => Some n | None => dict_find x d0 end.
Proof.
  unfold dict_update. induction d as [|[ax n] d IH]; intros d0 x; [reflexivity|]. cbn [fold_left rev].
  rewrite IH, dict_find_app, dict_set_find. cbn [fst snd]. destruct (dict_find x (rev d)); auto.
  rewrite dict_find_cons. destruct (ax =? x); auto.
Qed.
Lemma find_rev (d : list (nat * nat)) x : NoDup (map fst d) -> dict_find x (rev d) = dict_find x d.
Proof.
  induction d as [|[ax n] d IH]; intros H; auto. cbn in H. inversion H as [|y l H1 H2]; subst. cbn [rev].
  rewrite dict_find_app, IH by auto. rewrite !dict_find_cons. destruct (Nat.eqb_spec ax x) as [->|N].
  - rewrite dict_find_notin by auto. auto.
  - destruct (dict_find x d); auto.
Qed.
Lemma update_NoDup d : forall d0, NoDup (map fst d0) -> NoDup (map fst (dict_update d0 d)).
Proof. unfold dict_update. induction d as [|p d IH]; intros d0 H; auto. cbn [fold_left]. apply IH. apply dict_set_NoDup; auto. Qed.
Lemma update_In d : forall d0 q, In q (dict_update d0 d) -> In q d0 \/ In q d.
Proof.
  unfold dict_update. induction d as [|p d IH]; intros d0 q H; auto. cbn [fold_left] in H. apply IH in H as [H|H]; [|cbn; auto].
  apply dict_set_In in H as [H|H]; cbn; auto.
Qed.

Lemma find_fits sh (d : list (nat * nat)) : dict_fits sh d <-> forall x n, In (x, n) d -> x < length sh /\ nth x sh 0 = 1.
Proof. unfold dict_fits. rewrite Forall_forall. split; [intros H x n Hi; apply (H _ Hi)|intros H [x n] Hi; apply (H _ _ Hi)]. Qed.
Lemma find_some (d : list (nat * nat)) x n : In (x, n) d -> NoDup (map fst d) -> dict_find x d = Some n.
Proof.
  induction d as [|[y k] d IH]; cbn [In map fst]; intros Hi HN; [tauto|]. inversion HN as [|z l H1 H2]; subst. rewrite dict_find_cons.
  destruct Hi as [E|Hi]; [injection E as -> ->; rewrite Nat.eqb_refl; auto|]. destruct (Nat.eqb_spec y x) as [->|N]; auto.
  exfalso. apply H1. apply in_map_iff. exists (x, n). auto.
Qed.
Lemma update_fits sh d0 d : NoDup (map fst d) -> dict_fits sh d0 -> dict_fits sh (dict_update d0 d) <-> dict_fits sh d.
Proof.
  intros HN H0. rewrite !find_fits in *. split; intros H x n Hi.
  - pose proof (update_find d d0 x) as E. rewrite find_rev, (find_some d x n Hi HN) in E by auto. apply (H x n). apply dict_find_In; auto.
  - apply update_In in Hi as [Hi|Hi]; eauto.
Qed.

Lemma sfd_error d : forall sh e, shape_from_dict sh d = Err e -> e = ValueError.
Proof.
  induction d as [|[ax n] d IH]; intros sh e; rewrite shape_from_dict_eq; cbn; [discriminate|].
  destruct (length sh <=? ax); [congruence|]. destruct (nth ax sh 0 =? 1); [|congruence]. cbn. rewrite <- shape_from_dict_eq. apply IH.
Qed.
(** The dictionary and dimensions an accepted construction ends with. *)
Definition merged a dict := match a with ABcast _ d0 _ => dict_update d0 dict | _ => dict end.
Lemma mk_shape a dict lead : mk_bcast a dict lead =
  (_ <- shape_from_dict (shape (under a)) (merged a dict) ;;
   if existsb (fun n => n <? 1) (lead ++ put_before a) then Err ValueError else Ok (ABcast (under a) (merged a dict) (lead ++ put_before a))).
Proof. destruct a; unfold mk_bcast; cbn [under merged put_before]; rewrite ?app_nil_r; reflexivity. Qed.

Lemma wf_under a : wf a -> wf (under a) /\ Forall (fun n => 1 <= n) (put_before a)
  /\ forall dict, NoDup (map fst dict) -> NoDup (map fst (merged a dict))
     /\ (dict_fits (shape (under a)) (merged a dict) <-> dict_fits (shape (under a)) dict)
     /\ forall x, dict_find x (merged a dict) = match dict_find x dict with Some n => Some n | None => given a x end.
Proof.
  destruct a; cbn [under put_before merged given]; intros H; (split; [first [exact H|apply H]|split; [first [constructor|apply H]|]]);
    intros d' HN; try (split; [auto|split; [tauto|intros x; destruct (dict_find x d'); auto]]).
  cbn [wf] in H. destruct H as (H1 & H2 & H3 & H4). assert (F : dict_fits (shape a) dict).
  { destruct (shape_from_dict (shape a) dict) as [sh'|e] eqn:E; [|discriminate H3]. apply sfd_char in E; tauto. }
  split; [apply update_NoDup; auto|]. split; [apply update_fits; auto|]. intros x. rewrite update_find, find_rev; auto.
Qed.

(** C08: an array is broadcast exactly when every axis in the dictionary names a
    dimension of length one of the array that is not itself a BroadcastArray (axes
    count from the first dimension of that array, whatever was put before it) and
    every leading length is positive; ValueError otherwise. *)
Theorem C08_accepts a dict lead : wf a -> NoDup (map fst dict) ->
  ((exists b, mk_bcast a dict lead = Ok b)
   <-> Forall (fun p => fst p < ndim (under a) /\ nth (fst p) (shape (under a)) 0 = 1) dict /\ Forall (fun n => 1 <= n) lead)
  /\ ((exists b, mk_bcast a dict lead = Ok b) \/ mk_bcast a dict lead = Err ValueError).
Proof.
  intros Hw HN. destruct (wf_under a Hw) as (_ & H2 & H3). destruct (H3 dict HN) as (H4 & H5 & _). rewrite mk_shape.
  assert (EL : existsb (fun n => n <? 1) (lead ++ put_before a) = false <-> Forall (fun n => 1 <= n) lead).
  { rewrite existsb_false_Forall, Forall_app. split; [intros [H _]|intros H; split; [|revert H2]]; [revert H|revert H|];
      apply Forall_impl; intros n Hn; lia. }
  change (Forall (fun p => fst p < ndim (under a) /\ nth (fst p) (shape (under a)) 0 = 1) dict) with (dict_fits (shape (under a)) dict).
  destruct (shape_from_dict (shape (under a)) (merged a dict)) as [sh'|e] eqn:Es; cbn [bind].
  - pose proof (proj1 (sfd_char _ _ _ H4) Es) as (F & _). apply H5 in F.
    destruct (existsb (fun n => n <? 1) (lead ++ put_before a)); split; auto; [|split; eauto|eauto].
    + split; [intros (b & Hb); discriminate|]. intros [_ H]. apply EL in H. discriminate.
    + intros _. split; auto. apply EL; auto.
  - split; [|right; apply sfd_error in Es; subst; auto]. split; [intros (b & Hb); discriminate|].
    intros [F _]. apply H5 in F. destruct (sfd_fits _ _ H4 F) as (sh' & E). congruence.
Qed.

(** C08: and the result: the new leading dimensions, then those the array had, then
    the dimensions underneath, where the newest length given wins; every element is
    the one underneath, at 0 on the stretched dimensions.  So a dimension that was
    stretched already is stretched again from its one element. *)
Theorem C08_again a dict lead b : wf a -> NoDup (map fst dict) -> mk_bcast a dict lead = Ok b ->
  wf b /\ (forall m, exists sh',
    nshape (den O m b) = lead ++ put_before a ++ sh'
    /\ length sh' = ndim (under a)
    /\ (forall ax, ax < ndim (under a) -> nth ax sh' 0 =
          match dict_find ax dict with
          | Some n => n
          | None => match given a ax with Some n => n | None => nth ax (shape (under a)) 0 end
          end)
    /\ forall o idx, length o = length lead + length (put_before a) -> length idx = ndim (under a) -> inb (nshape (den O m b)) (o ++ idx) ->
          nget (den O m b) (o ++ idx) = nget (den O m (under a)) (map (fun ax =>
            match dict_find ax dict, given a ax with None, None => nth ax idx 0 | _, _ => 0 end) (seq 0 (length idx)))).
Proof.
  intros Hw HN E. destruct (wf_under a Hw) as (H1 & H2 & H3). destruct (H3 dict HN) as (H4 & H5 & H6). rewrite mk_shape in E.
  destruct (shape_from_dict (shape (under a)) (merged a dict)) as [sh'|e] eqn:Es; [|discriminate E]. cbn [bind] in E.
  destruct (existsb (fun n => n <? 1) (lead ++ put_before a)) eqn:EL; [discriminate|]. injection E as <-.
  rewrite existsb_false_Forall in EL. split.
  { cbn [wf]. split; auto. split; auto. split; [rewrite Es; auto|]. revert EL. apply Forall_impl. intros n Hn; lia. }
  intros m. exists sh'. pose proof (den_shape O m (under a) H1) as Hd. pose proof (proj1 (sfd_char _ _ _ H4) Es) as (F & L & P).
  cbn [den nshape nget]. rewrite Hd, Es. cbn [get_ok]. rewrite app_assoc. split; auto. split; auto. split.
  { intros ax Hx. rewrite P, H6 by auto. destruct (dict_find ax dict); auto. }
  intros o idx Ho Hi Hin. rewrite bc_idx_app by auto. f_equal. apply (nth_error_ext_nth 0).
  { rewrite bidx_length, map_length, seq_length; auto. }
  rewrite bidx_length by auto. intros i Hlt. rewrite nth_bidx by auto.
  rewrite (nth_map_seq (fun ax => match dict_find ax dict, given a ax with None, None => nth ax idx 0 | _, _ => 0 end)) by (rewrite Hi; auto).
  assert (Hs : inb sh' idx). { apply inb_app in Hin; [tauto|]. rewrite app_length. lia. }
  assert (M : match dict_find i dict, given a i with None, None => nth i idx 0 | _, _ => 0 end = match dict_find i (merged a dict) with None => nth i idx 0 | _ => 0 end).
  { rewrite H6. destruct (dict_find i dict), (given a i); auto. }
  rewrite M. destruct (dict_find i (merged a dict)) as [n|] eqn:Ef.
  - apply dict_find_In in Ef. rewrite find_fits in F. destruct (F i n Ef) as [_ ->]. reflexivity.
  - destruct (Nat.eqb_spec (nth i (shape (under a)) 0) 1) as [E1|E1]; auto.
    pose proof (inb_nth _ _ i Hs ltac:(lia)) as Hb. rewrite P, Ef, E1 in Hb by auto. lia.
Qed.

(** C43: an operator between an array and a number, in every case: no dimension of
    the array is empty and the operation is applied at every position with the
    operands in the written order, or one is and ValueError is raised. *)
Theorem C43_exact u o a v d py : wf a ->
  (Forall (fun n => 1 <= n) (shape a) ->
     exists e1 e2, binary u o (PArr a) (PNum v d py) = Ok e1 /\ binary u o (PNum v d py) (PArr a) = Ok e2
       /\ wf e1 /\ wf e2 /\ shape e1 = shape a /\ shape e2 = shape a
       /\ forall m i, inb (shape a) i ->
            nget (den O m e1) i = op2_sem m (operation u o) (nget (den O m a) i) (Some v)
            /\ nget (den O m e2) i = op2_sem m (operation u o) (Some v) (nget (den O m a) i))
  /\ (In 0 (shape a) ->
        binary u o (PArr a) (PNum v d py) = Err ValueError /\ binary u o (PNum v d py) (PArr a) = Err ValueError).
Proof.
  intros Hw. rewrite (binary_left u o a (PNum v d py) (AConst [] v d)) by reflexivity.
  rewrite (binary_right u o (PNum v d py) v d py a) by reflexivity.
  assert (A0 : broadcast_one a (shape a) 0 = Ok a) by (unfold broadcast_one; cbn [firstn skipn]; rewrite bdict_same; auto).
  assert (E1 : forall f p, mk_el2 f a (AConst [] v d) p = (c <- broadcast_one (AConst [] v d) (shape a) (ndim a) ;;
     Ok (AEl2 f a c (match p with Some isf => o2_dtpy f (dtype a) isf | None => o2_dt f (dtype a) (dtype c) end)))).
  { intros f p. unfold mk_el2, broadcast_arrays. rewrite compute_bshape_ok, bshape_nil_r. cbn [bind]. change (ndim (@AConst V [] v d)) with 0. cbn [Nat.sub].
    rewrite A0. cbn [bind]. rewrite Nat.sub_0_r. destruct (broadcast_one (AConst [] v d) (shape a) (ndim a)); auto. }
  assert (E2 : forall f, mk_el2 f (AConst [] v d) a None = (c <- broadcast_one (AConst [] v d) (shape a) (ndim a) ;;
     Ok (AEl2 f c a (o2_dt f (dtype c) (dtype a))))).
  { intros f. unfold mk_el2, broadcast_arrays. rewrite compute_bshape_ok, bshape_nil_l. cbn [bind].
    change (ndim (@AConst V [] v d)) with 0. rewrite Nat.sub_0_r. cbn [Nat.sub].
    destruct (broadcast_one (AConst [] v d) (shape a) (ndim a)); auto. cbn [bind]. rewrite A0. auto. }
  rewrite E1, E2. clear E1 E2.
  assert (Ec : broadcast_one (AConst [] v d) (shape a) (ndim a) =
    match shape a with [] => Ok (AConst [] v d) | _ => if existsb (fun n => n <? 1) (shape a) then Err ValueError else Ok (ABcast (AConst [] v d) [] (shape a)) end).
  { unfold broadcast_one, ndim. rewrite firstn_all, skipn_all. destruct (shape a); auto. }
  rewrite Ec. split.
  - intros HF.
    assert (Ex : existsb (fun n => n <? 1) (shape a) = false) by (apply existsb_false_Forall; revert HF; apply Forall_impl; intros n Hn; lia).
    rewrite Ex. destruct (shape a) as [|n sh] eqn:Es.
    + cbn [bind]. do 2 eexists. split; [reflexivity|]. split; [reflexivity|]. cbn [wf shape].
      repeat split; auto; intros m i Hi; apply inb_nil in Hi; subst; reflexivity.
    + cbn [bind]. do 2 eexists. split; [reflexivity|]. split; [reflexivity|].
      assert (Wc : wf (ABcast (AConst [] v d) [] (n :: sh))) by (cbn [wf]; repeat split; auto; constructor).
      assert (Sc : shape (ABcast (@AConst V [] v d) [] (n :: sh)) = n :: sh) by (cbn [shape]; apply app_nil_r).
      cbn [wf]. rewrite Sc. cbn [shape]. repeat split; auto; constructor.
  - intros H0. assert (Ex : existsb (fun n => n <? 1) (shape a) = true) by (apply existsb_exists; exists 0; auto).
    rewrite Ex. destruct (shape a); [destruct H0|auto].
Qed.
End S.

(** A column stretched to three and given a leading dimension is stretched again,
    to five, under another one. *)
Example C08_again_case : exists x b, mk_bcast (arr [2;1]) [(1,3)] [4] = Ok x /\ shape x = [4;2;3]
  /\ mk_bcast x [(1,5)] [2] = Ok b /\ shape b = [2;4;2;5] /\ mk_bcast x [(2,5)] [] = Err ValueError
  /\ nget (den z_ops false b) [1;3;1;4] = Some 1%Z.
Proof. eexists _, _. repeat (split; [reflexivity|]). vm_compute. reflexivity. Qed.

Print Assumptions C08_accepts.
Print Assumptions C08_again.
Print Assumptions C43_exact.
