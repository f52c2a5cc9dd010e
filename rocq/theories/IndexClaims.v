(** IndexClaims: indexing and realising put together, and per class. *)
From Verif Require Import Base PySlice Keys NDArray Arrays Chunks Handlers Realise Spec Supported Lib SelLemmas KeyLemmas NewAxLemmas GetBase GetSimple GetBcast GetTrans GetStack GetMosaic GetItem ChunkLemmas AssignLemmas HandlerLemmas Realisable NumpyApply StreamLemmas RealOK RealiseOK.
From Coq Require Import ZifyBool ZifyNat.

Lemma oindex_eq {W} (a b : nd W) keys : nd_eq a b -> valid_keys keys (nshape a) -> nd_eq (oindex a keys) (oindex b keys).
Proof.
  intros H HV. unfold oindex. rewrite <- (proj1 H). unfold valid_keys in HV.
  destruct (oselect keys (nshape a)) as [s|] eqn:E; [|congruence]. apply nd_sel_eq; auto. eapply oselect_valid; eauto.
Qed.

(** Several key tuples, one after the other. *)
Fixpoint valid_seq {W} (a : nd W) (kss : list (list key)) : Prop :=
  match kss with [] => True | ks :: kss' => valid_keys ks (nshape a) /\ valid_seq (oindex a ks) kss' end.
Definition oindexes {W} (a : nd W) (kss : list (list key)) : nd W := fold_left oindex kss a.

Lemma oindexes_eq {W} kss : forall a b : nd W, nd_eq a b -> valid_seq a kss -> valid_seq b kss /\ nd_eq (oindexes a kss) (oindexes b kss).
Proof.
  induction kss as [|ks kss IH]; intros a b H HV; simpl in *; auto. destruct HV as [V1 V2].
  pose proof (oindex_eq _ _ _ H V1) as H1. destruct (IH _ _ H1 V2) as [H2 H3]. split; auto. split; auto.
  rewrite <- (proj1 H). auto.
Qed.

Section Claims.
Context {V : Type} (O : numops V).
Notation cell := (option V).
Notation barr := (@barr V).

(** [a[k1][k2]...] *)
Fixpoint getitems (a : barr) (kss : list (list key)) : res barr :=
  match kss with [] => Ok a | ks :: kss' => b <- getitem a ks ;; getitems b kss' end.
Fixpoint supported_seq (a : barr) (kss : list (list key)) : Prop :=
  match kss with
  | [] => True
  | ks :: kss' => supported a ks /\ (forall b, getitem a ks = Ok b -> supported_seq b kss')
  end.

Lemma getitems_ok kss : forall (a : barr), wf a -> valid_seq (den O false a) kss -> supported_seq a kss ->
  exists b, getitems a kss = Ok b /\ wf b /\ (forall m, nd_eq (den O m b) (oindexes (den O m a) kss))
    /\ (dt_stable a -> dt_stable b /\ dtype b = dtype a).
Proof.
  induction kss as [|ks kss IH]; intros a Hw HV HS; simpl in *.
  - exists a. split; auto. split; auto. split; auto. intros m. apply nd_eq_refl.
  - destruct HV as [V1 V2], HS as [S1 S2]. rewrite den_shape in V1 by auto.
    destruct (getitem_ok O a ks Hw V1 S1) as (b & Eb & Wb & Db & Tb). rewrite Eb. cbn [bind].
    destruct (oindexes_eq kss _ _ (nd_eq_sym _ _ (Db false)) V2) as [V3 _].
    destruct (IH b Wb V3 (S2 b Eb)) as (c & Ec & Wc & Dc & Tc). exists c. split; auto. split; auto. split.
    + intros m. eapply nd_eq_trans; [apply Dc|].
      assert (Vm : valid_seq (den O m b) kss).
      { clear - V3 Wb. assert (Hs : nshape (den O false b) = nshape (den O m b)) by (rewrite !den_shape; auto). revert V3 Hs.
        generalize (den O false b) (den O m b). clear. induction kss as [|ks kss IH]; intros x y H E; simpl in *; auto.
        destruct H as [H1 H2]. rewrite E in H1. split; auto. eapply IH; eauto. unfold oindex. rewrite E. destruct (oselect ks (nshape y)); auto. }
      apply oindexes_eq; auto.
    + intros T. destruct (Tb T) as [T1 T2]. destruct (Tc T1) as [T3 T4]. split; auto. congruence.
Qed.

Variable maxc : nat.
Variable garbage : list nat -> cell.
Variable m : bool.
Variable HG : @agg V -> nat -> Prop.
Hypothesis HR : forall g, handler_right O m g (HG g).
Notation realise := (realise O maxc garbage).
Notation realisable := (realisable maxc m HG).

Lemma index_commutes fuel a keys : wf a -> valid_keys keys (shape a) -> supported a keys ->
  realisable fuel a -> (forall b, getitem a keys = Ok b -> realisable fuel b) ->
  exists b da db, getitem a keys = Ok b /\ realise fuel m a = Ok da /\ realise fuel m b = Ok db
    /\ nd_eq db (oindex da keys).
Proof.
  intros Hw HV HS HA HB. destruct (getitem_ok O a keys Hw HV HS) as (b & Eb & Wb & Db & _).
  destruct (realise_ok O maxc garbage m HG HR fuel a Hw HA) as (da & Ea & Da).
  destruct (realise_ok O maxc garbage m HG HR fuel b Wb (HB b Eb)) as (db & Edb & Ddb).
  exists b, da, db. split; auto. split; auto. split; auto.
  eapply nd_eq_trans; [exact Ddb|]. eapply nd_eq_trans; [apply Db|]. apply oindex_eq.
  - apply nd_eq_sym; auto.
  - rewrite den_shape; auto.
Qed.

Lemma index_sequence fuel a kss da : wf a -> realisable fuel a -> realise fuel m a = Ok da -> valid_seq da kss -> supported_seq a kss ->
  (forall b, getitems a kss = Ok b -> realisable fuel b) ->
  exists b db, getitems a kss = Ok b /\ realise fuel m b = Ok db /\ nd_eq db (oindexes da kss).
Proof.
  intros Hw HA Ea HV HS HB. destruct (realise_ok O maxc garbage m HG HR fuel a Hw HA) as (da' & Ea' & Da).
  assert (da' = da) by congruence. subst da'. clear Ea'.
  assert (HV' : valid_seq (den O false a) kss).
  { destruct (oindexes_eq kss _ _ Da HV) as [V1 _]. revert V1. clear - Hw.
    assert (Hs : nshape (den O m a) = nshape (den O false a)) by (rewrite !den_shape; auto). revert Hs.
    generalize (den O m a) (den O false a). induction kss as [|ks kss IH]; intros x y E H; simpl in *; auto.
    destruct H as [H1 H2]. rewrite E in H1. split; auto. eapply IH; [|eauto]. unfold oindex. rewrite E.
    destruct (oselect ks (nshape y)); auto. }
  destruct (getitems_ok kss a Hw HV' HS) as (b & Eb & Wb & Db & _).
  destruct (realise_ok O maxc garbage m HG HR fuel b Wb (HB b Eb)) as (db & Edb & Ddb).
  exists b, db. split; auto. split; auto. eapply nd_eq_trans; [exact Ddb|]. eapply nd_eq_trans; [apply Db|].
  apply nd_eq_sym. apply oindexes_eq; auto.
Qed.

Lemma shape_realised fuel a : wf a -> realisable fuel a ->
  exists d, realise fuel m a = Ok d /\ nshape d = shape a.
Proof.
  intros Hw HA. destruct (realise_ok O maxc garbage m HG HR fuel a Hw HA) as (d & Ed & Dd). exists d. split; auto.
  rewrite (proj1 Dd). apply den_shape; auto.
Qed.

End Claims.
