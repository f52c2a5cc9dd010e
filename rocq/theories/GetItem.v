(** GetItem: [__getitem__] of every array class, put together. *)
From Verif Require Import Base PySlice Keys NDArray Arrays Spec Supported Lib SelLemmas KeyLemmas NewAxLemmas GetBase GetSimple GetBcast GetTrans GetStack GetMosaic.

Section GetItem.
Context {V : Type} (O : numops V).
Notation barr := (@barr V).

Lemma getitem_all (a : barr) : Pget O a.
Proof.
  induction a as [sh v d|o c ks|a na IH|a dict lead IH|a d IH|a v IH|a axes IH|ssh items IH|tiles axis IH
                  |g a axis d IH|o a d IH|o a b d IH1 IH2] using barr_ind2.
  - apply get_const.
  - apply get_adapt.
  - apply get_newax; auto.
  - apply get_bcast; auto.
  - apply get_asty; auto.
  - apply get_maskv; auto.
  - apply get_trans; auto.
  - apply get_stack; auto.
  - apply get_mosaic; auto.
  - apply get_agg; auto.
  - apply get_el1; auto.
  - apply get_el2; auto.
Qed.

(** The same in terms of user keys: [oindex] is orthogonal indexing. *)
Theorem getitem_ok (a : barr) keys : wf a -> valid_keys keys (shape a) -> supported a keys ->
  exists b, getitem a keys = Ok b /\ wf b
    /\ (forall m, nd_eq (den O m b) (oindex (den O m a) keys))
    /\ (dt_stable a -> dt_stable b /\ dtype b = dtype a).
Proof.
  intros Hw Hv Hk. unfold valid_keys, oselect in Hv. fold (ndim a) in Hv.
  destruct (np_expand keys (ndim a)) as [ks|] eqn:E; [|congruence].
  destruct (sel_keys ks (shape a)) as [s|] eqn:Es; [|congruence].
  destruct (getitem_all a keys ks s Hw E Es (Hk ks E)) as (b & Eb & Gb).
  exists b. split; auto. split; [apply Gb|]. split; [|apply Gb].
  intros m. unfold oindex, oselect. rewrite den_shape by auto. fold (ndim a). rewrite E, Es. apply Gb.
Qed.

Lemma getitem_shape (a b : barr) keys s : wf a -> oselect keys (shape a) = Some s -> supported a keys ->
  getitem a keys = Ok b -> shape b = sel_shape s.
Proof.
  intros Hw Hv Hk Hg. unfold oselect in Hv. fold (ndim a) in Hv.
  destruct (np_expand keys (ndim a)) as [ks|] eqn:E; [|congruence].
  destruct (getitem_all a keys ks s Hw E Hv (Hk ks E)) as (b' & Eb & Gb).
  replace b with b' by congruence. eapply good_shape; eauto.
Qed.

End GetItem.
