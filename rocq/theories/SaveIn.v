(** SaveIn: [save] when the target is a source of the array that is saved. *)
From Verif Require Import Base PySlice Keys NDArray Arrays Chunks Handlers Realise Spec Supported Lib SelLemmas KeyLemmas GetBase GetStack ChunkLemmas AssignLemmas HandlerLemmas RealOps Realisable ClassClaims ChunkClaims SaveClaims SaveLoop Steady SteadyReal SteadyClaims.
From Coq Require Import Permutation.

Section SaveIn.
Context {V : Type} (O : numops V).
Notation cell := (option V).
Notation barr := (@barr V).
Variable maxc : nat.
Variable garbage : list nat -> cell.
Variable fuel : nat.
Variable m : bool.
Notation realise := (realise O maxc garbage fuel m).

(** biggus/_init.py:2191-2196: the loop of [save] when the target is read by the
    array: [A t] is that array when the target holds [t].  Each piece is taken
    from the array over what the target holds at that moment, and is realised
    before it is assigned.  A piece that is realised as a view of the target (an
    unindexed or sliced adapter) is assigned as if it had been copied: NumPy's rule
    for overlapping memory.  Simplification: what is assigned is not cast to the
    dtype of the target. *)
Fixpoint save_in (A : nd cell -> barr) (ks : list (list key)) (t : nd cell) : nd cell * option err :=
  match ks with
  | [] => (t, None)
  | k :: ks' =>
      match getitem (A t) k with
      | Err e => (t, Some e)
      | Ok b => match realise b with
                | Err e => (t, Some e)
                | Ok d => match np_setitem t k d with
                          | Err e => (t, Some e)
                          | Ok t' => save_in A ks' t'
                          end
                end
      end
  end.
(** 2162-2190: the pieces are computed once, before the loop. *)
Definition save_in_run (A : nd cell -> barr) (t : nd cell) : nd cell * option err :=
  save_in A (save_keys maxc (shape (A t))) t.

(** [C t k d]: with [t] in the target, the piece [k] reads as [d]. *)
Definition reads_piece (A : nd cell -> barr) (t : nd cell) (k : list key) (d : nd cell) : Prop :=
  exists b, getitem (A t) k = Ok b /\ realise b = Ok d.

Variable A : nd cell -> barr.
Variable sh : list nat.
Variable D : nd cell -> nd cell.
Variable ok : nd cell -> Prop.
Hypothesis HD : forall t, nshape t = sh -> ok t -> nshape (D t) = sh.
Hypothesis HP : forall t k, nshape t = sh -> ok t -> In k (save_keys maxc sh) ->
  exists d, reads_piece A t k d /\ nd_eq d (oindex (D t) k) /\ forall t', np_setitem t k d = Ok t' -> ok t'.

Lemma save_in_state : forall ks t, nshape t = sh -> ok t -> (forall k, In k ks -> In k (save_keys maxc sh)) ->
  exists r, save_in A ks t = (r, None) /\ nshape r = sh /\ ok r
    /\ (forall i, inb sh i -> existsb (covers sh i) ks = false -> nget r i = nget t i)
    /\ forall before k after i, ks = before ++ k :: after -> inb sh i -> covers sh i k = true -> existsb (covers sh i) after = false ->
         nget r i = nget (D (fst (save_in A before t))) i.
Proof.
  induction ks as [|k ks IH]; intros t Ht Hok HI.
  - exists t. cbn [save_in]. repeat split; auto. intros before k after i E. destruct before; discriminate.
  - assert (Hk : In k (save_keys maxc sh)) by (apply HI; simpl; auto).
    destruct (HP t k Ht Hok Hk) as (d & (b & Eb & Ed) & Hd & Hnext).
    destruct (save_key_ok maxc sh k Hk) as (s & S1 & S2). unfold oindex in Hd. rewrite (HD t Ht Hok), S1 in Hd.
    destruct (setitem_ok t k s d) as (t' & Et & St & Gt); [rewrite Ht; auto|apply Hd|].
    destruct (IH t') as (r & E1 & E2 & E3 & E4 & E5); [congruence|auto|intros; apply HI; simpl; auto|].
    exists r. cbn [save_in]. rewrite Eb, Ed, Et. split; [exact E1|]. split; [exact E2|]. split; [exact E3|].
    assert (G : forall i, inb sh i -> nget t' i = if covers sh i k then nget (D t) i else nget t i).
    { intros i Hi. rewrite Gt. unfold covers. rewrite S1. unfold in_sel. destruct (sel_pos s i) as [o|] eqn:Eo; auto.
      apply sel_pos_some in Eo as [Eo1 Eo2]. rewrite (proj2 Hd) by (rewrite (proj1 Hd); auto). cbn [nd_sel nget]. rewrite Eo1. auto. }
    split.
    + intros i Hi HN. cbn [existsb] in HN. apply orb_false_iff in HN as [N1 N2]. rewrite E4 by auto. rewrite G, N1 by auto. auto.
    + intros before k' after i E Hi Hc Ha. destruct before as [|k0 before]; cbn [app] in E; injection E as E0 E'.
      * subst k' after. cbn [save_in fst]. rewrite E4 by auto. rewrite G, Hc by auto. auto.
      * subst k0. cbn [save_in]. rewrite Eb, Ed, Et. apply (E5 before k' after i); auto.
Qed.
End SaveIn.

(** ** Pieces *)
Lemma count_split {A} (p : A -> bool) l1 x l2 : count_if p (l1 ++ x :: l2) = 1 -> p x = true -> existsb p l1 = false /\ existsb p l2 = false.
Proof.
  intros H Hp. rewrite count_if_app, count_if_cons, Hp in H.
  split; apply count_if_0; destruct (count_if p l1); destruct (count_if p l2); simpl in *; lia.
Qed.
Lemma piece_once maxc sh before k after i : save_keys maxc sh = before ++ k :: after -> In i (positions sh k) ->
  inb sh i /\ covers sh i k = true /\ existsb (covers sh i) before = false /\ existsb (covers sh i) after = false.
Proof.
  intros E Hi. assert (Hk : In k (save_keys maxc sh)) by (rewrite E; apply in_elt).
  assert (Hb : inb sh i).
  { pose proof (save_perm maxc sh) as HPm. apply GetStack.ndindex_In. eapply Permutation_in; [exact HPm|]. apply in_flat_map. eauto. }
  pose proof (proj2 (covers_positions maxc sh i k Hk Hb) Hi) as Hc. split; auto. split; auto.
  pose proof (save_cover maxc sh i Hb) as HC. rewrite E in HC. apply (count_split _ _ _ _ HC Hc).
Qed.
Lemma piece_of maxc sh i : inb sh i -> exists before k after, save_keys maxc sh = before ++ k :: after /\ In i (positions sh k).
Proof.
  intros Hi. assert (HC : existsb (covers sh i) (save_keys maxc sh) = true).
  { destruct (existsb (covers sh i) (save_keys maxc sh)) eqn:E; auto. apply count_if_0 in E. rewrite save_cover in E by exact Hi. discriminate. }
  apply existsb_exists in HC as (k & Hk & Hc).
  destruct (in_split _ _ Hk) as (b & a & E). exists b, k, a. split; auto. apply (covers_positions maxc sh i k Hk Hi). auto.
Qed.
(** An array within the chunk limit is one piece. *)
Lemma one_piece maxc sh : Forall (fun n => 1 <= n) sh -> prodn sh <= maxc -> exists k, save_keys maxc sh = [k].
Proof.
  intros HF HM. assert (E : forall sh, Forall (fun n => 1 <= n) sh -> prodn sh <= maxc -> all_slices maxc false sh = map (fun _ => [KFull]) sh).
  { clear. induction sh as [|n sh IH]; intros HF HM; auto. inversion HF as [|? ? H1 H2]; subst. rewrite all_slices_cons.
    change (prodn (n :: sh)) with (n * prodn sh) in HM. assert (1 <= prodn sh) by (clear -H2; induction H2; simpl; [lia|nia]).
    unfold dim_slices. rewrite (proj2 (Nat.leb_le _ _)) by exact HM. cbn [map]. f_equal. apply IH; auto. nia. }
  unfold save_keys. rewrite (E sh HF HM). rewrite map_map. cbn [length].
  assert (EN : ndindex (map (fun _ : nat => 1) sh) = [map (fun _ => 0) sh]).
  { clear. induction sh as [|n sh IH]; auto. cbn [map ndindex seq flat_map]. rewrite IH. auto. }
  change (fun _ : nat => 1) with (fun _ : nat => 1). rewrite EN. cbn [map]. eauto.
Qed.

(** ** Expressions over the target *)
Section Onto.
Context {V : Type} (O : numops V).
Notation cell := (option V).
Notation barr := (@barr V).

(** An elementwise expression with places for the target: [TSelf fill d] is an
    adapter of the target (fill value and dtype as the target has them), [o] says
    whether it is indexed as NumPy is (C03) or as netCDF is (C04). *)
Inductive tmpl :=
  | TSelf (o : bool) (f : option V) (d : nat)
  | TOther (a : barr)
  | TEl1 (o : @op1 V) (T : tmpl) (d : nat)
  | TEl2 (o : @op2 V) (T1 T2 : tmpl) (d : nat).
(** The expression when the target holds [t]. *)
Fixpoint onto (T : tmpl) (t : nd cell) : barr :=
  match T with
  | TSelf o f d => AAdapt o (mkC (nshape t) (nget t) f d) []
  | TOther a => a
  | TEl1 o T d => AEl1 o (onto T t) d
  | TEl2 o T1 T2 d => AEl2 o (onto T1 t) (onto T2 t) d
  end.
End Onto.

Section Trees.
Context {V : Type} (O : numops V).
Notation cell := (option V).
Notation barr := (@barr V).
Variable maxc : nat.
Variable m : bool.
Variable HG : @agg V -> nat -> Prop.
Variable sh : list nat.

(** Nothing masked when the plain form is taken. *)
Fixpoint whole (a : barr) : Prop :=
  match a with
  | AAdapt _ c _ => m = true \/ forall i, c_cell c i <> None
  | AEl1 _ a _ => whole a
  | AEl2 _ a b _ => whole a /\ whole b
  | _ => True
  end.
Lemma whole_steady (a : barr) h : optree m sh a -> whole a -> Forall (fun n => 1 <= n) sh -> 1 <= h -> steady maxc m HG true false true h a.
Proof.
  intros HT HD HP Hh. revert HT HD.
  induction a as [sh' v d|o c ks|a na IH|a dict lead IH|a d IH|a v IH|a axes IH|ssh items IH|tiles axis IH
    |g a axis d IH|o a d IH|o a b d IH1 IH2] using barr_ind2; cbn [optree whole]; intros HT HD; try contradiction.
  - exact Hh.
  - destruct ks; [|contradiction]. destruct (shape_fresh O m o c) as [_ H2]. cbn [steady]. rewrite H2, HT. split; [exact Hh|]. split; [exact HP|]. split; [constructor|].
    split; [right; left; auto|]. destruct HD as [H|H]; auto.
  - destruct HT as [H1 H2]. split; auto.
  - destruct HT as (H0 & H1 & H2). destruct HD as [D1 D2]. split; auto. split; auto. split; auto.
    destruct (tree_ok O m sh a H1) as (_ & _ & -> & _). destruct (tree_ok O m sh b H2) as (_ & _ & -> & _). auto.
Qed.
Lemma whole_top (a : barr) h : optree m sh a -> whole a -> Forall (fun n => 1 <= n) sh -> 2 <= h -> steady maxc m HG true false false h a.
Proof.
  intros HT HD HP Hh. destruct h as [|h]; [lia|]. destruct a as [sh' v d|o c ks| | | | | | | | |o a d|o a b d]; try contradiction.
  - cbn. lia.
  - exact (whole_steady (AAdapt o c ks) (S h) HT HD HP ltac:(lia)).
  - destruct HT as [H1 H2]. split; auto. apply whole_steady; auto; lia.
  - destruct HT as (H0 & H1 & H2). destruct HD as [D1 D2]. split; auto. split; apply whole_steady; auto; lia.
Qed.
Lemma whole_some (a : barr) : m = false -> optree m sh a -> whole a -> forall i, optree_at O m a i <> None.
Proof.
  intros Hm. induction a as [sh' v d|o c ks|a na IH|a dict lead IH|a d IH|a v IH|a axes IH|ssh items IH|tiles axis IH
    |g a axis d IH|o a d IH|o a b d IH1 IH2] using barr_ind2; cbn [optree whole optree_at]; intros HT HD i; try contradiction; try discriminate.
  - destruct (c_cell c i) eqn:E; [discriminate|]. rewrite Hm. discriminate.
  - destruct HT as [_ H]. unfold op1_sem. specialize (IH H HD i). destruct (optree_at O m a i) eqn:E; [|contradiction]. rewrite Hm. cbn. discriminate.
  - destruct HT as (_ & H1 & H2). destruct HD as [D1 D2]. unfold op2_sem. specialize (IH1 H1 D1 i). specialize (IH2 H2 D2 i).
    destruct (optree_at O m a i) eqn:E1, (optree_at O m b i) eqn:E2; try contradiction. rewrite Hm. discriminate.
Qed.
Definition whole_nd (t : nd cell) : Prop := m = true \/ forall i, nget t i <> None.
Lemma onto_optree (T : @tmpl V) t t' : nshape t = sh -> nshape t' = sh -> optree m sh (onto T t) -> optree m sh (onto T t').
Proof. intros H1 H2. induction T as [o f d|a|o T IH d|o T1 IH1 T2 IH2 d]; cbn [onto optree c_shape]; auto; tauto. Qed.
Lemma onto_whole (T : @tmpl V) t t' : whole_nd t' -> whole (onto T t) -> whole (onto T t').
Proof. intros H1. induction T as [o f d|a|o T IH d|o T1 IH1 T2 IH2 d]; cbn [onto whole]; auto; tauto. Qed.
Lemma onto_at (T : @tmpl V) t t' i : nget t i = nget t' i -> optree_at O m (onto T t) i = optree_at O m (onto T t') i.
Proof.
  intros H. induction T as [o f d|a|o T IH d|o T1 IH1 T2 IH2 d]; cbn [onto optree_at c_cell c_fill c_dtype]; auto.
  - rewrite H. auto.
  - rewrite IH. auto.
  - rewrite IH1, IH2. auto.
Qed.
End Trees.
