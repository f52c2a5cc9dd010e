(** Property C15: out-of-range indices.

    Reading guide.  [out_of_range k n] below is the English condition: an integer
    outside [-n, n), or a tuple or index array with such an element.  [plain seqs]
    (BoundClaims.v) are integers and slices, with tuples and index arrays when
    [seqs] is set; [checked seqs a] says which dimensions of [a] check. *)
From Verif Require Import Base PySlice Keys NDArray Arrays Chunks Handlers Realise Spec Supported Lib SelLemmas KeyLemmas GetBase GetSimple GetBcast GetStack GetMosaic GetItem StreamLemmas BoundClaims Realisable Samples.
From Coq Require Import ZifyBool ZifyNat.

Definition outside (i : Z) (n : nat) : Prop := (i < - Z.of_nat n \/ Z.of_nat n <= i)%Z.
Definition out_of_range (k : key) (n : nat) : Prop :=
  match k with
  | KInt i => outside i n
  | KTuple l | KArr l => Exists (fun i => outside i n) l
  | _ => False
  end.

Lemma outside_norm i n : outside i n <-> norm_int i n = None.
Proof. rewrite norm_out. unfold outside. lia. Qed.
Lemma out_sel s k n : plain s k -> (out_of_range k n <-> sel_key k n = None).
Proof.
  destruct k as [i|sl|l|l|l|l| | |]; simpl; intros H; try contradiction.
  - rewrite outside_norm. destruct (norm_int i n); split; auto; discriminate.
  - split; [contradiction|]. intros E. exfalso. exact (plain_slice_sel sl n H E).
  - transitivity (norm_ints l n = None); [|destruct (norm_ints l n); split; auto; discriminate].
    rewrite norms_out, existsb_exists, Exists_exists. unfold outside. split; intros (x & Hx & HE); exists x; split; auto; lia.
  - transitivity (norm_ints l n = None); [|destruct (norm_ints l n); split; auto; discriminate].
    rewrite norms_out, existsb_exists, Exists_exists. unfold outside. split; intros (x & Hx & HE); exists x; split; auto; lia.
Qed.
Lemma sel_total ks sh : nonew ks -> length ks = length sh ->
  (forall d, d < length ks -> sel_key (nth d ks KBad) (nth d sh 0) <> None) -> exists s, sel_keys ks sh = Some s.
Proof.
  unfold nonew. revert sh. induction ks as [|k ks IH]; intros [|n sh] HN HL H; cbn [length] in *; try discriminate; [exists []; reflexivity|].
  cbn [existsb] in HN. apply orb_false_iff in HN as [HN1 HN2].
  destruct (IH sh HN2 ltac:(lia)) as [s Es]; [intros d Hd; apply (H (S d)); lia|].
  pose proof (H 0 ltac:(lia)) as H0. cbn [nth] in H0. destruct (sel_key k n) as [x|] eqn:Ek; [|congruence].
  exists (x :: s). destruct k; try discriminate HN1; cbn [sel_keys]; rewrite Ek, Es; reflexivity.
Qed.
Lemma plain_len s ks n keys : np_expand keys n = Ok ks -> Forall (plain s) ks -> length ks = n.
Proof. intros H HP. apply np_expand_full in H as [_ H]. destruct (plain_nonew _ _ HP) as [HN HE]. rewrite <- H. symmetry. apply nonew_nreal; auto. Qed.

(** C15: an out-of-range key on a checked dimension raises IndexError, on every
    kind of array, however the tuple of keys was abbreviated ([np_expand]).
    Missing: the dimensions that are not [checked] (see the _refuted theorems),
    boolean masks, lists and newaxis keys beside the out-of-range key. *)
Theorem C15_rejects_partial {V} (a : @barr V) seqs keys ks d : wf a ->
  np_expand keys (ndim a) = Ok ks -> Forall (plain seqs) ks ->
  nth d (checked seqs a) false = true -> out_of_range (nth d ks KBad) (nth d (shape a) 0) ->
  getitem a keys = Err IndexError.
Proof.
  intros Hw HE HP Hc Ho. pose proof (plain_len _ _ _ _ HE HP) as HL.
  assert (Hd : d < length ks).
  { rewrite HL, <- (checked_length seqs a Hw). destruct (Nat.lt_ge_cases d (length (checked seqs a))); auto. rewrite nth_overflow in Hc by auto. discriminate. }
  apply (bad_getitem a Hw seqs keys ks); auto.
  - rewrite full_keys_np; auto. eapply np_expand_count; eauto.
  - exists d. split; [auto|]. split; [auto|]. apply (out_sel seqs); auto. rewrite Forall_forall in HP. apply HP. apply nth_In; auto.
Qed.

(** C15: an in-range index never raises, on every kind of array: any supported
    tuple of keys is accepted, whatever the integers. Missing: keys outside
    [supported]. *)
Theorem C15_accepts_partial {V} (O : numops V) (a : @barr V) seqs keys ks : wf a ->
  np_expand keys (ndim a) = Ok ks -> Forall (plain seqs) ks -> okk a ks ->
  (forall d, d < ndim a -> ~ out_of_range (nth d ks KBad) (nth d (shape a) 0)) ->
  exists b, getitem a keys = Ok b.
Proof.
  intros Hw HE HP Hk Hin. pose proof (plain_len _ _ _ _ HE HP) as HL.
  destruct (sel_total ks (shape a)) as [s Es].
  - exact (proj1 (plain_nonew _ _ HP)).
  - exact HL.
  - intros d Hd HS. rewrite HL in Hd. apply (Hin d Hd). apply (out_sel seqs); auto. rewrite Forall_forall in HP. apply HP, nth_In. lia.
  - destruct (getitem_all O a keys ks s Hw HE Es Hk) as (b & E & _). eauto.
Qed.

(** C15 in full for both array adapters, of any source, however they were indexed
    before (without stored boolean masks): the index is accepted exactly when
    every integer, and every element of every tuple and index array, is in range. *)
Theorem C15_adapter {V} (O : numops V) o c src keys ks : wf (AAdapt o c src : @barr V) ->
  existsb BoundClaims.is_mask src = false ->
  np_expand keys (ndim (AAdapt o c src)) = Ok ks -> Forall (plain true) ks ->
  let sh := shape (AAdapt o c src) in
  ((forall d, d < length sh -> ~ out_of_range (nth d ks KBad) (nth d sh 0)) -> exists b, getitem (AAdapt o c src) keys = Ok b)
  /\ ((exists d, d < length sh /\ out_of_range (nth d ks KBad) (nth d sh 0)) -> getitem (AAdapt o c src) keys = Err IndexError).
Proof.
  intros Hw HM HE HP. cbn zeta. split.
  - intros H. apply (C15_accepts_partial O _ true keys ks); auto.
    cbn [okk]. apply existsb_false_Forall in HM. eapply Forall_impl; [|exact HM]. intros []; simpl; auto; discriminate.
  - intros (d & Hd & Ho). apply (C15_rejects_partial _ true keys ks d); auto.
    cbn [checked]. rewrite HM. cbn [negb]. apply nth_repeat_lt. exact Hd.
Qed.

(** Boolean masks on the first dimension of a new adapter.  One with more elements
    than the dimension raises IndexError at once; any other is accepted and gives
    the dimension the number of its true elements; but when it has fewer elements
    than the dimension, every realisation of the result raises IndexError. *)
Lemma full_loop sh : sliced_loop sh (repeat KFull (length sh)) = Ok sh.
Proof.
  rewrite (sliced_loop_ok _ sh _ (sel_keys_repeat_full sh)); [|apply nolist_repeat].
  f_equal. induction sh as [|n sh IH]; auto. cbn [full_sels map sel_shape]. rewrite seq_length. f_equal. exact IH.
Qed.
Lemma fresh_shape {V} o (c : @concrete V) : shape (AAdapt o c [] : @barr V) = c_shape c.
Proof.
  cbn [shape]. unfold sliced_shape. rewrite full_keys_np by (vm_compute; lia). unfold np_expand. cbn. rewrite Nat.sub_0_r, full_loop. auto.
Qed.
Lemma mask_full l k : fullk (KMask l :: repeat KFull k) (S k).
Proof. split; cbn; [apply noell_repeat|f_equal; exact (n_real_repeat k)]. Qed.
Lemma mask_keys l k : full_keys [KMask l] (S k) = Ok (KMask l :: repeat KFull k).
Proof. cbn. rewrite Nat.sub_0_r, app_nil_r. auto. Qed.
Lemma mask_nonew l k : existsb is_new (KMask l :: repeat KFull k) = false.
Proof. cbn. induction k; auto. Qed.
Lemma full_cleanup (sh : list nat) : mapM (fun kn => cleanup_key (fst kn) (snd kn)) (combine (repeat KFull (length sh)) sh) = Ok (repeat KFull (length sh)).
Proof. induction sh as [|n sh IH]; auto. cbn [length repeat combine mapM fst snd]. cbn [cleanup_key KFull bind]. rewrite IH. auto. Qed.
Theorem C15_mask_long {V} o (c : @concrete V) n sh l : c_shape c = n :: sh -> n < length l ->
  getitem (AAdapt o c []) [KMask l] = Err IndexError.
Proof.
  intros Hc Hl. cbn [getitem]. unfold ndim. rewrite fresh_shape, Hc.
  unfold base_getitem. cbn [length]. rewrite mask_keys. cbn [bind]. rewrite mask_nonew. cbn [remap_keys combine mapM fst snd cleanup_key].
  apply Nat.ltb_lt in Hl. rewrite Hl. auto.
Qed.
Theorem C15_mask_short {V} (O : numops V) maxc garbage fuel m o (c : @concrete V) n sh l : c_shape c = n :: sh -> length l <= n ->
  exists b, getitem (AAdapt o c []) [KMask l] = Ok b /\ shape b = count_if (fun x => x) l :: sh
    /\ (length l < n -> realise O maxc garbage (S fuel) m b = Err IndexError).
Proof.
  intros Hc Hl. set (ks := KMask l :: repeat KFull (length sh)).
  assert (HM : mapM (fun kn => cleanup_key (fst kn) (snd kn)) (combine ks (n :: sh)) = Ok ks).
  { unfold ks. cbn [combine mapM fst snd cleanup_key]. replace (n <? length l) with false by (symmetry; apply Nat.ltb_ge; auto). cbn [bind]. rewrite full_cleanup. auto. }
  exists (AAdapt o c ks). split; [|split].
  - cbn [getitem]. unfold ndim. rewrite fresh_shape, Hc.
    unfold base_getitem. cbn [length]. rewrite mask_keys. cbn [bind]. rewrite mask_nonew. cbn [remap_keys]. fold ks. rewrite HM. cbn [bind].
    unfold mk_adapter. rewrite Hc. unfold ks at 1. cbn [length]. rewrite repeat_length, Nat.ltb_irrefl, HM. auto.
  - cbn [shape]. rewrite Hc. unfold sliced_shape. cbn [length]. unfold ks. rewrite full_keys_id by apply mask_full. cbn [bind sliced_loop]. rewrite full_loop. auto.
  - intros Hs. change (realise O maxc garbage (S fuel) m (AAdapt o c ks)) with (realise_adapter O m o c ks). unfold realise_adapter.
    assert (HF : length l =? n = false) by (apply Nat.eqb_neq; lia). destruct o.
    + unfold apply_ortho. cbn [nshape]. rewrite Hc. unfold ks. cbn [keys_dsel key_dsel]. rewrite HF. auto.
    + unfold apply_numpy. replace (tuple_keys ks) with (@nil (nat * list Z)).
      * cbn [length Nat.ltb Nat.leb]. unfold np_index. cbn [nshape]. rewrite Hc. cbn [length]. unfold ks. rewrite np_expand_id by apply mask_full. cbn [bind np_isels np_isel]. rewrite HF. auto.
      * unfold tuple_keys, ks. cbn [length seq combine flat_map snd app fst]. generalize 1. rewrite repeat_length. generalize (length sh). clear. induction n as [|n IH]; intros k; auto. cbn [seq repeat combine flat_map snd]. rewrite <- IH. auto.
Qed.

Ltac wfs := repeat first [progress cbn [wf dt_stable fold_right hd] | apply conj | apply Forall_cons | apply Forall_nil
  | reflexivity | exact I | discriminate | (vm_compute; lia) | (vm_compute; discriminate)
  | apply NoDup_cons; [intros HIn; simpl in HIn; intuition discriminate|] | apply NoDup_nil].

(** C15 fails: a ConstantArray accepts any index. *)
Theorem C15_constant_refuted {V} (v : V) n d i : outside i n ->
  getitem (AConst [n] v d) [KInt i] = Ok (AConst [] v d).
Proof. reflexivity. Qed.

(** C15 fails: the leading dimensions of a BroadcastArray accept any index. *)
Theorem C15_broadcast_refuted {V} (c : @concrete V) n k i : c_shape c = [k] -> outside i n ->
  getitem (ABcast (AAdapt false c []) [] [n]) [KInt i] = Ok (ABcast (AAdapt false c []) [] []).
Proof. destruct c as [sh f fl d]. cbn [c_shape]. intros -> _. cbv -[Z.of_nat]. reflexivity. Qed.

(** C15 fails: a one-element tuple outside a LinearMosaic's axis is accepted and
    selects nothing. *)
Theorem C15_mosaic_tuple_refuted : exists (a b : @barr Z) i,
  wf a /\ shape a = [5] /\ outside i 5 /\ getitem a [KTuple [i]] = Ok b /\ shape b = [0].
Proof.
  exists (AMosaic [arr [2]; arr [3]] 0), (AMosaic [AAdapt false (numbered [3]) [S3 7 8 1]] 0), 9%Z.
  split; [|vm_compute; repeat split; auto; right; discriminate].
  unfold arr. wfs.
Qed.

(** C15 fails the other way: a LinearMosaic rejects a negative index in range. *)
Theorem C15_mosaic_negative_refuted : exists (a : @barr Z) i,
  wf a /\ shape a = [5] /\ ~ outside i 5 /\ getitem a [KInt i] = Err IndexError.
Proof.
  exists (AMosaic [arr [2]; arr [3]] 0), (-2)%Z.
  split; [|vm_compute; repeat split; auto; intros [H|H]; [discriminate|apply H; reflexivity]].
  unfold arr. wfs.
Qed.

Print Assumptions C15_rejects_partial.
Print Assumptions C15_accepts_partial.
Print Assumptions C15_adapter.
Print Assumptions C15_mask_long.
Print Assumptions C15_mask_short.
Print Assumptions C15_constant_refuted.
Print Assumptions C15_broadcast_refuted.
Print Assumptions C15_mosaic_tuple_refuted.
Print Assumptions C15_mosaic_negative_refuted.

(** The hypotheses are met: the sum over axis 1 of a stack of two elementwise
    sums, an array of shape [2; 4] all of whose dimensions are checked. *)
Definition c15_deep : @barr Z := AAgg GSum (AStack [2] [AEl2 zadd2 (arr [3; 4]) (arr [3; 4]) 0; AEl1 zneg1 (ATrans (arr [4; 3]) [1; 0]) 0]) 1 0.
Example c15_deep_checked : checked false c15_deep = [true; true] /\ shape c15_deep = [2; 4].
Proof. split; reflexivity. Qed.
Example c15_deep_wf : wf c15_deep.
Proof.
  unfold c15_deep, arr. wfs.
Qed.
Example c15_rejects_sample i : outside i 4 -> getitem c15_deep [KEll; KInt i] = Err IndexError.
Proof.
  intros H. apply (C15_rejects_partial c15_deep false [KEll; KInt i] [KFull; KInt i] 1); [apply c15_deep_wf|reflexivity| |reflexivity|exact H].
  repeat constructor. discriminate.
Qed.
Example c15_adapter_sample : getitem (AAdapt true (numbered [4; 5]) [S3 3 0 (-1)]) [KTuple [0%Z; 3%Z]; KInt 2] = Err IndexError
  /\ exists b, getitem (AAdapt true (numbered [4; 5]) [S3 3 0 (-1)]) [KTuple [0%Z; (-3)%Z]; KInt 2] = Ok b.
Proof.
  assert (W : wf (AAdapt true (numbered [4; 5]) [S3 3 0 (-1)])) by (split; [repeat constructor; discriminate|vm_compute; discriminate]).
  split.
  - eapply (C15_adapter z_ops _ _ _ _ [KTuple [0%Z; 3%Z]; KInt 2] W); [reflexivity|reflexivity|repeat constructor; reflexivity|].
    exists 0. split; [vm_compute; lia|]. vm_compute. right. left. right. discriminate.
  - eapply (C15_adapter z_ops _ _ _ _ [KTuple [0%Z; (-3)%Z]; KInt 2] W); [reflexivity|reflexivity|repeat constructor; reflexivity|].
    intros [|[|d]] Hd H; vm_compute in Hd; [| |lia].
    + vm_compute in H. inversion H as [? ? [E|E]|? ? H']; subst; try discriminate; try (apply E; reflexivity).
      inversion H' as [? ? [E|E]|? ? H'']; subst; try discriminate; try (apply E; reflexivity). inversion H''.
    + vm_compute in H. destruct H as [E|E]; try discriminate. apply E. reflexivity.
Qed.

(** A mask of four elements on a dimension of five: accepted, not realisable; of
    six: rejected. *)
Example C15_mask_case : let b := AAdapt false (numbered [5; 2]) [KMask [true; false; true; true]; KFull] in
  getitem (arr [5; 2]) [KMask [true; false; true; true]] = Ok b /\ shape b = [3; 2]
  /\ realise z_ops 10 (fun _ => None) 3 false b = Err IndexError
  /\ getitem (arr [5; 2]) [KMask [true; false; true; true; false; true]] = Err IndexError.
Proof. vm_compute. auto. Qed.
