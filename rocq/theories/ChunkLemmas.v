(** ChunkLemmas: the chunk keys partition the index space and respect the size
    limit. *)
From Verif Require Import Base PySlice Keys NDArray Chunks Arrays Spec Supported Lib SelLemmas KeyLemmas GetBase GetTrans GetStack.
From Coq Require Import ZifyBool ZifyNat.

(** Positions selected by a key on a dimension of length [n]. *)
Definition kpos (k : key) (n : nat) : list nat :=
  match sel_key k n with Some (DPt i) => [i] | Some (DLs l) => l | _ => [] end.

Lemma sel_key_sl a b n : a <= b -> b <= n -> sel_key (sl a b) n = Some (DLs (seq a (b - a))).
Proof.
  intros H1 H2. unfold sl, sel_key, slice_idx, slice_indices. cbn [s_step s_start s_stop].
  unfold clamp_bound. cbn [Z.eqb Z.ltb Z.compare].
  replace (Z.of_nat a <? 0)%Z with false by lia. replace (Z.of_nat b <? 0)%Z with false by lia.
  replace (Z.of_nat n <? Z.of_nat a)%Z with false by lia. replace (Z.of_nat n <? Z.of_nat b)%Z with false by lia.
  simpl bind. cbn beta iota. unfold py_range, range_len. cbn [Z.ltb Z.compare].
  replace (Z.to_nat ((Z.of_nat b - Z.of_nat a + 1 - 1) / 1)) with (b - a) by (rewrite Z.div_1_r; lia).
  rewrite map_map. do 2 f_equal.
  apply (nth_ext _ _ 0 0).
  - rewrite map_length, !seq_length. auto.
  - intros i Hi. rewrite map_length, seq_length in Hi.
    rewrite (nth_map_seq (fun x => Z.to_nat (Z.of_nat a + Z.of_nat x * 1))) by auto.
    rewrite seq_nth by auto. lia.
Qed.

(** Shape of a chunk key: a full slice or a slice of a non-empty range. *)
Definition chunk_key (n : nat) (k : key) : Prop :=
  k = KFull \/ exists a b, k = sl a b /\ a < b /\ b <= n.

Lemma chunk_key_sel n k : chunk_key n k -> exists a len, sel_key k n = Some (DLs (seq a len))
   /\ a + len <= n /\ (1 <= n -> 1 <= len).
Proof.
  intros [->|(a & b & -> & H1 & H2)].
  - exists 0, n. rewrite sel_key_full. auto.
  - exists a, (b - a). rewrite sel_key_sl by lia. split; auto. lia.
Qed.

Lemma step_pieces step size c :
  concat (map (fun i => seq (i * step) (Nat.min (i * step + step) size - i * step)) (seq 0 c))
  = seq 0 (Nat.min (c * step) size).
Proof.
  induction c as [|c IH]; auto. rewrite seq_S, map_app, concat_app, IH. simpl concat. rewrite app_nil_r.
  simpl. destruct (Nat.le_ge_cases size (c * step)).
  - replace (Nat.min (c * step + step) size - c * step) with 0 by lia. rewrite app_nil_r. f_equal. lia.
  - replace (Nat.min (step + c * step) size) with (Nat.min (c * step) size + (Nat.min (c * step + step) size - c * step)) by lia.
    rewrite seq_app. f_equal. f_equal; lia.
Qed.

Lemma concat_singles n : forall a, concat (map (fun i => [i]) (seq a n)) = seq a n.
Proof. induction n; intros; simpl; auto. rewrite IHn. auto. Qed.

Lemma ceil_cover size step : 1 <= step -> size <= (size + step - 1) / step * step.
Proof. intros H. pose proof (Nat.div_mod (size + step - 1) step ltac:(lia)).
  pose proof (Nat.mod_upper_bound (size + step - 1) step ltac:(lia)). nia. Qed.
Lemma ceil_piece size step i : 1 <= step -> i < (size + step - 1) / step -> i * step < size.
Proof. intros H Hi. pose proof (Nat.div_mod (size + step - 1) step ltac:(lia)). nia. Qed.

Lemma step_pos maxc ne size : maxc < size * ne -> ne <= maxc -> 1 <= maxc / ne.
Proof. intros. apply Nat.div_le_lower_bound; lia. Qed.

(** The keys of one dimension. *)
Lemma dim_slices_chunk maxc ne size : Forall (chunk_key size) (dim_slices maxc true ne size).
Proof.
  unfold dim_slices. destruct (Nat.leb_spec (size * ne) maxc) as [H1|H1].
  { constructor; [left; auto|constructor]. }
  destruct (Nat.ltb_spec maxc ne) as [H2|H2].
  - apply Forall_forall. intros k Hk. apply in_map_iff in Hk as (i & <- & Hi). apply in_seq in Hi.
    right. exists i, (i + 1). split; auto. lia.
  - pose proof (step_pos _ _ _ H1 H2) as Hs. apply Forall_forall. intros k Hk.
    apply in_map_iff in Hk as (i & <- & Hi). apply in_seq in Hi.
    pose proof (ceil_piece size (maxc / ne) i Hs ltac:(lia)). right. do 2 eexists. split; [reflexivity|]. lia.
Qed.

(** The keys of one dimension select every position once, in order. *)
Lemma dim_slices_concat maxc always ne size :
  concat (map (fun k => kpos k size) (dim_slices maxc always ne size)) = seq 0 size.
Proof.
  unfold dim_slices. destruct (Nat.leb_spec (size * ne) maxc) as [H1|H1].
  { cbn [map concat]. unfold kpos. rewrite sel_key_full, app_nil_r. auto. }
  destruct (Nat.ltb_spec maxc ne) as [H2|H2].
  - destruct always; rewrite map_map; (transitivity (concat (map (fun i => [i]) (seq 0 size))); [|apply concat_singles]); f_equal; apply map_ext_in;
      intros i Hi; apply in_seq in Hi; unfold kpos.
    + rewrite sel_key_sl by lia. replace (i + 1 - i) with 1 by lia. auto.
    + simpl. rewrite norm_int_nat by lia. auto.
  - pose proof (step_pos _ _ _ H1 H2) as Hs. rewrite map_map.
    transitivity (seq 0 (Nat.min ((size + maxc / ne - 1) / (maxc / ne) * (maxc / ne)) size)).
    + rewrite <- step_pieces. f_equal. apply map_ext_in. intros i Hi. apply in_seq in Hi.
      pose proof (ceil_piece size (maxc / ne) i Hs ltac:(lia)).
      unfold kpos. rewrite sel_key_sl by lia. auto.
    + f_equal. pose proof (ceil_cover size (maxc / ne) Hs). lia.
Qed.

Lemma dim_slices_valid maxc always ne size : Forall (fun k => is_new k = false /\ exists d, sel_key k size = Some d /\ d <> DNew)
  (dim_slices maxc always ne size).
Proof.
  destruct always.
  - eapply Forall_impl; [|apply dim_slices_chunk]. intros k Hk.
    destruct (chunk_key_sel _ _ Hk) as (a & len & E & _). split.
    + destruct Hk as [->|(?&?&->&_)]; auto.
    + eexists; split; eauto. discriminate.
  - unfold dim_slices. destruct (Nat.leb_spec (size * ne) maxc) as [H1|H1].
    { constructor; auto. split; auto. rewrite sel_key_full. eexists; split; eauto. discriminate. }
    destruct (Nat.ltb_spec maxc ne) as [H2|H2]; apply Forall_forall; intros k Hk;
      apply in_map_iff in Hk as (i & <- & Hi); apply in_seq in Hi; (split; [auto|]).
    + simpl. rewrite norm_int_nat by lia. eexists; split; eauto. discriminate.
    + pose proof (step_pos _ _ _ H1 H2) as Hs. pose proof (ceil_piece size (maxc / ne) i Hs ltac:(lia)).
      rewrite sel_key_sl by lia. eexists; split; eauto. discriminate.
Qed.

(** *** All dimensions *)

Lemma all_slices_aux_snd maxc al sh : snd (all_slices_aux maxc al sh) = prodn sh.
Proof. induction sh as [|n sh IH]; auto. simpl. destruct (all_slices_aux maxc al sh). simpl in *. subst. lia. Qed.
Lemma all_slices_cons maxc al n sh :
  all_slices maxc al (n :: sh) = dim_slices maxc al (prodn sh) n :: all_slices maxc al sh.
Proof. unfold all_slices. simpl. rewrite <- (all_slices_aux_snd maxc al sh). destruct (all_slices_aux maxc al sh). auto. Qed.
Lemma all_slices_nil maxc al : all_slices maxc al [] = [].
Proof. auto. Qed.
Lemma all_slices_length maxc al sh : length (all_slices maxc al sh) = length sh.
Proof. induction sh; auto. rewrite all_slices_cons. simpl. auto. Qed.
Lemma all_slices_nth maxc al sh i : i < length sh ->
  nth i (all_slices maxc al sh) [] = dim_slices maxc al (prodn (skipn (S i) sh)) (nth i sh 0).
Proof.
  revert i; induction sh as [|n sh IH]; intros i Hi; simpl in Hi; [lia|]. rewrite all_slices_cons.
  destruct i; auto. simpl nth. rewrite IH by lia. auto.
Qed.

(** A list of cuts (one list of keys per dimension) for a shape. *)
Definition cuts_ok (cuts : list (list key)) (sh : list nat) : Prop :=
  Forall2 (fun ks n => concat (map (fun k => kpos k n) ks) = seq 0 n
                       /\ Forall (fun k => is_new k = false /\ exists d, sel_key k n = Some d /\ d <> DNew) ks) cuts sh.

Lemma all_slices_ok maxc al sh : cuts_ok (all_slices maxc al sh) sh.
Proof.
  induction sh as [|n sh IH]; [constructor|]. rewrite all_slices_cons. constructor; auto. split.
  - apply dim_slices_concat.
  - apply dim_slices_valid.
Qed.

(** A selection covers a position. *)
Definition in_sel (s : list dsel) (idx : list nat) : bool :=
  match sel_pos s idx with Some _ => true | None => false end.

(** [covers sh idx keys]: the element at [idx] of an array of shape [sh] is among
    those selected by [keys]. *)
Definition covers (sh idx : list nat) (keys : list key) : bool :=
  match oselect keys sh with Some s => in_sel s idx | None => false end.

Definition dhit (d : dsel) (x : nat) : bool :=
  match d with DPt i => x =? i | DLs l => existsb (Nat.eqb x) l | DNew => false end.

Lemma index_of_existsb x l : (match index_of x l with Some _ => true | None => false end) = existsb (Nat.eqb x) l.
Proof.
  destruct (index_of x l) as [i|] eqn:E.
  - apply index_of_Some in E as [E1 E2]. symmetry. apply existsb_exists. exists x. split; [|apply Nat.eqb_refl].
    rewrite <- E2. apply nth_In; auto.
  - apply index_of_None in E. symmetry. apply existsb_false_Forall. apply Forall_forall. intros y Hy.
    apply Nat.eqb_neq. intros ->. auto.
Qed.

Lemma in_sel_nth s idx : length s = length idx -> Forall (fun d => d <> DNew) s ->
  (in_sel s idx = true <-> forall i, i < length s -> dhit (nth i s DNew) (nth i idx 0) = true).
Proof.
  unfold in_sel. revert idx; induction s as [|d s IH]; intros [|x idx] HL HF; simpl in HL; try lia.
  - simpl. split; auto. intros; lia.
  - inversion HF; subst. specialize (IH idx ltac:(lia) H2). simpl length.
    assert (Hd : (exists o, sel_pos (d :: s) (x :: idx) = Some o) <->
                 (dhit d x = true /\ exists o, sel_pos s idx = Some o)).
    { destruct d as [i|l|]; [| |congruence]; simpl.
      - destruct (x =? i); split; intros H; try (destruct H as [? H]; discriminate); destruct H; eauto.
      - pose proof (index_of_existsb x l) as E. destruct (index_of x l); rewrite <- E.
        + split; intros H.
          * destruct H as [o H]. destruct (sel_pos s idx); [eauto|discriminate].
          * destruct H as [_ [o ->]]. eauto.
        + split; intros H; destruct H as [HA HB]; discriminate. }
    split; intros H.
    + intros i Hi. assert (dhit d x = true /\ exists o, sel_pos s idx = Some o) as [A [o Ho]].
      { apply Hd. destruct (sel_pos (d :: s) (x :: idx)); [eauto|discriminate]. }
      rewrite Ho in IH. destruct i; auto. simpl. apply IH; auto. lia.
    + assert (exists o, sel_pos (d :: s) (x :: idx) = Some o) as [o ->]; auto.
      apply Hd. split; [apply (H 0); lia|].
      destruct (sel_pos s idx) eqn:E; [eauto|]. exfalso.
      assert (false = true); [|discriminate]. apply IH. intros i Hi. apply (H (S i)). lia.
Qed.

Lemma dhit_kpos k n d x : sel_key k n = Some d -> d <> DNew -> dhit d x = true <-> In x (kpos k n).
Proof.
  intros E Hd. unfold kpos. rewrite E. destruct d; simpl; [| |congruence].
  - rewrite Nat.eqb_eq. split; intros H; [auto|destruct H as [H|[]]; auto].
  - rewrite existsb_exists. split.
    + intros (y & Hy & Exy). apply Nat.eqb_eq in Exy. subst; auto.
    + intros H. exists x. split; auto. apply Nat.eqb_refl.
Qed.

(** A list of lists whose concatenation has no repetition: an element sits in
    exactly one of them. *)
Lemma concat_unique {A} (ls : list (list A)) x : NoDup (concat ls) -> In x (concat ls) ->
  exists j, j < length ls /\ In x (nth j ls []) /\ forall j', j' < length ls -> In x (nth j' ls []) -> j' = j.
Proof.
  induction ls as [|l ls IH]; intros HN HI; [destruct HI|]. simpl in *.
  assert (HD : forall y, In y l -> ~ In y (concat ls)).
  { intros y H1 H2. clear -HN H1 H2. induction l as [|z l IHl]; [destruct H1|]. simpl in HN. inversion HN; subst.
    destruct H1 as [->|H1]; auto. apply H3. apply in_app_iff. auto. }
  assert (HN2 : NoDup (concat ls)). { clear -HN. induction l; auto. apply IHl. simpl in HN. inversion HN; auto. }
  apply in_app_iff in HI as [HI|HI].
  - exists 0. split; [lia|]. split; auto. intros [|j'] Hj Hx; auto. exfalso. apply (HD x HI).
    apply in_concat. exists (nth j' ls []). split; auto. apply nth_In. lia.
  - destruct (IH HN2 HI) as (j & H1 & H2 & H3). exists (S j). split; [lia|]. split; auto.
    intros [|j'] Hj Hx. { exfalso. apply (HD x); auto. } f_equal. apply H3; auto. lia.
Qed.

Lemma cuts_unique cuts sh : cuts_ok cuts sh -> forall i x, i < length sh -> x < nth i sh 0 ->
  exists j, j < length (nth i cuts []) /\ In x (kpos (nth j (nth i cuts []) KBad) (nth i sh 0))
   /\ forall j', j' < length (nth i cuts []) -> In x (kpos (nth j' (nth i cuts []) KBad) (nth i sh 0)) -> j' = j.
Proof.
  intros HC i x Hi Hx. pose proof (Forall2_length _ _ _ HC) as HL.
  eapply (Forall2_nth _ cuts sh [] 0 i) in HC; [|lia]. destruct HC as [E _].
  destruct (concat_unique (map (fun k => kpos k (nth i sh 0)) (nth i cuts [])) x) as (j & H1 & H2 & H3).
  - rewrite E. apply seq_NoDup.
  - rewrite E. apply in_seq. lia.
  - rewrite map_length in *. exists j. split; auto. rewrite (nth_map _ _ _ _ KBad) in H2 by auto. split; auto.
    intros j' Hj' Hx'. apply H3; auto. rewrite (nth_map _ _ _ _ KBad) by auto. auto.
Qed.

(** Key tuples drawn from the cuts. *)
Lemma drawn_sel cuts sh (ks : list key) : cuts_ok cuts sh -> length ks = length sh ->
  (forall i, i < length sh -> In (nth i ks KBad) (nth i cuts [])) ->
  nonew ks /\ exists s, sel_keys ks sh = Some s /\ oselect ks sh = Some s /\ length s = length sh
    /\ Forall (fun d => d <> DNew) s
    /\ forall i, i < length sh -> sel_key (nth i ks KBad) (nth i sh 0) = Some (nth i s DNew).
Proof.
  intros HC HL HI. pose proof (Forall2_length _ _ _ HC) as HLc.
  assert (HV : forall i, i < length sh -> is_new (nth i ks KBad) = false
            /\ exists d, sel_key (nth i ks KBad) (nth i sh 0) = Some d /\ d <> DNew).
  { intros i Hi. eapply (Forall2_nth _ cuts sh [] 0 i) in HC; [|lia]. destruct HC as [_ F].
    rewrite Forall_forall in F. apply F. auto. }
  assert (HN : nonew ks).
  { apply existsb_false_Forall. apply Forall_forall. intros k Hk. apply (In_nth _ _ KBad) in Hk as (i & Hi & <-).
    apply HV. lia. }
  split; auto.
  set (s := map (fun i => match sel_key (nth i ks KBad) (nth i sh 0) with Some d => d | None => DNew end) (seq 0 (length sh))).
  assert (Hs : forall i, i < length sh -> sel_key (nth i ks KBad) (nth i sh 0) = Some (nth i s DNew)).
  { intros i Hi. unfold s. rewrite (nth_map_seq (fun i => match sel_key (nth i ks KBad) (nth i sh 0) with Some d => d | None => DNew end)) by auto.
    destruct (HV i Hi) as [_ (d & E & _)]. rewrite E. auto. }
  assert (HLs : length s = length sh) by (unfold s; rewrite map_length, seq_length; auto).
  assert (E : sel_keys ks sh = Some s) by (apply sel_keys_nth; auto).
  exists s. split; auto. split; [rewrite oselect_full; auto; apply sel_keys_fullk in E; auto|]. split; auto. split; auto.
  apply Forall_forall. intros d Hd. apply (In_nth _ _ DNew) in Hd as (i & Hi & <-).
  destruct (HV i ltac:(lia)) as [_ (d & E1 & E2)]. rewrite Hs in E1 by lia. congruence.
Qed.

Lemma NoDup_app_disj {A} (l r : list A) : NoDup l -> NoDup r -> (forall x, In x l -> ~ In x r) -> NoDup (l ++ r).
Proof.
  induction 1 as [|x l Hx HN IH]; simpl; auto. intros Hr Hd. constructor.
  - rewrite in_app_iff. intros [H|H]; auto. apply (Hd x); auto.
  - apply IH; auto.
Qed.

Lemma NoDup_ndindex sh : NoDup (ndindex sh).
Proof.
  induction sh as [|n sh IH]; [repeat constructor; auto|]. simpl. generalize (seq_NoDup n 0).
  generalize (seq 0 n) as l. intros l HN. induction HN as [|x l Hx HN IHl]; simpl; [constructor|].
  apply NoDup_app_disj; auto.
  - apply NoDup_map_inj; auto. congruence.
  - intros y Hy Hy2. apply in_map_iff in Hy as (o & <- & _). apply in_flat_map in Hy2 as (x' & H1 & H2).
    apply in_map_iff in H2 as (o' & E & _). injection E as -> _. auto.
Qed.

Lemma count_one {A} (p : A -> bool) l x0 : NoDup l -> In x0 l -> (forall x, In x l -> p x = true <-> x = x0) -> count_if p l = 1.
Proof.
  induction 1 as [|y l Hy HN IH]; intros HI HP; [destruct HI|]. rewrite count_if_cons.
  destruct HI as [->|HI].
  - replace (p x0) with true by (symmetry; apply HP; simpl; auto).
    replace (count_if p l) with 0; auto. symmetry. apply count_if_0. apply existsb_false_Forall. apply Forall_forall.
    intros z Hz. destruct (p z) eqn:E; auto. apply HP in E; [|simpl; auto]. subst. contradiction.
  - rewrite IH; auto. + destruct (p y) eqn:E; auto. apply HP in E; [|simpl; auto]. subst; contradiction.
    + intros z Hz. apply HP. simpl; auto.
Qed.

(** *** Keys in a given iteration order *)

Lemma pick_nth {A} (d : A) cuts idx p : length idx = length cuts -> p < length cuts ->
  nth p (pick d cuts idx) d = nth (nth p idx 0) (nth p cuts []) d.
Proof.
  revert idx p; induction cuts as [|c cuts IH]; intros [|i idx] p HL Hp; simpl in *; try lia.
  destruct p; auto. apply IH; lia.
Qed.
Lemma pick_length {A} (d : A) cuts idx : length idx = length cuts -> length (pick d cuts idx) = length cuts.
Proof. revert idx; induction cuts as [|c cuts IH]; intros [|i idx] HL; simpl in *; try lia. rewrite IH; lia. Qed.

Definition pos_in (order : list nat) (d : nat) : nat := match index_of d order with Some p => p | None => 0 end.

Lemma pos_in_ok order n d : perm order n -> d < n -> pos_in order d < n /\ nth (pos_in order d) order 0 = d.
Proof.
  intros HP Hd. unfold pos_in. destruct (index_of_In d order (perm_In _ _ _ HP Hd)) as [p E]. rewrite E.
  apply index_of_Some in E. destruct HP as (<- & _). auto.
Qed.

(** One key tuple of [gen_keys], per dimension. *)
Definition key_at (cuts : list (list key)) (order : list nat) (ci : list nat) : list key :=
  map (fun d => nth (nth (pos_in order d) ci 0) (nth d cuts []) KBad) (seq 0 (length cuts)).

Lemma gen_keys_eq cuts order : perm order (length cuts) ->
  gen_keys cuts order = map (key_at cuts order) (ndindex (map (fun i => length (nth i cuts (@nil key))) order)).
Proof.
  intros HP. pose proof HP as (HL & HN & HF). unfold gen_keys. rewrite map_map.
  apply map_ext_in. intros ci Hci. apply ndindex_In in Hci. apply inb_length in Hci. rewrite map_length in Hci.
  unfold inverse_order. rewrite map_map. unfold key_at. rewrite HL. apply map_ext_in. intros d Hd. apply in_seq in Hd.
  fold (pos_in order d). destruct (pos_in_ok order (length cuts) d HP ltac:(lia)) as [H1 H2].
  rewrite pick_nth by (rewrite map_length; lia). f_equal. rewrite (nth_map _ _ _ _ 0) by lia. rewrite H2. auto.
Qed.

Lemma key_at_length cuts order ci : length (key_at cuts order ci) = length cuts.
Proof. unfold key_at. rewrite map_length, seq_length. auto. Qed.
Lemma key_at_nth cuts order ci i : i < length cuts ->
  nth i (key_at cuts order ci) KBad = nth (nth (pos_in order i) ci 0) (nth i cuts []) KBad.
Proof. intros H. unfold key_at. rewrite (nth_map_seq (fun d => nth (nth (pos_in order d) ci 0) (nth d cuts []) KBad)) by auto. auto. Qed.

Lemma key_at_in cuts order ci i : perm order (length cuts) ->
  inb (map (fun i => length (nth i cuts (@nil key))) order) ci -> i < length cuts ->
  nth (pos_in order i) ci 0 < length (nth i cuts (@nil key)).
Proof.
  intros HP Hci Hi. destruct (pos_in_ok order _ i HP Hi) as [H1 H2]. destruct HP as (HL & _).
  pose proof (inb_nth _ _ (pos_in order i) Hci) as H. rewrite map_length in H. specialize (H ltac:(lia)).
  rewrite (nth_map _ _ _ _ 0) in H by lia. rewrite H2 in H. auto.
Qed.

(** Every drawn key, whatever the order, takes one cut per dimension. *)
Lemma gen_keys_In cuts order k : perm order (length cuts) -> In k (gen_keys cuts order) ->
  length k = length cuts /\ forall i, i < length cuts -> In (nth i k KBad) (nth i cuts []).
Proof.
  intros HP H. rewrite gen_keys_eq in H by auto. apply in_map_iff in H as (ci & <- & Hci). apply ndindex_In in Hci.
  split; [apply key_at_length|]. intros i Hi. rewrite key_at_nth by auto. apply nth_In. apply key_at_in; auto.
Qed.

Lemma gen_keys_cover cuts sh order idx : cuts_ok cuts sh -> perm order (length sh) -> inb sh idx ->
  count_if (covers sh idx) (gen_keys cuts order) = 1.
Proof.
  intros HC HP Hidx. pose proof (Forall2_length _ _ _ HC) as HLc. rewrite <- HLc in HP.
  pose proof HP as (HLo & HNo & HFo). pose proof (inb_length _ _ Hidx) as HLi.
  (* the index of the cut holding idx, per dimension *)
  assert (HJ : exists js, length js = length cuts /\ forall i, i < length cuts ->
      nth i js 0 < length (nth i cuts []) /\ In (nth i idx 0) (kpos (nth (nth i js 0) (nth i cuts []) KBad) (nth i sh 0))
      /\ forall j', j' < length (nth i cuts []) -> In (nth i idx 0) (kpos (nth j' (nth i cuts []) KBad) (nth i sh 0)) -> j' = nth i js 0).
  { clear HP HLo HNo HFo. assert (H : forall n, n <= length cuts -> exists js, length js = n /\ forall i, i < n ->
      nth i js 0 < length (nth i cuts []) /\ In (nth i idx 0) (kpos (nth (nth i js 0) (nth i cuts []) KBad) (nth i sh 0))
      /\ forall j', j' < length (nth i cuts []) -> In (nth i idx 0) (kpos (nth j' (nth i cuts []) KBad) (nth i sh 0)) -> j' = nth i js 0).
    { induction n as [|n IH]; intros Hn. { exists []. split; auto. intros; lia. }
      destruct (IH ltac:(lia)) as (js & HLj & Hj).
      destruct (cuts_unique _ _ HC n (nth n idx 0) ltac:(lia) ltac:(apply inb_nth; auto; lia)) as (j & A1 & A2 & A3).
      exists (js ++ [j]). split; [rewrite app_length; simpl; lia|]. intros i Hi.
      destruct (Nat.eq_dec i n) as [->|N].
      - rewrite app_nth2 by lia. replace (n - length js) with 0 by lia. simpl. auto.
      - rewrite app_nth1 by lia. apply Hj. lia. }
    apply H; auto. }
  destruct HJ as (js & HLj & HJ).
  rewrite gen_keys_eq by auto. rewrite count_if_map.
  set (ci0 := map (fun d => nth d js 0) order).
  assert (Hci0 : inb (map (fun i => length (nth i cuts (@nil key))) order) ci0).
  { apply inb_ext; unfold ci0; rewrite !map_length; auto. intros p Hp. rewrite !(nth_map _ _ _ _ 0) by auto.
    apply HJ. rewrite Forall_forall in HFo. apply HFo. apply nth_In; auto. }
  apply (count_one _ _ ci0).
  - apply NoDup_ndindex.
  - apply ndindex_In. auto.
  - intros ci Hci. apply ndindex_In in Hci. pose proof (inb_length _ _ Hci) as HLci. rewrite map_length in HLci.
    set (k := key_at cuts order ci).
    assert (Hk : forall i, i < length sh -> In (nth i k KBad) (nth i cuts [])).
    { intros i Hi. unfold k. rewrite key_at_nth by lia. apply nth_In. apply key_at_in; auto. lia. }
    destruct (drawn_sel cuts sh k HC) as (HN & s & E1 & E2 & E3 & E4 & E5); auto.
    { unfold k. rewrite key_at_length. auto. }
    unfold covers. rewrite E2. rewrite in_sel_nth by (auto; lia).
    assert (HD : forall i, i < length sh -> (dhit (nth i s DNew) (nth i idx 0) = true <->
                 nth (pos_in order i) ci 0 = nth i js 0)).
    { intros i Hi. rewrite (dhit_kpos _ _ _ _ (E5 i Hi)).
      - unfold k. rewrite key_at_nth by lia. destruct (HJ i ltac:(lia)) as (B1 & B2 & B3). split.
        + intros H. apply B3; auto. apply key_at_in; auto. lia.
        + intros ->. auto.
      - rewrite Forall_forall in E4. apply E4. apply nth_In. lia. }
    split.
    + intros H. apply (nth_ext _ _ 0 0).
      { unfold ci0. rewrite map_length. auto. }
      intros p Hp. unfold ci0. rewrite (nth_map _ _ _ _ 0) by lia.
      set (d := nth p order 0). assert (Hd : d < length cuts).
      { rewrite Forall_forall in HFo. apply HFo. apply nth_In. lia. }
      rewrite <- (proj1 (HD d ltac:(lia)) (H d ltac:(lia))). f_equal.
      unfold pos_in, d. rewrite index_of_nth by (auto; lia). auto.
    + intros -> i Hi. rewrite E3 in Hi. apply HD; auto. destruct (pos_in_ok order _ i HP ltac:(lia)) as [P1 P2].
      unfold ci0. rewrite (nth_map _ _ _ _ 0) by lia. rewrite P2. auto.
Qed.

(** *** Keys visited by save *)

Lemma key_at_id cuts ci : inb (map (@length key) cuts) ci -> key_at cuts (seq 0 (length cuts)) ci = pick KBad cuts ci.
Proof.
  intros Hci. pose proof (inb_length _ _ Hci) as HL. rewrite map_length in HL.
  apply (nth_ext _ _ KBad KBad).
  - rewrite key_at_length, pick_length; auto.
  - intros i Hi. rewrite key_at_length in Hi. rewrite key_at_nth, pick_nth by auto. unfold pos_in.
    rewrite index_of_seq by auto. auto.
Qed.

Lemma perm_seq n : perm (seq 0 n) n.
Proof. split; [apply seq_length|]. split; [apply seq_NoDup|]. apply Forall_forall. intros x Hx. apply in_seq in Hx. lia. Qed.

Lemma save_keys_gen maxc sh : save_keys maxc sh = gen_keys (all_slices maxc false sh) (seq 0 (length sh)).
Proof.
  unfold save_keys. rewrite <- (all_slices_length maxc false sh).
  rewrite gen_keys_eq by apply perm_seq.
  assert (E : map (fun i => length (nth i (all_slices maxc false sh) [])) (seq 0 (length (all_slices maxc false sh)))
              = map (@length key) (all_slices maxc false sh)).
  { apply (nth_ext _ _ 0 0); rewrite !map_length, seq_length; auto. intros i Hi.
    rewrite (nth_map_seq (fun i => length (nth i (all_slices maxc false sh) []))) by auto. rewrite (nth_map _ _ _ _ []) by auto. auto. }
  rewrite E. apply map_ext_in. intros ci Hci. apply ndindex_In in Hci. symmetry. apply key_at_id. auto.
Qed.

Theorem chunks_cover maxc sh order idx : perm order (length sh) -> inb sh idx ->
  count_if (covers sh idx) (chunk_index_gen maxc sh order) = 1.
Proof. intros. apply gen_keys_cover; auto. apply all_slices_ok. Qed.

Theorem save_cover maxc sh idx : inb sh idx -> count_if (covers sh idx) (save_keys maxc sh) = 1.
Proof. intros. rewrite save_keys_gen. apply gen_keys_cover; auto. apply all_slices_ok. apply perm_seq. Qed.

(** *** Size of a chunk *)

Definition dlen (d : dsel) : nat := match d with DLs l => length l | _ => 1 end.
Lemma prodn_sel_shape s : prodn (sel_shape s) = prodn (map dlen s).
Proof. induction s as [|[]]; simpl; lia. Qed.

Lemma dim_slices_size maxc al ne n k d : 1 <= maxc -> In k (dim_slices maxc al ne n) -> sel_key k n = Some d ->
  forall P, P <= maxc -> P <= ne -> dlen d * P <= maxc /\ dlen d * P <= n * ne.
Proof.
  intros Hm Hk Hd P HP1 HP2. unfold dim_slices in Hk. destruct (Nat.leb_spec (n * ne) maxc) as [H1|H1].
  { destruct Hk as [<-|[]]. rewrite sel_key_full in Hd. injection Hd as <-. simpl. rewrite seq_length. nia. }
  destruct (Nat.ltb_spec maxc ne) as [H2|H2].
  - assert (dlen d = 1 /\ 1 <= n) as [-> Hn]; [|nia].
    destruct al; apply in_map_iff in Hk as (i & <- & Hi); apply in_seq in Hi.
    + rewrite sel_key_sl in Hd by lia. injection Hd as <-. simpl. rewrite seq_length. lia.
    + simpl in Hd. destruct (norm_int (Z.of_nat i) n); [|discriminate]. injection Hd as <-. simpl. lia.
  - apply in_map_iff in Hk as (i & <- & Hi); apply in_seq in Hi. pose proof (step_pos _ _ _ H1 H2) as Hs.
    pose proof (ceil_piece n (maxc / ne) i Hs ltac:(lia)). rewrite sel_key_sl in Hd by lia. injection Hd as <-. simpl.
    rewrite seq_length. assert (ne * (maxc / ne) <= maxc) by (apply Nat.mul_div_le; lia).
    set (st := maxc / ne) in *. assert (Nat.min (i * st + st) n - i * st <= st) by lia.
    assert (Nat.min (i * st + st) n - i * st <= n) by lia. nia.
Qed.

Lemma drawn_size maxc al sh : 1 <= maxc -> forall ks s, length ks = length sh -> nonew ks ->
  (forall i, i < length sh -> In (nth i ks KBad) (nth i (all_slices maxc al sh) [])) ->
  sel_keys ks sh = Some s -> prodn (sel_shape s) <= maxc /\ prodn (sel_shape s) <= prodn sh.
Proof.
  intros Hm. induction sh as [|n sh IH]; intros [|k ks] s HL HN HI HS; simpl in HL; try lia.
  - simpl in HS. injection HS as <-. simpl. lia.
  - apply nonew_cons in HN as [HN1 HN2]. rewrite sel_keys_cons_eq in HS by auto.
    destruct (sel_key k n) as [d|] eqn:Ed; [|discriminate]. destruct (sel_keys ks sh) as [r|] eqn:Er; [|discriminate].
    injection HS as <-. rewrite all_slices_cons in HI.
    destruct (IH ks r ltac:(lia) HN2) as [B1 B2]; auto.
    { intros i Hi. apply (HI (S i)). simpl. lia. }
    rewrite prodn_sel_shape in *. cbn [map]. change (prodn (dlen d :: map dlen r)) with (dlen d * prodn (map dlen r)).
    change (prodn (n :: sh)) with (n * prodn sh).
    eapply dim_slices_size; eauto. apply (HI 0). simpl. lia.
Qed.

Theorem chunk_size maxc sh order k s : 1 <= maxc -> perm order (length sh) ->
  In k (chunk_index_gen maxc sh order) -> oselect k sh = Some s -> prodn (sel_shape s) <= maxc.
Proof.
  intros Hm HP Hk Hs. rewrite <- (all_slices_length maxc true sh) in HP.
  destruct (gen_keys_In _ _ _ HP Hk) as [HL HI]. rewrite all_slices_length in *.
  destruct (drawn_sel _ sh k (all_slices_ok maxc true sh) HL HI) as (HN & s' & E1 & E2 & _).
  rewrite E2 in Hs. injection Hs as ->. eapply (drawn_size maxc true sh Hm); eauto.
Qed.

Theorem save_size maxc sh k s : 1 <= maxc -> In k (save_keys maxc sh) -> oselect k sh = Some s ->
  prodn (sel_shape s) <= maxc.
Proof.
  intros Hm Hk Hs. rewrite save_keys_gen in Hk.
  assert (HP : perm (seq 0 (length sh)) (length (all_slices maxc false sh))) by (rewrite all_slices_length; apply perm_seq).
  destruct (gen_keys_In _ _ _ HP Hk) as [HL HI]. rewrite all_slices_length in *.
  destruct (drawn_sel _ sh k (all_slices_ok maxc false sh) HL HI) as (HN & s' & E1 & E2 & _).
  rewrite E2 in Hs. injection Hs as ->. eapply (drawn_size maxc false sh Hm); eauto.
Qed.

(** Every chunk key is valid. *)
Theorem chunk_valid maxc sh order k : perm order (length sh) -> In k (chunk_index_gen maxc sh order) -> valid_keys k sh.
Proof.
  intros HP Hk. rewrite <- (all_slices_length maxc true sh) in HP.
  destruct (gen_keys_In _ _ _ HP Hk) as [HL HI]. rewrite all_slices_length in *.
  destruct (drawn_sel _ sh k (all_slices_ok maxc true sh) HL HI) as (HN & s' & E1 & E2 & _).
  unfold valid_keys. congruence.
Qed.
