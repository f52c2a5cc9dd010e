(** ChunkClaims: the positions visited by a sequence of chunk keys. *)
From Verif Require Import Base PySlice Keys NDArray Arrays Chunks Spec Supported Lib SelLemmas KeyLemmas GetBase GetStack ChunkLemmas AssignLemmas StreamLemmas.
From Coq Require Import Permutation.

(** The positions (multi-indices) of an array of shape [sh] that [keys] selects,
    in the order in which the selection lists them. *)
Definition positions (sh : list nat) (keys : list key) : list (list nat) :=
  match oselect keys sh with Some s => map (sel_map s) (ndindex (sel_shape s)) | None => [] end.

Definition nodup_sel (d : dsel) : Prop := match d with DLs l => NoDup l | _ => True end.

Lemma sel_map_inj s : Forall nodup_sel s -> Forall (fun d => d <> DNew) s -> forall o o',
  inb (sel_shape s) o -> inb (sel_shape s) o' -> sel_map s o = sel_map s o' -> o = o'.
Proof.
  intros H1 H2. induction s as [|d s IH]; intros o o' Ho Ho' E.
  - apply inb_nil in Ho, Ho'. congruence.
  - inversion H1; inversion H2; subst. destruct d as [i|l|]; [| |congruence].
    + simpl in *. injection E as E. auto.
    + simpl in Ho, Ho'. apply inb_cons_inv in Ho as (i & o1 & -> & Hi & Ho). apply inb_cons_inv in Ho' as (j & o2 & -> & Hj & Ho').
      simpl in E. injection E as E1 E2. f_equal; auto. eapply NoDup_nth; eauto.
Qed.

Lemma NoDup_map_in {A B} (f : A -> B) l : NoDup l -> (forall x y, In x l -> In y l -> f x = f y -> x = y) -> NoDup (map f l).
Proof.
  induction 1 as [|x l H1 H2 IH]; intros HI; simpl; constructor.
  - intros H. apply in_map_iff in H as (y & E & Hy). assert (y = x) by (apply HI; simpl; auto). congruence.
  - apply IH. intros; apply HI; simpl; auto.
Qed.

Lemma in_sel_complete s sh o : vsel s sh -> Forall nodup_sel s -> Forall (fun d => d <> DNew) s -> inb (sel_shape s) o ->
  in_sel s (sel_map s o) = true.
Proof.
  unfold in_sel. revert sh o. induction s as [|d s IH]; intros sh o HV H1 H2 Ho; [reflexivity|].
  inversion H1; inversion H2; subst. destruct d as [i|l|]; [| |congruence].
  - simpl in *. rewrite Nat.eqb_refl. destruct sh as [|n sh]; [inversion HV|]. inversion HV; subst. eapply IH; eauto.
  - simpl in Ho. apply inb_cons_inv in Ho as (i & o1 & -> & Hi & Ho). simpl. rewrite index_of_nth by auto.
    destruct sh as [|n sh]; [inversion HV|]. inversion HV; subst. specialize (IH sh o1 ltac:(auto) ltac:(auto) ltac:(auto) Ho).
    destruct (sel_pos s (sel_map s o1)); auto.
Qed.

Lemma NoDup_concat_part {A} (ls : list (list A)) l : NoDup (concat ls) -> In l ls -> NoDup l.
Proof.
  induction ls as [|x ls IH]; intros HN []; subst; simpl in HN.
  - clear IH. revert HN. induction l as [|y l IH]; intros HN; [constructor|]. simpl in HN. inversion HN; subst. constructor; auto.
    intros Hy. apply H1. apply in_or_app. auto.
  - apply IH; auto. clear IH H l. induction x as [|y x IH]; auto. simpl in HN. inversion HN; auto.
Qed.

Lemma drawn_nodup cuts sh ks s : cuts_ok cuts sh -> length ks = length sh ->
  (forall i, i < length sh -> In (nth i ks KBad) (nth i cuts [])) -> length s = length sh ->
  (forall i, i < length sh -> sel_key (nth i ks KBad) (nth i sh 0) = Some (nth i s DNew)) -> Forall nodup_sel s.
Proof.
  intros HC HL HI Hs HK. apply Forall_forall. intros d Hd. destruct (In_nth _ _ DNew Hd) as (i & Hi & <-).
  specialize (HK i ltac:(lia)). specialize (HI i ltac:(lia)). pose proof (Forall2_length _ _ _ HC) as HLc.
  eapply (Forall2_nth _ cuts sh [] 0 i) in HC; [|lia]. destruct HC as [HC _].
  destruct (nth i s DNew) as [j|l|] eqn:E; simpl; auto.
  apply (NoDup_concat_part (map (fun k => kpos k (nth i sh 0)) (nth i cuts []))).
  - rewrite HC. apply seq_NoDup.
  - apply in_map_iff. exists (nth i ks KBad). split; auto. unfold kpos. rewrite HK. auto.
Qed.

Lemma flat_map_NoDup_count {A B} (f : A -> list B) (p : B -> A -> bool) l :
  (forall a, In a l -> NoDup (f a)) -> (forall a b, In a l -> In b (f a) -> p b a = true) ->
  (forall a b, In a l -> In b (f a) -> count_if (p b) l = 1) -> NoDup (flat_map f l).
Proof.
  induction l as [|a l IH]; intros H1 H2 H3; simpl; [constructor|].
  assert (G : forall x y : list B, NoDup x -> NoDup y -> (forall b, In b x -> ~ In b y) -> NoDup (x ++ y)).
  { clear. induction x as [|b x IH]; intros y Hx Hy Hd; auto. simpl. inversion Hx; subst. constructor.
    - intros Hb. apply in_app_or in Hb as [Hb|Hb]; [auto|]. eapply Hd; simpl; eauto.
    - apply IH; auto. intros; apply Hd; simpl; auto. }
  apply G.
  - apply H1; simpl; auto.
  - apply IH.
    + intros; apply H1; simpl; auto.
    + intros; apply H2; simpl; auto.
    + intros a' b Ha Hb. pose proof (H3 a' b (or_intror Ha) Hb) as E. unfold count_if in *. simpl in E.
      destruct (p b a) eqn:Ep; auto. simpl in E. assert (Hin : In a' (filter (p b) l)) by (apply filter_In; split; auto; apply H2; simpl; auto).
      destruct (filter (p b) l); [destruct Hin|simpl in E; lia].
  - intros b Hb Hb'. apply in_flat_map in Hb' as (a' & Ha' & Hb'). pose proof (H3 a b (or_introl eq_refl) Hb) as E.
    unfold count_if in E. simpl in E. rewrite (H2 a b) in E by (simpl; auto). simpl in E.
    assert (Hin : In a' (filter (p b) l)) by (apply filter_In; split; auto; apply H2; simpl; auto).
    destruct (filter (p b) l); [destruct Hin|simpl in E; lia].
Qed.

Lemma gen_keys_perm cuts sh order : cuts_ok cuts sh -> perm order (length sh) ->
  Permutation (flat_map (positions sh) (gen_keys cuts order)) (ndindex sh).
Proof.
  intros HC HP. pose proof (Forall2_length _ _ _ HC) as HLc.
  assert (HK : forall k, In k (gen_keys cuts order) -> exists s, oselect k sh = Some s /\ vsel s sh
             /\ Forall (fun d => d <> DNew) s /\ Forall nodup_sel s).
  { intros k Hk. assert (HP' : perm order (length cuts)) by (rewrite HLc; auto).
    destruct (gen_keys_In _ _ _ HP' Hk) as [HL HI]. rewrite HLc in HL, HI.
    destruct (drawn_sel _ sh k HC HL HI) as (HN & s & E1 & E2 & E3 & E4 & E5). exists s. split; auto. split.
    - eapply oselect_valid; eauto.
    - split; auto. eapply drawn_nodup; eauto. }
  assert (Hpos : forall k idx, In k (gen_keys cuts order) -> In idx (positions sh k) -> covers sh idx k = true /\ inb sh idx).
  { intros k idx Hk Hi. destruct (HK k Hk) as (s & Es & Vs & Ns & Ds). unfold positions in Hi. unfold covers. rewrite Es in *.
    apply in_map_iff in Hi as (o & <- & Ho). apply ndindex_In in Ho. split.
    - eapply in_sel_complete; eauto.
    - apply sel_map_inb; auto. }
  apply NoDup_Permutation.
  - apply (flat_map_NoDup_count _ (fun idx k => covers sh idx k)).
    + intros k Hk. destruct (HK k Hk) as (s & Es & Vs & Ns & Ds). unfold positions. rewrite Es. apply NoDup_map_in.
      * apply NoDup_ndindex.
      * intros x y Hx Hy. apply sel_map_inj; auto; apply ndindex_In; auto.
    + intros k idx Hk Hi. apply (Hpos k idx Hk Hi).
    + intros k idx Hk Hi. apply gen_keys_cover; auto. apply (Hpos k idx Hk Hi).
  - apply NoDup_ndindex.
  - intros idx. split; intros H.
    + apply in_flat_map in H as (k & Hk & H). apply ndindex_In. apply (Hpos k idx Hk H).
    + apply ndindex_In in H. pose proof (gen_keys_cover cuts sh order idx HC HP H) as Hc.
      destruct (filter (covers sh idx) (gen_keys cuts order)) as [|k r] eqn:Ef; [unfold count_if in Hc; rewrite Ef in Hc; discriminate|].
      assert (Hk : In k (filter (covers sh idx) (gen_keys cuts order))) by (rewrite Ef; left; auto).
      apply filter_In in Hk as [Hk Hcov]. apply in_flat_map. exists k. split; auto. unfold positions, covers in *.
      destruct (oselect k sh) as [s|]; [|discriminate]. unfold in_sel in Hcov. destruct (sel_pos s idx) as [o|] eqn:Eo; [|discriminate].
      apply sel_pos_some in Eo as [<- Ho]. apply in_map. apply ndindex_In. auto.
Qed.

Lemma chunk_perm maxc sh order : perm order (length sh) ->
  Permutation (flat_map (positions sh) (chunk_index_gen maxc sh order)) (ndindex sh).
Proof. intros. apply gen_keys_perm; auto. apply all_slices_ok. Qed.
Lemma save_perm maxc sh : Permutation (flat_map (positions sh) (save_keys maxc sh)) (ndindex sh).
Proof. rewrite save_keys_gen. apply gen_keys_perm; [apply all_slices_ok|apply perm_seq]. Qed.
