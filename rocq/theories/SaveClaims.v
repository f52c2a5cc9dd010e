(** SaveClaims: [save] writes the realised array into its target. *)
From Verif Require Import Base PySlice Keys NDArray Arrays Chunks Handlers Realise Spec Supported Lib SelLemmas KeyLemmas GetBase GetStack GetItem ChunkLemmas AssignLemmas HandlerLemmas Realisable RealiseOK IndexClaims ChunkClaims.
From Coq Require Import Permutation.

Lemma dim_slices_plain maxc al ne n k : In k (dim_slices maxc al ne n) -> plain_key k = true.
Proof.
  unfold dim_slices. destruct (_ <=? _); [intros [<-|[]]; reflexivity|].
  destruct (_ <? _); [destruct al|]; intros H; apply in_map_iff in H as (i & <- & _); reflexivity.
Qed.

Lemma save_key_ok maxc sh k : In k (save_keys maxc sh) ->
  exists s, oselect k sh = Some s /\ assign_sels k sh = Ok s.
Proof.
  intros Hk. rewrite save_keys_gen in Hk.
  assert (HP : perm (seq 0 (length sh)) (length (all_slices maxc false sh))) by (rewrite all_slices_length; apply perm_seq).
  destruct (gen_keys_In _ _ _ HP Hk) as [HL HI]. rewrite all_slices_length in *.
  destruct (drawn_sel _ sh k (all_slices_ok maxc false sh) HL HI) as (HN & s & E1 & E2 & _). exists s. split; auto.
  apply assign_sels_ok; auto. apply forallb_forall. intros x Hx. destruct (In_nth _ _ KBad Hx) as (i & Hi & <-).
  specialize (HI i ltac:(lia)). rewrite all_slices_nth in HI by lia. eapply dim_slices_plain; eauto.
Qed.

Section Save.
Context {V : Type} (O : numops V).
Notation cell := (option V).
Notation barr := (@barr V).
Variable maxc : nat.
Variable garbage : list nat -> cell.
Variable m : bool.
Variable HG : @agg V -> nat -> Prop.
Hypothesis HR : forall g, handler_right O m g (HG g).

Lemma save_claim fuel a g : wf a ->
  (forall k, In k (save_keys maxc (shape a)) -> supported a k
     /\ forall b, getitem a k = Ok b -> realisable maxc m HG fuel b) ->
  exists ws r, save_writes O maxc garbage fuel m a = Ok ws /\ save O maxc garbage fuel m a (mkND (shape a) g) = Ok r
    /\ nd_eq r (den O m a)
    /\ Permutation (flat_map (fun w => positions (shape a) (fst w)) ws) (ndindex (shape a)).
Proof.
  intros Hw HS.
  assert (HW : forall ks, (forall k, In k ks -> In k (save_keys maxc (shape a))) -> exists ws,
    mapM (fun k => b <- getitem a k ;; d <- realise O maxc garbage fuel m b ;; Ok (k, d)) ks = Ok ws
    /\ map fst ws = ks
    /\ Forall (fun w => exists s, assign_sels (fst w) (shape a) = Ok s /\ nd_eq (snd w) (nd_sel (den O m a) s)) ws).
  { induction ks as [|k ks IH]; intros HI; [exists []; simpl; auto|].
    destruct (IH ltac:(intros; apply HI; simpl; auto)) as (ws & E & F & G).
    assert (Hk : In k (save_keys maxc (shape a))) by (apply HI; simpl; auto).
    destruct (save_key_ok _ _ _ Hk) as (s & S1 & S2). destruct (HS k Hk) as [H1 H2].
    assert (HV : valid_keys k (shape a)) by (unfold valid_keys; congruence).
    destruct (getitem_ok O a k Hw HV H1) as (b & Eb & Wb & Db & _).
    destruct (realise_ok O maxc garbage m HG HR fuel b Wb (H2 b Eb)) as (d & Ed & Dd).
    exists ((k, d) :: ws). cbn [mapM]. rewrite Eb. cbn [bind]. rewrite Ed. cbn [bind]. rewrite E. split; auto. split; [simpl; congruence|].
    constructor; auto. exists s. split; auto. cbn [fst snd]. eapply nd_eq_trans; [exact Dd|]. eapply nd_eq_trans; [apply Db|].
    unfold oindex. rewrite den_shape by auto. rewrite S1. apply nd_eq_refl. }
  destruct (HW (save_keys maxc (shape a)) ltac:(auto)) as (ws & E & F & G). exists ws.
  unfold save, save_writes. rewrite E. cbn [bind].
  destruct (setitems_cover (den O m a) (shape a) g ws) as (r & Er & Dr); auto.
  - apply den_shape; auto.
  - intros idx Hi. pose proof (save_cover maxc (shape a) idx Hi) as HC. unfold count_if in HC.
    destruct (filter (covers (shape a) idx) (save_keys maxc (shape a))) as [|k l] eqn:Ef; [discriminate|].
    assert (Hk : In k (filter (covers (shape a) idx) (save_keys maxc (shape a)))) by (rewrite Ef; simpl; auto).
    apply filter_In in Hk as [Hk Hc]. assert (Hw' := Hk). rewrite <- F in Hw'. apply in_map_iff in Hw' as (w & <- & Hw').
    destruct (save_key_ok _ _ _ Hk) as (s & S1 & S2). exists w, s. split; auto. split; auto. unfold covers in Hc. rewrite S1 in Hc. auto.
  - exists r. split; auto. split; auto. split; auto. rewrite (flat_map_concat_map (fun w => positions (shape a) (fst w))).
    rewrite <- (map_map fst (positions (shape a))), F, <- flat_map_concat_map. apply save_perm.
Qed.

Lemma save_realised fuel a g : wf a -> realisable maxc m HG fuel a ->
  (forall k, In k (save_keys maxc (shape a)) -> supported a k
     /\ forall b, getitem a k = Ok b -> realisable maxc m HG fuel b) ->
  exists ws r d, save_writes O maxc garbage fuel m a = Ok ws /\ save O maxc garbage fuel m a (mkND (shape a) g) = Ok r
    /\ realise O maxc garbage fuel m a = Ok d /\ nd_eq r d
    /\ Permutation (flat_map (fun w => positions (shape a) (fst w)) ws) (ndindex (shape a)).
Proof.
  intros Hw Hr HS. destruct (save_claim fuel a g Hw HS) as (ws & r & E1 & E2 & D & P).
  destruct (realise_ok O maxc garbage m HG HR fuel a Hw Hr) as (d & Ed & Dd). exists ws, r, d. split; auto. split; auto. split; auto.
  split; auto. eapply nd_eq_trans; [exact D|]. apply nd_eq_sym; auto.
Qed.

End Save.

Lemma positions_length sh k s : oselect k sh = Some s -> length (positions sh k) = prodn (sel_shape s).
Proof. intros E. unfold positions. rewrite E, map_length, ndindex_length. auto. Qed.
Lemma chunk_positions maxc sh order k : 1 <= maxc ->
  length order = length sh -> NoDup order -> Forall (fun i => i < length sh) order ->
  In k (chunk_index_gen maxc sh order) -> length (positions sh k) <= maxc.
Proof.
  intros Hm H1 H2 H3 Hk. assert (HP : perm order (length sh)) by (repeat split; auto).
  pose proof (chunk_valid _ _ _ _ HP Hk) as HV. unfold valid_keys in HV. destruct (oselect k sh) as [s|] eqn:E; [|congruence].
  rewrite (positions_length _ _ _ E). eapply chunk_size; eauto.
Qed.
Lemma save_positions maxc sh k : 1 <= maxc -> In k (save_keys maxc sh) -> length (positions sh k) <= maxc.
Proof.
  intros Hm Hk. destruct (save_key_ok _ _ _ Hk) as (s & S1 & S2). rewrite (positions_length _ _ _ S1). eapply save_size; eauto.
Qed.
