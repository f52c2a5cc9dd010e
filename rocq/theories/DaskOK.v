(** DaskOK: the graph made by the dask engine and the values of its tasks. *)
From Verif Require Import Base PySlice Keys NDArray Arrays Chunks Handlers Realise Spec Supported Lib SelLemmas KeyLemmas NewAxLemmas GetBase GetSimple GetBcast GetTrans GetStack GetMosaic GetItem ChunkLemmas AssignLemmas HandlerLemmas Realisable NumpyApply KeyGrouper GroupSpec GroupLemmas Kahn Threads ThreadSpec ThreadSem BroadcastClaims StreamLemmas RealOK Dask GroupKeys DaskKeys.
From Coq Require Import ZifyBool ZifyNat.

(** ** One group of an aggregation *)
Section OneGroup.
Context {V : Type} (O : numops V).
Notation cell := (option V).
Notation chunk := (@chunk V).

Lemma agg_run_same h axis n k sh l : forall st, forallb plain_key k = true -> Forall (@good_chunk V h axis k sh) l -> nshape st = sh ->
  agg_run h axis n (Some (k, st)) None l = Ok (Some (k, pfold h axis st l), None).
Proof.
  induction l as [|[k1 d] l IH]; intros st Hk HF Hs; auto. inversion HF as [|? ? Hc HF']; subst. cbn [agg_run]. unfold agg_step.
  pose proof Hc as (E1 & _). cbn [fst snd] in *. rewrite E1. replace (keys_eqb k k) with true by (symmetry; apply keys_eqb_eq; auto).
  pose proof (agg_process_ok _ _ _ _ _ _ Hc eq_refl) as EP. cbn [snd] in EP. rewrite EP. cbn [bind fst snd]. rewrite IH by auto. auto.
Qed.
Lemma agg_run_group h axis n k sh ch l : forallb plain_key k = true -> Forall (@good_chunk V h axis k sh) (ch :: l) ->
  agg_run h axis n None None (ch :: l) = Ok (Some (k, pfold h axis (agg_boot h axis (snd ch)) (ch :: l)), None).
Proof.
  intros Hk HF. inversion HF as [|? ? Hc HF']; subst. cbn [agg_run]. unfold agg_step. pose proof Hc as (E1 & E2 & _). rewrite E1.
  rewrite (agg_process_ok h axis k sh (agg_boot h axis (snd ch)) ch Hc E2). cbn [bind fst snd].
  rewrite (agg_run_same h axis n k sh) by auto. auto.
Qed.

Lemma group_ok m g HG (D : nd cell) cuts axis r0 (cs : list chunk) :
  handler_right O m g HG -> HG (nth axis (nshape D) 0) ->
  good_cuts cuts (nshape D) -> axis < length (nshape D) ->
  pieces_fine m g (map (fun k => length (kpos k (nth axis (nshape D) 0))) (nth axis cuts [])) ->
  In r0 (prodl (remove_at axis cuts)) -> map fst cs = map (fun c => insert_at axis c r0) (nth axis cuts []) -> Forall (chunk_of D) cs ->
  exists st, agg_run (handler_of O m g) axis (nth axis (nshape D) 0) None None cs = Ok (Some (r0, st), None)
    /\ chunk_of (mkND (remove_at axis (nshape D)) (fun o => agg_spec O m g (column D axis o)))
                (agg_finalise (handler_of O m g) (nth axis (nshape D) 0) r0 st).
Proof.
  intros HR Hg HC Hax Hpf Hr0 Hk HF.
  set (h := handler_of O m g). set (sh := nshape D) in *. set (n := nth axis sh 0) in *. set (ax := nth axis cuts []) in *.
  pose proof (good_cuts_length _ _ HC) as HLc.
  assert (HC' : good_cuts (remove_at axis cuts) (remove_at axis sh)) by (apply Forall2_remove; auto).
  assert (HLr : length (remove_at axis sh) = pred (length sh)) by (apply remove_at_length; auto).
  destruct (good_cuts_nth _ _ axis HC Hax) as (Hcat & Hck & Hne & _). fold n ax in Hcat, Hck, Hne.
  apply prodl_In in Hr0. pose proof (Forall2_length _ _ _ Hr0) as HL. rewrite remove_at_length in HL by lia.
  destruct (drawn_lists _ (remove_at axis sh) r0 HC') as (HN & Hpl & s & S1 & S2 & S3 & S4 & S5 & S6).
  { rewrite HLr. lia. }
  { intros i Hi. rewrite HLr in Hi. eapply (Forall2_nth _ _ _ KBad [] i) in Hr0; [auto|lia]. }
  assert (Hv : vsel s (remove_at axis sh)) by (eapply sel_keys_valid; eauto).
  assert (Hrk : rk s axis = axis) by (apply rk_lists; auto; lia).
  assert (Hle : axis <= length (sel_shape s)) by (destruct (sel_shape_insert s axis [] S4 ltac:(lia)) as [_ H]; lia).
  assert (S8 : Forall2 (fun c ch => nd_eq (snd ch) (nd_sel D (insert_at axis (DLs (kpos c n)) s)) /\ remove_at axis (fst ch) = r0) ax cs).
  { eapply Forall2_impl; [|apply (group_F2 _ _ _ _ _ Hk HF Hck)]. cbv beta. intros c ch (Ech & Hch & Hc).
    destruct Hch as (s' & Es' & Hs'). fold sh in Es'. rewrite Ech in Es'.
    destruct (chunk_key_sel _ _ Hc) as (a & len & Esel & _).
    rewrite (sel_keys_insert_gen _ _ s axis c (DLs (kpos c n))) in Es'; auto.
    - injection Es' as <-. split; auto. rewrite Ech. apply remove_insert. rewrite HL. lia.
    - destruct Hc as [->|(x & y & -> & _)]; auto.
    - unfold kpos. fold n. rewrite Esel. auto. }
  assert (HGG : Forall (good_chunk h axis r0 (sel_shape s)) cs).
  { apply Forall_forall. intros ch Hch. destruct (Forall2_In_r _ _ _ _ S8 Hch) as (c & Hc & (D1 & D2) & Hrm).
    destruct (sel_shape_insert s axis (kpos c n) S4 ltac:(lia)) as [Ei _]. rewrite Hrk in Ei.
    split; auto. simpl in D1. rewrite D1, Ei. split; [apply remove_insert; auto|].
    rewrite nth_insert_at by auto. eapply pieces_not_bad; [apply Hpf|]. apply in_map_iff. eauto. }
  destruct cs as [|ch0 rest] eqn:Ecs.
  { inversion S8; subst. congruence. }
  rewrite (agg_run_group h axis n r0 (sel_shape s)) by auto. eexists. split; [reflexivity|]. rewrite <- Ecs in *.
  exists s. split; [exact S1|]. cbn [agg_finalise snd fst].
  assert (Hch0 : In ch0 cs) by (rewrite Ecs; simpl; auto).
  destruct (Forall2_In_r _ _ _ _ S8 Hch0) as (c0 & Hc0 & (D1 & _) & _).
  destruct (sel_shape_insert s axis (kpos c0 n) S4 ltac:(lia)) as [Ei _]. rewrite Hrk in Ei. simpl in D1.
  assert (Hsh : nshape (pfold h axis (agg_boot h axis (snd ch0)) cs) = sel_shape s).
  { rewrite pfold_shape. unfold agg_boot. simpl. rewrite D1, Ei. apply remove_insert; auto. }
  split; [exact Hsh|]. simpl nshape. rewrite Hsh. intros o Ho. simpl. rewrite pfold_get. simpl nget.
  set (src := sel_map s o). set (f := fun i => nget D (insert_at axis i src)).
  assert (Ecol : map (fun ch => column (snd ch) axis o) cs = map (fun c => map f (kpos c n)) ax).
  { clear -S8 S4 Hrk Hle Ho S3 Hax HLr. clearbody ax.
    induction S8 as [|c ch cl chl ((A1 & A2) & _) S8 IH]; auto. simpl. f_equal; auto.
    destruct (sel_shape_insert s axis (kpos c n) S4 ltac:(lia)) as [Ei _]. rewrite Hrk in Ei. simpl in A1.
    unfold column. rewrite A1, Ei, nth_insert_at by auto. rewrite <- (map_nth_seq (kpos c n) 0) at 2. rewrite map_map.
    apply map_ext_in. intros i Hi. apply in_seq in Hi. rewrite A2.
    - simpl. rewrite <- Hrk at 2. rewrite sel_map_insert; auto; try lia. apply inb_length; auto.
    - rewrite A1, Ei. apply insert_at_inb; auto. lia. }
  rewrite Ecol. unfold column. fold sh n f.
  assert (Ecat : concat (map (fun c => map f (kpos c n)) ax) = map f (seq 0 n)).
  { rewrite <- Hcat, concat_map, map_map. auto. }
  assert (Elen : length (concat (map (fun c => map f (kpos c n)) ax)) = n) by (rewrite Ecat, map_length, seq_length; auto).
  rewrite <- Ecat. rewrite <- HR.
  - unfold run_handler. rewrite Elen. auto.
  - rewrite Elen. auto.
  - rewrite map_map. erewrite map_ext; [exact Hpf|]. intros c. apply map_length.
Qed.
End OneGroup.

(** ** Values of the tasks *)
Section Values.
Context {V : Type} (O : numops V).
Notation cell := (option V).
Notation barr := (@barr V).
Notation chunk := (list key * nd cell)%type.
Notation dtask := (dtask V).
Notation dval := (dval V).
Variable garbage : list nat -> cell.
Variable rz : barr -> res (nd cell).
Variable m : bool.
Notation run_task := (run_task O garbage rz m).

(** All tasks run one after the other. *)
Definition vstep (vals : list (res dval)) (t : dtask) : list (res dval) :=
  vals ++ [vs <- mapM (fun d => nth d vals (Err IndexError)) (deps_of t) ;; run_task t vs].
Definition geval (g : list dtask) : list (res dval) := fold_left vstep g [].
Definition val (g : list dtask) (i : nat) : res dval := nth i (geval g) (Err IndexError).
Definition topo (g : list dtask) : Prop := forall i t, nth_error g i = Some t -> Forall (fun d => d < i) (deps_of t).
Definition sound (g : list dtask) : Prop := forall i, i < length g -> exists v, val g i = Ok v.

Lemma geval_snoc g t : geval (g ++ [t]) = vstep (geval g) t.
Proof. unfold geval. rewrite fold_left_app. auto. Qed.
Lemma geval_length g : length (geval g) = length g.
Proof. induction g as [|t g IH] using rev_ind; auto. rewrite geval_snoc. unfold vstep. rewrite !app_length, IH. auto. Qed.
Lemma val_app g g' i : i < length g -> val (g ++ g') i = val g i.
Proof.
  intros Hi. induction g' as [|t g' IH] using rev_ind; [rewrite app_nil_r; auto|]. rewrite app_assoc. unfold val. rewrite geval_snoc. unfold vstep.
  rewrite app_nth1 by (rewrite geval_length, app_length; lia). exact IH.
Qed.
Lemma val_snoc g t : val (g ++ [t]) (length g) = (vs <- mapM (val g) (deps_of t) ;; run_task t vs).
Proof. unfold val at 1. rewrite geval_snoc. unfold vstep. rewrite app_nth2, geval_length, Nat.sub_diag by (rewrite geval_length; lia). auto. Qed.
Lemma mapM_ext_in {A B} (f f' : A -> res B) l : (forall x, In x l -> f x = f' x) -> mapM f l = mapM f' l.
Proof. induction l as [|x l IH]; intros H; simpl; auto. rewrite (H x (or_introl eq_refl)). destruct (f' x); simpl; auto. rewrite IH; auto. intros; apply H; simpl; auto. Qed.
Lemma val_eq g i t : topo g -> nth_error g i = Some t -> val g i = (vs <- mapM (val g) (deps_of t) ;; run_task t vs).
Proof.
  intros HT Ht. pose proof (HT i t Ht) as Hd. apply nth_error_split in Ht as (g1 & g2 & -> & <-).
  replace (g1 ++ t :: g2) with ((g1 ++ [t]) ++ g2) by (rewrite <- app_assoc; auto). rewrite val_app by (rewrite app_length; simpl; lia).
  rewrite val_snoc. rewrite Forall_forall in Hd. replace (mapM (val g1) (deps_of t)) with (mapM (val ((g1 ++ [t]) ++ g2)) (deps_of t)); auto.
  apply mapM_ext_in. intros d Hi. specialize (Hd d Hi). rewrite <- app_assoc. apply val_app; auto.
Qed.
Lemma topo_snoc g t : topo g -> Forall (fun d => d < length g) (deps_of t) -> topo (g ++ [t]).
Proof.
  intros HT Ht i t' E. destruct (Nat.lt_ge_cases i (length g)).
  - rewrite nth_error_app1 in E by auto. auto.
  - rewrite nth_error_app2 in E by auto. destruct (i - length g) as [|k] eqn:Ek; [|destruct k; discriminate]. injection E as <-. replace i with (length g) by lia. auto.
Qed.
Lemma sound_snoc g t v : sound g -> val (g ++ [t]) (length g) = Ok v -> sound (g ++ [t]).
Proof.
  intros HS Hv i Hi. rewrite app_length in Hi. simpl in Hi. destruct (Nat.eq_dec i (length g)) as [->|Hn]; [eauto|].
  destruct (HS i ltac:(lia)) as (w & Hw). exists w. rewrite val_app by lia. auto.
Qed.

(** Adding tasks that depend on earlier ones only. *)
Lemma add_tasks {X} (mk : X -> res dtask) (kk : X -> list key) (P : X -> chunk -> Prop) (c : list (option dnodes)) L : forall g acc, topo g -> sound g ->
  (forall x, In x L -> exists t vs ch, mk x = Ok t /\ Forall (fun d => d < length g) (deps_of t) /\ mapM (val g) (deps_of t) = Ok vs
                                       /\ run_task t vs = Ok (VChunk ch) /\ P x ch) ->
  exists ns g' cs,
    foldM (fun acc x => t <- mk x ;; Ok (fst acc ++ [(length (fst (snd acc)), kk x)], (fst (snd acc) ++ [t], snd (snd acc)))) (acc, (g, c)) L
    = Ok (acc ++ ns, (g ++ g', c))
    /\ topo (g ++ g') /\ sound (g ++ g') /\ Forall2 P L cs
    /\ Forall2 (fun n ch => fst n < length (g ++ g') /\ val (g ++ g') (fst n) = Ok (VChunk ch)) ns cs
    /\ map snd ns = map kk L /\ map fst ns = seq (length g) (length L).
Proof.
  induction L as [|x L IH]; intros g acc HT HS H.
  - exists [], [], []. rewrite !app_nil_r. cbn. auto 10.
  - destruct (H x (or_introl eq_refl)) as (t & vs & ch & E1 & E2 & E3 & E4 & E5). cbn [foldM]. rewrite E1. cbn [bind fst snd].
    assert (Ev : val (g ++ [t]) (length g) = Ok (VChunk ch)) by (rewrite val_snoc, E3; auto).
    assert (HT' : topo (g ++ [t])) by (apply topo_snoc; auto). assert (HS' : sound (g ++ [t])) by (eapply sound_snoc; eauto).
    destruct (IH (g ++ [t]) (acc ++ [(length g, kk x)]) HT' HS') as (ns & g' & cs & F1 & F2 & F3 & F4 & F5 & F6 & F7).
    { intros y Hy. destruct (H y (or_intror Hy)) as (t' & vs' & ch' & G1 & G2 & G3 & G4 & G5). exists t', vs', ch'. split; auto. split; [|split; [|auto]].
      - eapply Forall_impl; [|exact G2]. intros d Hd. cbv beta in Hd. rewrite app_length. lia.
      - rewrite <- G3. apply mapM_ext_in. intros d Hd. rewrite Forall_forall in G2. apply val_app; auto. }
    exists ((length g, kk x) :: ns), (t :: g'), (ch :: cs). rewrite F1.
    replace (g ++ t :: g') with ((g ++ [t]) ++ g') by (rewrite <- app_assoc; auto). rewrite <- app_assoc. split; [auto|]. split; [auto|]. split; [auto|].
    split; [constructor; auto|]. split; [|split].
    + constructor; [|exact F5]. cbn [fst]. rewrite !app_length. cbn [length]. split; [lia|]. rewrite val_app by (rewrite app_length; simpl; lia). auto.
    + cbn [map snd]. f_equal. auto.
    + cbn [map fst length seq]. rewrite F7, app_length. cbn [length]. do 2 f_equal. lia.
Qed.
End Values.

(** ** The sources of a group *)
Section Sources.
Context {V : Type} (O : numops V).
Notation cell := (option V).
Notation barr := (@barr V).
Notation chunk := (list key * nd cell)%type.
Variable limit : nat.
Variable garbage : list nat -> cell.
Variable rz : barr -> res (nd cell).
Variable m : bool.
Notation val := (val O garbage rz m).
Variable g : list (dtask V).
Variable sh : list nat.
Variable C : list (list key).
Hypothesis HC : good_cuts C sh.
Hypothesis HL : Forall (fun l => length l <= limit) C.
Variable out : list key -> list key.

(** The keys [X] of a source, as the group sees them, and its chunks. *)
Record src_ok (X : list (ktuple * nat)) (cs : list chunk) : Prop := mkSrc {
  so_nm : exists nm : bool, Forall2 (fun x ch => snd x < length g /\ val g (snd x) = Ok (VChunk ch)
             /\ fst x = if nm then nk sh (out (fst ch)) else map kslice (out (fst ch))) X cs;
  so_nodup : NoDup (map snd X);
  so_in : forall ch, In ch cs -> In (out (fst ch)) (prodl C);
  so_all : forall r, In r (prodl C) -> exists ch, In ch cs /\ out (fst ch) = r }.

Lemma src_norm X cs : src_ok X cs -> Forall2 (fun x ch => length (fst x) = length sh /\ normalize_keys (fst x) sh = nk sh (out (fst ch))) X cs.
Proof.
  intros [(nm & HF) _ Hin _]. revert Hin. induction HF as [|x ch X cs (H1 & H2 & H3) HF IH]; intros Hin; constructor.
  - destruct (prodl_drawn _ _ _ HC (Hin ch (or_introl eq_refl))) as (P1 & _). destruct x as [xk xi]. cbn [fst snd] in *. subst xk. destruct nm.
    + split; [unfold nk; apply norm_length; rewrite map_length; auto|]. apply (nk_idem C); auto. apply Hin. simpl; auto.
    + split; [rewrite map_length; auto|]. auto.
  - apply IH. intros; apply Hin; simpl; auto.
Qed.
Definition belongs (r : list key) (ch : chunk) : bool := ktuple_eqb (nk sh r) (nk sh (out (fst ch))).

Lemma src_groups srcs : srcs <> [] -> Forall (fun p => src_ok (fst p) (snd p)) srcs ->
  group_keys limit sh (map (fun p => map fst (fst p)) srcs)
  = Ok (map (fun r => (nk sh r, map (fun p => filter (fun ks => ktuple_eqb (nk sh r) (normalize_keys ks sh)) (map fst (fst p))) srcs)) (prodl C)).
Proof.
  intros Hne HF. rewrite Forall_forall in HF. pose proof (good_cuts_length _ _ HC) as HLc.
  set (D := map (fun p => map (kpiece (snd p)) (fst p)) (combine C sh)). pose proof (prodl_norm C sh HC) as EP. fold D in EP.
  assert (HnD : forall d, d < length sh -> nth d D [] = map (kpiece (nth d sh 0)) (nth d C [])).
  { intros d Hd. unfold D. rewrite (nth_map _ _ _ _ ([], 0)) by (rewrite combine_length; lia). rewrite combine_nth by auto. auto. }
  rewrite (group_keys_aligned limit sh D).
  - rewrite EP, map_map. f_equal. apply map_ext. intros r. rewrite map_map. auto.
  - intros d Hd. rewrite HnD by auto. split.
    + apply good_dim_ok. apply good_cuts_nth; auto.
    + rewrite map_length. apply (nth_Forall (fun l => length l <= limit)); auto. lia.
  - destruct srcs; [congruence|discriminate].
  - intros L ks HLi Hks. apply in_map_iff in HLi as (p & <- & Hp). specialize (HF p Hp). apply in_map_iff in Hks as (x & <- & Hx).
    pose proof (src_norm _ _ HF) as HN. destruct (Forall2_In_l _ _ _ _ HN Hx) as (ch & Hch & H1 & H2). split; auto. rewrite EP. unfold ktuple in *. rewrite H2. apply in_map. apply (so_in _ _ HF). auto.
  - intros L t HLi Ht. apply in_map_iff in HLi as (p & <- & Hp). specialize (HF p Hp). rewrite EP in Ht. apply in_map_iff in Ht as (r & <- & Hr).
    destruct (so_all _ _ HF r Hr) as (ch & Hch & <-). pose proof (src_norm _ _ HF) as HN. destruct (Forall2_In_r _ _ _ _ HN Hch) as (x & Hx & H1 & H2).
    exists (fst x). split; auto. apply in_map. auto.
Qed.

Lemma src_deps (a : barr) X cs r : shape a = sh -> src_ok X cs -> In r (prodl C) ->
  exists ids, group_deps a (nk sh r) (filter (fun ks => ktuple_eqb (nk sh r) (normalize_keys ks sh)) (map fst X), X) = Ok ids
    /\ Forall (fun d => d < length g) ids
    /\ mapM (val g) ids = Ok (map (fun ch => VChunk ch) (filter (belongs r) cs)).
Proof.
  intros Hsh HS Hr. unfold group_deps. cbn [fst snd]. rewrite Hsh. pose proof (src_norm _ _ HS) as HN. destruct HS as [(nm & HF) Hnd Hin Hall].
  set (ids := map snd (filter (fun x => ktuple_eqb (nk sh r) (normalize_keys (fst x) sh)) X)). exists ids.
  rewrite (deps_eq sh (nk sh r) X Hnd).
  2:{ intros x x' Hx Hx' E E'.
      assert (Q : forall x, In x X -> normalize_keys (fst x) sh = nk sh r -> fst x = if nm then nk sh r else map kslice r).
      { clear -HF HN Hin Hr HC. intros x Hx E. revert HN Hin. induction HF as [|y ch X cs (H1 & H2 & H3) HF IH]; intros HN Hin; [destruct Hx|].
        inversion HN as [|? ? ? ? (N1 & N2) HN']; subst. destruct Hx as [->|Hx]; [|apply IH; auto; intros; apply Hin; simpl; auto].
        assert (out (fst ch) = r) as <-; auto. apply (nk_inj C sh); auto; [apply Hin; simpl; auto|]. etransitivity; [symmetry; exact N2|exact E]. }
      rewrite (Q x), (Q x'); auto. }
  fold ids. replace (forallb _ _) with true.
  2:{ symmetry. apply forallb_forall. intros ks Hks. apply filter_In in Hks as [_ Hks]. auto. }
  split; auto.
  assert (H2 : Forall2 (fun x ch => snd x < length g /\ val g (snd x) = Ok (VChunk ch)) (filter (fun x => ktuple_eqb (nk sh r) (normalize_keys (fst x) sh)) X) (filter (belongs r) cs)).
  { assert (HB : Forall2 (fun x ch => (snd x < length g /\ val g (snd x) = Ok (VChunk ch)) /\ normalize_keys (fst x) sh = nk sh (out (fst ch))) X cs).
    { clear -HF HN. induction HF as [|x ch X cs (H1 & H2 & H3) HF IH]; inversion HN as [|? ? ? ? (N1 & N2) HN']; subst; constructor; auto. }
    eapply Forall2_impl; [|apply (filter_F2 _ (fun x => ktuple_eqb (nk sh r) (normalize_keys (fst x) sh)) (belongs r) _ _ HB)].
    - cbv beta. tauto.
    - intros x ch _ (_ & E). unfold belongs. unfold ktuple in *. rewrite E. auto. }
  unfold ids. clear -H2. induction H2 as [|x ch l cs' (A1 & A2) H2 (IH1 & IH2)]; cbn [map]; [split; [constructor|auto]|]. split; [constructor; auto|].
  cbn [mapM]. rewrite A2. cbn [bind]. rewrite IH2. auto.
Qed.
End Sources.

(** ** Normalised keys select what the keys select *)
Lemma piece_sel n k : chunk_key n k -> sel_key (KSlice (normalize_slice (kslice k) n)) n = sel_key k n.
Proof.
  intros Hk. rewrite kpiece_norm by auto. destruct Hk as [->|(a & b & -> & H1 & H2)].
  - unfold piece, low, high. simpl kpiece. cbn [fst snd]. rewrite (Nat.eqb_refl n). auto.
  - unfold piece, low, high, sl. cbn [kpiece s_start s_stop fst snd]. rewrite !Nat2Z.id.
    unfold sel_key, slice_idx, slice_indices, clamp_bound. cbn [s_step s_start s_stop]. cbn [Z.eqb Z.ltb Z.compare].
    replace (Z.of_nat a <? 0)%Z with false by lia. replace (Z.of_nat b <? 0)%Z with false by lia.
    replace (Z.of_nat n <? Z.of_nat a)%Z with false by lia. replace (Z.of_nat n <? Z.of_nat b)%Z with false by lia.
    destruct (Nat.eqb_spec a 0) as [Ha|Ha], (Nat.eqb_spec b n) as [Hb|Hb]; try subst a; try subst b; auto;
      repeat match goal with |- context [(?x <? ?y)%Z] => replace (x <? y)%Z with false by lia end; auto.
Qed.
Lemma nk_sel cuts sh r : good_cuts cuts sh -> In r (prodl cuts) -> sel_keys (map KSlice (nk sh r)) sh = sel_keys r sh.
Proof.
  intros HC Hr. apply prodl_In in Hr. revert sh HC. induction Hr as [|x l r cuts Hx Hr IH]; intros sh HC; inversion HC as [|? n ? sh' (_ & HF & _) HC']; subst; auto.
  rewrite nk_cons. cbn [map]. rewrite Forall_forall in HF. specialize (HF x Hx). rewrite !sel_keys_cons_eq; [|rewrite (chunk_key_slice _ _ HF); auto|auto].
  rewrite piece_sel, IH by auto. auto.
Qed.

Lemma Forall2_insert {A B} (P : A -> B -> Prop) l r i x y : Forall2 P l r -> P x y -> Forall2 P (insert_at i x l) (insert_at i y r).
Proof.
  intros H Hx. unfold insert_at. revert l r H. induction i as [|i IH]; intros l r H; [simpl; auto|].
  destruct H; simpl; auto.
Qed.

(** ** The graph *)
Definition oat {A} (ax : option nat) (l : list A) : list A := match ax with Some i => remove_at i l | None => l end.
Lemma foldM_map {A B S} (f : S -> B -> res S) (h : A -> B) l : forall s, foldM f s (map h l) = foldM (fun s x => f s (h x)) s l.
Proof. induction l as [|x l IH]; intros s; simpl; auto. destruct (f s (h x)); auto. Qed.
Lemma foldM_ext {A S} (f f' : S -> A -> res S) l : (forall s x, In x l -> f s x = f' s x) -> forall s, foldM f s l = foldM f' s l.
Proof. induction l as [|x l IH]; intros H s; simpl; auto. rewrite H by (simpl; auto). destruct (f' s x); auto. apply IH. intros; apply H; simpl; auto. Qed.

Section Graph.
Context {V : Type} (O : numops V).
Notation cell := (option V).
Notation barr := (@barr V).
Notation entry := (@entry V).
Notation chunk := (list key * nd cell)%type.
Variable maxc limit : nat.
Variable garbage : list nat -> cell.
Variable rz : barr -> res (nd cell).
Variable m : bool.
Variable HG : @agg V -> nat -> Prop.
Hypothesis HR : forall g, handler_right O m g (HG g).
Variable R : barr -> Prop.
Hypothesis HRz : forall b, wf b -> R b -> exists d, rz b = Ok d /\ nd_eq d (den O m b).
Notation val := (val O garbage rz m).
Notation cuts := (cuts maxc).
Notation sound := (sound O garbage rz m).

(** The pieces of an array computed chunk by chunk can be taken out of it, and
    there are not too many of them. *)
Definition cut_fine (a : barr) : Prop :=
  Forall (fun l => length l <= limit) (cuts a)
  /\ forall k, In k (prodl (cuts a)) -> okk a (map KSlice (nk (shape a) k)).
Fixpoint dask_fine (a : barr) : Prop :=
  match a with
  | AAgg _ c _ _ | AEl1 _ c _ => dask_fine c /\ cut_fine a
  | AEl2 _ c1 c2 _ => dask_fine c1 /\ dask_fine c2 /\ cut_fine a
  | _ => True
  end.

Definition node_ok (g : list (dtask V)) (a : barr) (ns : dnodes) : Prop :=
  exists ord cs (nm : bool), perm ord (ndim a) /\ map fst cs = gen_keys (cuts a) ord /\ Forall (chunk_of (den O m a)) cs
    /\ Forall2 (fun n ch => fst n < length g /\ val g (fst n) = Ok (VChunk ch)
                 /\ snd n = map KSlice (if nm then nk (shape a) (fst ch) else map kslice (fst ch))) ns cs
    /\ NoDup (map fst ns).
Lemma node_ok_app g g' a ns : node_ok g a ns -> node_ok (g ++ g') a ns.
Proof.
  intros (ord & cs & nm & H1 & H2 & H3 & H4 & H5). exists ord, cs, nm. split; auto. split; auto. split; auto. split; auto.
  eapply Forall2_impl; [|exact H4]. cbv beta. intros n ch (A1 & A2 & A3). split; [rewrite app_length; lia|]. split; auto. rewrite val_app; auto.
Qed.

(** *** Leaves *)
Lemma leaf_ok (a : barr) order g c : wf a -> produces a -> streamable maxc m HG R a -> perm order (ndim a) -> topo g -> sound g ->
  exists ns g', leaf_nodes maxc a order (g, c) = Ok (ns, (g ++ g', c)) /\ topo (g ++ g') /\ sound (g ++ g') /\ node_ok (g ++ g') a ns.
Proof.
  intros Hw Hp HS HP HT HSd.
  assert (HPr : perm (rev order) (ndim a)).
  { destruct HP as (H1 & H2 & H3). split; [rewrite rev_length; auto|]. split; [apply NoDup_rev; auto|]. rewrite Forall_forall in *. intros x Hx. apply H3. apply in_rev. auto. }
  assert (Ec : cuts a = all_slices maxc true (shape a)) by (destruct a; try contradiction; auto).
  assert (HS' : forall k, Forall2 (@In key) k (all_slices maxc true (shape a)) -> okk a k /\ (forall b, getitem a k = Ok b -> R b)) by (destruct a; try contradiction; auto).
  pose proof (all_slices_good maxc (shape a)) as HC. unfold leaf_nodes, chunk_index_gen. set (ks := gen_keys (all_slices maxc true (shape a)) (rev order)).
  destruct (add_tasks O garbage rz m (fun k => b <- getitem a k ;; Ok (TLeaf k b)) (fun k => k) (fun k ch => fst ch = k /\ chunk_of (den O m a) ch) c ks g [] HT HSd)
    as (ns & g' & cs & F1 & F2 & F3 & F4 & F5 & F6 & F7).
  { intros k Hk. destruct (gen_keys_drawn maxc garbage _ _ _ HC HPr k Hk) as (H1 & H2 & H3).
    destruct (drawn_lists _ _ k HC H1 H2) as (_ & _ & s & S1 & _). destruct (HS' k H3) as [Hok HRb].
    destruct (Pget_full O a k s (getitem_all O a) Hw S1 Hok) as (b & Eb & Gb).
    destruct (HRz b (g_wf _ _ _ _ Gb) (HRb b Eb)) as (d & Ed & Hd).
    exists (TLeaf k b), [], (k, d). rewrite Eb. split; auto. split; [constructor|]. split; auto. split; [cbn [run_task]; rewrite Ed; auto|].
    split; auto. exists s. cbn [fst snd]. rewrite den_shape by auto. split; auto. eapply nd_eq_trans; [apply Hd|]. apply Gb. }
  assert (Ek : map fst cs = ks). { clear -F4. induction F4 as [|k ch ks cs [H _] F IH]; simpl; auto. congruence. }
  exists ns, g'. split; [|split; [auto|split; [auto|]]].
  - etransitivity; [|exact F1]. apply foldM_ext. intros s k _. destruct (getitem a k); auto.
  - exists (rev order), cs, false. split; auto. split; [rewrite Ec; auto|]. split.
    { clear -F4. induction F4 as [|k ch ks cs [_ H] F IH]; constructor; auto. }
    split; [|rewrite F7; apply seq_NoDup].
    assert (HK : Forall (fun ch => fst ch = map KSlice (map kslice (fst ch))) cs).
    { apply Forall_forall. intros ch Hch. assert (Hk : In (fst ch) ks) by (rewrite <- Ek; apply in_map; auto).
      unfold ks in Hk. rewrite gen_keys_iff in Hk by (rewrite all_slices_length; auto). eapply prodl_drawn; eauto. }
    rewrite map_id in F6. rewrite <- Ek in F6. clear -F5 F6 HK.
    revert F6 HK. induction F5 as [|n ch ns cs (A1 & A2) F5 IH]; intros F6 HK; constructor.
    + inversion HK; subst. cbn [map] in F6. injection F6 as E1 E2. split; auto. split; auto. congruence.
    + inversion HK; subst. cbn [map] in F6. injection F6 as E1 E2. auto.
Qed.

(** *** Sources *)
Lemma source_ok (e : entry) ax (c : barr) sh C ns g : (forall k, out_keys e k = oat ax k) -> node_ok g c ns -> wf c ->
  sh = oat ax (shape c) -> C = oat ax (cuts c) -> (forall i, ax = Some i -> i < length (shape c)) ->
  exists X cs, source_keys e ns = Ok X /\ src_ok O garbage rz m g sh C (oat ax) X cs /\ Forall (chunk_of (den O m c)) cs
    /\ exists ord, perm ord (length (shape c)) /\ map fst cs = gen_keys (cuts c) ord.
Proof.
  intros Ho (ord & cs & nm & H1 & H2 & H3 & H4 & H5) Hw Esh EC Hax. pose proof (cuts_good maxc c Hw) as HC. pose proof (good_cuts_length _ _ HC) as HLc.
  assert (HP : perm ord (length (cuts c))) by (rewrite HLc; auto).
  assert (Hraw : forall ch, In ch cs -> In (fst ch) (prodl (cuts c))).
  { intros ch Hch. apply (gen_keys_iff (cuts c) ord); auto. rewrite <- H2. apply in_map; auto. }
  exists (map (fun n => (map kslice (oat ax (snd n)), fst n)) ns), cs.
  assert (Eo : forall l, oat ax (map KSlice l) = map KSlice (oat ax l)).
  { intros l. destruct ax; auto. simpl. unfold remove_at. rewrite map_app, firstn_map, skipn_map. auto. }
  assert (Ek : forall l, map kslice (map KSlice l) = l) by (intros l; rewrite map_map; apply map_id).
  split; [|split; [|split; [auto|exists ord; auto]]].
  - unfold source_keys. rewrite <- (map_id ns) at 1. apply mapM_map_ok. intros n Hn. destruct (Forall2_In_l _ _ _ _ H4 Hn) as (ch & Hch & _ & _ & E).
    rewrite Ho, E, Eo. rewrite <- (map_id (map KSlice _)) at 1. rewrite map_map. rewrite (mapM_map_ok _ KSlice (fun s => s)) by (intros; auto). cbn [bind]. rewrite map_id, Ek. auto.
  - split.
    + exists nm. clear H5 H2 H3. revert Hraw. induction H4 as [|n ch ns cs (A1 & A2 & A3) H4 IH]; intros Hraw; cbn [map]; constructor; [|apply IH; intros; apply Hraw; simpl; auto].
      cbn [fst snd]. split; auto. split; auto. rewrite A3, Eo, Ek.
      destruct (prodl_drawn _ _ _ HC (Hraw ch (or_introl eq_refl))) as (P1 & _). subst sh. destruct ax as [i|]; [|destruct nm; auto]. cbn [oat]. destruct nm.
      * rewrite nk_remove; auto.
      * rewrite kslice_remove. auto.
    + rewrite map_map. cbn [snd]. auto.
    + intros ch Hch. specialize (Hraw ch Hch). subst C. destruct ax as [i|]; auto. cbn [oat]. apply prodl_In. apply Forall2_remove. apply prodl_In. auto.
    + intros r Hr. subst C. assert (exists k, In k (prodl (cuts c)) /\ oat ax k = r) as (k & Hk & <-).
      { destruct ax as [i|]; [|exists r; auto]. cbn [oat] in *. specialize (Hax i eq_refl). destruct (good_cuts_nth _ _ i HC Hax) as (_ & _ & Hne & _).
        destruct (nth i (cuts c) []) as [|x l] eqn:El; [congruence|]. apply prodl_In in Hr. pose proof (Forall2_length _ _ _ Hr) as HLr. rewrite remove_at_length in HLr by lia.
        exists (insert_at i x r). split; [|apply remove_insert; lia]. apply prodl_In. rewrite <- (insert_remove i [] (cuts c)) by lia. rewrite El. apply Forall2_insert; auto. simpl; auto. }
      rewrite <- (gen_keys_iff (cuts c) ord) in Hk by auto. rewrite <- H2 in Hk. apply in_map_iff in Hk as (ch & <- & Hch). eauto.
Qed.

(** *** The tasks of the groups *)
Lemma groups_ok (a : barr) sh C out srcs g c : wf a -> shape a = sh -> cuts a = C -> good_cuts C sh -> Forall (fun l => length l <= limit) C ->
  srcs <> [] -> Forall (fun p => src_ok O garbage rz m g sh C out (fst p) (snd p)) srcs -> topo g -> sound g ->
  (forall r, In r (prodl C) -> exists sub ch, getitem a (map KSlice (nk sh r)) = Ok sub
     /\ produce_chunks O m sub (concat (map (fun p => filter (belongs sh out r) (snd p)) srcs)) = Ok ch /\ fst ch = r /\ chunk_of (den O m a) ch) ->
  exists gs ns g', group_keys limit (shape a) (map (map fst) (map fst srcs)) = Ok gs
    /\ group_nodes a (map fst srcs) gs (g, c) = Ok (ns, (g ++ g', c)) /\ topo (g ++ g') /\ sound (g ++ g') /\ node_ok (g ++ g') a ns.
Proof.
  intros Hw Hsh HCa HC HL Hne HF HT HS Hp. pose proof (good_cuts_length _ _ HC) as HLc.
  exists (map (fun r => (nk sh r, map (fun p => filter (fun ks => ktuple_eqb (nk sh r) (normalize_keys ks sh)) (map fst (fst p))) srcs)) (prodl C)).
  rewrite (map_map (@fst (list (ktuple * nat)) (list chunk)) (map (@fst ktuple nat)) srcs), Hsh. rewrite (src_groups O limit garbage rz m g sh C HC HL out srcs Hne HF).
  unfold group_nodes. rewrite foldM_map. cbn [fst snd].
  set (mk := fun r => deps <- mapM (group_deps a (nk sh r)) (combine (map (fun p => filter (fun ks => ktuple_eqb (nk sh r) (normalize_keys ks sh)) (map fst (fst p))) srcs) (map fst srcs)) ;;
                      sub <- getitem a (map KSlice (nk sh r)) ;; Ok (TProc (map KSlice (nk sh r)) sub (concat deps))).
  destruct (add_tasks O garbage rz m mk (fun r => map KSlice (nk sh r)) (fun r ch => fst ch = r /\ chunk_of (den O m a) ch) c (prodl C) g [] HT HS)
    as (ns & g' & cs & F1 & F2 & F3 & F4 & F5 & F6 & F7).
  { intros r Hr. destruct (Hp r Hr) as (sub & ch & Es & Ep & Ech & Hch).
    assert (HD : exists idss, mapM (group_deps a (nk sh r)) (combine (map (fun p => filter (fun ks => ktuple_eqb (nk sh r) (normalize_keys ks sh)) (map fst (fst p))) srcs) (map fst srcs)) = Ok idss
       /\ Forall (fun d => d < length g) (concat idss) /\ mapM (val g) (concat idss) = Ok (map (fun ch => VChunk ch) (concat (map (fun p => filter (belongs sh out r) (snd p)) srcs)))).
    { clear -HF HC Hsh Hr. induction srcs as [|[X cs] srcs IH]; [exists []; cbn; auto|]. inversion HF as [|? ? Hx HF']; subst. destruct (IH HF') as (idss & I1 & I2 & I3).
      cbn [fst snd] in Hx. destruct (src_deps O garbage rz m g (shape a) C HC out a X cs r eq_refl Hx Hr) as (ids & D1 & D2 & D3).
      exists (ids :: idss). cbn [map combine mapM fst snd]. rewrite D1. cbn [bind]. rewrite I1. cbn [bind concat]. split; auto. split; [apply Forall_app; auto|].
      rewrite (mapM_app (val g)), D3, I3. cbn [bind]. rewrite map_app. auto. }
    destruct HD as (idss & D1 & D2 & D3). exists (TProc (map KSlice (nk sh r)) sub (concat idss)), (map (fun ch => VChunk ch) (concat (map (fun p => filter (belongs sh out r) (snd p)) srcs))), ch.
    unfold mk. rewrite D1. cbn [bind]. rewrite Es. cbn [bind deps_of]. split; auto. split; auto. split; auto. split; [|auto].
    cbn [run_task]. rewrite (mapM_map_ok as_chunk (fun ch => VChunk ch) (fun ch => ch)) by auto. cbn [bind]. rewrite map_id, Ep. auto. }
  exists ns, g'. split; auto. split; [|split; [auto|split; [auto|]]].
  - etransitivity; [|exact F1]. apply foldM_ext. intros s r _. unfold mk. destruct (mapM _ _); auto. cbn [bind]. destruct (getitem a _); auto.
  - assert (Ek : map fst cs = prodl C). { clear -F4. induction F4 as [|k ch ks cs [H _] F IH]; simpl; auto. congruence. }
    exists (seq 0 (ndim a)), cs, true. split; [apply perm_seq|]. split.
    { unfold ndim. rewrite Hsh, <- HLc, HCa, gen_keys_prodl. auto. }
    split. { clear -F4. induction F4 as [|k ch ks cs [_ H] F IH]; constructor; auto. }
    split; [|rewrite F7; apply seq_NoDup]. rewrite Hsh. rewrite <- Ek, map_map in F6. clear -F5 F6.
    revert F6. induction F5 as [|n ch ns cs (A1 & A2) F5 IH]; intros F6; constructor; cbn [map] in F6; injection F6 as E1 E2; auto.
Qed.

(** *** What a group computes *)
Lemma keys_nonew l : existsb is_new (map KSlice l) = false.
Proof. induction l; simpl; auto. Qed.
Lemma keys_noscalar l : count_if is_scalar (map KSlice l) = 0.
Proof. apply count_if_0. induction l; simpl; auto. Qed.
Lemma keys_drop l : drop_new (map KSlice l) = map KSlice l.
Proof. unfold drop_new. induction l; simpl; auto. f_equal; auto. Qed.
Lemma keys_insert axis l : insert_at axis KFull (map KSlice l) = map KSlice (insert_at axis full_slice l).
Proof. unfold insert_at. rewrite map_app, firstn_map. cbn [map]. rewrite skipn_map. auto. Qed.
Lemma keys_get (a : barr) f l s : (forall ks, getitem a ks = base_getitem f (ndim a) ks) -> sel_keys (map KSlice l) (shape a) = Some s ->
  getitem a (map KSlice l) = f (map KSlice l).
Proof.
  intros E Hs. rewrite E. unfold base_getitem. rewrite full_keys_id by (eapply sel_keys_fullk; eauto). cbn [bind]. rewrite keys_nonew. auto.
Qed.
Lemma cut_sel (a : barr) r : wf a -> In r (prodl (cuts a)) -> exists s, sel_keys (map KSlice (nk (shape a) r)) (shape a) = Some s /\ Forall (fun d => is_pt_sel d = false) s /\ length s = length (shape a).
Proof.
  intros Hw Hr. pose proof (cuts_good maxc a Hw) as HC. rewrite (nk_sel _ _ _ HC Hr). pose proof Hr as Hr'. apply prodl_In in Hr'.
  pose proof (good_cuts_length _ _ HC) as HL. pose proof (Forall2_length _ _ _ Hr') as HL'.
  destruct (drawn_lists _ (shape a) r HC) as (_ & _ & s & S1 & _ & S3 & _ & S5 & _); [lia| |exists s; auto].
  intros i Hi. apply (Forall2_nth _ _ _ KBad [] i) in Hr'; auto. lia.
Qed.
Lemma agg_sub gg (c : barr) axis d r : wf (AAgg gg c axis d) -> cut_fine (AAgg gg c axis d) -> In r (prodl (cuts (AAgg gg c axis d))) ->
  exists c', getitem (AAgg gg c axis d) (map KSlice (nk (shape (AAgg gg c axis d)) r)) = Ok (AAgg gg c' axis d) /\ nth axis (shape c') 0 = nth axis (shape c) 0.
Proof.
  intros Hw [_ Hk] Hr. destruct (cut_sel _ r Hw Hr) as (s & Es & Hp & HLs). specialize (Hk r Hr). pose proof Hw as [Hwc Hax]. unfold ndim in Hax.
  set (a := AAgg gg c axis d) in *. set (l := nk (shape a) r) in *.
  rewrite (keys_get a (fun fks => let ks := insert_at axis KFull fks in c' <- getitem c ks ;; Ok (AAgg gg c' (axis - count_if is_scalar (firstn axis ks)) d)) l s) by auto.
  change (okk c (insert_at axis KFull (drop_new (map KSlice l)))) in Hk. rewrite keys_drop in Hk. change (shape a) with (remove_at axis (shape c)) in Es, HLs.
  rewrite remove_at_length in HLs by auto.
  destruct (sel_keys_insert _ _ _ axis _ (keys_nonew l) Es Hax eq_refl) as [Hins Hrk]. rewrite rk_lists in Hrk by (auto; lia).
  destruct (Pget_full O c _ _ (getitem_all O c) Hwc Hins Hk) as (c' & Ec & Gc). cbv beta zeta. rewrite Ec. cbn [bind]. rewrite Hrk. exists c'. split; auto.
  pose proof (sel_keys_valid _ _ _ Es) as Hv. destruct (sel_keys_length _ _ _ (keys_nonew l) Es) as [_ HLcs]. pose proof (vsel_nodnew _ _ HLcs Hv) as HF.
  destruct (sel_shape_insert s axis (seq 0 (nth axis (shape c) 0)) HF ltac:(lia)) as [HSI Hle]. rewrite seq_length in HSI. rewrite rk_lists in HSI by (auto; lia).
  pose proof (good_shape _ _ _ _ Gc) as Shb. rewrite Shb, HSI. apply nth_insert_at. rewrite rk_lists in Hle by (auto; lia). auto.
Qed.
Lemma el1_sub o (c : barr) d r : wf (AEl1 o c d) -> cut_fine (AEl1 o c d) -> In r (prodl (cuts (AEl1 o c d))) ->
  exists c' d', getitem (AEl1 o c d) (map KSlice (nk (shape c) r)) = Ok (AEl1 o c' d').
Proof.
  intros Hw [_ Hk] Hr. destruct (cut_sel _ r Hw Hr) as (s & Es & _). specialize (Hk r Hr).
  change (shape (AEl1 o c d)) with (shape c) in *. set (l := nk (shape c) r) in *. destruct (Pget_full O _ _ _ (getitem_all O (AEl1 o c d)) Hw Es Hk) as (b & Eb & _). rewrite Eb.
  rewrite (keys_get (AEl1 o c d) (fun fks => c' <- getitem c fks ;; Ok (mk_el1 o c')) l s) in Eb by auto.
  destruct (getitem c (map KSlice l)) as [c'|]; [|discriminate]. injection Eb as <-. unfold mk_el1. eauto.
Qed.
Lemma el2_sub o (c1 c2 : barr) d r : wf (AEl2 o c1 c2 d) -> cut_fine (AEl2 o c1 c2 d) -> In r (prodl (cuts (AEl2 o c1 c2 d))) ->
  exists c1' c2' d', getitem (AEl2 o c1 c2 d) (map KSlice (nk (shape c1) r)) = Ok (AEl2 o c1' c2' d').
Proof.
  intros Hw [_ Hk] Hr. destruct (cut_sel _ r Hw Hr) as (s & Es & _). specialize (Hk r Hr).
  change (shape (AEl2 o c1 c2 d)) with (shape c1) in *. set (l := nk (shape c1) r) in *. destruct (Pget_full O _ _ _ (getitem_all O (AEl2 o c1 c2 d)) Hw Es Hk) as (b & Eb & _). rewrite Eb.
  rewrite (keys_get (AEl2 o c1 c2 d) (fun fks => c1' <- getitem c1 fks ;; c2' <- getitem c2 fks ;; mk_el2 o c1' c2' None) l s) in Eb by auto.
  destruct (getitem c1 (map KSlice l)) as [c1'|]; [|discriminate]. cbn [bind] in Eb. destruct (getitem c2 (map KSlice l)) as [c2'|]; [|discriminate]. cbn [bind] in Eb.
  unfold mk_el2 in Eb. destruct (broadcast_arrays c1' c2') as [[x y]|]; [|discriminate]. injection Eb as <-. eauto.
Qed.
Lemma belongs_q sh C out r (ch : chunk) : good_cuts C sh -> In r (prodl C) -> In (out (fst ch)) (prodl C) -> belongs sh out r ch = true <-> out (fst ch) = r.
Proof.
  intros HC Hr Ho. unfold belongs. rewrite ktuple_eqb_eq. split; [intros E; symmetry; apply (nk_inj C sh); auto|intros ->; auto].
Qed.
Lemma same_chunk (c : barr) ord (cs : list chunk) r : wf c -> perm ord (ndim c) -> map fst cs = gen_keys (cuts c) ord -> In r (prodl (cuts c)) ->
  exists ch, filter (belongs (shape c) (fun k => k) r) cs = [ch] /\ fst ch = r /\ In ch cs.
Proof.
  intros Hw HP HK Hr. pose proof (cuts_good maxc c Hw) as HC. pose proof (good_cuts_length _ _ HC) as HL. unfold ndim in HP. rewrite <- HL in HP.
  assert (E : map fst (filter (belongs (shape c) (fun k => k) r) cs) = [r]).
  { unfold belongs. rewrite (filter_fst (fun k => ktuple_eqb (nk (shape c) r) (nk (shape c) k))). rewrite HK. apply filter_single.
    - rewrite HL in HP. apply (gen_keys_NoDup _ _ _ HC HP).
    - apply gen_keys_iff; auto.
    - intros k Hk. apply gen_keys_iff in Hk; auto. rewrite ktuple_eqb_eq. split; [intros E; symmetry; apply (nk_inj (cuts c) (shape c)); auto|intros ->; auto]. }
  destruct (filter _ cs) as [|ch [|]] eqn:Ef; try discriminate. exists ch. split; auto. split; [injection E; auto|]. apply (filter_In (belongs (shape c) (fun k => k) r)). rewrite Ef. simpl; auto.
Qed.

Lemma agg_group gg (c : barr) axis d ord (cs : list chunk) r : wf (AAgg gg c axis d) -> streamable maxc m HG R (AAgg gg c axis d) -> cut_fine (AAgg gg c axis d) ->
  perm ord (ndim c) -> map fst cs = gen_keys (cuts c) ord -> Forall (chunk_of (den O m c)) cs -> In r (prodl (cuts (AAgg gg c axis d))) ->
  exists sub ch, getitem (AAgg gg c axis d) (map KSlice (nk (shape (AAgg gg c axis d)) r)) = Ok sub
    /\ produce_chunks O m sub (filter (belongs (shape (AAgg gg c axis d)) (remove_at axis) r) cs) = Ok ch /\ fst ch = r /\ chunk_of (den O m (AAgg gg c axis d)) ch.
Proof.
  intros Hw HS Hc HP HK HF Hr. destruct (agg_sub gg c axis d r Hw Hc Hr) as (c' & Es & Hn). exists (AAgg gg c' axis d). rewrite Es.
  pose proof Hw as [Hwc Hax]. unfold ndim in Hax. destruct HS as (HS & Hg & Hpf). pose proof (cuts_good maxc c Hwc) as HC.
  assert (HC' : good_cuts (remove_at axis (cuts c)) (remove_at axis (shape c))) by (apply Forall2_remove; auto).
  change (cuts (AAgg gg c axis d)) with (remove_at axis (cuts c)) in Hr. change (shape (AAgg gg c axis d)) with (remove_at axis (shape c)).
  set (cs' := filter (belongs (remove_at axis (shape c)) (remove_at axis) r) cs).
  assert (Hk' : map fst cs' = map (fun x => insert_at axis x r) (nth axis (cuts c) [])).
  { unfold cs', belongs. rewrite (filter_fst (fun k => ktuple_eqb (nk (remove_at axis (shape c)) r) (nk (remove_at axis (shape c)) (remove_at axis k)))). rewrite HK.
    apply (gen_keys_filter (cuts c) (shape c)); auto. intros k Hk. rewrite ktuple_eqb_eq. split; [intros E; symmetry|intros ->; auto].
    eapply nk_inj; eauto. apply prodl_In. apply Forall2_remove. apply prodl_In. auto. }
  assert (HF' : Forall (chunk_of (den O m c)) cs'). { apply Forall_forall. intros ch Hch. apply filter_In in Hch as [Hch _]. rewrite Forall_forall in HF. auto. }
  destruct (group_ok O m gg (HG gg) (den O m c) (cuts c) axis r cs') as (st & E1 & E2); auto; rewrite ?den_shape; auto.
  rewrite den_shape in E1, E2 by auto. cbn [produce_chunks]. rewrite Hn, E1. cbn [bind fst]. eexists. split; [auto|]. split; [reflexivity|]. split; [reflexivity|].
  cbn [den]. rewrite den_shape by auto. exact E2.
Qed.
Lemma el1_group o (c : barr) d ord (cs : list chunk) r : wf (AEl1 o c d) -> streamable maxc m HG R (AEl1 o c d) -> cut_fine (AEl1 o c d) ->
  perm ord (ndim c) -> map fst cs = gen_keys (cuts c) ord -> Forall (chunk_of (den O m c)) cs -> In r (prodl (cuts c)) ->
  exists sub ch, getitem (AEl1 o c d) (map KSlice (nk (shape c) r)) = Ok sub
    /\ produce_chunks O m sub (filter (belongs (shape c) (fun k => k) r) cs) = Ok ch /\ fst ch = r /\ chunk_of (den O m (AEl1 o c d)) ch.
Proof.
  intros Hw HS Hc HP HK HF Hr. destruct (el1_sub o c d r Hw Hc Hr) as (c' & d' & Es). exists (AEl1 o c' d'). rewrite Es. destruct HS as (Hop & HS).
  destruct (same_chunk c ord cs r Hw HP HK Hr) as (ch & Ef & Ech & Hin). rewrite Ef. cbn [produce_chunks]. rewrite (op1_ok m o Hop). cbn [bind map].
  rewrite Forall_forall in HF. destruct (map_stream_ok (op1_sem m o) (den O m c) [ch] (Forall_cons _ (HF ch Hin) (Forall_nil _))) as [_ F]. cbn [map] in F. inversion F as [|? ? F1 _]; subst.
  eexists. split; [auto|]. split; [reflexivity|]. split; [reflexivity|]. exact F1.
Qed.
Lemma el2_group o (c1 c2 : barr) d ord1 ord2 (cs1 cs2 : list chunk) r : wf (AEl2 o c1 c2 d) -> streamable maxc m HG R (AEl2 o c1 c2 d) -> cut_fine (AEl2 o c1 c2 d) ->
  perm ord1 (ndim c1) -> map fst cs1 = gen_keys (cuts c1) ord1 -> Forall (chunk_of (den O m c1)) cs1 ->
  perm ord2 (ndim c2) -> map fst cs2 = gen_keys (cuts c2) ord2 -> Forall (chunk_of (den O m c2)) cs2 -> In r (prodl (cuts c1)) ->
  exists sub ch, getitem (AEl2 o c1 c2 d) (map KSlice (nk (shape c1) r)) = Ok sub
    /\ produce_chunks O m sub (filter (belongs (shape c1) (fun k => k) r) cs1 ++ filter (belongs (shape c1) (fun k => k) r) cs2) = Ok ch /\ fst ch = r /\ chunk_of (den O m (AEl2 o c1 c2 d)) ch.
Proof.
  intros Hw HS Hc HP1 HK1 HF1 HP2 HK2 HF2 Hr. destruct (el2_sub o c1 c2 d r Hw Hc Hr) as (c1' & c2' & d' & Es). exists (AEl2 o c1' c2' d'). rewrite Es.
  destruct HS as (Hop & HS1 & HS2 & Hcut). destruct Hw as (Hw1 & Hw2 & Hsh).
  destruct (same_chunk c1 ord1 cs1 r Hw1 HP1 HK1 Hr) as (ch1 & Ef1 & Ech1 & Hin1). rewrite Hcut in Hr.
  destruct (same_chunk c2 ord2 cs2 r Hw2 HP2 HK2 Hr) as (ch2 & Ef2 & Ech2 & Hin2). rewrite Ef1. rewrite Hsh, Ef2. cbn [app produce_chunks pairs]. rewrite (op2_ok m o Hop). cbn [bind].
  rewrite Forall_forall in HF1, HF2.
  destruct (zip_stream_ok (op2_sem m o) (den O m c1) (den O m c2)) with (cs1 := [ch1]) (cs2 := [ch2]) as (cs & G1 & G2 & G3); auto.
  { rewrite !den_shape by auto. auto. } { cbn [map]. congruence. }
  destruct ch1 as [k1 x1], ch2 as [k2 x2]. cbn [zip_stream fst snd] in *. cbn [mapM fst snd]. destruct (np_op2 (op2_sem m o) x1 x2) as [y|]; [|discriminate].
  cbn [bind] in *. injection G1 as <-. inversion G3 as [|? ? G _]; subst. eexists. split; [auto|]. split; [reflexivity|]. split; [reflexivity|]. exact G.
Qed.

(** *** The nodes of an expression graph *)
Variable dag : list entry.
Hypothesis Hdag : forall i e s, nth_error dag i = Some e -> In s (entry_srcs e) -> s < i.
Hypothesis Hleaf : forall i a, nth_error dag i = Some (EArr a) -> produces a.
Notation expr := (expr O dag).
Definition fine (a : barr) : Prop := wf a /\ streamable maxc m HG R a /\ dask_fine a.
Definition inv (st : dstate) : Prop :=
  topo (fst st) /\ sound (fst st) /\ length (snd st) = length dag
  /\ forall i ns, nth i (snd st) None = Some ns -> node_ok (fst st) (expr i) ns.

Lemma inv_set g g' c i ns : inv (g, c) -> i < length dag -> topo (g ++ g') -> sound (g ++ g') -> node_ok (g ++ g') (expr i) ns -> inv (g ++ g', set_nth i (Some ns) c).
Proof.
  intros (H1 & H2 & H3 & H4) Hi HT HS Hn. cbn [fst snd] in *. split; auto. split; auto. cbn [fst snd]. split; [rewrite set_nth_length; auto|]. intros j ns' Hj.
  destruct (Nat.eq_dec j i) as [->|Hne].
  - rewrite nth_set_nth_eq in Hj by lia. congruence.
  - rewrite nth_set_nth_neq in Hj by auto. apply node_ok_app. auto.
Qed.

Lemma make_nodes_ok : forall fuel i order g c, i < fuel -> i < length dag -> perm order (ndim (expr i)) -> fine (expr i) -> inv (g, c) ->
  exists ns g' c', make_nodes O maxc limit m fuel dag i order (g, c) = Ok (ns, (g ++ g', c')) /\ inv (g ++ g', c') /\ node_ok (g ++ g') (expr i) ns.
Proof.
  induction fuel as [|fuel IH]; intros i order g c Hf Hi HP Hfine HI; [lia|]. cbn [make_nodes]. pose proof HI as (I1 & I2 & I3 & I4). cbn [fst snd] in *.
  destruct (nth i c None) as [ns|] eqn:Ec.
  { exists ns, [], c. rewrite app_nil_r. auto. }
  destruct (nth_error dag i) as [e|] eqn:Ee; [|apply nth_error_None in Ee; lia].
  pose proof (expr_entry O maxc dag i e Ee (fun s Hs => Hdag i e s Ee Hs)) as Ex. destruct Hfine as (Hw & HS & HD). pose proof (Hdag i e) as Hsrc.
  destruct e as [a|gg s axis d|o s d|o s1 s2 d].
  - assert (Hp : produces (expr i)) by (rewrite Ex; eauto).
    destruct (leaf_ok (expr i) order g c Hw Hp HS HP I1 I2) as (ns & g' & E1 & E2 & E3 & E4). rewrite E1. cbn [bind fst snd].
    eexists _, _, _. split; [reflexivity|]. split; [apply inv_set; auto|auto].
  - cbn [has_handler entry_srcs foldM bind src_order]. assert (Hs : s < i) by (apply Hsrc; simpl; auto). rewrite Ex in *.
    set (cc := expr s) in *. pose proof Hw as [Hwc Hax]. unfold ndim in Hax. pose proof HS as (HSc & _). pose proof HD as [HDc Hcut].
    assert (HP' : perm (input_order axis order) (ndim cc)).
    { unfold ndim in *. cbn [shape] in HP. rewrite remove_at_length in HP by auto. replace (length (shape cc)) with (S (pred (length (shape cc)))) by lia. apply input_order_perm; auto. lia. }
    destruct (IH s (input_order axis order) g c) as (ns1 & g1 & c1 & E1 & E2 & E3); auto; try lia; [split; auto|]. cbn [fst snd]. rewrite E1. cbn [bind fst snd].
    destruct (source_ok (EAgg gg s axis d) (Some axis) cc (remove_at axis (shape cc)) (remove_at axis (cuts cc)) ns1 (g ++ g1)) as (X & cs & F1 & F2 & F3 & ord & F4 & F5); auto.
    { intros j Hj. injection Hj as <-. auto. }
    rewrite F1. cbn [bind fst snd app].
    destruct (groups_ok (AAgg gg cc axis d) (remove_at axis (shape cc)) (remove_at axis (cuts cc)) (oat (Some axis)) [(X, cs)] (g ++ g1) c1) as (gs & ns & g' & G1 & G2 & G3 & G4 & G5); auto.
    { apply Forall2_remove. apply cuts_good; auto. } { apply Hcut. } { discriminate. } { apply E2. } { apply E2. }
    { intros r Hr. cbn [map concat snd]. rewrite app_nil_r. apply (agg_group gg cc axis d ord cs r); auto. }
    cbn [map fst] in G1, G2 |- *. rewrite G1. cbn [bind]. rewrite G2. cbn [bind fst snd]. rewrite <- app_assoc in *.
    eexists _, _, _. split; [reflexivity|]. split; [|auto]. rewrite app_assoc in *. apply inv_set; auto. rewrite Ex. auto.
  - assert (Hs : s < i) by (apply Hsrc; simpl; auto). rewrite Ex in *. set (cc := expr s) in *. pose proof HS as (Hop & HSc). pose proof HD as [HDc Hcut].
    cbn [has_handler]. rewrite (op1_ok m o Hop). cbn [entry_srcs foldM bind src_order].
    destruct (IH s order g c) as (ns1 & g1 & c1 & E1 & E2 & E3); auto; try lia; [split; auto|]. cbn [fst snd]. rewrite E1. cbn [bind fst snd].
    destruct (source_ok (EEl1 o s d) None cc (shape cc) (cuts cc) ns1 (g ++ g1)) as (X & cs & F1 & F2 & F3 & ord & F4 & F5); auto.
    { intros j Hj. discriminate. }
    rewrite F1. cbn [bind fst snd app].
    destruct (groups_ok (AEl1 o cc d) (shape cc) (cuts cc) (oat None) [(X, cs)] (g ++ g1) c1) as (gs & ns & g' & G1 & G2 & G3 & G4 & G5); auto.
    { apply cuts_good; auto. } { apply Hcut. } { discriminate. } { apply E2. } { apply E2. }
    { intros r Hr. cbn [map concat snd]. rewrite app_nil_r. apply (el1_group o cc d ord cs r); auto. }
    cbn [map fst] in G1, G2 |- *. rewrite G1. cbn [bind]. rewrite G2. cbn [bind fst snd]. rewrite <- app_assoc in *.
    eexists _, _, _. split; [reflexivity|]. split; [|auto]. rewrite app_assoc in *. apply inv_set; auto. rewrite Ex. auto.
  - assert (Hs1 : s1 < i) by (apply Hsrc; simpl; auto). assert (Hs2 : s2 < i) by (apply Hsrc; simpl; auto).
    rewrite Ex in *. set (x1 := expr s1) in *. set (x2 := expr s2) in *. pose proof HS as (Hop & HS1 & HS2 & Ecut). pose proof HD as (HD1 & HD2 & Hcut). pose proof Hw as (Hw1 & Hw2 & Hsh).
    cbn [has_handler]. rewrite (op2_ok m o Hop). cbn [entry_srcs foldM bind src_order].
    destruct (IH s1 order g c) as (ns1 & g1 & c1 & E1 & E2 & E3); auto; try lia; [split; auto|]. cbn [fst snd]. rewrite E1. cbn [bind fst snd].
    destruct (IH s2 order (g ++ g1) c1) as (ns2 & g2 & c2 & E4 & E5 & E6); auto; try lia; [fold x2; unfold ndim in *; cbn [shape] in HP; rewrite <- Hsh; auto|split; auto|].
    destruct (source_ok (EEl2 o s1 s2 d) None x1 (shape x1) (cuts x1) ns1 ((g ++ g1) ++ g2)) as (X1 & cs1 & F1 & F2 & F3 & ord1 & F4 & F5); auto.
    { apply node_ok_app. auto. } { intros j Hj. discriminate. }
    destruct (source_ok (EEl2 o s1 s2 d) None x2 (shape x1) (cuts x1) ns2 ((g ++ g1) ++ g2)) as (X2 & cs2 & K1 & K2 & K3 & ord2 & K4 & K5); auto.
    { intros j Hj. discriminate. }
    rewrite F1. cbn [bind fst snd app]. rewrite E4. cbn [bind fst snd]. rewrite K1. cbn [bind fst snd app].
    destruct (groups_ok (AEl2 o x1 x2 d) (shape x1) (cuts x1) (oat None) [(X1, cs1); (X2, cs2)] ((g ++ g1) ++ g2) c2) as (gs & ns & g' & G1 & G2 & G3 & G4 & G5); auto.
    { apply cuts_good; auto. } { apply Hcut. } { discriminate. } { apply E5. } { apply E5. }
    { intros r Hr. cbn [map concat snd]. rewrite app_nil_r. apply (el2_group o x1 x2 d ord1 ord2 cs1 cs2 r); auto. }
    cbn [map fst] in G1, G2 |- *. rewrite G1. cbn [bind]. rewrite G2. cbn [bind fst snd].
    exists ns, ((g1 ++ g2) ++ g'). eexists. replace (g ++ (g1 ++ g2) ++ g') with (((g ++ g1) ++ g2) ++ g') by (rewrite <- !app_assoc; auto).
    split; [reflexivity|]. split; [|auto]. apply inv_set; auto. rewrite Ex. auto.
Qed.

(** *** The results *)
Lemma gather_ok (a : barr) g ns : wf a -> node_ok g a ns ->
  exists vs d, mapM (val g) (map fst ns) = Ok vs /\ Forall (fun i => i < length g) (map fst ns)
    /\ run_task O garbage rz m (TGather (shape a) (map fst ns)) vs = Ok (VArr d) /\ nd_eq d (den O m a).
Proof.
  intros Hw (ord & cs & nm & HP & E2 & E3 & H4 & _). pose proof (cuts_good maxc a Hw) as HC.
  exists (map (fun ch => VChunk ch) cs).
  assert (HV : mapM (val g) (map fst ns) = Ok (map (fun ch => VChunk ch) cs) /\ Forall (fun i => i < length g) (map fst ns)).
  { clear -H4. induction H4 as [|n ch ns cs (A1 & A2 & _) H4 [IH1 IH2]]; [split; [auto|constructor]|]. cbn [map mapM]. rewrite A2. cbn [bind]. rewrite IH1. split; [auto|constructor; auto]. }
  destruct HV as [HV1 HV2]. cbn [run_task]. rewrite (mapM_map_ok as_chunk (fun ch => VChunk ch) (fun ch => ch)) by auto. cbn [bind]. rewrite map_id.
  destruct (setitems_cover (den O m a) (shape a) garbage cs) as (d & Ed & Hd).
  - apply den_shape; auto.
  - apply Forall_forall. intros ch Hch. rewrite Forall_forall in E3. destruct (E3 ch Hch) as (s & Es & Hd).
    rewrite den_shape in Es by auto. exists s. split; auto. apply assign_sels_ok; auto.
    assert (Hk : In (fst ch) (gen_keys (cuts a) ord)) by (rewrite <- E2; apply in_map; auto).
    destruct (gen_keys_drawn maxc garbage _ _ _ HC HP _ Hk) as (H1 & H2 & _).
    destruct (drawn_lists _ _ _ HC H1 H2) as (_ & Hp & _). auto.
  - intros idx Hidx. pose proof (gen_keys_cover _ _ ord idx (good_cuts_ok _ _ HC) HP Hidx) as Hc.
    destruct (existsb (covers (shape a) idx) (gen_keys (cuts a) ord)) eqn:Ex.
    2:{ apply count_if_0 in Ex. lia. }
    apply existsb_exists in Ex as (k & Hk & Hcov). pose proof Hk as Hk'. rewrite <- E2 in Hk'. apply in_map_iff in Hk' as (ch & <- & Hch).
    destruct (gen_keys_drawn maxc garbage _ _ _ HC HP _ Hk) as (H1 & H2 & _).
    destruct (drawn_lists _ _ _ HC H1 H2) as (_ & Hp & s & S1 & S2 & _).
    unfold covers in Hcov. rewrite S2 in Hcov. exists ch, s. split; auto. split; auto. apply assign_sels_ok; auto.
  - exists d. rewrite Ed. auto.
Qed.

Definition result_ok (g : list (dtask V)) (r id : nat) : Prop := id < length g /\ exists d, val g id = Ok (VArr d) /\ nd_eq d (den O m (expr r)).
Lemma result_app g g' r id : result_ok g r id -> result_ok (g ++ g') r id.
Proof. intros (H1 & d & H2 & H3). split; [rewrite app_length; lia|]. exists d. rewrite val_app by auto. auto. Qed.
Lemma inv_snoc g c t v : inv (g, c) -> Forall (fun d => d < length g) (deps_of t) -> val (g ++ [t]) (length g) = Ok v -> inv (g ++ [t], c).
Proof.
  intros (H1 & H2 & H3 & H4) Hd Hv. cbn [fst snd] in *. split; [apply topo_snoc; auto|]. split; [eapply sound_snoc; eauto|]. cbn [fst snd]. split; auto. intros. apply node_ok_app. auto.
Qed.

Lemma make_roots_ok : forall roots gathers g c, (forall r, In r roots -> r < length dag /\ fine (expr r)) -> inv (g, c) ->
  Forall (fun p => result_ok g (fst p) (snd p)) gathers ->
  exists ids g' c', make_roots O maxc limit m dag roots gathers (g, c) = Ok (ids, (g ++ g', c')) /\ inv (g ++ g', c') /\ Forall2 (result_ok (g ++ g')) roots ids.
Proof.
  induction roots as [|r rs IH]; intros gathers g c Hr HI HG'; cbn [make_roots].
  - exists [], [], c. rewrite app_nil_r. auto.
  - destruct (Hr r (or_introl eq_refl)) as [Hlt Hf].
    destruct (make_nodes_ok (S r) r (seq 0 (ndim (expr r))) g c ltac:(lia) Hlt (perm_seq _) Hf HI) as (ns & g1 & c1 & E1 & E2 & E3). rewrite E1. cbn [bind fst snd].
    assert (HG1 : Forall (fun p => result_ok (g ++ g1) (fst p) (snd p)) gathers) by (eapply Forall_impl; [|exact HG']; intros p; apply result_app).
    assert (Hr' : forall x, In x rs -> x < length dag /\ fine (expr x)) by (intros; apply Hr; simpl; auto).
    destruct (dict_find r gathers) as [id|] eqn:Ed.
    + destruct (IH gathers (g ++ g1) c1 Hr' E2 HG1) as (ids & g2 & c2 & F1 & F2 & F3). rewrite F1. cbn [bind fst snd]. exists (id :: ids), (g1 ++ g2), c2. rewrite app_assoc.
      split; auto. split; auto. constructor; auto. apply result_app. unfold dict_find in Ed. destruct (find _ gathers) as [p|] eqn:Ef; [|discriminate]. injection Ed as <-.
      apply find_some in Ef as [Hin Hp]. apply Nat.eqb_eq in Hp. subst r. rewrite Forall_forall in HG1. apply HG1. auto.
    + destruct (gather_ok (expr r) (g ++ g1) ns) as (vs & d & V1 & V2 & V3 & V4); [apply Hf|auto|].
      set (t := TGather (shape (expr r)) (map fst ns)) in *.
      assert (Hv : val ((g ++ g1) ++ [t]) (length (g ++ g1)) = Ok (VArr d)) by (rewrite val_snoc; cbn [t deps_of]; rewrite V1; auto).
      assert (HI' : inv ((g ++ g1) ++ [t], c1)) by (eapply inv_snoc; eauto).
      assert (Hid : result_ok ((g ++ g1) ++ [t]) r (length (g ++ g1))) by (split; [rewrite !app_length; cbn [length]; lia|exists d; auto]).
      destruct (IH ((r, length (g ++ g1)) :: gathers) ((g ++ g1) ++ [t]) c1 Hr' HI') as (ids & g2 & c2 & F1 & F2 & F3).
      { constructor; [exact Hid|]. eapply Forall_impl; [|exact HG1]; intros p; apply result_app. }
      rewrite F1. cbn [bind fst snd]. exists (length (g ++ g1) :: ids), (g1 ++ t :: g2), c2.
      replace (g ++ g1 ++ t :: g2) with (((g ++ g1) ++ [t]) ++ g2) by (rewrite <- !app_assoc; auto). split; auto. split; auto. constructor; auto. apply result_app. auto.
Qed.

Theorem dask_graph_ok roots : (forall r, In r roots -> r < length dag /\ fine (expr r)) ->
  exists ids g, dask_graph O maxc limit m dag roots = Ok (ids, g) /\ topo g /\ sound g /\ Forall2 (result_ok g) roots ids.
Proof.
  intros Hr. destruct (make_roots_ok roots [] [] (repeat None (length dag)) Hr) as (ids & g & c & E1 & E2 & E3).
  - split; [intros i t H; destruct i; discriminate|]. split; [intros i H; simpl in H; lia|]. cbn [fst snd]. rewrite repeat_length. split; auto.
    intros i ns H. exfalso. revert H. clear. revert i. induction (length dag) as [|n IH]; intros [|i] H; simpl in H; try discriminate. eauto.
  - constructor.
  - unfold dask_graph. rewrite E1. cbn [bind fst snd app] in *. exists ids, g. split; auto. destruct E2 as (H1 & H2 & _). auto.
Qed.
End Graph.

(** ** Running the graph *)
Section Run.
Context {V : Type} (O : numops V).
Notation cell := (option V).
Notation barr := (@barr V).
Variable garbage : list nat -> cell.
Variable rz : barr -> res (nd cell).
Variable m : bool.
Notation val := (val O garbage rz m).
Notation ready := (ready O garbage rz m).
Notation dask_runs := (dask_runs O garbage rz m).
Variable g : list (dtask V).
Hypothesis HT : topo g.
Hypothesis HS : sound O garbage rz m g.

Definition agrees (s : dmem) : Prop := length s = length g /\ forall i v, nth i s None = Some v -> val g i = Ok v.
Lemma all_some_map {A B} (f : A -> option B) l vs : all_some (map f l) = Some vs -> Forall2 (fun x v => f x = Some v) l vs.
Proof.
  revert vs. induction l as [|x l IH]; intros vs H; simpl in H; [injection H as <-; constructor|].
  destruct (f x) eqn:Ex; [|discriminate]. destruct (all_some (map f l)) eqn:El; [|discriminate]. injection H as <-. constructor; auto.
Qed.
Lemma all_some_ok {A B} (f : A -> option B) l : (forall x, In x l -> f x <> None) -> exists vs, all_some (map f l) = Some vs.
Proof.
  induction l as [|x l IH]; intros H; simpl; [eauto|]. destruct (f x) eqn:Ex; [|exfalso; apply (H x); simpl; auto].
  destruct IH as (vs & ->); [intros; apply H; simpl; auto|]. eauto.
Qed.
Lemma ready_val s i r : agrees s -> ready g s i r -> r = val g i /\ i < length g.
Proof.
  intros [HL HA] (t & vs & Ht & Hn & Hi & Hr). split; [|apply nth_error_Some; congruence]. rewrite (val_eq O garbage rz m g i t HT Ht).
  assert (E : mapM (val g) (deps_of t) = Ok vs).
  { unfold inputs in Hi. apply all_some_map in Hi. clear -Hi HA. induction Hi as [|x v l vs Hx Hi IH]; auto. cbn [mapM]. rewrite (HA _ _ Hx). cbn [bind]. rewrite IH. auto. }
  rewrite E. auto.
Qed.
Lemma runs_agree s : dask_runs g s -> agrees s.
Proof.
  induction 1 as [|s i v H IH Hr].
  - split; [apply repeat_length|]. intros i v H. exfalso. revert i H. induction (length g) as [|n IHn]; intros [|i] H; simpl in H; try discriminate. eauto.
  - destruct (ready_val s i (Ok v) IH Hr) as [Hv Hi]. destruct IH as [HL HA]. split; [rewrite set_nth_length; auto|]. intros j w Hj.
    destruct (Nat.eq_dec j i) as [->|Hne]; [rewrite nth_set_nth_eq in Hj by lia; congruence|rewrite nth_set_nth_neq in Hj by auto; auto].
Qed.
Lemma runs_progress s : dask_runs g s -> (forall i, i < length g -> nth i s None <> None) \/ exists i v, ready g s i (Ok v).
Proof.
  intros H. pose proof (runs_agree s H) as HA.
  assert (K : forall k, k <= length g -> (forall i, i < k -> nth i s None <> None) \/ exists i v, ready g s i (Ok v)).
  { induction k as [|k IH]; intros Hk; [left; intros; lia|]. destruct IH as [IH|IH]; [lia| |auto].
    destruct (nth k s None) as [v|] eqn:Ek.
    - left. intros i Hi. destruct (Nat.eq_dec i k) as [->|]; [congruence|]. apply IH. lia.
    - right. destruct (nth_error g k) as [t|] eqn:Et; [|apply nth_error_None in Et; lia]. pose proof (HT k t Et) as Hd. rewrite Forall_forall in Hd.
      destruct (all_some_ok (fun d => nth d s None) (deps_of t)) as (vs & Ev); [intros d Hd'; apply IH; auto|].
      destruct (HS k ltac:(lia)) as (w & Hw). exists k, w. exists t, vs. split; auto. split; auto. split; auto.
      assert (Hr : ready g s k (run_task O garbage rz m t vs)) by (exists t, vs; auto). destruct (ready_val _ _ _ HA Hr) as [-> _]. auto. }
  apply K. auto.
Qed.
Lemma runs_total s i r : dask_runs g s -> ready g s i r -> exists v, r = Ok v.
Proof. intros H Hr. destruct (ready_val s i r (runs_agree s H) Hr) as [-> Hi]. apply HS. auto. Qed.
End Run.
