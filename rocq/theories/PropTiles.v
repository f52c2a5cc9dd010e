(** C12, sequences on a mosaic's own axis: what a LinearMosaic indexed by a
    sequence is, in every case, and which elements negative positions read. *)
From Verif Require Import Base PySlice Keys NDArray Arrays Spec Supported Lib SelLemmas KeyLemmas NewAxLemmas GetBase GetSimple GetBcast GetMosaic GetItem BuiltClaims Sound Samples PropRefuted PropMosaic ProgramClaims.

(** ** The specification *)

(** Where a position is looked up: [Some p] for position from 0 up, with [p] the
    tile that holds it, or the last one for a position that is too large; [None]
    for a negative position, which is looked up in the last tile too. *)
Definition looked_up (lens : list nat) (where_ : option nat) (i : Z) : Prop :=
  match where_ with
  | None => (i < 0)%Z
  | Some p => (0 <= i)%Z /\ if (i <? Z.of_nat (list_sum lens))%Z then in_tile lens p i = true else p = length lens - 1
  end.
Definition tile_at (lens : list nat) (where_ : option nat) : nat :=
  match where_ with None => length lens - 1 | Some p => p end.
(** [runs] cuts [l] into its longest stretches of neighbours looked up together. *)
Fixpoint changing (runs : list (option nat * list Z)) : Prop :=
  match runs with
  | r :: (r' :: _) as rest => fst r <> fst r' /\ changing rest
  | _ => True
  end.
Definition cut_by_tile (lens : list nat) (l : list Z) (runs : list (option nat * list Z)) : Prop :=
  l = concat (map snd runs) /\ changing runs
  /\ Forall (fun r => snd r <> [] /\ tile_at lens (fst r) < length lens /\ Forall (looked_up lens (fst r)) (snd r)) runs.
(** The key a tile that begins at [off] is indexed with: the positions counted from
    there; a single one as a slice of length 1. *)
Definition piece_key (off : Z) (is : list Z) : key :=
  match is with
  | [i] => KSlice (mkS (Some (i - off)%Z) (Some (i - off + 1)%Z) (Some 1%Z))
  | _ => KArr (map (fun i => i - off)%Z is)
  end.

(** What a run reads of a tile of length [len] that begins at [off], as positions of
    the whole axis.  Negative positions of the tile count from its own end; a
    single position is lost if it is out of reach or the tile's -1. *)
Definition place (off len j : Z) : Z := (off + (if j <? 0 then j + len else j))%Z.
Definition read_run (off len : Z) (is : list Z) : list Z :=
  match is with
  | [i] => let j := (i - off)%Z in if ((- len <=? j) && (j <? len) && negb (j =? -1))%Z then [place off len j] else []
  | _ => map (fun i => place off len (i - off)) is
  end.
Definition in_reach (off len : Z) (is : list Z) : Prop :=
  match is with [_] => True | _ => Forall (fun i => - len <= i - off < len)%Z is end.

Section Claims.
Context {V : Type}.
Implicit Types t : @barr V.
Notation lens_of tiles axis := (map (fun t : @barr V => nth axis (shape t) 0) tiles).

Definition number (w : option nat) : Z := match w with None => (-1)%Z | Some p => Z.of_nat p end.
Lemma looked_up_tile lens w i : tile_at lens w < length lens -> looked_up lens w i ->
  tile_of (offsets_from 0 lens) i = number w
  /\ tile_num (length lens) (number w) = tile_at lens w
  /\ py_nth 0 (offsets_from 0 lens) (number w) = list_sum (firstn (tile_at lens w) lens).
Proof.
  intros Hp H. rewrite !list_sum_eq. destruct w as [p|]; cbn [looked_up tile_at number] in *.
  - rewrite list_sum_eq in H. destruct H as [H0 H]. split; [|unfold tile_num, py_nth; replace (Z.of_nat p <? 0)%Z with false by lia; rewrite Nat2Z.id, nth_offsets by auto; auto].
    destruct (Z.ltb_spec i (Z.of_nat (fold_right Nat.add 0%nat lens))) as [E|E]; [apply tile_is; auto|]. subst p.
    unfold tile_of.
    enough (forall o, (Z.of_nat (o + fold_right Nat.add 0%nat lens) <= i)%Z ->
      count_if (fun o => (Z.of_nat o - 1 <? i)%Z) (offsets_from o lens) = length lens) as HC by (rewrite HC by exact E; lia).
    clear. induction lens as [|n lens IH]; intros o H; auto. cbn [offsets_from fold_right length] in *. rewrite count_if_cons.
    replace (Z.of_nat o - 1 <? i)%Z with true by lia. rewrite IH by lia. lia.
  - split.
    + unfold tile_of. assert (count_if (fun o => (Z.of_nat o - 1 <? i)%Z) (offsets_from 0 lens) = 0) as ->; [|lia].
      apply count_if_0. apply existsb_false_Forall. apply Forall_forall. intros o _. lia.
    + unfold tile_num, py_nth. change (-1 <? 0)%Z with true. cbv iota. rewrite offsets_length. split; [lia|].
      replace (Z.to_nat (Z.of_nat (length lens) + -1)) with (length lens - 1) by lia. rewrite nth_offsets by lia. auto.
Qed.

(** C12: a sequence on the mosaic's axis, whatever it holds: the tile of each run is
    indexed by the run's key, in order, and the pieces are joined. *)
Theorem C12_sequence (tiles : list (@barr V)) axis pre l post runs t0 : wf (AMosaic tiles axis) ->
  Forall one_dim pre -> Forall one_dim post -> length pre = axis ->
  length (pre ++ KTuple l :: post) = ndim (AMosaic tiles axis) ->
  let lens := lens_of tiles axis in
  cut_by_tile lens l runs ->
  getitem (AMosaic tiles axis) (pre ++ KTuple l :: post)
  = (pieces <- mapM (fun r => let p := tile_at lens (fst r) in
                              getitem (nth p tiles t0) (pre ++ piece_key (Z.of_nat (list_sum (firstn p lens))) (snd r) :: post)) runs ;;
     mk_mosaic pieces (Z.of_nat (axis - count_if is_scalar pre))).
Proof.
  intros Hw Hpre Hpost Hax HL lens (Hl & Hch & HF).
  assert (HO : forall k, one_dim k -> Forall one_dim (pre ++ k :: post)) by (intros k Hk; apply Forall_app; split; auto).
  rewrite mosaic_full by (auto; apply HO; split; auto). fold lens.
  unfold mosaic_plan. rewrite trim_mid by auto. cbv zeta.
  replace (length (pre ++ KTuple l :: trim_keys post) <=? axis) with false by (rewrite app_length; cbn; lia).
  rewrite nth_at by auto. cbn [bind carry].
  set (gs := map (fun r => (number (fst r), snd r)) runs).
  assert (Hgs : group_runs (map (fun i => (i, tile_of (offsets_from 0 lens) i)) l) = gs).
  { replace l with (concat (map snd gs)) by (rewrite Hl; unfold gs; rewrite map_map; reflexivity). apply group_runs_same.
    - unfold gs. clear - Hch HF. induction runs as [|r [|r' rest] IH]; cbn [map apart]; auto. destruct Hch as [H1 H2]. inversion HF as [|? ? F1 F2]; subst. split; [|apply IH; auto].
      cbn [fst]. intros E. apply H1. destruct (fst r), (fst r'); cbn in E; try congruence; try lia. f_equal. lia.
    - unfold gs. apply Forall_forall. intros g Hg. apply in_map_iff in Hg as (r & <- & Hr). rewrite Forall_forall in HF. destruct (HF r Hr) as (F1 & F2 & F3). split; auto. cbn [fst snd].
      apply Forall_forall. intros i Hi. rewrite Forall_forall in F3. apply looked_up_tile; auto. }
  rewrite Hgs. clear Hgs. unfold gs.
  replace (firstn axis (pre ++ KTuple l :: trim_keys post)) with pre by (rewrite <- Hax, firstn_app, Nat.sub_diag, firstn_all; cbn [firstn]; rewrite app_nil_r; auto).
  rewrite map_map. assert (G : forall rs, incl rs runs -> mapM (fun p => (nth (fst p) (map (fun t => getitem t) tiles) (fun _ => Err IndexError)) (snd p))
    (map (fun r => let '(t, is) := (number (fst r), snd r) in
                   (tile_num (length lens) t, set_nth axis (tile_key (py_nth 0 (offsets_from 0 lens) t) is) (pre ++ KTuple l :: trim_keys post))) rs)
    = mapM (fun r => getitem (nth (tile_at lens (fst r)) tiles t0) (pre ++ piece_key (Z.of_nat (list_sum (firstn (tile_at lens (fst r)) lens))) (snd r) :: post)) rs).
  { induction rs as [|r rs IH]; intros Hin; auto. cbn [map]. cbv beta iota.
    assert (Hr : In r runs) by (apply Hin; left; auto). rewrite Forall_forall in HF. destruct (HF r Hr) as (F1 & F2 & F3).
    assert (exists i, In i (snd r)) as (i & Hi) by (destruct (snd r) as [|i ?]; [congruence|]; exists i; left; auto).
    rewrite Forall_forall in F3. destruct (looked_up_tile lens (fst r) i F2 (F3 i Hi)) as (T1 & T2 & T3). rewrite T2, T3.
    cbn [mapM fst snd]. rewrite IH by (intros x Hx; apply Hin; right; auto).
    assert (Hlen : length lens = length tiles) by (unfold lens; apply map_length).
    rewrite (nth_map _ _ _ _ t0) by lia. rewrite set_at by auto.
    assert (Hk : tile_key (list_sum (firstn (tile_at lens (fst r)) lens)) (snd r) = piece_key (Z.of_nat (list_sum (firstn (tile_at lens (fst r)) lens))) (snd r)).
    { unfold tile_key, piece_key. destruct (snd r) as [|? [|? ?]]; reflexivity. }
    rewrite Hk. set (k := piece_key _ (snd r)).
    assert (Hk1 : one_dim k) by (unfold k, piece_key; destruct (snd r) as [|? [|? ?]]; split; reflexivity).
    assert (Hkf : key_full_b k = false) by (unfold k, piece_key; destruct (snd r) as [|? [|? ?]]; reflexivity).
    rewrite (getitem_expand _ _ (pre ++ k :: post)); auto.
    - apply (mosaic_ndim tiles axis); auto. apply nth_In. lia.
    - rewrite <- trim_mid by auto. destruct (one_dims _ (HO k Hk1)) as [N1 N2]. apply np_expand_trim; auto.
      destruct (mosaic_ndim tiles axis (nth (tile_at lens (fst r)) tiles t0) Hw) as (-> & _); [apply nth_In; lia|]. rewrite <- HL, !app_length. auto. }
  rewrite G by (intros x; auto). reflexivity.
Qed.

Lemma unit_slice j n : slice_idx (mkS (Some j) (Some (j + 1)%Z) (Some 1%Z)) n
  = Ok (if ((- Z.of_nat n <=? j) && (j <? Z.of_nat n) && negb (j =? -1))%Z then [(if j <? 0 then j + Z.of_nat n else j)%Z] else []).
Proof.
  unfold slice_idx, slice_indices. cbn [s_start s_stop s_step]. change (1 =? 0)%Z with false. change (1 <? 0)%Z with false. cbv iota zeta. cbn [bind]. f_equal.
  set (z := Z.of_nat n). assert (0 <= z)%Z by (unfold z; lia). clearbody z. unfold py_range, range_len. change (0 <? 1)%Z with true. cbv iota.
  set (lo := clamp_bound z 0 z j). set (hi := clamp_bound z 0 z (j + 1)).
  rewrite Z.div_1_r. replace (hi - lo + 1 - 1)%Z with (hi - lo)%Z by lia.
  assert (D : if ((- z <=? j) && (j <? z) && negb (j =? -1))%Z then (hi - lo = 1 /\ lo = if j <? 0 then j + z else j)%Z else (hi - lo <= 0)%Z).
  { unfold lo, hi, clamp_bound. destruct ((- z <=? j) && (j <? z) && negb (j =? -1))%Z eqn:E.
    - apply andb_true_iff in E as [E E2]. apply andb_true_iff in E as [E0 E1]. apply negb_true_iff in E2.
      destruct (Z.ltb_spec j 0).
      + replace (j + z <? 0)%Z with false by lia. replace (j + 1 <? 0)%Z with true by lia. replace (j + 1 + z <? 0)%Z with false by lia. lia.
      + replace (z <? j)%Z with false by lia. replace (j + 1 <? 0)%Z with false by lia. replace (z <? j + 1)%Z with false by lia. lia.
    - destruct (Z.eqb_spec j (-1)) as [->|N].
      + change (-1 <? 0)%Z with true. change (-1 + 1 <? 0)%Z with false. cbv iota. destruct (Z.ltb_spec (-1 + z) 0); destruct (Z.ltb_spec z (-1 + 1)); lia.
      + cbn [negb] in E. rewrite andb_true_r in E. destruct (Z.ltb_spec j 0).
        * replace (j + z <? 0)%Z with true by lia. replace (j + 1 <? 0)%Z with true by lia. destruct (Z.ltb_spec (j + 1 + z) 0); lia.
        * replace (j + 1 <? 0)%Z with false by lia. destruct (Z.ltb_spec z j); destruct (Z.ltb_spec z (j + 1)); lia. }
  destruct ((- z <=? j) && (j <? z) && negb (j =? -1))%Z.
  - destruct D as [-> Dl]. rewrite <- Dl. clearbody lo. change (Z.to_nat 1) with 1. cbn [seq map]. f_equal. change (Z.of_nat 0) with 0%Z. lia.
  - replace (Z.to_nat (hi - lo)) with 0 by lia. reflexivity.
Qed.
Lemma piece_sel off n is : is <> [] -> in_reach off (Z.of_nat n) is ->
  exists loc, sel_key (piece_key off is) n = Some (DLs loc) /\ Forall (fun j => j < n) loc
    /\ read_run off (Z.of_nat n) is = map (fun j => off + Z.of_nat j)%Z loc.
Proof.
  intros Hne HR. assert (HM : Forall (fun i => - Z.of_nat n <= i - off < Z.of_nat n)%Z is ->
    exists loc, sel_key (KArr (map (fun i => i - off)%Z is)) n = Some (DLs loc) /\ Forall (fun j => j < n) loc
    /\ map (fun i => place off (Z.of_nat n) (i - off)) is = map (fun j => off + Z.of_nat j)%Z loc).
  { clear. intros H. induction H as [|i is Hi H IH]; [exists []; repeat split; auto|].
    destruct IH as (loc & E1 & E2 & E3). cbn [sel_key map norm_ints] in *. destruct (norm_ints (map (fun i => (i - off)%Z) is) n) as [r|]; [|discriminate]. injection E1 as ->.
    unfold norm_int. replace ((- Z.of_nat n <=? i - off) && (i - off <? Z.of_nat n))%Z with true by lia.
    eexists; split; [reflexivity|]. split.
    - constructor; auto. destruct (Z.ltb_spec (i - off) 0); lia.
    - cbn [map]. rewrite <- E3. f_equal. unfold place. destruct (Z.ltb_spec (i - off) 0); lia. }
  destruct is as [|i [|i2 is]]; [congruence| |apply HM; exact HR].
  cbn [piece_key sel_key read_run]. rewrite unit_slice. destruct ((- Z.of_nat n <=? i - off) && (i - off <? Z.of_nat n) && negb (i - off =? -1))%Z eqn:E.
  - eexists; split; [reflexivity|]. cbn [map]. split; [constructor; auto; destruct (Z.ltb_spec (i - off) 0); lia|]. unfold place. f_equal. destruct (Z.ltb_spec (i - off) 0); lia.
  - exists []. repeat split; auto.
Qed.
Lemma sel_mid_set k k' pre post d cs n : Forall one_dim pre -> is_new k = false -> is_new k' = false -> forall sh,
  sel_keys (pre ++ k :: post) sh = Some cs -> sel_key k' n = Some d ->
  sel_keys (pre ++ k' :: post) (set_nth (length pre) n sh) = Some (set_nth (length pre) d cs).
Proof.
  intros HP Hk Hk'. revert cs. induction HP as [|x pre [K1 K2] HP IH]; intros cs [|m sh] H Hd; cbn [app length] in *.
  - destruct k; discriminate.
  - rewrite sel_keys_cons_eq in H by auto. destruct (sel_key k m); [|discriminate]. destruct (sel_keys post sh) eqn:E; [|discriminate]. injection H as <-.
    cbn [set_nth]. rewrite sel_keys_cons_eq by auto. rewrite Hd, E. reflexivity.
  - destruct x; discriminate.
  - rewrite sel_keys_cons_eq in H by auto. destruct (sel_key x m) eqn:Ex; [|discriminate]. destruct (sel_keys (pre ++ k :: post) sh) eqn:E; [|discriminate]. injection H as <-.
    cbn [set_nth]. rewrite sel_keys_cons_eq by auto. rewrite Ex. rewrite (IH _ _ E Hd). reflexivity.
Qed.

Lemma tile_shape (tiles : list (@barr V)) axis t : wf (AMosaic tiles axis) -> In t tiles ->
  shape t = set_nth axis (nth axis (shape t) 0) (shape (AMosaic tiles axis)).
Proof.
  intros (Hne & _ & Hst) Ht. rewrite Forall_forall in Hst. destruct tiles as [|u us]; [congruence|]. destruct (Hst t Ht) as (A1 & A2 & _). cbn [hd] in *.
  cbn [shape]. rewrite set_nth_set_nth. apply set_nth_remove; auto. apply (Hst u). left. auto.
Qed.

(** C12: the values.  When the indexing returns, it has read, run after run, the
    positions [read_run] says.  Needed: a run of several positions stays in reach,
    and each tile reads right with its key. *)
Theorem C12_sequence_reads (O : numops V) (tiles : list (@barr V)) axis pre l post runs t0 b : wf (AMosaic tiles axis) ->
  Forall one_dim pre -> Forall one_dim post -> length pre = axis ->
  length (pre ++ KTuple l :: post) = ndim (AMosaic tiles axis) -> l <> [] ->
  let lens := lens_of tiles axis in
  let off p := Z.of_nat (list_sum (firstn p lens)) in
  let len p := Z.of_nat (nth p lens 0%nat) in
  cut_by_tile lens l runs -> In t0 tiles ->
  Forall (fun r => let p := tile_at lens (fst r) in
                   in_reach (off p) (len p) (snd r)
                   /\ safe_keys (nth p tiles t0) (pre ++ piece_key (off p) (snd r) :: post)) runs ->
  valid_keys (pre ++ KFull :: post) (shape (AMosaic tiles axis)) ->
  getitem (AMosaic tiles axis) (pre ++ KTuple l :: post) = Ok b ->
  let read := concat (map (fun r => let p := tile_at lens (fst r) in read_run (off p) (len p) (snd r)) runs) in
  wf b /\ forall m, nd_eq (den O m b) (oindex (den O m (AMosaic tiles axis)) (pre ++ KTuple read :: post)).
Proof.
  intros Hw Hpre Hpost Hax HL Hlne lens off len Hcut Ht0 HR Hv Eb read.
  pose proof (C12_sequence tiles axis pre l post runs t0 Hw Hpre Hpost Hax HL Hcut) as E. cbv zeta in E. fold lens in E. rewrite Eb in E. symmetry in E.
  apply bind_ok in E as (pieces & Ep & Emk). destruct Hcut as (Hl & _ & HF).
  assert (HO : forall k, one_dim k -> Forall one_dim (pre ++ k :: post)) by (intros k Hk; apply Forall_app; split; auto).
  assert (Hfull : forall k n0, one_dim k -> length (pre ++ k :: post) = n0 -> fullk (pre ++ k :: post) n0).
  { intros k n0 Hk Hn. split; [apply one_dims; auto|]. rewrite one_dims_real by auto. auto. }
  assert (Hlen : forall k k', length (pre ++ k :: post) = length (pre ++ k' :: post)) by (intros; rewrite !app_length; auto).
  unfold valid_keys, oselect in Hv. fold (ndim (AMosaic tiles axis)) in Hv.
  rewrite np_expand_id in Hv by (apply Hfull; [split; auto|rewrite <- HL; apply Hlen]).
  destruct (sel_keys (pre ++ KFull :: post) (shape (AMosaic tiles axis))) as [cs0|] eqn:Ecs0; [|congruence]. clear Hv.
  assert (Hll : length lens = length tiles) by (unfold lens; apply map_length).
  assert (Hnlen : nth axis (shape (AMosaic tiles axis)) 0 = list_sum lens) by (apply mosaic_len; auto).
  assert (Hax2 : axis < length (shape (AMosaic tiles axis))).
  { destruct (mosaic_ndim tiles axis t0 Hw Ht0) as (H1 & H2 & _). unfold ndim in *. lia. }
  (* local positions *)
  assert (HLoc : exists locs, Forall2 (fun r loc => let p := tile_at lens (fst r) in
      sel_key (piece_key (off p) (snd r)) (nth p lens 0) = Some (DLs loc) /\ Forall (fun j => j < nth p lens 0) loc
      /\ read_run (off p) (len p) (snd r) = map (fun j => off p + Z.of_nat j)%Z loc) runs locs).
  { clear - HF HR. induction HF as [|r rs (F1 & _) HF IH]; [exists []; constructor|]. inversion HR as [|? ? (R1 & _) R2]; subst.
    destruct (IH R2) as (locs & HL). destruct (piece_sel _ _ _ F1 R1) as (loc & HH). exists (loc :: locs). constructor; auto. }
  destruct HLoc as (locs & HLoc).
  set (L := concat (map (fun q : (option nat * list Z) * list nat => map (fun j => list_sum (firstn (tile_at lens (fst (fst q))) lens) + j) (snd q)) (combine runs locs))).
  assert (HreadL : read = map Z.of_nat L).
  { unfold read, L. rewrite concat_map, map_map. f_equal. clear - HLoc. induction HLoc as [|r loc rs ls (_ & _ & E) H IH]; auto. cbn [map combine]. rewrite IH, E. f_equal.
    rewrite map_map. cbn [fst snd]. apply map_ext. intros j. unfold off. lia. }
  assert (HLb : Forall (fun j => j < list_sum lens) L).
  { unfold L. apply Forall_concat. apply Forall_forall. intros q Hq. apply in_map_iff in Hq as ((r & loc) & <- & Hin). cbn [fst snd].
    assert (tile_at lens (fst r) < length lens /\ Forall (fun j => j < nth (tile_at lens (fst r)) lens 0) loc) as [Hp Hb].
    { clear - HLoc HF Hin. induction HLoc as [|r' loc' rs ls (_ & E & _) H IH]; [destruct Hin|]. inversion HF as [|? ? (_ & F2 & _) F]; subst. destruct Hin as [Hin|Hin]; [injection Hin as -> ->; auto|auto]. }
    apply Forall_forall. intros j Hj. apply in_map_iff in Hj as (i & <- & Hi). rewrite Forall_forall in Hb. specialize (Hb i Hi).
    rewrite !list_sum_eq. apply sum_firstn_lt; auto. }
  set (cs := set_nth axis (DLs L) cs0).
  assert (Ecs : sel_keys (pre ++ KTuple read :: post) (shape (AMosaic tiles axis)) = Some cs).
  { rewrite <- (set_nth_same axis 0 (shape (AMosaic tiles axis))). unfold cs.
    assert (Hk : sel_key (KTuple read) (nth axis (shape (AMosaic tiles axis)) 0) = Some (DLs L)) by (rewrite Hnlen, HreadL; cbn [sel_key]; rewrite norm_ints_nat by auto; auto).
    pose proof (sel_mid_set KFull (KTuple read) pre post (DLs L) cs0 _ Hpre eq_refl eq_refl _ Ecs0 Hk) as HS. rewrite Hax in HS. exact HS. }
  assert (Hcslen : length cs0 = length (shape (AMosaic tiles axis))).
  { destruct (sel_keys_length _ _ _ (proj1 (one_dims _ (HO KFull ltac:(split; auto)))) Ecs0) as [_ H]. exact H. }
  set (parts := map (fun q : ((option nat * list Z) * list nat) * barr => ((tile_at lens (fst (fst (fst q))), snd (fst q)), snd q)) (combine (combine runs locs) pieces)).
  assert (Hll2 : length runs = length locs) by (eapply Forall2_length; eauto).
  apply mapM_ok in Ep. assert (Hlp : length runs = length pieces) by (eapply Forall2_length; eauto).
  assert (Hsnd : map snd parts = pieces).
  { unfold parts. rewrite map_map. cbn [snd]. clear - Hlp Hll2.
    revert locs pieces Hlp Hll2. induction runs as [|r rs IH]; intros [|loc ls] [|q qs] H1 H2; cbn in *; auto; try lia. f_equal; auto. }
  destruct (mosaic_parts O tiles axis t0 cs L parts) as (b' & Eb' & Gb); auto.
  - eapply sel_keys_valid; eauto.
  - unfold cs. rewrite set_nth_length. auto.
  - unfold cs. rewrite nth_set_nth_eq by lia. auto.
  - intros E0. assert (length parts = 0) as E1 by (rewrite E0; auto). unfold parts in E1. rewrite map_length, !combine_length in E1. assert (length runs = 0) as E2 by lia. destruct runs; [|discriminate E2]. cbn in Hl. congruence.
  - unfold parts, L. rewrite map_map. f_equal. fold lens. clear - Hlp Hll2.
    revert locs pieces Hlp Hll2. induction runs as [|r rs IH]; intros [|loc ls] [|q qs] H1 H2; cbn in *; auto; try lia. f_equal; auto.
  - apply Forall_forall. intros q Hq. unfold parts in Hq. apply in_map_iff in Hq as (((r & loc) & x) & <- & Hin). cbn [fst snd]. fold lens.
    assert (Hq : (snd r <> [] /\ tile_at lens (fst r) < length lens) /\ (sel_key (piece_key (off (tile_at lens (fst r))) (snd r)) (nth (tile_at lens (fst r)) lens 0) = Some (DLs loc) /\ Forall (fun j => j < nth (tile_at lens (fst r)) lens 0) loc)
      /\ safe_keys (nth (tile_at lens (fst r)) tiles t0) (pre ++ piece_key (off (tile_at lens (fst r))) (snd r) :: post)
      /\ getitem (nth (tile_at lens (fst r)) tiles t0) (pre ++ piece_key (off (tile_at lens (fst r))) (snd r) :: post) = Ok x).
    { clear - HLoc HF HR Ep Hin. revert pieces Ep Hin. induction HLoc as [|r' loc' rs ls (E1 & E2 & _) H IH]; intros [|x' xs] Ep Hin; try (destruct Hin; fail). inversion HF as [|? ? (F1 & F2 & _) F]; subst. inversion HR as [|? ? (_ & R1) R2]; subst. inversion Ep; subst.
      destruct Hin as [Hin|Hin]; [injection Hin as -> -> ->; auto 10|]. eapply IH; eauto. }
    destruct Hq as ((Q1 & Q2) & (Q3 & Q4) & Q5 & Q6). split; [lia|]. split; [auto|].
    set (p := tile_at lens (fst r)) in *. set (k := piece_key (off p) (snd r)) in *. set (t := nth p tiles t0) in *.
    assert (Hin2 : In t tiles) by (apply nth_In; lia). destruct (mosaic_ndim tiles axis t Hw Hin2) as (N1 & N2 & N3).
    assert (Hk1 : one_dim k) by (unfold k, piece_key; destruct (snd r) as [|? [|? ?]]; split; reflexivity).
    assert (Hfk : fullk (pre ++ k :: post) (ndim t)) by (apply Hfull; auto; rewrite N1, <- HL; apply Hlen).
    assert (Hsel : sel_keys (pre ++ k :: post) (shape t) = Some (set_nth axis (DLs loc) cs)).
    { assert (Hsh : shape t = set_nth axis (nth p lens 0) (shape (AMosaic tiles axis))).
      { unfold lens. rewrite (nth_map _ _ _ _ t0) by lia. apply tile_shape; auto. }
      rewrite Hsh. unfold cs. rewrite set_nth_set_nth.
      pose proof (sel_mid_set KFull k pre post (DLs loc) cs0 (nth p lens 0) Hpre eq_refl (proj1 Hk1) _ Ecs0 Q3) as HS. rewrite Hax in HS. exact HS. }
    assert (HKS : KS t (pre ++ k :: post)).
    { split; [|eauto]. apply Q5. apply np_expand_id; auto. }
    destruct (sound_all O t (pre ++ k :: post) (pre ++ k :: post) _ N3 (np_expand_id _ _ Hfk) Hsel HKS) as (x' & Ex & Gx). congruence.
  - rewrite Hsnd in Eb'. assert (Erk : axis - count_if is_scalar pre = rk cs axis).
    { rewrite <- (rk_scalar (pre ++ KTuple read :: post) (shape (AMosaic tiles axis)) cs axis); auto; [|apply one_dims, HO; split; auto|lia].
      rewrite <- Hax, firstn_app, Nat.sub_diag, firstn_all. cbn [firstn]. rewrite app_nil_r. auto. }
    rewrite Erk in Emk. assert (b' = b) by congruence. subst b'. split; [apply Gb|]. intros m. unfold oindex, oselect. rewrite den_shape by auto. fold (ndim (AMosaic tiles axis)).
    rewrite np_expand_id by (apply Hfull; [split; auto|rewrite <- HL; apply Hlen]). rewrite Ecs. apply Gb.
Qed.

(** Every sequence is cut in some way, so C12_sequence is about every sequence. *)
Theorem C12_every_sequence lens l : lens <> [] -> exists runs, cut_by_tile lens l runs.
Proof.
  intros Hne. assert (Hn : 0 < length lens) by (destruct lens; [congruence|cbn; lia]).
  induction l as [|i l (rs & Hc & Hch & HF)]; [exists []; repeat split; constructor|].
  assert (exists w, tile_at lens w < length lens /\ looked_up lens w i) as (w & Hw1 & Hw2).
  { destruct (Z.ltb_spec i 0); [exists None; cbn; split; [lia|auto]|].
    destruct (Z.ltb_spec i (Z.of_nat (list_sum lens))) as [Hi|Hi].
    - destruct (tile_in lens i) as (p & P1 & P2 & _); [rewrite <- list_sum_eq; lia|]. exists (Some p). cbn. split; auto. split; auto. replace (i <? Z.of_nat (list_sum lens))%Z with true by lia. auto.
    - exists (Some (length lens - 1)). cbn. split; [lia|]. split; auto. replace (i <? Z.of_nat (list_sum lens))%Z with false by lia. auto. }
  assert (Hd : {match rs with [] => False | r :: _ => fst r = w end} + {~ match rs with [] => False | r :: _ => fst r = w end}).
  { destruct rs as [|r rs]; [right; auto|]. decide equality. apply Nat.eq_dec. }
  destruct Hd as [Hd|Hd].
  - destruct rs as [|[w' is] rs]; [destruct Hd|]. cbn [fst] in Hd. subst w'. inversion HF as [|? ? (F1 & F2 & F3) F4]; subst. cbn [fst snd] in *.
    exists ((w, i :: is) :: rs). repeat split; auto. constructor; auto. cbn [fst snd]. split; [discriminate|]. split; auto.
  - exists ((w, [i]) :: rs). split; [|split].
    + cbn [map concat snd app]. f_equal. auto.
    + destruct rs as [|r rs]; cbn [changing]; auto.
    + constructor; auto. cbn [fst snd]. split; [discriminate|]. split; auto.
Qed.

(** Index arrays, and lists where the other keys allow them, are like tuples; so is
    a slice with a positive step, with the positions it selects. *)
Theorem C12_sequence_kinds (tiles : list (@barr V)) axis pre l post : Forall one_dim pre -> Forall one_dim post -> length pre = axis ->
  length (pre ++ KTuple l :: post) = ndim (AMosaic tiles axis) ->
  getitem (AMosaic tiles axis) (pre ++ KArr l :: post) = getitem (AMosaic tiles axis) (pre ++ KTuple l :: post)
  /\ getitem (AMosaic tiles axis) (pre ++ KList l :: post) = getitem (AMosaic tiles axis) (pre ++ KTuple l :: post)
  /\ forall s, s <> full_slice -> match s_step s with None => True | Some st => (0 < st)%Z end ->
     slice_idx s (list_sum (lens_of tiles axis)) = Ok l ->
     getitem (AMosaic tiles axis) (pre ++ KSlice s :: post) = getitem (AMosaic tiles axis) (pre ++ KTuple l :: post).
Proof.
  intros Hpre Hpost Hax HL.
  assert (HO : forall k, one_dim k -> Forall one_dim (pre ++ k :: post)) by (intros k Hk; apply Forall_app; split; auto).
  assert (HE : forall k, one_dim k -> key_full_b k = false ->
    match k with KTuple m | KArr m | KList m => m = l | KSlice s => match s_step s with None => True | Some st => (0 < st)%Z end /\ slice_idx s (list_sum (lens_of tiles axis)) = Ok l | _ => False end ->
    getitem (AMosaic tiles axis) (pre ++ k :: post) = getitem (AMosaic tiles axis) (pre ++ KTuple l :: post)).
  { intros k Hk Hkf Hm. rewrite !mosaic_full; try (apply HO; auto; split; auto); auto; [|rewrite <- HL, !app_length; auto]. f_equal.
    unfold mosaic_plan. rewrite !trim_mid by auto. cbv zeta.
    replace (length (pre ++ k :: trim_keys post) <=? axis) with false by (rewrite app_length; cbn; lia).
    replace (length (pre ++ KTuple l :: trim_keys post) <=? axis) with false by (rewrite app_length; cbn; lia).
    rewrite <- Hax. rewrite !nth_mid. rewrite !firstn_app, !Nat.sub_diag, !firstn_all. cbn [firstn].
    assert (HS : forall g, map (fun g : Z * list Z => let '(t, is) := g in (tile_num (length (lens_of tiles (length pre))) t, set_nth (length pre) (tile_key (py_nth 0 (offsets_from 0 (lens_of tiles (length pre))) t) is) (pre ++ k :: trim_keys post))) g
      = map (fun g : Z * list Z => let '(t, is) := g in (tile_num (length (lens_of tiles (length pre))) t, set_nth (length pre) (tile_key (py_nth 0 (offsets_from 0 (lens_of tiles (length pre))) t) is) (pre ++ KTuple l :: trim_keys post))) g).
    { intros g. apply map_ext. intros [t is]. rewrite !set_mid. auto. }
    destruct k as [|s|m|m|m|m| | |]; try contradiction; cbv beta iota in Hm; try (rewrite Hm in *; rewrite ?HS; reflexivity).
    destruct Hm as [H1 H2]. rewrite <- Hax, list_sum_eq in H2. rewrite H2. cbn [bind]. replace (match s_step s with Some st => (st <? 0)%Z | None => false end) with false by (destruct (s_step s); auto; lia).
    rewrite HS. reflexivity. }
  split; [apply HE; auto; split; auto|]. split; [apply HE; auto; split; auto|].
  intros s Hs Hst Hi. apply HE; [split; auto| |split; auto].
  cbn. unfold slice_eqb. destruct s as [[u|] [v|] [w|]]; cbn; rewrite ?andb_false_r; auto. exfalso. apply Hs. reflexivity.
Qed.

(** C12: so a sequence with negative positions reads each of them from the end of
    the last tile: [i + t], with [t] the length of that tile, instead of [i + n]. *)
Theorem C12_negative_sequence (O : numops V) (before : list (@barr V)) t axis pre l post b :
  let a := AMosaic (before ++ [t]) axis in
  let len := Z.of_nat (nth axis (shape t) 0%nat) in
  let off := Z.of_nat (list_sum (lens_of before axis)) in
  wf a -> Forall one_dim pre -> Forall one_dim post -> length pre = axis ->
  length (pre ++ KTuple l :: post) = ndim a -> l <> [] ->
  (0 < off)%Z -> Forall (fun i => off - len <= i < off + len)%Z l ->
  (forall u o is, In u (before ++ [t]) -> incl is l -> safe_keys u (pre ++ piece_key o is :: post)) ->
  valid_keys (pre ++ KFull :: post) (shape a) ->
  getitem a (pre ++ KTuple l :: post) = Ok b ->
  forall m, nd_eq (den O m b) (oindex (den O m a) (pre ++ KTuple (map (fun i => if i <? 0 then i + len else i)%Z l) :: post)).
Proof.
  intros a len off Hw Hpre Hpost Hax HL Hlne Hoff HB Hsafe Hv Eb m.
  set (lens := lens_of (before ++ [t]) axis). assert (Hll : length lens = S (length before)) by (unfold lens; rewrite map_length, app_length; cbn; lia).
  assert (Hlast : firstn (length lens - 1) lens = lens_of before axis).
  { unfold lens. rewrite map_app in *. rewrite app_length, !map_length. cbn [map length]. replace (length before + 1 - 1) with (length before) by lia. rewrite firstn_app, map_length, Nat.sub_diag. cbn [firstn]. rewrite app_nil_r. apply firstn_all2. rewrite map_length. auto. }
  assert (Hlt : nth (length lens - 1) lens 0 = nth axis (shape t) 0).
  { unfold lens. rewrite map_app, app_length, !map_length. cbn [map length]. rewrite app_nth2 by (rewrite map_length; lia). rewrite map_length. replace (length before + 1 - 1 - length before) with 0 by lia. reflexivity. }
  assert (Htot : Z.of_nat (list_sum lens) = (off + len)%Z).
  { unfold off, len, lens. rewrite map_app. unfold list_sum. rewrite fold_right_app. cbn [map fold_right]. rewrite Nat.add_0_r.
    clear. induction before as [|x l' IH]; cbn [map fold_right]; lia. }
  destruct (C12_every_sequence lens l) as (runs & Hcut); [destruct lens; [discriminate|congruence]|].
  pose proof Hcut as (Hl & _ & HF).
  assert (Hinc : forall r, In r runs -> incl (snd r) l).
  { intros r Hr x Hx. rewrite Hl. apply in_concat. exists (snd r). split; auto. apply in_map. auto. }
  rewrite Forall_forall in HB, HF.
  assert (HP : forall r i, In r runs -> In i (snd r) ->
    let p := tile_at lens (fst r) in let o := Z.of_nat (list_sum (firstn p lens)) in let n := Z.of_nat (nth p lens 0%nat) in
    (- n <= i - o < n)%Z /\ (i - o <> -1)%Z /\ place o n (i - o) = (if i <? 0 then i + len else i)%Z).
  { intros r i Hr Hi p o n. destruct (HF r Hr) as (F1 & F2 & F3). rewrite Forall_forall in F3. specialize (F3 i Hi). specialize (HB i (Hinc r Hr i Hi)).
    subst p o n. unfold place. destruct (fst r) as [p|]; cbn [tile_at looked_up] in *.
    - destruct F3 as [F0 F3]. replace (i <? Z.of_nat (list_sum lens))%Z with true in F3 by lia. unfold in_tile in F3. cbv zeta in F3.
      set (o := Z.of_nat (list_sum (firstn p lens))) in *. set (n := Z.of_nat (nth p lens 0%nat)) in *. replace (i - o <? 0)%Z with false by lia. replace (i <? 0)%Z with false by lia. lia.
    - rewrite Hlast, Hlt. fold off len. replace (i - off <? 0)%Z with true by lia. replace (i <? 0)%Z with true by lia. lia. }
  assert (Hr : concat (map (fun r : option nat * list Z => let p := tile_at lens (fst r) in read_run (Z.of_nat (list_sum (firstn p lens))) (Z.of_nat (nth p lens 0%nat)) (snd r)) runs)
    = map (fun i => if i <? 0 then i + len else i)%Z l).
  { rewrite Hl, concat_map, map_map. f_equal. apply map_ext_in. intros r Hr. cbv zeta. specialize (HP r). cbv zeta in HP. destruct (snd r) as [|i [|j is]] eqn:Er; auto.
    - destruct (HP i Hr (or_introl eq_refl)) as (P1 & P2 & P3). cbn [read_run map]. cbv zeta. replace (_ && _)%bool with true by (symmetry; repeat (apply andb_true_iff; split); try apply negb_true_iff; lia). f_equal. exact P3.
    - cbn [read_run]. apply map_ext_in. intros x Hx. apply (HP x Hr Hx). }
  rewrite <- Hr. apply (C12_sequence_reads O (before ++ [t]) axis pre l post runs t b); auto.
  - apply in_or_app. right. left. auto.
  - apply Forall_forall. intros r Hr'. fold lens. cbv zeta. split.
    + unfold in_reach. pose proof (HP r) as HP'. cbv zeta in HP'. destruct (snd r) as [|i [|j is]] eqn:Er; auto; apply Forall_forall; intros x Hx; apply (HP' x Hr' Hx).
    + apply Hsafe; [|apply Hinc; auto]. destruct (HF r Hr') as (_ & F2 & _). apply nth_In. unfold lens in F2. rewrite map_length in F2. exact F2.
Qed.
End Claims.

Print Assumptions C12_sequence.
Print Assumptions C12_sequence_reads.
Print Assumptions C12_every_sequence.
Print Assumptions C12_sequence_kinds.
Print Assumptions C12_negative_sequence.

(** ** Cases *)

(** [mos[(-1, 1, 3, 4)]] with tiles of lengths 2 and 3: three runs. *)
Example C12_sequence_case :
  cut_by_tile [2;3] [-1;1;3;4]%Z [(None, [-1]%Z); (Some 0, [1]%Z); (Some 1, [3;4]%Z)]
  /\ length ([] ++ KTuple [-1;1;3;4]%Z :: []) = ndim mos
  /\ getitem mos [KTuple [-1;1;3;4]%Z]
     = (pieces <- mapM (fun x => x) [getitem (arr [3]) [KSlice (mkS (Some (-3)%Z) (Some (-2)%Z) (Some 1%Z))];
                                     getitem (arr [2]) [KSlice (mkS (Some 1%Z) (Some 2%Z) (Some 1%Z))];
                                     getitem (arr [3]) [KArr [1;2]%Z]] ;; mk_mosaic pieces 0)
  /\ exists b, getitem mos [KTuple [-1;1;3;4]%Z] = Ok b.
Proof.
  split; [|split; [reflexivity|split; [reflexivity|eexists; reflexivity]]].
  split; [reflexivity|]. split; [repeat split; discriminate|].
  repeat (apply Forall_cons; [split; [discriminate|]; split; [cbn; lia|]; repeat constructor; cbn; lia|]). constructor.
Qed.
(** What is read: position 2 for -1, where NumPy reads 4. *)
Example C12_sequence_reads_case :
  (forall u o is, In u [arr [2]; arr [3]] -> incl is [-1;1;3;4]%Z -> safe_keys u ([] ++ piece_key o is :: []))
  /\ valid_keys ([] ++ KFull :: []) (shape mos)
  /\ before true mos [KTuple [-1;1;3;4]%Z] = after true mos [KTuple [2;1;3;4]%Z]
  /\ before true mos [KTuple [-1;1;3;4]%Z] <> after true mos [KTuple [-1;1;3;4]%Z].
Proof.
  split; [intros u o is [<-|[<-|[]]] _ ks _; constructor|]. split; [valid|]. split; [reflexivity|]. discriminate.
Qed.
(** A single -1 on a mosaic of one tile selects nothing at all. *)
Theorem C12_lost_refuted : exists a : @barr Z, wf a /\ shape a = [3] /\ valid_keys [KTuple [-1]%Z] (shape a)
  /\ (exists b, getitem a [KTuple [-1]%Z] = Ok b /\ shape b = [0]).
Proof.
  exists (AMosaic [arr [3]] 0). split; [repeat split; try (repeat constructor; fail); try valid|]. split; [reflexivity|]. split; [valid|]. eexists; split; reflexivity.
Qed.
Print Assumptions C12_lost_refuted.
