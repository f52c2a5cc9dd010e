(** What a LinearMosaic does with each kind of key on its own axis (C12),
    including the keys for which it is not what NumPy does. *)
From Verif Require Import Base PySlice Keys NDArray Arrays Spec Supported Lib SelLemmas KeyLemmas NewAxLemmas GetBase GetSimple GetBcast GetMosaic GetItem Sound Samples PropRefuted.

(** ** The specification *)

(** The positions of tile [p] along the axis, when the tiles have lengths [lens]. *)
Definition in_tile (lens : list nat) (p : nat) (i : Z) : bool :=
  let start := Z.of_nat (list_sum (firstn p lens)) in
  ((start <=? i) && (i <? start + Z.of_nat (nth p lens 0%nat)))%Z.
(** [l] with its positions sorted by tile, and in the order of [l] in each. *)
Definition by_tile (lens : list nat) (l : list Z) : list Z :=
  concat (map (fun p => filter (in_tile lens p) l) (seq 0 (length lens))).
(** A key that is neither [np.newaxis] nor [Ellipsis]. *)
Definition one_dim (k : key) : Prop := is_new k = false /\ is_ell k = false.

(** ** Lemmas *)
Section Any.
Context {V : Type}.
Implicit Types t : @barr V.
Notation lens_of tiles axis := (map (fun t : @barr V => nth axis (shape t) 0) tiles).

Lemma list_sum_eq l : list_sum l = fold_right Nat.add 0 l.
Proof. reflexivity. Qed.

Lemma one_dims l : Forall one_dim l -> nonew l /\ existsb is_ell l = false.
Proof.
  intros H. split; apply existsb_false_Forall; eapply Forall_impl; try apply H; intros k [H1 H2]; auto.
Qed.
Lemma one_dims_real l : Forall one_dim l -> n_real l = length l.
Proof. induction 1 as [|k l [H1 H2] H IH]; auto. unfold n_real in *. rewrite count_if_cons, H1, H2. simpl. lia. Qed.

Lemma trim_mid pre k post : key_full_b k = false -> trim_keys (pre ++ k :: post) = pre ++ k :: trim_keys post.
Proof.
  intros H. induction pre as [|x pre IH]; cbn [app trim_keys].
  - destruct (trim_keys post); auto. rewrite H. auto.
  - rewrite IH. destruct pre; auto.
Qed.
Lemma nth_mid {A} (pre post : list A) x d : nth (length pre) (pre ++ x :: post) d = x.
Proof. induction pre; simpl; auto. Qed.
Lemma set_mid {A} (pre post : list A) x y : set_nth (length pre) y (pre ++ x :: post) = pre ++ y :: post.
Proof. induction pre; simpl; auto. f_equal; auto. Qed.

Lemma nth_at {A} (pre post : list A) x d n : length pre = n -> nth n (pre ++ x :: post) d = x.
Proof. intros <-. apply nth_mid. Qed.
Lemma set_at {A} (pre post : list A) x y n : length pre = n -> set_nth n y (pre ++ x :: post) = pre ++ y :: post.
Proof. intros <-. apply set_mid. Qed.

Lemma sel_mid k k' pre post : Forall one_dim pre -> is_new k = false -> is_new k' = false ->
  forall sh, sel_key k (nth (length pre) sh 0) = sel_key k' (nth (length pre) sh 0) ->
  sel_keys (pre ++ k :: post) sh = sel_keys (pre ++ k' :: post) sh.
Proof.
  intros HP Hk Hk'. induction HP as [|x pre [K1 K2] HP IH]; intros [|n sh] H; cbn [app].
  - destruct k, k'; try discriminate; reflexivity.
  - rewrite !sel_keys_cons_eq by auto. cbn [length nth] in H. rewrite H. auto.
  - destruct x; try discriminate; reflexivity.
  - rewrite !sel_keys_cons_eq by auto. cbn [length nth] in H. rewrite (IH sh H). auto.
Qed.

(** The plan for a key on the axis that is not a full slice. *)
Definition carry (tiles : list barr) (p : mplan) : res (@barr V) :=
  match p with
  | PAll ks ax => ts <- mapM (fun g => g ks) (map (fun t => getitem t) tiles) ;; mk_mosaic ts (Z.of_nat ax)
  | POne t ks => nth t (map (fun t => getitem t) tiles) (fun _ => Err IndexError) ks
  | PMany parts ax => ts <- mapM (fun p => (nth (fst p) (map (fun t => getitem t) tiles) (fun _ => Err IndexError)) (snd p)) parts ;;
                      mk_mosaic ts (Z.of_nat ax)
  end.
Lemma mosaic_full tiles axis keys : Forall one_dim keys -> length keys = ndim (AMosaic tiles axis) ->
  getitem (AMosaic tiles axis) keys = (p <- mosaic_plan (lens_of tiles axis) axis keys ;; carry tiles p).
Proof.
  intros HF HL. destruct (one_dims _ HF) as [H1 H2]. cbn [getitem]. unfold base_getitem. rewrite full_keys_id.
  - cbn [bind]. unfold nonew in H1. rewrite H1. reflexivity.
  - split; auto. rewrite one_dims_real by auto. auto.
Qed.

(** *** Tiles *)
Lemma tile_is lens p i : in_tile lens p i = true -> p < length lens -> tile_of (offsets_from 0 lens) i = Z.of_nat p.
Proof.
  unfold in_tile. rewrite list_sum_eq. intros H Hp. apply andb_true_iff in H as [H1 H2].
  pose proof (sum_firstn_lt lens p (Z.to_nat i - fold_right Nat.add 0 (firstn p lens)) Hp ltac:(lia)) as HS.
  destruct (tile_of_ok lens (Z.to_nat i) ltac:(lia)) as (q & E & Hq & Hb). rewrite Z2Nat.id in E by lia. rewrite E. f_equal.
  assert (forall a b, a < b -> b <= length lens -> fold_right Nat.add 0 (firstn a lens) + nth a lens 0 <= fold_right Nat.add 0 (firstn b lens)) as M.
  { clear. induction lens as [|n lens IH]; intros a b H1 H2; [simpl in H2; lia|]. destruct b as [|b]; [lia|]. destruct a as [|a]; cbn [firstn fold_right nth]; [lia|].
    simpl in H2. specialize (IH a b ltac:(lia) ltac:(lia)). lia. }
  destruct (Nat.lt_trichotomy p q) as [L|[L|L]]; auto.
  - specialize (M p q L ltac:(lia)). lia.
  - specialize (M q p L ltac:(lia)). lia.
Qed.
Lemma tile_in lens i : (0 <= i < Z.of_nat (fold_right Nat.add 0%nat lens))%Z ->
  exists p, p < length lens /\ in_tile lens p i = true /\ tile_of (offsets_from 0 lens) i = Z.of_nat p.
Proof.
  intros H. destruct (tile_of_ok lens (Z.to_nat i) ltac:(lia)) as (q & E & Hq & Hb). rewrite Z2Nat.id in E by lia.
  exists q. split; auto. split; auto. unfold in_tile. rewrite list_sum_eq. apply andb_true_iff. lia.
Qed.
Lemma tile_outside lens i : lens <> [] -> (i < 0 \/ Z.of_nat (fold_right Nat.add 0%nat lens) <= i)%Z ->
  tile_num (length lens) (tile_of (offsets_from 0 lens) i) = length lens - 1
  /\ py_nth 0 (offsets_from 0 lens) (tile_of (offsets_from 0 lens) i) = fold_right Nat.add 0 (firstn (length lens - 1) lens).
Proof.
  intros Hne Hi. assert (0 < length lens) as HL by (destruct lens; [congruence|simpl; lia]).
  assert (tile_of (offsets_from 0 lens) i = (-1)%Z \/ tile_of (offsets_from 0 lens) i = (Z.of_nat (length lens) - 1)%Z) as [E|E].
  { destruct Hi as [Hi|Hi]; [left|right]; unfold tile_of.
    - assert (count_if (fun o => (Z.of_nat o - 1 <? i)%Z) (offsets_from 0 lens) = 0) as ->; [|lia].
      apply count_if_0. apply existsb_false_Forall. apply Forall_forall. intros o _. lia.
    - enough (forall o, (Z.of_nat (o + fold_right Nat.add 0%nat lens) <= i)%Z ->
        count_if (fun o => (Z.of_nat o - 1 <? i)%Z) (offsets_from o lens) = length lens) as HC by (rewrite HC by exact Hi; lia).
      clear. induction lens as [|n lens IH]; intros o H; auto. cbn [offsets_from fold_right length] in *. rewrite count_if_cons.
      replace (Z.of_nat o - 1 <? i)%Z with true by lia. rewrite IH by lia. lia. }
  - rewrite E. unfold tile_num, py_nth. replace (-1 <? 0)%Z with true by reflexivity. rewrite offsets_length. split; [lia|].
    replace (Z.to_nat (Z.of_nat (length lens) + -1)) with (length lens - 1) by lia. rewrite nth_offsets by lia. auto.
  - rewrite E. unfold tile_num, py_nth. replace (Z.of_nat (length lens) - 1 <? 0)%Z with false by lia. split; [lia|].
    replace (Z.to_nat (Z.of_nat (length lens) - 1)) with (length lens - 1) by lia. rewrite nth_offsets by lia. auto.
Qed.

(** *** Runs *)
Fixpoint apart (gs : list (Z * list Z)) : Prop :=
  match gs with
  | g :: (h :: _) as r => fst g <> fst h /\ apart r
  | _ => True
  end.
Lemma group_runs_same (f : Z -> Z) gs : apart gs -> Forall (fun g => snd g <> [] /\ Forall (fun i => f i = fst g) (snd g)) gs ->
  group_runs (map (fun i => (i, f i)) (concat (map snd gs))) = gs.
Proof.
  induction gs as [|[t is] gs IH]; intros HA HF; auto. inversion HF as [|? ? [H1 H2] H3]; subst. cbn [fst snd] in *.
  assert (apart gs) as HA' by (destruct gs; [exact I|apply HA]). specialize (IH HA' H3).
  cbn [map concat]. rewrite map_app. cbn [snd].
  assert (forall js, Forall (fun i => f i = t) js -> js <> [] ->
     group_runs (map (fun i => (i, f i)) js ++ map (fun i => (i, f i)) (concat (map snd gs))) = (t, js) :: gs) as HJ; [|apply HJ; auto].
  induction js as [|i js IHj]; intros HFj Hj; [congruence|]. inversion HFj as [|? ? E1 E2]; subst. cbn [map app group_runs].
  destruct js as [|j js].
  - cbn [map app]. rewrite IH. destruct gs as [|[t' is'] r]; auto. destruct HA as [HA _]. cbn [fst] in HA.
    destruct (Z.eqb_spec (f i) t'); congruence.
  - rewrite (IHj E2 ltac:(discriminate)). rewrite Z.eqb_refl. auto.
Qed.
Lemma apart_app gs h : apart gs -> (forall g, last gs h = g -> gs <> [] -> fst g <> fst h) -> apart (gs ++ [h]).
Proof.
  induction gs as [|g gs IH]; intros HA HL; [exact I|]. destruct gs as [|g' gs].
  - cbn. split; auto. apply (HL g); auto. discriminate.
  - cbn [app]. destruct HA as [H1 H2]. split; auto. apply IH; auto. intros x Hx Hn. apply (HL x); [|discriminate]. exact Hx.
Qed.
Lemma apart_rev gs : apart gs -> apart (rev gs).
Proof.
  induction gs as [|g gs IH]; intros HA; [exact I|]. cbn [rev]. apply apart_app.
  - apply IH. destruct gs; [exact I|apply HA].
  - intros x Hx Hn. destruct gs as [|h gs]; [cbn in Hn; congruence|]. cbn [rev] in Hx. rewrite last_last in Hx. subst x. destruct HA as [HA _]. congruence.
Qed.

Lemma filter_rev {A} (p : A -> bool) l : filter p (rev l) = rev (filter p l).
Proof. induction l as [|x l IH]; auto. cbn [rev filter]. rewrite filter_app, IH. cbn [filter]. destruct (p x); cbn [rev]; auto. apply app_nil_r. Qed.
Definition is_nil {A} (l : list A) : bool := match l with [] => true | _ => false end.
(** A list in decreasing order is its tiles' parts, last tile first. *)
Lemma filter_sub {A} (p q : A -> bool) l : (forall x, In x l -> p x = true -> q x = true) -> filter p (filter q l) = filter p l.
Proof.
  induction l as [|x l IH]; intros H; auto. cbn [filter]. destruct (q x) eqn:Eq; cbn [filter].
  - rewrite IH by (intros; apply H; simpl; auto). auto.
  - destruct (p x) eqn:Ep; [specialize (H x (or_introl eq_refl) Ep); congruence|]. apply IH. intros; apply H; simpl; auto.
Qed.
Lemma dec_parts (f : Z -> Z) n : forall l, (forall i, In i l -> (0 <= f i < Z.of_nat n)%Z) ->
  (forall a i b j c, l = a ++ i :: b ++ j :: c -> (f j <= f i)%Z) ->
  concat (map (fun p => filter (fun i => f i =? Z.of_nat p)%Z l) (rev (seq 0 n))) = l.
Proof.
  induction n as [|n IH]; intros l HB HD.
  - destruct l as [|i l]; auto. specialize (HB i (or_introl eq_refl)). lia.
  - rewrite seq_S, rev_app_distr. cbn [rev app map concat plus].
    set (q := fun i => (f i <? Z.of_nat n)%Z). specialize (IH (filter q l)).
    assert (l = filter (fun i => (f i =? Z.of_nat n)%Z) l ++ filter q l) as El.
    { clear IH. revert HB HD. unfold q. clear q. induction l as [|i l IHl]; intros HB HD; auto. cbn [filter].
      assert (l = filter (fun i => (f i =? Z.of_nat n)%Z) l ++ filter (fun i => (f i <? Z.of_nat n)%Z) l) as E.
      { apply IHl; [intros; apply HB; simpl; auto|]. intros a x b y c ->. apply (HD (i :: a) x b y c). reflexivity. }
      pose proof (HB i (or_introl eq_refl)) as Hi. destruct (Z.eqb_spec (f i) (Z.of_nat n)) as [Hn|Hn].
      - replace (f i <? Z.of_nat n)%Z with false by lia. cbn [app]. f_equal. exact E.
      - replace (f i <? Z.of_nat n)%Z with true by lia.
        assert (filter (fun i => (f i =? Z.of_nat n)%Z) l = []) as Ef.
        { destruct (filter (fun i => (f i =? Z.of_nat n)%Z) l) as [|j r] eqn:Ej; auto. exfalso.
          assert (In j l /\ (f j =? Z.of_nat n)%Z = true) as [Hj Hjn] by (apply (filter_In (fun i => (f i =? Z.of_nat n)%Z) j l); rewrite Ej; simpl; auto).
          apply in_split in Hj as (b & c & ->). specialize (HD [] i b j c eq_refl). lia. }
        rewrite Ef in *. cbn [app] in *. f_equal. exact E. }
    transitivity (filter (fun i => (f i =? Z.of_nat n)%Z) l ++ filter q l); [|symmetry; exact El]. f_equal. etransitivity; [|apply IH].
    + f_equal. apply map_ext_in. intros p Hp. apply in_rev, in_seq in Hp. symmetry. apply filter_sub. intros i _ Hi. unfold q. lia.
    + intros i Hi. apply filter_In in Hi as [Hi Hq]. apply HB in Hi. unfold q in Hq. lia.
    + intros a i b j c Ec. rewrite El, Ec in HD. apply (HD (filter (fun i => (f i =? Z.of_nat n)%Z) l ++ a) i b j c). rewrite <- app_assoc. reflexivity.
Qed.

Lemma sum_app_firstn : forall lens p q, p <= q -> fold_right Nat.add 0 (firstn p lens) <= fold_right Nat.add 0 (firstn q lens).
Proof.
  induction lens as [|n lens IH]; intros p q H; [rewrite !firstn_nil; auto|]. destruct p; [cbn; lia|]. destruct q; [lia|].
  cbn [firstn fold_right]. specialize (IH p q ltac:(lia)). lia.
Qed.
Lemma tile_mono lens i j : (j <= i)%Z -> (tile_of (offsets_from 0 lens) j <= tile_of (offsets_from 0 lens) i)%Z.
Proof.
  intros H. unfold tile_of. enough (count_if (fun o => (Z.of_nat o - 1 <? j)%Z) (offsets_from 0 lens) <= count_if (fun o => (Z.of_nat o - 1 <? i)%Z) (offsets_from 0 lens)) by lia.
  induction (offsets_from 0 lens) as [|o l IH]; auto. rewrite !count_if_cons.
  destruct (Z.of_nat o - 1 <? j)%Z eqn:E; [replace (Z.of_nat o - 1 <? i)%Z with true by lia|destruct (Z.of_nat o - 1 <? i)%Z]; lia.
Qed.

Definition decreasing (l : list Z) : Prop := forall a i b j c, l = a ++ i :: b ++ j :: c -> (j < i)%Z.
Lemma decreasing_nth l : (forall p q, p < q -> q < length l -> (nth q l 0 < nth p l 0)%Z) -> decreasing l.
Proof.
  intros H a i b j c ->. specialize (H (length a) (length a + S (length b)) ltac:(lia) ltac:(rewrite !app_length; cbn; rewrite app_length; cbn; lia)).
  rewrite nth_mid, app_nth2_plus in H. cbn [nth] in H. rewrite nth_mid in H. auto.
Qed.
Lemma slice_dec s n l st : slice_idx s n = Ok l -> s_step s = Some st -> (st < 0)%Z -> decreasing l.
Proof.
  unfold slice_idx, slice_indices. intros E Es Hs. rewrite Es in E.
  destruct (_ =? 0)%Z; [discriminate|]. cbn [bind] in E. injection E as <-. apply decreasing_nth.
  unfold py_range. rewrite map_length, seq_length. intros p q Hpq Hq.
  match goal with |- context [map ?f (seq 0 ?n)] => rewrite !(nth_map_seq f n) by lia end. nia.
Qed.

Lemma runs_by_tile lens l : (forall i, In i l -> (0 <= i < Z.of_nat (fold_right Nat.add 0%nat lens))%Z) -> decreasing l ->
  runs lens (by_tile lens l) = rev (runs lens l).
Proof.
  intros HB HD. set (f := tile_of (offsets_from 0 lens)).
  set (part := fun p => filter (fun i => f i =? Z.of_nat p)%Z l).
  assert (Hf : forall p, p < length lens -> filter (in_tile lens p) l = part p).
  { intros p Hp. apply filter_ext_in. intros i Hi. destruct (tile_in lens i (HB i Hi)) as (q & Hq & E1 & E2). fold f in E2. rewrite E2.
    destruct (Z.eqb_spec (Z.of_nat q) (Z.of_nat p)) as [H|H].
    - assert (q = p) by lia. subst q. auto.
    - destruct (in_tile lens p i) eqn:E; auto. apply tile_is in E; auto. fold f in E. congruence. }
  set (gs := filter (fun g => negb (is_nil (snd g))) (map (fun p => (Z.of_nat p, part p)) (seq 0 (length lens)))).
  assert (Hcat : forall ps, concat (map snd (filter (fun g : Z * list Z => negb (is_nil (snd g))) (map (fun p => (Z.of_nat p, part p)) ps))) = concat (map part ps)).
  { induction ps as [|p ps IH]; auto. cbn [map filter snd concat]. destruct (part p) eqn:Ep; cbn [is_nil negb map concat snd app]; rewrite <- IH; auto. }
  assert (Hby : by_tile lens l = concat (map snd gs)).
  { unfold gs, by_tile. rewrite Hcat. f_equal. apply map_ext_in. intros p Hp. apply in_seq in Hp. apply Hf. lia. }
  assert (Hrev : l = concat (map snd (rev gs))).
  { unfold gs. rewrite <- filter_rev, <- map_rev, Hcat. symmetry. apply dec_parts.
    - intros i Hi. destruct (tile_in lens i (HB i Hi)) as (q & Hq & _ & E2). fold f in E2. lia.
    - intros a i b j c E. apply tile_mono. specialize (HD a i b j c E). lia. }
  assert (HA : apart gs).
  { unfold gs. generalize 0 (length lens). clear Hf gs Hcat Hby Hrev HB HD. intros s n. revert s. induction n as [|n IH]; intros s; [exact I|]. cbn [seq map filter snd].
    assert (Hlow : forall n s g, In g (filter (fun g : Z * list Z => negb (is_nil (snd g))) (map (fun p => (Z.of_nat p, part p)) (seq s n))) -> (Z.of_nat s <= fst g)%Z).
    { intros n' s' g Hg. apply filter_In in Hg as [Hg _]. apply in_map_iff in Hg as (p & <- & Hp). apply in_seq in Hp. cbn. lia. }
    destruct (negb (is_nil (part s))); auto. specialize (IH (S s)).
    destruct (filter _ (map _ (seq (S s) n))) as [|h r] eqn:E; [exact I|]. split; auto. cbn [fst].
    specialize (Hlow n (S s) h). rewrite E in Hlow. specialize (Hlow (or_introl eq_refl)). lia. }
  assert (HF : Forall (fun g => snd g <> [] /\ Forall (fun i => f i = fst g) (snd g)) gs).
  { apply Forall_forall. intros g Hg. apply filter_In in Hg as [Hg Hn]. apply in_map_iff in Hg as (p & <- & Hp). cbn [fst snd] in *. split.
    - intros E. rewrite E in Hn. discriminate.
    - apply Forall_forall. intros i Hi. apply filter_In in Hi as [_ Hi]. lia. }
  unfold runs. fold f. rewrite Hby at 1. rewrite (group_runs_same f gs HA HF). rewrite Hrev at 1.
  rewrite (group_runs_same f (rev gs)); [rewrite rev_involutive; auto|apply apart_rev; auto|apply Forall_rev; auto].
Qed.
End Any.

(** ** The claims *)
Section Claims.
Context {V : Type}.
Implicit Types t : @barr V.
Notation lens_of tiles axis := (map (fun t : @barr V => nth axis (shape t) 0) tiles).

Lemma mosaic_len (tiles : list (@barr V)) axis : wf (AMosaic tiles axis) ->
  nth axis (shape (AMosaic tiles axis)) 0 = fold_right Nat.add 0 (lens_of tiles axis).
Proof.
  intros (Hne & _ & Hst). destruct tiles as [|u us]; [congruence|]. rewrite Forall_forall in Hst.
  destruct (Hst u (or_introl eq_refl)) as (H1 & _). cbn [shape]. rewrite nth_set_nth_eq by exact H1. rewrite fold_left_add_acc. reflexivity.
Qed.
Lemma mosaic_ndim (tiles : list (@barr V)) axis t : wf (AMosaic tiles axis) -> In t tiles -> ndim t = ndim (AMosaic tiles axis) /\ axis < ndim t /\ wf t.
Proof.
  intros (Hne & Hw & Hst) Ht. apply wf_items in Hw. rewrite Forall_forall in Hw, Hst. destruct tiles as [|u us]; [congruence|].
  destruct (Hst u (or_introl eq_refl)) as (H1 & _). destruct (Hst t Ht) as (K1 & K2 & _). cbn [hd] in *. split; [|split; [auto|apply Hw; auto]].
  unfold ndim. cbn [shape]. rewrite set_nth_length. rewrite (set_nth_remove axis 0 (shape t) (shape u)) by auto. apply set_nth_length.
Qed.

(** C12: an integer on the mosaic's axis, whatever it is: the mosaic indexed by
    [pre + (i,) + post] is one of its tiles indexed by [pre + (i - off,) + post],
    where [off] is the total length of the tiles before it -- the same array or
    the same error.  It is the tile that holds position [i] if [0 <= i < n], and
    the last tile for any other [i], the negative ones included. *)
Theorem C12_integer (tiles : list (@barr V)) axis pre i post : wf (AMosaic tiles axis) ->
  Forall one_dim pre -> Forall one_dim post -> length pre = axis ->
  length (pre ++ KInt i :: post) = ndim (AMosaic tiles axis) ->
  exists before t after, tiles = before ++ t :: after
    /\ let n := Z.of_nat (nth axis (shape (AMosaic tiles axis)) 0%nat) in
       let off := Z.of_nat (list_sum (lens_of before axis)) in
       (if ((0 <=? i) && (i <? n))%Z then (off <= i < off + Z.of_nat (nth axis (shape t) 0%nat))%Z else after = [])
       /\ getitem (AMosaic tiles axis) (pre ++ KInt i :: post) = getitem t (pre ++ KInt (i - off) :: post).
Proof.
  intros Hw Hpre Hpost Hax HL. set (lens := lens_of tiles axis).
  assert (HF : forall k, one_dim k -> Forall one_dim (pre ++ k :: post)) by (intros k Hk; apply Forall_app; split; auto).
  rewrite mosaic_full by (auto; apply HF; split; auto). fold lens. rewrite mosaic_len by auto. fold lens.
  assert (Hne : tiles <> []) by apply Hw. assert (exists u0 us, tiles = u0 :: us) as (u0 & us & Et) by (destruct tiles; [congruence|eauto]).
  assert (HLl : length lens = length tiles) by (unfold lens; apply map_length).
  assert (exists p, p < length tiles /\ tile_num (length lens) (tile_of (offsets_from 0 lens) i) = p
    /\ py_nth 0 (offsets_from 0 lens) (tile_of (offsets_from 0 lens) i) = fold_right Nat.add 0 (firstn p lens)
    /\ if ((0 <=? i) && (i <? Z.of_nat (fold_right Nat.add 0%nat lens)))%Z then in_tile lens p i = true else p = length tiles - 1) as (p & Hp & E1 & E2 & E3).
  { destruct ((0 <=? i) && (i <? Z.of_nat (fold_right Nat.add 0%nat lens)))%Z eqn:E.
    - destruct (tile_in lens i ltac:(lia)) as (p & Hp & H1 & H2). exists p. rewrite H2. split; [lia|].
      unfold tile_num, py_nth. replace (Z.of_nat p <? 0)%Z with false by lia. rewrite Nat2Z.id, nth_offsets by auto. auto.
    - exists (length lens - 1). destruct (tile_outside lens i) as [H1 H2]; [unfold lens; rewrite Et; discriminate|lia|].
      split; [rewrite HLl, Et; cbn; lia|]. repeat split; auto; lia. }
  exists (firstn p tiles), (nth p tiles u0), (skipn (S p) tiles).
  assert (Hsplit : tiles = firstn p tiles ++ nth p tiles u0 :: skipn (S p) tiles).
  { rewrite <- (firstn_skipn p tiles) at 1. f_equal. clear - Hp. revert p Hp. induction tiles as [|x l IH]; intros [|p] Hp; cbn in Hp; try lia; auto.
    cbn [skipn nth]. apply IH. lia. }
  split; [exact Hsplit|]. cbv zeta. rewrite <- firstn_map. fold lens. unfold list_sum.
  assert (Hin : In (nth p tiles u0) tiles) by (apply nth_In; auto).
  split.
  - destruct ((0 <=? i) && (i <? Z.of_nat (fold_right Nat.add 0%nat lens)))%Z.
    + unfold in_tile in E3. rewrite list_sum_eq in E3. unfold lens in E3 at 3. rewrite (nth_map _ _ _ _ u0) in E3 by auto. lia.
    + apply skipn_all2. lia.
  - unfold mosaic_plan. rewrite trim_mid by reflexivity. cbv zeta.
    replace (length (pre ++ KInt i :: trim_keys post) <=? axis) with false by (rewrite app_length; cbn; lia).
    rewrite nth_at, set_at by auto. rewrite E1, E2. cbn [bind carry].
    rewrite (nth_map _ _ _ _ u0) by auto. destruct (mosaic_ndim _ _ _ Hw Hin) as (D1 & D2 & D3).
    apply getitem_expand; auto. rewrite D1, <- HL.
    destruct (one_dims _ (HF (KInt (i - Z.of_nat (fold_right Nat.add 0%nat (firstn p lens)))) ltac:(split; auto))) as [N1 N2].
    assert (length (pre ++ KInt i :: post) = length (pre ++ KInt (i - Z.of_nat (fold_right Nat.add 0%nat (firstn p lens))) :: post)) as -> by (rewrite !app_length; auto).
    rewrite <- trim_mid by reflexivity. apply np_expand_trim; auto.
Qed.

(** C12: a slice with a negative step on the mosaic's axis: exactly as if the
    positions it selects had been given as a sequence sorted by tile, so that
    every tile's part is reversed but the tiles stay in order. *)
Theorem C12_negative_step (tiles : list (@barr V)) axis pre s st post l : wf (AMosaic tiles axis) ->
  Forall one_dim pre -> Forall one_dim post -> length pre = axis ->
  length (pre ++ KSlice s :: post) = ndim (AMosaic tiles axis) ->
  s_step s = Some st -> (st < 0)%Z ->
  slice_idx s (nth axis (shape (AMosaic tiles axis)) 0) = Ok l ->
  getitem (AMosaic tiles axis) (pre ++ KSlice s :: post)
  = getitem (AMosaic tiles axis) (pre ++ KTuple (by_tile (lens_of tiles axis) l) :: post).
Proof.
  intros Hw Hpre Hpost Hax HL Es Hst El. set (lens := lens_of tiles axis).
  assert (HF : forall k, one_dim k -> Forall one_dim (pre ++ k :: post)) by (intros k Hk; apply Forall_app; split; auto).
  rewrite !mosaic_full; try (apply HF; split; auto); [|rewrite <- HL, !app_length; auto|auto]. fold lens.
  rewrite mosaic_len in El by auto. fold lens in El. f_equal.
  assert (key_full_b (KSlice s) = false) as Hk.
  { cbn. unfold slice_eqb. rewrite Es. cbn. rewrite andb_false_r. auto. }
  unfold mosaic_plan. rewrite !trim_mid by auto. cbv zeta.
  replace (length (pre ++ KSlice s :: trim_keys post) <=? axis) with false by (rewrite app_length; cbn; lia).
  replace (length (pre ++ KTuple (by_tile lens l) :: trim_keys post) <=? axis) with false by (rewrite app_length; cbn; lia).
  rewrite <- Hax. rewrite !nth_mid, El, Es. cbn [bind]. replace (st <? 0)%Z with true by lia.
  change (group_runs (map (fun i => (i, tile_of (offsets_from 0 lens) i)) ?x)) with (runs lens x).
  fold (runs lens l). fold (runs lens (by_tile lens l)).
  rewrite runs_by_tile; [|apply slice_idx_bounds in El; rewrite Forall_forall in El; auto|eapply slice_dec; eauto].
  rewrite map_rev, !firstn_app, !Nat.sub_diag, !firstn_all. cbn [firstn]. do 3 f_equal. apply map_ext. intros [t is]. rewrite !set_mid. reflexivity.
Qed.

(** C12: so the result is in the right order exactly if the selection lies in one
    tile. *)
Theorem C12_one_tile lens l : l <> [] -> decreasing l ->
  (forall i, In i l -> (0 <= i < Z.of_nat (list_sum lens))%Z) ->
  (by_tile lens l = l <-> exists p, p < length lens /\ forall i, In i l -> in_tile lens p i = true).
Proof.
  intros Hl HD HB. unfold by_tile. split.
  - intros E. destruct l as [|i l']; [congruence|]. destruct (tile_in lens i (HB i (or_introl eq_refl))) as (p & Hp & P1 & P2).
    exists p. split; auto.
    assert (HF : forall n s, s + n <= length lens -> forall x r, concat (map (fun p => filter (in_tile lens p) (i :: l')) (seq s n)) = x :: r ->
      forall j, In j (x :: r) -> (tile_of (offsets_from 0 lens) x <= tile_of (offsets_from 0 lens) j)%Z).
    { assert (HT : forall p x, p < length lens -> In x (filter (in_tile lens p) (i :: l')) -> tile_of (offsets_from 0 lens) x = Z.of_nat p).
      { intros q x Hq Hx. apply filter_In in Hx as [_ Hx]. apply tile_is; auto. }
      induction n as [|n IH]; intros s Hs x r Ec j Hj; [discriminate|]. cbn [seq map concat] in Ec.
      destruct (filter (in_tile lens s) (i :: l')) as [|y ys] eqn:Ef; [apply (IH (S s) ltac:(lia) x r); auto|].
      cbn [app] in Ec. injection Ec as -> Er. rewrite <- Er in Hj.
      rewrite (HT s x) by (try lia; rewrite Ef; simpl; auto).
      change (x :: ys ++ ?z) with ((x :: ys) ++ z) in Hj. apply in_app_or in Hj as [Hj|Hj].
      - rewrite (HT s j) by (try lia; rewrite Ef; auto). lia.
      - apply in_concat in Hj as (g & Hg & Hj). apply in_map_iff in Hg as (q & <- & Hq). apply in_seq in Hq. rewrite (HT q j) by (auto; lia). lia. }
    intros j Hj. assert (tile_of (offsets_from 0 lens) j = tile_of (offsets_from 0 lens) i) as Ej.
    { apply Z.le_antisymm.
      - apply tile_mono. destruct Hj as [->|Hj]; [lia|]. apply in_split in Hj as (b & c & ->). specialize (HD [] i b j c eq_refl). lia.
      - eapply (HF (length lens) 0); [lia|exact E|exact Hj]. }
    destruct (tile_in lens j (HB j Hj)) as (q & Hq & Q1 & Q2). assert (q = p) by lia. subst q. auto.
  - intros (p & Hp & Hin).
    assert (forall q, q < length lens -> filter (in_tile lens q) l = if q =? p then l else []) as HQ.
    { intros q Hq. destruct (Nat.eqb_spec q p) as [->|N].
      - clear - Hin. induction l as [|x l IH]; auto. cbn [filter]. rewrite Hin by (simpl; auto). f_equal. apply IH. intros; apply Hin; simpl; auto.
      - destruct (filter (in_tile lens q) l) as [|x r] eqn:E; auto. exfalso.
        assert (In x l /\ in_tile lens q x = true) as [H1 H2] by (apply (filter_In (in_tile lens q) x l); rewrite E; simpl; auto).
        apply tile_is in H2; auto. specialize (Hin x H1). apply tile_is in Hin; auto. lia. }
    rewrite (map_ext_in _ (fun q => if q =? p then l else [])) by (intros q Hq; apply in_seq in Hq; apply HQ; lia).
    assert (HC : forall n s, concat (map (fun q => if q =? p then l else []) (seq s n)) = if (s <=? p) && (p <? s + n) then l else []).
    { induction n as [|n IH]; intros s; cbn [seq map concat].
      - replace ((s <=? p) && (p <? s + 0)) with false; auto. symmetry. apply andb_false_iff. destruct (Nat.leb_spec s p); [right; apply Nat.ltb_ge|left]; lia.
      - rewrite IH. destruct (Nat.eqb_spec s p) as [->|N].
        + replace (S p <=? p) with false by (symmetry; apply Nat.leb_gt; lia). cbn [andb]. rewrite app_nil_r.
          replace ((p <=? p) && (p <? p + S n)) with true; auto. symmetry. apply andb_true_iff. split; [apply Nat.leb_le|apply Nat.ltb_lt]; lia.
        + cbn [app]. replace (S s <=? p) with (s <=? p); [replace (S s + n) with (s + S n) by lia; auto|].
          destruct (Nat.leb_spec s p), (Nat.leb_spec (S s) p); auto; lia. }
    rewrite HC. cbn [Nat.leb andb plus]. apply Nat.ltb_lt in Hp. rewrite Hp. auto.
Qed.

(** C12: an empty selection on the mosaic's axis is refused (a full slice of an
    empty axis is not one: it leaves the tiles as they are). *)
Theorem C12_empty (tiles : list (@barr V)) axis pre k post : wf (AMosaic tiles axis) ->
  Forall one_dim pre -> Forall one_dim post -> length pre = axis ->
  length (pre ++ k :: post) = ndim (AMosaic tiles axis) ->
  match k with
  | KSlice s => s <> full_slice /\ slice_idx s (nth axis (shape (AMosaic tiles axis)) 0) = Ok []
  | KTuple l | KArr l | KList l => l = []
  | KMask m => m = []
  | _ => False
  end ->
  getitem (AMosaic tiles axis) (pre ++ k :: post) = Err IndexError.
Proof.
  intros Hw Hpre Hpost Hax HL Hk.
  assert (one_dim k) as Hok by (destruct k; try contradiction; split; auto).
  rewrite mosaic_full by (auto; apply Forall_app; split; auto). rewrite mosaic_len in Hk by auto. set (lens := lens_of tiles axis) in *.
  assert (key_full_b k = false) as Hkf.
  { destruct k; try contradiction; auto. cbn. destruct (slice_eqb s full_slice) eqn:E; auto. apply slice_eqb_full in E. tauto. }
  unfold mosaic_plan. rewrite trim_mid by auto. cbv zeta.
  replace (length (pre ++ k :: trim_keys post) <=? axis) with false by (rewrite app_length; cbn; lia).
  rewrite nth_at by auto. destruct k; try contradiction; try (subst; reflexivity).
  destruct Hk as [_ ->]. cbn [bind map group_runs]. destruct (match s_step s with Some st => (st <? 0)%Z | None => false end); reflexivity.
Qed.

(** C12: a boolean mask on the mosaic's axis is refused. *)
Theorem C12_mask (tiles : list (@barr V)) axis pre mask post : Forall one_dim pre -> Forall one_dim post -> length pre = axis ->
  length (pre ++ KMask mask :: post) = ndim (AMosaic tiles axis) -> mask <> [] ->
  getitem (AMosaic tiles axis) (pre ++ KMask mask :: post) = Err TypeError.
Proof.
  intros Hpre Hpost Hax HL Hm. rewrite mosaic_full by (auto; apply Forall_app; split; auto; constructor; auto; split; auto).
  unfold mosaic_plan. rewrite trim_mid by auto. cbv zeta.
  replace (length (pre ++ KMask mask :: trim_keys post) <=? axis) with false by (rewrite app_length; cbn; lia).
  rewrite nth_at by auto. destruct mask; [congruence|reflexivity].
Qed.

(** C12: so a negative integer [i] on the mosaic's axis reads the element that is
    [i] from the end of the {e last} tile moved back by the length of all the
    others: where both are accepted, [mosaic[i]] is [mosaic[i + t]], with [t] the
    length of the last tile, instead of [mosaic[i + n]]. *)
Theorem C12_negative_integer (O : numops V) (before : list (@barr V)) t axis pre i post b b' :
  let a := AMosaic (before ++ [t]) axis in
  let len := Z.of_nat (nth axis (shape t) 0%nat) in
  let off := Z.of_nat (list_sum (lens_of before axis)) in
  wf a -> Forall one_dim pre -> Forall one_dim post -> length pre = axis ->
  length (pre ++ KInt i :: post) = ndim a ->
  (i < 0)%Z -> (0 <= i - off + len)%Z ->
  valid_keys (pre ++ KInt (i - off) :: post) (shape t) ->
  (forall j, safe_keys t (pre ++ KInt j :: post)) ->
  getitem a (pre ++ KInt i :: post) = Ok b -> getitem a (pre ++ KInt (i + len) :: post) = Ok b' ->
  forall m, nd_eq (den O m b) (den O m b').
Proof.
  intros a len off Hw Hpre Hpost Hax HL Hi Hb Hv Hs Eb Eb' m.
  assert (HF : forall j, fullk (pre ++ KInt j :: post) (ndim t)).
  { intros j. assert (Forall one_dim (pre ++ KInt j :: post)) as HFj by (apply Forall_app; split; auto; constructor; auto; split; auto).
    split; [apply one_dims; auto|]. rewrite one_dims_real by auto.
    destruct (mosaic_ndim (before ++ [t]) axis t Hw) as (-> & _); [apply in_or_app; simpl; auto|]. change (length (pre ++ KInt j :: post) = ndim a). rewrite <- HL, !app_length. auto. }
  assert (Hlast : forall b0 t0 after, before ++ [t] = b0 ++ t0 :: after -> after = [] -> b0 = before /\ t0 = t).
  { intros b0 t0 after E ->. apply app_inj_tail in E. intuition. }
  destruct (C12_integer (before ++ [t]) axis pre i post Hw Hpre Hpost Hax HL) as (b1 & t1 & r1 & E1 & H1 & G1).
  replace ((0 <=? i) && _)%Z with false in H1 by (symmetry; apply andb_false_iff; left; lia).
  destruct (Hlast _ _ _ E1 H1) as [-> ->].
  destruct (C12_integer (before ++ [t]) axis pre (i + len)%Z post Hw Hpre Hpost Hax) as (b2 & t2 & r2 & E2 & H2 & G2).
  { change (length (pre ++ KInt (i + len)%Z :: post) = ndim a). rewrite <- HL, !app_length. auto. }
  rewrite mosaic_len in H2 by auto.
  assert (Hn : Z.of_nat (fold_right Nat.add 0%nat (lens_of (before ++ [t]) axis)) = (off + len)%Z).
  { unfold off, len. rewrite map_app, fold_right_app. unfold list_sum. cbn [map fold_right]. rewrite Nat.add_0_r.
    clear. induction before as [|x l IH]; cbn [map fold_right]; lia. }
  rewrite Hn in H2. replace ((0 <=? i + len) && (i + len <? off + len))%Z with true in H2 by (unfold off in *; lia).
  assert (b2 = before /\ t2 = t) as [-> ->].
  { assert (Hlen : length b2 <= length before).
    { apply (f_equal (@length _)) in E2. rewrite !app_length in E2. cbn in E2. lia. }
    destruct (Nat.eq_dec (length b2) (length before)) as [El|El].
    - apply (Hlast _ _ r2 E2). apply (f_equal (@length _)) in E2. rewrite !app_length in E2. cbn in E2. destruct r2; auto. cbn in E2. lia.
    - exfalso. assert (exists q, before = b2 ++ t2 :: q) as (q & ->).
      { clear - E2 El Hlen. revert before E2 El Hlen. induction b2 as [|x l IH]; intros [|y r] E El Hlen; cbn in *; try lia; injection E as <- E; eauto.
        destruct (IH r E ltac:(lia) ltac:(lia)) as (q & ->). eauto. }
      unfold off in *. rewrite map_app in *. unfold list_sum in *. rewrite fold_right_app in *. cbn [map fold_right] in *.
      assert (forall l x, fold_right Nat.add x l = fold_right Nat.add 0 l + x) as FA by (clear; induction l; intros; cbn; [lia|rewrite IHl; lia]).
      rewrite FA in *. lia. }
  fold off in G1, G2. unfold a in Eb, Eb'. rewrite G1 in Eb. rewrite G2 in Eb'.
  assert (Hwt : wf t) by (apply (mosaic_ndim (before ++ [t]) axis t Hw); apply in_or_app; simpl; auto).
  assert (Hsel : sel_keys (pre ++ KInt (i - off) :: post) (shape t) = sel_keys (pre ++ KInt (i + len - off) :: post) (shape t)).
  { apply sel_mid; auto. rewrite Hax. cbn [sel_key]. unfold norm_int. fold len.
    replace ((- len <=? i - off) && (i - off <? len))%Z with true by lia.
    replace ((- len <=? i + len - off) && (i + len - off <? len))%Z with true by lia.
    replace (i - off <? 0)%Z with true by (unfold off; lia). replace (i + len - off <? 0)%Z with false by lia. do 3 f_equal. unfold len. lia. }
  assert (Hosel : oselect (pre ++ KInt (i - off) :: post) (shape t) = oselect (pre ++ KInt (i + len - off) :: post) (shape t)).
  { unfold oselect. fold (ndim t). rewrite !np_expand_id by auto. exact Hsel. }
  destruct (getitem_sound O t b _ Hwt Hv (Hs _) Eb) as (_ & D1 & _).
  destruct (getitem_sound O t b' (pre ++ KInt (i + len - off) :: post) Hwt) as (_ & D2 & _); auto; [unfold valid_keys; rewrite <- Hosel; exact Hv|].
  eapply nd_eq_trans; [apply D1|]. apply nd_eq_sym. eapply nd_eq_trans; [apply D2|]. unfold oindex. rewrite den_shape by auto. rewrite Hosel. apply nd_eq_refl.
Qed.
End Claims.

Print Assumptions C12_integer.
Print Assumptions C12_negative_step.
Print Assumptions C12_one_tile.
Print Assumptions C12_empty.
Print Assumptions C12_mask.
Print Assumptions C12_negative_integer.

(** ** Cases *)
Definition mos2 : @barr Z := AMosaic [arr [2;1]; arr [2;3]] 1.
Lemma mos2_wf : wf mos2.
Proof. repeat split; try (repeat constructor; fail); try valid. Qed.
Lemma one_dim_int i : one_dim (KInt i). Proof. split; reflexivity. Qed.

(** [mos2[1, -2]]: the hypotheses hold; the last tile, of length 3 and behind one
    column, is read at [-3]. *)
Example C12_integer_case : Forall one_dim [KInt 1] /\ length ([KInt 1] ++ KInt (-2) :: []) = ndim mos2
  /\ getitem mos2 [KInt 1; KInt (-2)] = getitem (arr [2;3]) [KInt 1; KInt (-3)]
  /\ exists b, getitem mos2 [KInt 1; KInt (-2)] = Ok b.
Proof. split; [repeat constructor|]. split; [reflexivity|]. split; [reflexivity|]. eexists; reflexivity. Qed.
(** So it is [mos2[1, 1]], where NumPy gives [mos2[1, 2]]. *)
Example C12_negative_integer_case :
  (forall j, safe_keys (arr [2;3]) ([KInt 1] ++ KInt j :: [])) /\ valid_keys ([KInt 1] ++ KInt (-3) :: []) (shape (arr [2;3]))
  /\ before true mos2 [KInt 1; KInt (-2)] = before true mos2 [KInt 1; KInt 1]
  /\ before true mos2 [KInt 1; KInt 1] = Ok ([], [Some 3%Z]) /\ after true mos2 [KInt 1; KInt (-2)] = Ok ([], [Some 4%Z]).
Proof. split; [intros j ks _; constructor|]. split; [valid|]. split; [reflexivity|]. split; reflexivity. Qed.
(** [mos[::-1]] with tiles of lengths 2 and 3: each tile is reversed where it is. *)
Example C12_negative_step_case :
  slice_idx (mkS None None (Some (-1)%Z)) 5 = Ok [4;3;2;1;0]%Z /\ by_tile [2;3] [4;3;2;1;0]%Z = [1;0;4;3;2]%Z
  /\ getitem mos [KSlice (mkS None None (Some (-1)%Z))] = getitem mos [KTuple [1;0;4;3;2]%Z]
  /\ exists b, getitem mos [KTuple [1;0;4;3;2]%Z] = Ok b.
Proof. split; [reflexivity|]. split; [reflexivity|]. split; [reflexivity|]. eexists; reflexivity. Qed.
(** [mos[4:2:-1]] stays in the second tile, [mos[3:0:-1]] does not. *)
Example C12_one_tile_case : by_tile [2;3] [4;3]%Z = [4;3]%Z /\ by_tile [2;3] [3;2;1]%Z = [1;3;2]%Z.
Proof. split; reflexivity. Qed.
Example C12_one_tile_dec : decreasing [3;2;1]%Z.
Proof. apply decreasing_nth. intros [|[|[|p]]] [|[|[|q]]] H1 H2; cbn in *; lia. Qed.
Example C12_empty_case : mkS (Some 2%Z) (Some 2%Z) None <> full_slice /\ slice_idx (mkS (Some 2%Z) (Some 2%Z) None) 5 = Ok []
  /\ getitem mos [KSlice (mkS (Some 2%Z) (Some 2%Z) None)] = Err IndexError.
Proof. split; [discriminate|]. split; reflexivity. Qed.
Example C12_mask_case : getitem mos2 [KFull; KMask [true;false;true;false]] = Err TypeError.
Proof. reflexivity. Qed.
