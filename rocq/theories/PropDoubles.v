(** PropDoubles: minima, maxima and counts of IEEE doubles, NaN included: C22 for
    a value type whose additions do not associate. *)
From Verif Require Import Base PySlice Keys NDArray Arrays Chunks Handlers Realise Spec Supported Lib HandlerLemmas Realisable ClassClaims Steady SteadyClaims Samples PropSources SelLemmas GetSimple ChunkLemmas StreamLemmas Compose ExactSpec PropExact PropSteady.
From Coq Require Import SpecFloat.

(** ** The order of doubles *)
Definition rank_sf (x : spec_float) : Z * Z * Z :=
  match x with
  | S754_nan => (3, 0, 0)%Z
  | S754_zero _ => (0, 0, 0)%Z
  | S754_infinity s => ((if s then -2 else 2), 0, 0)%Z
  | S754_finite s m e => if s then (-1, -e, -Z.pos m)%Z else (1, e, Z.pos m)%Z
  end.
Definition before_sf (x y : Z * Z * Z) : Prop :=
  let '(a, b, c) := x in let '(a', b', c') := y in (a < a' \/ (a = a' /\ (b < b' \/ (b = b' /\ c < c'))))%Z.
Lemma ltb_rank x y : is_nan_sf x = false -> is_nan_sf y = false -> SFltb x y = true <-> before_sf (rank_sf x) (rank_sf y).
Proof.
  destruct x as [sx|sx| |sx mx ex], y as [sy|sy| |sy my ey]; try discriminate; intros _ _; unfold SFltb, SFcompare;
    try destruct sx; try destruct sy; cbn [rank_sf before_sf CompOpp];
    try (split; [first [discriminate|lia]|first [reflexivity|lia]]).
  - change (Pos.compare_cont Eq mx my) with (Pos.compare mx my). destruct (Z.compare_spec ex ey); [destruct (Pos.compare_spec mx my)| |]; cbn [CompOpp]; (split; [first [discriminate|lia]|first [reflexivity|lia]]).
  - change (Pos.compare_cont Eq mx my) with (Pos.compare mx my). destruct (Z.compare_spec ex ey); [destruct (Pos.compare_spec mx my)| |]; cbn [CompOpp]; (split; [first [discriminate|lia]|first [reflexivity|lia]]).
Qed.
Lemma ltb_trans x y z : is_nan_sf x = false -> is_nan_sf y = false -> is_nan_sf z = false -> SFltb x y = true -> SFltb y z = true -> SFltb x z = true.
Proof.
  intros Hx Hy Hz. rewrite !ltb_rank by assumption. destruct (rank_sf x) as [[? ?] ?], (rank_sf y) as [[? ?] ?], (rank_sf z) as [[? ?] ?]. cbn. lia.
Qed.
Lemma nltb_trans x y z : is_nan_sf x = false -> is_nan_sf y = false -> is_nan_sf z = false -> SFltb x y = false -> SFltb y z = false -> SFltb x z = false.
Proof.
  intros Hx Hy Hz. rewrite <- !not_true_iff_false, !ltb_rank by assumption. destruct (rank_sf x) as [[? ?] ?], (rank_sf y) as [[? ?] ?], (rank_sf z) as [[? ?] ?]. cbn. lia.
Qed.
Lemma best_sf_assoc better :
  (forall x y z, is_nan_sf x = false -> is_nan_sf y = false -> is_nan_sf z = false -> better x y = true -> better y z = true -> better x z = true) ->
  (forall x y z, is_nan_sf x = false -> is_nan_sf y = false -> is_nan_sf z = false -> better x y = false -> better y z = false -> better x z = false) ->
  forall a b c, best_sf better (best_sf better a b) c = best_sf better a (best_sf better b c).
Proof.
  intros T N a b c. unfold best_sf. destruct (is_nan_sf a) eqn:Na; [rewrite Na; auto|].
  destruct (is_nan_sf b) eqn:Nb; cbn [orb]; rewrite ?Na, ?Nb; cbn [orb]; rewrite ?Nb; [auto|].
  destruct (is_nan_sf c) eqn:Nc; cbn [orb].
  { rewrite Nc. cbn [orb]. destruct (better b a); rewrite ?Na, ?Nb; auto. }
  destruct (better b a) eqn:Eba, (better c b) eqn:Ecb; rewrite ?Na, ?Nb, ?Nc, ?Eba, ?Ecb; cbn [orb]; auto.
  - rewrite (T c b a) by assumption. auto.
  - rewrite (N c b a) by assumption. auto.
Qed.
Lemma best_sf_spec better : 
  (forall x, is_nan_sf x = false -> better x x = false) ->
  (forall x y z, is_nan_sf x = false -> is_nan_sf y = false -> is_nan_sf z = false -> better x y = true -> better y z = true -> better x z = true) ->
  (forall x y z, is_nan_sf x = false -> is_nan_sf y = false -> is_nan_sf z = false -> better x y = false -> better y z = false -> better x z = false) ->
  forall l, match best (best_sf better) l with
            | None => l = []
            | Some r => In r l /\ (existsb is_nan_sf l = true -> is_nan_sf r = true)
                        /\ (existsb is_nan_sf l = false -> forall x, In x l -> better x r = false)
            end.
Proof.
  intros I T N. induction l as [|x l IH]; [reflexivity|]. cbn [best existsb]. destruct (best (best_sf better) l) as [r|].
  - destruct IH as (H1 & H2 & H3). unfold best_sf. destruct (is_nan_sf x) eqn:Nx; cbn [orb].
    + split; [left; auto|]. split; auto. discriminate.
    + destruct (is_nan_sf r) eqn:Nr; cbn [orb].
      * split; [right; auto|]. split; auto. intros E. exfalso.
        assert (existsb is_nan_sf l = true) by (apply existsb_exists; exists r; auto). congruence.
      * assert (El : existsb is_nan_sf l = false) by (destruct (existsb is_nan_sf l); auto; discriminate (H2 eq_refl)).
        assert (Hl : forall y, In y l -> is_nan_sf y = false).
        { intros y Hy. destruct (is_nan_sf y) eqn:E; auto. rewrite <- El. symmetry. apply existsb_exists. exists y; auto. }
        destruct (better r x) eqn:E.
        -- split; [right; auto|]. split; [congruence|]. intros _ y [<-|Hy]; [|auto]. destruct (better x r) eqn:E'; auto. rewrite <- (I x Nx). symmetry. apply (T x r x); auto.
        -- split; [left; auto|]. split; [congruence|]. intros _ y [<-|Hy]; [auto|]. apply (N y r x); auto.
  - subst l. split; [left; auto|]. cbn [existsb]. rewrite orb_false_r. split; auto. intros E y [<-|[]]. auto.
Qed.
Lemma ltb_irrefl x : is_nan_sf x = false -> SFltb x x = false.
Proof. intros H. apply not_true_iff_false. rewrite ltb_rank by assumption. destruct (rank_sf x) as [[? ?] ?]. cbn. lia. Qed.

(** Minimum and maximum of doubles associate, with NaN, infinities and signed
    zeros; addition does not. *)
Lemma double_orders : orders double_ops.
Proof.
  constructor; intros a b c; cbn [vmin vmax double_ops]; apply best_sf_assoc.
  - apply ltb_trans. - apply nltb_trans.
  - intros x y z Hx Hy Hz H1 H2. exact (ltb_trans z y x Hz Hy Hx H2 H1).
  - intros x y z Hx Hy Hz H1 H2. exact (nltb_trans z y x Hz Hy Hx H2 H1).
Qed.
Lemma double_no_laws : ~ laws double_ops.
Proof. intros L. pose proof (l_assoc _ L (dbl 9007199254740992) (dbl 1) (dbl 1)) as H. vm_compute in H. discriminate. Qed.

(** ** NumPy's minimum and maximum of doubles, by their properties *)
(** The result is one of the elements; NaN if any element is; otherwise no element
    is less (greater). *)
Definition least (l : list spec_float) (r : spec_float) : Prop :=
  In r l /\ (existsb is_nan_sf l = true -> is_nan_sf r = true) /\ (existsb is_nan_sf l = false -> forall x, In x l -> SFltb x r = false).
Definition greatest (l : list spec_float) (r : spec_float) : Prop :=
  In r l /\ (existsb is_nan_sf l = true -> is_nan_sf r = true) /\ (existsb is_nan_sf l = false -> forall x, In x l -> SFltb r x = false).
Lemma best_least l : match best (vmin double_ops) l with None => l = [] | Some r => least l r end.
Proof. apply best_sf_spec; [exact ltb_irrefl|exact ltb_trans|exact nltb_trans]. Qed.
Lemma best_greatest l : match best (vmax double_ops) l with None => l = [] | Some r => greatest l r end.
Proof.
  apply best_sf_spec; [exact ltb_irrefl| |].
  - intros x y z Hx Hy Hz H1 H2. exact (ltb_trans z y x Hz Hy Hx H2 H1).
  - intros x y z Hx Hy Hz H1 H2. exact (nltb_trans z y x Hz Hy Hx H2 H1).
Qed.

(** What one position of a minimum (maximum) must be, given the elements it is of:
    masked exactly if all of them are masked. *)
Definition extreme (is : list spec_float -> spec_float -> Prop) (l : list spec_float) (c : option spec_float) : Prop :=
  match c with None => l = [] | Some r => is l r end.

Section Doubles.
Variable maxc : nat.
Variable garbage : list nat -> option spec_float.
Variable fuel : nat.
Hypothesis Hfuel : 2 <= fuel.
Variable sh : list nat.
Hypothesis Hsh : Forall (fun n => 1 <= n) sh.
Notation col := (col double_ops sh).
(** The elements a minimum ranges over: all of them for ndarray() (masked ones as
    the fill value), the unmasked ones for masked_array(). *)
Definition ranged (m : bool) (l : list (option spec_float)) : list spec_float := if m then obs l else map (plain_val double_ops) l.

(** C22 for doubles: any elementwise tree, when the axis comes in one piece. *)
Theorem C22_doubles_partial m a axis d : optree m sh a -> data_ok m a -> axis < length sh ->
  nth axis sh 0 = 1 \/ nth axis sh 0 * prodn (skipn (S axis) sh) <= maxc ->
  exists lo hi, realise double_ops maxc garbage fuel m (AAgg GMin a axis d) = Ok lo
    /\ realise double_ops maxc garbage fuel m (AAgg GMax a axis d) = Ok hi
    /\ nshape lo = remove_at axis sh /\ nshape hi = remove_at axis sh
    /\ forall o, inb (remove_at axis sh) o ->
         extreme least (ranged m (col m a axis o)) (nget lo o) /\ extreme greatest (ranged m (col m a axis o)) (nget hi o).
Proof.
  intros HT HD Hax HP.
  destruct (C22_tree_min_partial double_ops maxc garbage fuel Hfuel sh Hsh m a axis d double_orders HT HD Hax HP) as (lo & E1 & E2 & E3).
  destruct (C22_tree_max_partial double_ops maxc garbage fuel Hfuel sh Hsh m a axis d double_orders HT HD Hax HP) as (hi & F1 & F2 & F3).
  exists lo, hi. split; [exact E1|]. split; [exact F1|]. split; [exact E2|]. split; [exact F2|]. intros o Ho. rewrite (E3 o Ho), (F3 o Ho).
  fold (ranged m (col m a axis o)). pose proof (best_least (ranged m (col m a axis o))) as H1. pose proof (best_greatest (ranged m (col m a axis o))) as H2.
  unfold extreme. split; [destruct (best (vmin double_ops) _)|destruct (best (vmax double_ops) _)]; assumption.
Qed.
End Doubles.

(** Split axes are wrong for doubles as they are for integers: of [1, NaN, 2, 3]
    read two at a time the minimum is 2, and no NaN. *)
Definition with_nan := mkC [4] (fun i => Some (nth (nth 0 i 0) [dbl 1; S754_nan; dbl 2; dbl 3] S754_nan)) None 1.
Definition least_of (maxc : nat) : res (option spec_float) :=
  d <- realise double_ops maxc nil_sf 2 false (AAgg GMin (AAdapt false with_nan []) 0 1) ;; Ok (nget d []).
Theorem C22_doubles_refuted : least_of 4 = Ok (Some S754_nan) /\ least_of 2 = Ok (Some (dbl 2)).
Proof. vm_compute. auto. Qed.
Print Assumptions C22_doubles_partial.
Print Assumptions C22_doubles_refuted.

(** ** The hypotheses are met *)
Example C22_doubles_case : exists lo hi, realise double_ops 4 nil_sf 2 false (AAgg GMin (AAdapt false with_nan []) 0 1) = Ok lo
  /\ realise double_ops 4 nil_sf 2 false (AAgg GMax (AAdapt false with_nan []) 0 1) = Ok hi
  /\ extreme least [dbl 1; S754_nan; dbl 2; dbl 3] (nget lo []) /\ extreme greatest [dbl 1; S754_nan; dbl 2; dbl 3] (nget hi []).
Proof.
  destruct (C22_doubles_partial 4 nil_sf 2 (le_n 2) [4] ltac:(repeat constructor; lia) false (AAdapt false with_nan []) 0 1) as (lo & hi & E1 & E2 & _ & _ & E3).
  - cbn. auto.
  - cbn. right. left. discriminate.
  - cbn. lia.
  - right. cbn. lia.
  - exists lo, hi. split; [exact E1|]. split; [exact E2|]. exact (E3 [] ltac:(constructor)).
Qed.
(** The two zeros compare equal, infinities are ordered. *)
Example zeros_equal : vmin double_ops (S754_zero false) (S754_zero true) = S754_zero false /\ vmin double_ops (S754_zero true) (S754_zero false) = S754_zero true
  /\ vmin double_ops (S754_infinity true) (dbl 5) = S754_infinity true /\ vmax double_ops (dbl (-5)) S754_nan = S754_nan.
Proof. vm_compute. auto. Qed.

(** ** ndarray() and masked_array() of unmasked data, in any arithmetic (C60)

    The two forms are computed by different handlers.  No law of arithmetic is
    assumed: [a] may be an array of IEEE doubles, in any chunks. *)
Section Forms.
Context {V : Type} (O : numops V).
Variable maxc : nat.
Variable garbage : list nat -> option V.
Variable fuel : nat.

(** The aggregations concerned, over [n] elements.  A mean needs an [mdtol] that
    the fraction 0/n does not exceed. *)
Definition unmasked_agree (n : nat) (g : @agg V) : Prop :=
  match g with
  | GCount | GSum | GMin | GMax => True
  | GMean mdtol => vltb O mdtol (vdiv O (vofn O 0) (vadd O (vofn O 0) (vofn O n))) = false
  | GStd _ | GVar _ => False
  end.
Lemma column_inb p : forall sh j o, p < length sh -> j < nth p sh 0 -> inb (remove_at p sh) o -> inb sh (insert_at p j o).
Proof.
  induction p as [|p IH]; intros [|n sh] j o Hp Hj Ho; cbn [length] in Hp; try lia.
  - rewrite insert_at_0. rewrite remove_at_0 in Ho. constructor; auto.
  - rewrite remove_at_S in Ho. apply inb_cons_inv in Ho as (x & r & -> & Hx & Hr). rewrite insert_at_S. constructor; auto. apply IH; auto. lia.
Qed.
Lemma obs_unmasked (l : list (option V)) : Forall (fun c => c <> None) l -> obs l = map (plain_val O) l.
Proof. induction 1 as [|[v|] l H _ IH]; cbn; [auto|congruence|contradiction]. Qed.
Lemma in_pieces_forms g n (pieces : list (list (option V))) : 1 <= n -> length (concat pieces) = n -> unmasked_agree n g ->
  (needs_item true g -> last pieces [] <> []) ->
  Forall (Forall (fun c => c <> None)) pieces ->
  in_pieces O true g n pieces = in_pieces O false g n pieces /\ in_pieces O true g n pieces <> None.
Proof.
  intros Hn HL Hg Hi HF.
  assert (HC : length (obs (concat pieces)) = n).
  { rewrite obs_unmasked, map_length; auto. apply Forall_concat. auto. }
  assert (HP : Forall (fun c => c <> None) (last pieces [])).
  { destruct pieces as [|p ps]; [constructor|]. rewrite Forall_forall in HF. apply HF. rewrite (app_removelast_last [] (l := p :: ps)) at 2 by discriminate. apply in_or_app. right. left. auto. }
  assert (HB : forall pick, last pieces [] <> [] -> first_best pick (map (plain_val O) (last pieces [])) <> None).
  { intros pick HN. destruct (last pieces []); [contradiction|]. discriminate. }
  destruct g; cbn [in_pieces unmasked_agree needs_item] in *; try contradiction; rewrite ?HC, ?(obs_unmasked _ HP);
    try (destruct n; [lia|]; cbn [Nat.eqb]); try (split; [reflexivity|]; first [discriminate|apply HB; auto]).
  rewrite Nat.sub_diag, Hg, andb_false_r. split; [reflexivity|discriminate].
Qed.

Theorem C60_any_arithmetic sh bs a f f' g axis d :
  made O maxc garbage fuel false sh bs a f -> made O maxc garbage fuel true sh bs a f' ->
  (forall i, inb sh i -> f' i = f i /\ f' i <> None) ->
  axis < length sh -> 1 <= nth axis sh 0 -> unmasked_agree (nth axis sh 0) g ->
  exists r r', realise O maxc garbage (S fuel) false (AAgg g a axis d) = Ok r
    /\ realise O maxc garbage (S fuel) true (AAgg g a axis d) = Ok r'
    /\ nshape r = remove_at axis sh /\ nshape r' = remove_at axis sh
    /\ forall o, inb (remove_at axis sh) o -> nget r' o = nget r o /\ nget r' o <> None.
Proof.
  intros H H' Hf Hax Hn Hg.
  destruct (made_streams O maxc garbage fuel false _ _ _ _ H) as (S1 & S2 & S3).
  destruct (C64_method O maxc garbage fuel false _ _ _ _ g axis d H Hax (fun _ => Hn)) as (r & E1 & E2 & E3).
  destruct (C64_method O maxc garbage fuel true _ _ _ _ g axis d H' Hax (fun _ => Hn)) as (r' & F1 & F2 & F3).
  exists r, r'. split; auto. split; auto. split; auto. split; auto. intros o Ho. rewrite E3, F3 by auto.
  pose proof (streams_cuts _ _ _ _ _ _ _ S1) as HCu. pose proof (good_cuts_length _ _ HCu) as HLc.
  subst bs. rewrite S2 in *. rewrite block_lists_nth by auto. rewrite !map_map.
  destruct (good_cuts_nth _ _ axis HCu Hax) as (Hcat & HK & HN & _).
  set (blk := fun k => kpos k (nth axis sh 0)) in *.
  assert (HI : forall k, In k (nth axis (cuts maxc a) []) -> forall i, In i (blk k) -> inb sh (insert_at axis i o)).
  { intros k Hk i Hi. apply column_inb; auto.
    assert (HS : In i (seq 0 (nth axis sh 0))). { rewrite <- Hcat. apply in_concat. exists (blk k). split; auto. apply in_map. auto. }
    apply in_seq in HS. lia. }
  assert (HM : map (fun k => map (fun i => f' (insert_at axis i o)) (blk k)) (nth axis (cuts maxc a) [])
             = map (fun k => map (fun i => f (insert_at axis i o)) (blk k)) (nth axis (cuts maxc a) [])).
  { apply map_ext_in. intros k Hk. apply map_ext_in. intros i Hi. apply Hf. eauto. }
  change (fun k => map (fun i => f' (insert_at axis i o)) (kpos k (nth axis sh 0))) with (fun k => map (fun i => f' (insert_at axis i o)) (blk k)).
  change (fun k => map (fun i => f (insert_at axis i o)) (kpos k (nth axis sh 0))) with (fun k => map (fun i => f (insert_at axis i o)) (blk k)).
  rewrite <- HM. apply in_pieces_forms; auto.
  - rewrite <- (map_map blk (map (fun i => f' (insert_at axis i o)))), <- concat_map, Hcat, map_length, seq_length. auto.
  - intros _ E. destruct (nth axis (cuts maxc a) []) as [|k0 ks] eqn:EK; [congruence|].
    assert (HIn : In (last (map (fun k => map (fun i => f' (insert_at axis i o)) (blk k)) (k0 :: ks)) []) (map (fun k => map (fun i => f' (insert_at axis i o)) (blk k)) (k0 :: ks))).
    { rewrite (app_removelast_last [] (l := map _ (k0 :: ks))) at 2 by discriminate. apply in_or_app. right. left. auto. }
    apply in_map_iff in HIn as (k & Ek & Hk). rewrite E in Ek. apply map_eq_nil in Ek. rewrite <- EK in Hk.
    pose proof (blocks_nonempty _ _ axis HCu Hax Hn k Hk) as HB. fold (blk k) in HB. rewrite Ek in HB. cbn in HB. lia.
  - apply Forall_forall. intros p Hp. apply in_map_iff in Hp as (k & <- & Hk). apply Forall_forall. intros c Hc. apply in_map_iff in Hc as (i & <- & Hi).
    apply Hf. eauto.
Qed.
End Forms.
Print Assumptions C60_any_arithmetic.

Example C60_any_arithmetic_case maxc : exists r r',
  realise double_ops maxc nil_sf 2 false (AAgg GSum (AAdapt false big []) 0 1) = Ok r
  /\ realise double_ops maxc nil_sf 2 true (AAgg GSum (AAdapt false big []) 0 1) = Ok r' /\ nget r' [] = nget r [] /\ nget r' [] <> None.
Proof.
  assert (H : made double_ops maxc nil_sf 1 true [4] (grid maxc [4]) (AAdapt false big []) (nget (data_of double_ops true big))).
  { apply (made_source double_ops maxc nil_sf 1 true (AAdapt false big [])); auto. apply fresh_source; auto. repeat constructor. }
  destruct (C60_any_arithmetic double_ops maxc nil_sf 1 [4] (grid maxc [4]) (AAdapt false big []) _ _ GSum 0 1 (C64_hyp maxc) H) as (r & r' & E1 & E2 & _ & _ & E3).
  - intros i _. split; [reflexivity|]. cbn. discriminate.
  - cbn. lia.
  - cbn. lia.
  - exact I.
  - exists r, r'. split; auto. split; auto. apply E3. constructor.
Qed.
(** The mean's default tolerance, and any other that is a number from 0 on. *)
Example mean_agrees : unmasked_agree double_ops 4 (GMean (dbl 1)) /\ unmasked_agree double_ops 4 (GMean (dbl 0)).
Proof. vm_compute. auto. Qed.
