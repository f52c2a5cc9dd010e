(** GroupGrid: grouping of the chunk keys of grids that are cut at different
    places (key_grouper.py:123-182).  Lemmas only. *)
From Verif Require Import Base PySlice KeyGrouper GroupSpec Lib GetTrans ChunkLemmas GroupLemmas StreamLemmas Dask GroupKeys.
From Coq Require Import Permutation Sorted.

(** ** Lists *)
Lemma part_perm {A B} (f : B -> A -> bool) C : NoDup C -> forall l,
  (forall k, In k l -> exists p, In p C /\ f p k = true) ->
  (forall k p q, In k l -> In p C -> In q C -> f p k = true -> f q k = true -> p = q) -> Permutation l (flat_map (fun p => filter (f p) l) C).
Proof.
  induction 1 as [|p C Hp HN IH]; intros l HE HU.
  - destruct l as [|k l]; auto. destruct (HE k (or_introl eq_refl)) as (q & [] & _).
  - cbn [flat_map]. rewrite (filter_perm (f p) l) at 1. apply Permutation_app; auto.
    set (l' := filter (fun x => negb (f p x)) l).
    assert (E : flat_map (fun q => filter (f q) l) C = flat_map (fun q => filter (f q) l') C).
    { rewrite !flat_map_concat_map. f_equal. apply map_ext_in. intros q Hq. unfold l'. rewrite filter_filter. apply filter_ext_in'.
      intros k Hk. destruct (f q k) eqn:E; [|rewrite andb_false_r; auto]. rewrite andb_true_r. symmetry. apply negb_true_iff.
      destruct (f p k) eqn:E2; auto. exfalso. apply Hp. rewrite (HU k p q Hk (or_introl eq_refl) (or_intror Hq) E2 E). auto. }
    rewrite E. apply IH.
    + intros k Hk. apply filter_In in Hk as [Hk Hn]. destruct (HE k Hk) as (q & [<-|Hq] & E'); [|eauto]. rewrite E' in Hn. discriminate.
    + intros k p' q Hk Hp' Hq. apply filter_In in Hk as [Hk _]. apply HU; simpl; auto.
Qed.
Lemma reps_in {A} (c : A -> nat) C x : (forall p, In p C -> 0 < c p) -> (In x (flat_map (fun p => repeat p (c p)) C) <-> In x C).
Proof.
  intros Hc. rewrite in_flat_map. split.
  - intros (p & Hp & H). apply repeat_spec in H. subst; auto.
  - intros H. exists x. split; auto. specialize (Hc x H). destruct (c x); [lia|simpl; auto].
Qed.
Lemma F2_reps {A B} (R : A -> B -> Prop) (g : B -> list A) C : (forall p x, In p C -> In x (g p) -> R x p) ->
  Forall2 R (flat_map g C) (flat_map (fun p => repeat p (length (g p))) C).
Proof.
  intros H. induction C as [|p C IH]; simpl; [constructor|]. apply Forall2_app.
  - assert (HP : forall x, In x (g p) -> R x p) by (intros; apply H; simpl; auto). induction (g p) as [|x l IHl]; simpl; constructor; [apply HP; simpl; auto|].
    apply IHl. intros; apply HP; simpl; auto.
  - apply IH. intros; apply H; simpl; auto.
Qed.

(** ** Chains *)
Lemma consec_bounds n ps : forall a, consecutive a n ps -> Forall (fun p => a <= fst p /\ fst p < snd p /\ snd p <= n) ps /\ a <= n.
Proof.
  induction ps as [|[x y] ps IH]; intros a H; simpl in H; [split; [constructor|lia]|]. destruct H as (-> & Hxy & H). destruct (IH y H) as [HF Hy].
  split; [|lia]. constructor; simpl; [lia|]. eapply Forall_impl; [|exact HF]. simpl. intros; lia.
Qed.
Lemma consec_in n ps a p : consecutive a n ps -> In p ps -> a <= fst p /\ fst p < snd p /\ snd p <= n.
Proof. intros H Hp. apply consec_bounds in H as [H _]. rewrite Forall_forall in H. auto. Qed.
Lemma consec_NoDup n ps : forall a, consecutive a n ps -> NoDup ps.
Proof.
  induction ps as [|[x y] ps IH]; intros a H; simpl in H; [constructor|]. destruct H as (-> & Hxy & H). constructor; eauto.
  intros Hi. apply (consec_in _ _ _ _ H) in Hi. simpl in Hi. lia.
Qed.
Lemma consec_chain n (c : nat * nat -> nat) ps : forall a, consecutive a n ps -> (forall p, In p ps -> 0 < c p) ->
  chain a n (flat_map (fun p => repeat p (c p)) ps).
Proof.
  induction ps as [|[x y] ps IH]; intros a H Hc; cbn [consecutive flat_map] in *; [exact H|]. destruct H as (-> & Hxy & H).
  specialize (IH y H (fun p Hp => Hc p (or_intror Hp))). specialize (Hc (a, y) (or_introl eq_refl)). destruct (c (a, y)) as [|k]; [lia|]. clear Hc.
  induction k as [|k IHk]; cbn [repeat app chain]; [repeat split; auto|]. repeat (split; auto).
Qed.
(** A piece that starts at a given cut. *)
Lemma consec_start n ps : forall a x, consecutive a n ps -> x < n -> x = a \/ (exists p, In p ps /\ snd p = x) -> exists p, In p ps /\ fst p = x.
Proof.
  induction ps as [|[b y] ps IH]; intros a x H Hx Hc; cbn [consecutive] in H.
  - destruct Hc as [->|(p & [] & _)]. lia.
  - destruct H as (-> & Hay & H). destruct Hc as [->|(p & [<-|Hp] & E)]; [exists (a, y); simpl; auto| |].
    + simpl in E. subst x. destruct (IH y y H Hx (or_introl eq_refl)) as (q & Hq & E). exists q. simpl; auto.
    + destruct (IH y x H Hx) as (q & Hq & E'); [right; eauto|]. exists q. simpl; auto.
Qed.
(** Pieces do not straddle cuts. *)
Lemma consec_side n ps : forall a p q, consecutive a n ps -> In p ps -> In q ps -> fst p < snd q -> snd p <= snd q.
Proof.
  induction ps as [|[b y] ps IH]; intros a p q H Hp Hq Hlt; [destruct Hp|]. cbn [consecutive] in H. destruct H as (-> & Hay & H).
  destruct Hp as [<-|Hp], Hq as [<-|Hq]; simpl in *; try lia.
  - apply (consec_in _ _ _ _ H) in Hq. lia.
  - apply (consec_in _ _ _ _ H) in Hp. lia.
  - eauto.
Qed.

(** ** Cuts *)
Lemma cuts_in n pss c : In c (common_cuts n pss) <-> c <= n /\ common pss c = true.
Proof. unfold common_cuts. rewrite filter_In, in_seq. split; intros [H1 H2]; split; auto; lia. Qed.
Lemma cuts_sorted n pss : StronglySorted lt (common_cuts n pss).
Proof. apply filter_sorted, seq_sorted. Qed.
Lemma common_zero pss : common pss 0 = true.
Proof. unfold common. apply forallb_forall. auto. Qed.
Lemma common_end n pss : (forall ps, In ps pss -> consecutive 0 n ps) -> common pss n = true.
Proof.
  intros H. unfold common. apply forallb_forall. intros ps Hps. specialize (H ps Hps). apply orb_true_iff.
  destruct n as [|n]; [left; auto|right]. apply existsb_exists.
  assert (G : forall ps a, consecutive a (S n) ps -> a < S n -> exists p, In p ps /\ (S n =? snd p) = true).
  { clear. induction ps as [|[x y] ps IH]; intros a H Ha; cbn [consecutive] in H; [lia|]. destruct H as (-> & Hxy & H).
    destruct (Nat.eq_dec y (S n)) as [->|Hn].
    - exists (a, S n). simpl. rewrite Nat.eqb_refl. auto.
    - destruct (IH y H) as (p & Hp & E); [apply consec_bounds in H; lia|]. exists p. simpl; auto. }
  apply (G ps 0); auto. lia.
Qed.
Lemma sorted_pairs {A} (R : A -> A -> Prop) (l : list A) x y : StronglySorted R l -> In (x, y) (combine l (tl l)) -> In x l /\ In y l /\ R x y
  /\ (forall z, In z l -> z = x \/ R z x \/ z = y \/ R y z).
Proof.
  induction 1 as [|a l Hl IH Ha]; cbn [tl]; [intros []|]. destruct l as [|b l]; [intros []|]. cbn [combine]. intros [E|H].
  - injection E as -> ->. rewrite Forall_forall in Ha. repeat split; simpl; auto; [apply Ha; simpl; auto|].
    intros z [<-|[<-|Hz]]; auto. right; right; right. inversion Hl as [|? ? _ Hb]. rewrite Forall_forall in Hb. auto.
  - specialize (IH H) as (H1 & H2 & H3 & H4). repeat split; simpl; auto. intros z [<-|Hz]; auto.
    rewrite Forall_forall in Ha. right. left. auto.
Qed.
Lemma intervals_in n pss x y : In (x, y) (intervals n pss) -> x < y /\ y <= n /\ common pss x = true /\ common pss y = true
  /\ (forall z, z <= n -> common pss z = true -> z <= x \/ y <= z).
Proof.
  intros H. apply (sorted_pairs _ _ _ _ (cuts_sorted n pss)) in H as (H1 & H2 & H3 & H4). apply cuts_in in H1, H2. split; [auto|]. split; [tauto|].
  split; [tauto|]. split; [tauto|]. intros z Hz Hc. destruct (H4 z) as [|[|[|]]]; [apply cuts_in; auto|lia..].
Qed.
Lemma common_ext pss pss' c : Forall2 (fun a b => forall p, In p a <-> In p b) pss pss' -> common pss c = common pss' c.
Proof.
  unfold common. induction 1 as [|a b pss pss' H HF IH]; simpl; auto. rewrite IH. f_equal. f_equal.
  destruct (existsb _ a) eqn:E, (existsb _ b) eqn:E'; auto; [apply existsb_exists in E as (p & Hp & E)|apply existsb_exists in E' as (p & Hp & E')].
  - rewrite <- E'. symmetry. apply existsb_exists. exists p. split; auto. apply H; auto.
  - rewrite <- E. apply existsb_exists. exists p. split; auto. apply H; auto.
Qed.
Lemma intervals_ext n pss pss' : Forall2 (fun a b => forall p, In p a <-> In p b) pss pss' -> intervals n pss = intervals n pss'.
Proof.
  intros H. unfold intervals. assert (E : common_cuts n pss = common_cuts n pss') by (unfold common_cuts; apply filter_ext_in'; intros; apply common_ext; auto).
  rewrite E. auto.
Qed.
Lemma intervals_NoDup n pss : NoDup (intervals n pss).
Proof.
  unfold intervals. pose proof (cuts_sorted n pss) as H. induction H as [|a l Hl IH Ha]; cbn [tl]; [constructor|]. destruct l as [|b l]; [constructor|].
  cbn [combine]. constructor; auto. intros Hi. change (In (a, b) (combine (b :: l) (tl (b :: l)))) in Hi. apply (sorted_pairs lt) in Hi as (Hi & _); auto. rewrite Forall_forall in Ha. specialize (Ha _ Hi). lia.
Qed.
(** The common cut points are [0] and [n], or there are at least two intervals,
    all shorter than the dimension. *)
Lemma intervals_cases n pss : n <> 0 -> (forall ps, In ps pss -> consecutive 0 n ps) ->
  intervals n pss = [(0, n)] \/ (2 <= length (intervals n pss) /\ forall p, In p (intervals n pss) -> p <> (0, n)).
Proof.
  intros Hn HC. pose proof (cuts_sorted n pss) as HS. assert (H0 : In 0 (common_cuts n pss)) by (apply cuts_in; split; [lia|apply common_zero]).
  assert (H1 : In n (common_cuts n pss)) by (apply cuts_in; split; [lia|apply common_end; auto]).
  assert (HB : forall c, In c (common_cuts n pss) -> c <= n) by (intros c Hc; apply cuts_in in Hc; tauto).
  unfold intervals. destruct (common_cuts n pss) as [|c0 l]; [destruct H0|]. apply sorted_tail in HS as [HS HF]. rewrite Forall_forall in HF.
  destruct H0 as [->|H0]; [|specialize (HF 0 H0); lia]. destruct H1 as [H1|H1]; [lia|].
  destruct l as [|c1 l]; [destruct H1|]. cbn [tl combine]. apply sorted_tail in HS as [HS HF1]. rewrite Forall_forall in HF1.
  destruct l as [|c2 l].
  - left. destruct H1 as [->|[]]. auto.
  - right. split; [simpl; lia|]. intros p Hp E. subst p. destruct Hp as [E|Hp].
    + injection E as ->. specialize (HF1 c2 (or_introl eq_refl)). specialize (HB c2 ltac:(simpl; auto)). lia.
    + change (In (0, n) (combine (c1 :: c2 :: l) (c2 :: l))) in Hp. apply in_combine_l in Hp. specialize (HF 0 Hp). lia.
Qed.
(** Every input has a piece in every interval. *)
Lemma interval_piece n pss ps x y : In (x, y) (intervals n pss) -> In ps pss -> consecutive 0 n ps ->
  exists p, In p ps /\ x <= fst p /\ snd p <= y.
Proof.
  intros HI Hps HC. apply intervals_in in HI as (Hxy & Hy & Cx & Cy & _). unfold common in Cx, Cy. rewrite forallb_forall in Cx, Cy.
  specialize (Cx ps Hps). specialize (Cy ps Hps).
  destruct (consec_start n ps 0 x HC ltac:(lia)) as (p & Hp & E).
  - apply orb_true_iff in Cx as [C|C]; [left; apply Nat.eqb_eq; auto|right]. apply existsb_exists in C as (p & Hp & E). exists p. split; auto. apply Nat.eqb_eq in E. auto.
  - exists p. split; auto. split; [lia|]. apply orb_true_iff in Cy as [C|C]; [apply Nat.eqb_eq in C; lia|].
    apply existsb_exists in C as (q & Hq & E'). apply Nat.eqb_eq in E'. subst y. eapply consec_side; eauto. lia.
Qed.

(** ** Slices *)
Lemma spans_ends n k p : fst p < snd p -> snd p <= n -> spans n k p -> begin_of n k = Z.of_nat (fst p) /\ end_of n k = Z.of_nat (snd p).
Proof.
  destruct p as [a b]. unfold spans, begin_of, end_of. cbn [fst snd]. intros H1 H2 (Hs & He & _). split.
  - destruct Hs as [E|[[E ->]|[E Ha]]]; rewrite E; auto.
    + destruct (Z.ltb_spec (Z.of_nat a) 0); lia.
    + destruct (Z.ltb_spec (Z.of_nat a - Z.of_nat n) 0); lia.
  - destruct He as [E|[[E ->]|[E Ha]]]; rewrite E; auto.
    + destruct (Z.ltb_spec (Z.of_nat b) 0); lia.
    + destruct (Z.ltb_spec (Z.of_nat b - Z.of_nat n) 0); lia.
Qed.
Lemma spans_inj n k p q : fst p < snd p -> snd p <= n -> fst q < snd q -> snd q <= n -> spans n k p -> spans n k q -> p = q.
Proof.
  intros H1 H2 H3 H4 Hp Hq. apply spans_ends in Hp as [A B], Hq as [C D]; auto. destruct p, q; simpl in *. f_equal; lia.
Qed.
Lemma lies_spans n k p xy : fst p < snd p -> snd p <= n -> spans n k p -> lies n xy k = true <-> fst xy <= fst p /\ snd p <= snd xy.
Proof.
  intros H1 H2 H. apply spans_ends in H as [A B]; auto. unfold lies. rewrite A, B, andb_true_iff, !Z.leb_le. lia.
Qed.
Lemma normal_spans n k p : fst p < snd p -> snd p <= n -> spans n k p -> normalize_slice k n = piece n p.
Proof. destruct p as [a b]. simpl. apply normalize_spans. Qed.

(** ** Splitting groups, in general *)
Lemma existsb_ext_in' {A} (f g : A -> bool) l : (forall x, In x l -> f x = g x) -> existsb f l = existsb g l.
Proof. induction l as [|x l IH]; intros H; simpl; auto. rewrite (H x (or_introl eq_refl)), IH; auto. intros; apply H; simpl; auto. Qed.

Section Split.
Variables (n d : nat) (tst : nat * nat -> ktuple -> bool).
(** [vals xy] are the pieces of every input in the interval *)
Lemma split_gen (gk : ktuple) (ivs : list (nat * nat)) (vals : nat * nat -> list (list pslice)) : NoDup ivs -> forall I : list (list ktuple),
  (forall xy, In xy ivs -> Forall2 (fun L sub => forall ks, In ks L -> in_subgroup n d sub ks = tst xy ks) I (vals xy)) ->
  (forall L ks xy xy', In L I -> In ks L -> In xy ivs -> In xy' ivs -> tst xy ks = true -> tst xy' ks = true -> xy = xy') ->
  split_group n d gk I (map (fun xy => ((low (fst xy), high n (snd xy)), vals xy)) ivs)
  = map (fun xy => (set_nth d (piece n xy) gk, map (filter (tst xy)) I)) ivs.
Proof.
  induction 1 as [|xy ivs Hxy HN IH]; intros I HV HU; auto. cbn [map split_group fst snd].
  pose proof (HV xy (or_introl eq_refl)) as HV0. f_equal.
  - f_equal. clear -HV0. induction HV0 as [|L sub I vs H HF IHF]; cbn [combine map]; auto. f_equal; auto. cbn [fst snd]. apply filter_ext_in'. auto.
  - assert (EI : map (fun p => filter (fun ks => negb (in_subgroup n d (snd p) ks)) (fst p)) (combine I (vals xy)) = map (filter (fun ks => negb (tst xy ks))) I).
    { clear -HV0. induction HV0 as [|L sub I vs H HF IHF]; cbn [combine map]; auto. f_equal; auto. cbn [fst snd]. apply filter_ext_in'. intros ks Hk. rewrite H; auto. }
    rewrite EI, IH.
    + apply map_ext_in. intros xy' Hxy'. f_equal. rewrite map_map. apply map_ext_in. intros L HL. rewrite filter_filter. apply filter_ext_in'. intros ks Hk.
      destruct (tst xy' ks) eqn:E; [|apply andb_false_r]. rewrite andb_true_r. apply negb_true_iff. destruct (tst xy ks) eqn:E'; auto. exfalso. apply Hxy.
      rewrite (HU L ks xy xy' HL Hk (or_introl eq_refl) (or_intror Hxy') E' E). auto.
    + intros xy' Hxy'. specialize (HV xy' (or_intror Hxy')). clear -HV. induction HV; cbn [map]; constructor; auto. intros ks Hk. apply filter_In in Hk as [Hk _]. auto.
    + intros L ks p q HL Hk Hp Hq. apply in_map_iff in HL as (L0 & <- & HL0). apply filter_In in Hk as [Hk _]. apply (HU L0); simpl; auto.
Qed.
End Split.

Section Gen.
Variable limit : nat.
Variable sh : list nat.
Variable inputs : list (list ktuple).
Variable I : list (list (nat * nat)).
Variable tst : nat -> nat * nat -> ktuple -> bool.
Definition inpre (u : list (nat * nat)) (ks : ktuple) : bool := forallb (fun d => tst d (nth d u (0, 0)) ks) (seq 0 (length u)).
Definition gpre (u : list (nat * nat)) : list (list ktuple) := map (filter (inpre u)) inputs.
Definition gname (u : list (nat * nat)) : ktuple := map (fun d => piece (nth d sh 0) (nth d u (0, 0))) (seq 0 (length u)) ++ repeat full_slice (length sh - length u).
Definition ggrp (u : list (nat * nat)) : kgroup := (gname u, gpre u).
Hypothesis HI : length I = length sh.
Hypothesis Hok : forall d, d < length sh ->
  NoDup (nth d I []) /\ (forall p, In p (nth d I []) -> fst p < snd p /\ snd p <= nth d sh 0)
  /\ ((nth d I [] = [(0, nth d sh 0)] /\ (forall L ks, In L inputs -> In ks L -> tst d (0, nth d sh 0) ks = true))
      \/ (2 <= length (nth d I []) /\ forall p, In p (nth d I []) -> p <> (0, nth d sh 0))).
Hypothesis Hdis : forall d L ks xy xy', d < length sh -> In L inputs -> In ks L -> In xy (nth d I []) -> In xy' (nth d I []) ->
  tst d xy ks = true -> tst d xy' ks = true -> xy = xy'.
Hypothesis Hdim : forall d u, d < length sh -> length u = d -> In u (prodl (firstn d I)) ->
  exists dk vals, mapM (mapM (at_dim d)) (gpre u) = Ok dk
    /\ dimension_group limit (nth d sh 0) dk = Ok (map (fun xy => ((low (fst xy), high (nth d sh 0) (snd xy)), vals xy)) (nth d I []))
    /\ forall xy, In xy (nth d I []) -> Forall2 (fun L sub => forall ks, In ks L -> in_subgroup (nth d sh 0) d sub ks = tst d xy ks) (gpre u) (vals xy).
Hypothesis Hhd : exists ks L inp, inputs = (ks :: L) :: inp /\ length ks = length sh.

Lemma inpre_snoc u xy ks : inpre (u ++ [xy]) ks = inpre u ks && tst (length u) xy ks.
Proof using.
  clear. unfold inpre. rewrite app_length. cbn [length]. rewrite Nat.add_1_r, seq_S, forallb_app. cbn [forallb plus]. f_equal.
  - destruct (forallb (fun d => tst d (nth d u (0, 0)) ks) (seq 0 (length u))) eqn:E.
    + apply forallb_forall. intros d Hd. rewrite forallb_forall in E. specialize (E d Hd). apply in_seq in Hd. rewrite app_nth1 by lia. auto.
    + destruct (forallb (fun d => tst d (nth d (u ++ [xy]) (0, 0)) ks) (seq 0 (length u))) eqn:E'; auto. rewrite <- E. symmetry. apply forallb_forall. intros d Hd.
      rewrite forallb_forall in E'. specialize (E' d Hd). apply in_seq in Hd. rewrite app_nth1 in E' by lia. auto.
  - rewrite app_nth2, Nat.sub_diag by lia. cbn [nth]. apply andb_true_r.
Qed.
Lemma gpre_snoc u xy : map (filter (tst (length u) xy)) (gpre u) = gpre (u ++ [xy]).
Proof using.
  unfold gpre. rewrite map_map. apply map_ext. intros L. rewrite filter_filter. apply filter_ext_in'. intros ks _. rewrite inpre_snoc. auto.
Qed.
Lemma gname_snoc u xy : length u < length sh -> set_nth (length u) (piece (nth (length u) sh 0) xy) (gname u) = gname (u ++ [xy]).
Proof using.
  clear. intros Hu. unfold gname. rewrite app_length. cbn [length]. rewrite Nat.add_1_r, seq_S, map_app. cbn [map plus].
  replace (length sh - length u) with (S (length sh - S (length u))) by lia.
  set (A := map (fun d => piece (nth d sh 0) (nth d u (0, 0))) (seq 0 (length u))).
  replace (map (fun d => piece (nth d sh 0) (nth d (u ++ [xy]) (0, 0))) (seq 0 (length u))) with A.
  2:{ unfold A. apply map_ext_in. intros d Hd. apply in_seq in Hd. rewrite app_nth1 by lia. auto. }
  rewrite app_nth2, Nat.sub_diag by lia. cbn [nth]. rewrite <- (set_full A) . f_equal. unfold A. rewrite map_length, seq_length. auto.
Qed.
Lemma gname_last u xy : length u < length sh -> nth (length u) (gname (u ++ [xy])) full_slice = piece (nth (length u) sh 0) xy.
Proof using.
  clear. intros Hu. rewrite <- gname_snoc by auto. apply nth_set_nth_eq. unfold gname. rewrite app_length, map_length, seq_length, repeat_length. lia.
Qed.
Lemma gname_over u d : length u <= d -> nth d (gname u) full_slice = full_slice.
Proof using. clear. intros Hu. unfold gname. rewrite app_nth2 by (rewrite map_length, seq_length; lia). apply nth_repeat. Qed.
Lemma gname_inj u v : length u = length v -> length u <= length sh ->
  (forall d, d < length u -> fst (nth d u (0, 0)) < snd (nth d u (0, 0)) /\ snd (nth d u (0, 0)) <= nth d sh 0) ->
  (forall d, d < length u -> fst (nth d v (0, 0)) < snd (nth d v (0, 0)) /\ snd (nth d v (0, 0)) <= nth d sh 0) -> gname u = gname v -> u = v.
Proof using.
  clear. intros HL Hs Hu Hv E. unfold gname in E. apply app_inj_len in E as [E _]; [|rewrite !map_length, !seq_length; auto].
  rewrite <- HL in E. apply (nth_error_ext_nth (0, 0)); auto. intros d Hd. specialize (Hu d Hd). specialize (Hv d Hd).
  assert (E' : piece (nth d sh 0) (nth d u (0, 0)) = piece (nth d sh 0) (nth d v (0, 0))).
  { apply (f_equal (fun l => nth d l full_slice)) in E. rewrite !(nth_map_seq (fun d => piece (nth d sh 0) (nth d _ (0, 0)))) in E by auto. auto. }
  apply piece_inj in E'; auto; lia.
Qed.
Lemma prefix_ok d u : d <= length sh -> In u (prodl (firstn d I)) -> length u = d
  /\ forall i, i < length u -> In (nth i u (0, 0)) (nth i I []) /\ fst (nth i u (0, 0)) < snd (nth i u (0, 0)) /\ snd (nth i u (0, 0)) <= nth i sh 0.
Proof.
  intros Hd Hu. apply prodl_In in Hu. pose proof (Forall2_length _ _ _ Hu) as HL. rewrite firstn_length in HL. split; [lia|].
  intros i Hi. eapply (Forall2_nth _ _ _ (0, 0) [] i) in Hu; [|lia]. rewrite nth_firstn_lt in Hu by lia. split; auto.
  destruct (Hok i ltac:(lia)) as (_ & H & _). auto.
Qed.

Lemma gen_dim d : d < length sh ->
  group_dim limit d (nth d sh 0) (map ggrp (prodl (firstn d I))) = Ok (map ggrp (prodl (firstn (S d) I))).
Proof.
  intros Hd. rewrite (firstn_S_snoc d I []) by lia. rewrite prodl_snoc.
  assert (HU : forall u, In u (prodl (firstn d I)) -> length u = d) by (intros u Hu; apply (prefix_ok d); auto; lia).
  assert (HN : NoDup (prodl (firstn d I))).
  { apply prodl_NoDup. apply Forall_forall. intros l Hl. apply (In_nth _ _ []) in Hl as (i & Hi & <-). rewrite firstn_length in Hi. rewrite nth_firstn_lt by lia. apply Hok. lia. }
  destruct (Hok d Hd) as (HNd & Hb & [[Ep Htr]|[H2 Hp]]).
  - (* one interval: nothing happens *)
    unfold group_dim. assert (E : map ggrp (flat_map (fun t => map (fun x => t ++ [x]) (nth d I [])) (prodl (firstn d I))) = map ggrp (prodl (firstn d I))).
    { rewrite Ep. cbn [map]. transitivity (map ggrp (map (fun t => t ++ [(0, nth d sh 0)]) (prodl (firstn d I)))).
      - rewrite flat_map_concat_map. clear. generalize (prodl (firstn d I)) as q. induction q as [|x q IHq]; cbn [map concat app]; [auto|f_equal; auto].
      - rewrite map_map. apply map_ext_in. intros u Hu. specialize (HU u Hu). unfold ggrp. f_equal.
        + unfold gname. rewrite app_length. cbn [length]. rewrite Nat.add_1_r, seq_S, map_app. cbn [map plus]. rewrite <- app_assoc. f_equal.
          * apply map_ext_in. intros i Hi. apply in_seq in Hi. rewrite app_nth1 by lia. auto.
          * rewrite app_nth2, Nat.sub_diag by lia. cbn [nth]. rewrite HU. unfold piece at 1, high. cbn [fst snd low]. rewrite Nat.eqb_refl.
            replace (length sh - d) with (S (length sh - S d)) by lia. auto.
        + rewrite <- gpre_snoc. rewrite <- (map_id (gpre u)) at 2. apply map_ext_in. intros L HL'. unfold gpre in HL'.
          apply in_map_iff in HL' as (L0 & <- & HL0). apply filter_all. intros ks Hks. apply filter_In in Hks as [Hks _]. rewrite HU. eapply Htr; eauto. }
    rewrite E. clear E HN. generalize (map ggrp (prodl (firstn d I))) at 1 3 as acc. revert HU.
    assert (G : forall us, (forall u, In u us -> In u (prodl (firstn d I))) -> (forall u, In u us -> length u = d) -> forall acc,
      foldM (fun acc g => dk <- mapM (mapM (at_dim d)) (snd g) ;; subs <- dimension_group limit (nth d sh 0) dk ;;
           if length subs =? 1 then Ok acc
           else Ok (fold_left (fun acc e => kput (fst e) (snd e) acc) (split_group (nth d sh 0) d (fst g) (snd g) subs) (kpop (fst g) acc))) acc (map ggrp us) = Ok acc).
    { induction us as [|u us IH]; intros Hus HU acc; auto. cbn [map foldM].
      destruct (Hdim d u Hd (HU u (or_introl eq_refl)) (Hus u (or_introl eq_refl))) as (dk & vals & E1 & E2 & _).
      cbn [ggrp snd]. rewrite E1. cbn [bind]. rewrite E2. cbn [bind]. rewrite map_length, Ep. cbn [length Nat.eqb]. apply IH; intros; [apply Hus|apply HU]; simpl; auto. }
    intros HU acc. apply G; auto.
  - unfold group_dim. set (n := nth d sh 0) in *. set (ps := nth d I []) in *.
    assert (G : forall us dn, NoDup us -> (forall u, In u us -> In u (prodl (firstn d I)) /\ ~ In u dn) -> (forall u, In u dn -> In u (prodl (firstn d I))) ->
      foldM (fun acc g => dk <- mapM (mapM (at_dim d)) (snd g) ;; subs <- dimension_group limit n dk ;;
           if length subs =? 1 then Ok acc
           else Ok (fold_left (fun acc e => kput (fst e) (snd e) acc) (split_group n d (fst g) (snd g) subs) (kpop (fst g) acc)))
        (map ggrp us ++ map ggrp (flat_map (fun t => map (fun x => t ++ [x]) ps) dn)) (map ggrp us)
      = Ok (map ggrp (flat_map (fun t => map (fun x => t ++ [x]) ps) (dn ++ us)))).
    { induction us as [|u us IH]; intros dn HNu Hus Hdn; [rewrite app_nil_r; auto|].
      inversion HNu as [|? ? Hu HNu']; subst. destruct (Hus u (or_introl eq_refl)) as [Hup Hud]. pose proof (HU u Hup) as HLu.
      destruct (Hdim d u Hd HLu Hup) as (dk & vals & E1 & E2 & E3). fold n ps in E2, E3.
      cbn [map foldM]. cbn [ggrp snd fst]. rewrite E1. cbn [bind]. rewrite E2. cbn [bind]. rewrite map_length.
      destruct (Nat.eqb_spec (length ps) 1) as [E|_]; [lia|].
      assert (ES : split_group n d (gname u) (gpre u) (map (fun xy => ((low (fst xy), high n (snd xy)), vals xy)) ps) = map (fun x => ggrp (u ++ [x])) ps).
      { rewrite (split_gen n d (tst d)); auto.
        - apply map_ext_in. intros xy Hxy. unfold ggrp. f_equal; [subst d; apply gname_snoc; auto|subst d; apply gpre_snoc].
        - intros L ks xy xy' HL Hk Hx Hx'. unfold gpre in HL. apply in_map_iff in HL as (L0 & <- & HL0). apply filter_In in Hk as [Hk _]. eapply Hdis; eauto. }
      rewrite ES. change (gname u, gpre u) with (ggrp u).
      (* distinct keys *)
      assert (Hkey : forall v x w, length v = d -> In x ps -> length w = d -> gname (v ++ [x]) <> gname w).
      { intros v x w Hv Hx Hw E. apply (f_equal (fun l => nth d l full_slice)) in E. rewrite <- Hv in E at 1. rewrite gname_last in E by lia. rewrite gname_over in E by lia.
        rewrite Hv in E. fold n in E.
        apply (Hp x Hx). specialize (Hb x Hx). apply (piece_inj n x (0, n)); [lia|lia|cbn [snd]; lia|]. rewrite E. unfold piece, high. cbn [fst snd low]. rewrite Nat.eqb_refl. auto. }
      assert (Hinj : forall v w, In v (prodl (firstn d I)) -> In w (prodl (firstn d I)) -> gname v = gname w -> v = w).
      { intros v w Hv Hw E. pose proof (prefix_ok d v ltac:(lia) Hv) as [L1 P1]. pose proof (prefix_ok d w ltac:(lia) Hw) as [L2 P2]. apply gname_inj; auto; try lia.
        - intros i Hi. apply P1; auto.
        - intros i Hi. apply P2. lia. }
      assert (Hinj2 : forall v x w y, In v (prodl (firstn d I)) -> In w (prodl (firstn d I)) -> In x ps -> In y ps -> gname (v ++ [x]) = gname (w ++ [y]) -> v = w /\ x = y).
      { intros v x w y Hv Hw Hx Hy E. apply app_inj_tail. pose proof (prefix_ok d v ltac:(lia) Hv) as [L1 P1]. pose proof (prefix_ok d w ltac:(lia) Hw) as [L2 P2].
        assert (PB : forall q z, length q = d -> In z ps -> (forall i, i < length q -> fst (nth i q (0, 0)) < snd (nth i q (0, 0)) /\ snd (nth i q (0, 0)) <= nth i sh 0) ->
           forall i, i < length (q ++ [z]) -> fst (nth i (q ++ [z]) (0, 0)) < snd (nth i (q ++ [z]) (0, 0)) /\ snd (nth i (q ++ [z]) (0, 0)) <= nth i sh 0).
        { intros q z Lq Hz Hq i Hi. rewrite app_length in Hi. cbn [length] in Hi. destruct (Nat.eq_dec i d) as [->|Hn].
          - rewrite app_nth2 by lia. rewrite Lq, Nat.sub_diag. cbn [nth]. apply Hb; auto.
          - rewrite app_nth1 by lia. apply Hq. lia. }
        apply gname_inj; auto; rewrite ?app_length; cbn [length]; try lia.
        - intros i Hi. apply (PB v x); auto; [intros; apply P1; auto|rewrite app_length; cbn [length]; lia].
        - intros i Hi. apply (PB w y); auto; [intros; apply P2; auto|rewrite app_length; cbn [length]; lia]. }
      assert (Hk2 : ~ In (gname u) (map fst (map ggrp us ++ map ggrp (flat_map (fun t => map (fun x => t ++ [x]) ps) dn)))).
      { rewrite map_app, in_app_iff, !map_map. intros [H|H]; apply in_map_iff in H as (w & E & Hw); cbn [ggrp fst] in E.
        - apply Hinj in E; [subst w; contradiction| |auto]. apply Hus. simpl; auto.
        - apply in_flat_map in Hw as (v & Hv & Hw). apply in_map_iff in Hw as (x & <- & Hx). apply (Hkey v x u) in E; auto. }
      replace (kpop (gname u) ((ggrp u :: map ggrp us) ++ map ggrp (flat_map (fun t => map (fun x => t ++ [x]) ps) dn)))
        with (map ggrp us ++ map ggrp (flat_map (fun t => map (fun x => t ++ [x]) ps) dn)) by (symmetry; apply kpop_head; auto).
      rewrite kputs_new.
      - rewrite <- app_assoc. replace (map ggrp (flat_map (fun t => map (fun x => t ++ [x]) ps) dn) ++ map (fun x => ggrp (u ++ [x])) ps)
          with (map ggrp (flat_map (fun t => map (fun x => t ++ [x]) ps) (dn ++ [u]))).
        2:{ rewrite flat_map_app, map_app. f_equal. cbn [flat_map]. rewrite app_nil_r, map_map. auto. }
        rewrite (IH (dn ++ [u])); auto.
        + rewrite <- app_assoc. auto.
        + intros w Hw. destruct (Hus w (or_intror Hw)) as [H1 H3]. split; auto. rewrite in_app_iff. intros [H|[<-|[]]]; auto.
        + intros w Hw. apply in_app_or in Hw as [Hw|[<-|[]]]; auto.
      - rewrite map_map. apply NoDup_map_inj; [|auto]. intros x y Hx Hy E. cbn [ggrp fst] in E. apply Hinj2 in E; tauto.
      - intros k Hk. rewrite map_map in Hk. apply in_map_iff in Hk as (x & <- & Hx). rewrite map_app, in_app_iff, !map_map. intros [H|H]; apply in_map_iff in H as (w & E & Hw); cbn [ggrp fst] in E.
        + symmetry in E. apply (Hkey u x w) in E; auto. apply HU. apply Hus. simpl; auto.
        + apply in_flat_map in Hw as (v & Hv & Hw). apply in_map_iff in Hw as (y & <- & Hy). apply Hinj2 in E as [-> _]; auto. }
    specialize (G (prodl (firstn d I)) [] HN). cbn [flat_map map] in G. rewrite app_nil_r in G. apply G; auto. intros u [].
Qed.

Lemma gen_keys : group_keys limit sh inputs = Ok (map ggrp (prodl I)).
Proof.
  destruct Hhd as (ks & L & inp & Einp & Hk). unfold group_keys. rewrite Einp at 1.
  replace (map (fun _ => full_slice) ks, inputs) with (ggrp []).
  2:{ unfold ggrp, gname, gpre. cbn [app length seq map]. rewrite Nat.sub_0_r, <- Hk. f_equal.
      - clear. induction ks; simpl; [auto|f_equal; auto].
      - rewrite <- map_id. apply map_ext. intros l. apply filter_all. auto. }
  assert (G : forall k d, d + k = length sh -> foldM (fun gs dn => group_dim limit (fst dn) (snd dn) gs) (map ggrp (prodl (firstn d I))) (combine (seq d k) (skipn d sh))
     = Ok (map ggrp (prodl I))).
  { induction k as [|k IH]; intros d Hd.
    - cbn [seq combine foldM]. rewrite firstn_all2 by lia. auto.
    - rewrite (skipn_nth_cons d sh 0) by lia. cbn [seq combine foldM fst snd]. rewrite gen_dim by lia. apply IH. lia. }
  specialize (G (length sh) 0 ltac:(lia)). cbn [firstn skipn prodl map] in G. exact G.
Qed.
End Gen.

(** ** Grids *)
Lemma choose_nth {A} (P : nat -> A -> Prop) dflt m : (forall i, i < m -> exists q, P i q) -> exists t, length t = m /\ forall i, i < m -> P i (nth i t dflt).
Proof.
  intros H. induction m as [|m IH]; [exists []; split; auto; intros; lia|]. destruct IH as (t & HL & Ht); [intros; apply H; lia|].
  destruct (H m ltac:(lia)) as [q Hq]. exists (t ++ [q]). split; [rewrite app_length; simpl; lia|]. intros i Hi. destruct (Nat.eq_dec i m) as [->|Hn].
  - rewrite app_nth2 by lia. rewrite HL, Nat.sub_diag. auto.
  - rewrite app_nth1 by lia. apply Ht. lia.
Qed.
Lemma prodl_nth {A} (t : list A) D dflt : length t = length D -> (forall i, i < length D -> In (nth i t dflt) (nth i D [])) -> In t (prodl D).
Proof.
  intros HL H. apply prodl_In. apply (Forall2_nth_intro _ _ _ dflt []); auto. intros i Hi. apply H. lia.
Qed.
Lemma nth_prodl {A} (t : list A) D dflt i : In t (prodl D) -> i < length D -> length t = length D /\ In (nth i t dflt) (nth i D []).
Proof.
  intros H Hi. apply prodl_In in H. pose proof (Forall2_length _ _ _ H) as HL. split; auto. eapply (Forall2_nth _ _ _ dflt [] i) in H; auto. lia.
Qed.

Section Grid.
Variable sh : list nat.
Definition sp (n : nat) (p : nat * nat) (k : pslice) : bool := (begin_of n k =? Z.of_nat (fst p))%Z && (end_of n k =? Z.of_nat (snd p))%Z.
Definition tst d xy (ks : ktuple) : bool := lies (nth d sh 0) xy (nth d ks full_slice).
Definition column (d : nat) (u : list (nat * nat)) (L : list ktuple) : list pslice := map (fun ks => nth d ks full_slice) (filter (inpre tst u) L).
Definition rpieces (d : nat) (u : list (nat * nat)) (L : list ktuple) (G : list (list (nat * nat))) : list (nat * nat) :=
  flat_map (fun p => repeat p (length (filter (sp (nth d sh 0) p) (column d u L)))) (nth d G []).

Lemma grid_piece L G ks d : grid sh L G -> In ks L -> d < length sh ->
  exists p, In p (nth d G []) /\ spans (nth d sh 0) (nth d ks full_slice) p /\ fst p < snd p /\ snd p <= nth d sh 0.
Proof.
  intros (H1 & H2 & H3 & H4) Hk Hd. destruct (H3 ks Hk) as (t & Ht & _ & Hs). exists (nth d t (0, 0)).
  destruct (nth_prodl t G (0, 0) d Ht ltac:(lia)) as [_ Hi]. split; auto. split; auto. destruct (H2 d Hd) as [_ HC]. apply (consec_in _ _ _ _ HC) in Hi. lia.
Qed.
Lemma sp_spans n k p q : fst p < snd p -> snd p <= n -> spans n k p -> fst q < snd q -> snd q <= n -> (sp n q k = true <-> q = p).
Proof.
  intros H1 H2 H H3 H4. apply spans_ends in H as [A B]; auto. unfold sp. rewrite A, B, andb_true_iff, !Z.eqb_eq. destruct p, q; simpl in *. split; [intros []; f_equal; lia|intros E; injection E; lia].
Qed.

Section One.
Variables (L : list ktuple) (G : list (list (nat * nat))) (Gs : list (list (list (nat * nat)))) (d : nat) (u : list (nat * nat)).
Hypothesis HG : grid sh L G.
Hypothesis HGs : In G Gs.
Hypothesis Hd : d < length sh.
Hypothesis Hu : length u = d.
Hypothesis Hui : forall i, i < d -> In (nth i u (0, 0)) (box_sides sh Gs i).
Notation n := (nth d sh 0).

Lemma column_in k : In k (column d u L) -> exists p, In p (nth d G []) /\ spans n k p /\ fst p < snd p /\ snd p <= n.
Proof. intros H. apply in_map_iff in H as (ks & <- & Hk). apply filter_In in Hk as [Hk _]. eapply grid_piece; eauto. Qed.
Lemma column_all p : In p (nth d G []) -> exists k, In k (column d u L) /\ spans n k p.
Proof.
  intros Hp. pose proof HG as (H1 & H2 & H3 & H4).
  destruct (choose_nth (fun i q => In q (nth i G []) /\ (i < d -> fst (nth i u (0, 0)) <= fst q /\ snd q <= snd (nth i u (0, 0))) /\ (i = d -> q = p)) (0, 0) (length sh)) as (t & HL & Ht).
  { intros i Hi. destruct (H2 i Hi) as [Hn HC]. destruct (Nat.lt_trichotomy i d) as [Hlt|[->|Hgt]].
    - specialize (Hui i Hlt). destruct (nth i u (0, 0)) as [x y]. unfold box_sides in Hui. apply (interval_piece _ _ (nth i G [])) in Hui as (q & Hq & Hb); auto.
      + exists q. split; auto. split; auto. lia.
      + apply (in_map (fun G => nth i G [])). auto.
    - exists p. split; auto. split; auto. lia.
    - destruct (nth i G []) as [|q l] eqn:E; [cbn [consecutive] in HC; congruence|]. exists q. split; [simpl; auto|]. split; lia. }
  destruct (H4 t) as (ks & Hk & Hl & Hs).
  { apply (prodl_nth _ _ (0, 0)); [lia|]. intros i Hi. apply Ht. lia. }
  exists (nth d ks full_slice). split.
  - unfold column. apply (in_map (fun ks => nth d ks full_slice)). apply filter_In. split; auto. unfold inpre. apply forallb_forall. intros i Hi. apply in_seq in Hi.
    unfold tst. destruct (Ht i ltac:(lia)) as (Q1 & Q2 & _). destruct (H2 i ltac:(lia)) as [_ HC]. apply (consec_in _ _ _ _ HC) in Q1.
    apply (lies_spans _ _ (nth i t (0, 0))); [lia|lia|apply Hs; lia|apply Q2; lia].
  - destruct (Ht d Hd) as (_ & _ & E). rewrite <- (E eq_refl). apply Hs. auto.
Qed.
Lemma C_cons : consecutive 0 n (nth d G []).
Proof. destruct HG as (_ & H & _). apply H. auto. Qed.
Lemma C_in p : In p (nth d G []) -> fst p < snd p /\ snd p <= n.
Proof. intros H. apply (consec_in _ _ _ _ C_cons) in H. lia. Qed.
Lemma count_pos p : In p (nth d G []) -> 0 < length (filter (sp n p) (column d u L)).
Proof.
  intros Hp. destruct (column_all p Hp) as (k & Hk & Hs). assert (Hf : In k (filter (sp n p) (column d u L))).
  { apply filter_In. split; auto. apply (sp_spans n k p p); auto; apply C_in; auto. }
  destruct (filter _ _); [destruct Hf|simpl; lia].
Qed.
Lemma rpieces_in p : In p (rpieces d u L G) <-> In p (nth d G []).
Proof. apply (reps_in (fun p => length (filter (sp n p) (column d u L)))). apply count_pos. Qed.
Lemma rpieces_chain : chain 0 n (rpieces d u L G).
Proof. apply (consec_chain n (fun p => length (filter (sp n p) (column d u L)))); [apply C_cons|apply count_pos]. Qed.
Lemma rpieces_spans : exists ks0, Permutation (column d u L) ks0 /\ Forall2 (spans n) ks0 (rpieces d u L G).
Proof.
  exists (flat_map (fun p => filter (sp n p) (column d u L)) (nth d G [])). split.
  - apply (part_perm (sp n)).
    + eapply consec_NoDup. apply C_cons.
    + intros k Hk. destruct (column_in k Hk) as (p & Hp & Hs & Hb). exists p. split; auto. apply (sp_spans n k p p); tauto.
    + intros k p q Hk Hp Hq E1 E2. destruct (column_in k Hk) as (r & Hr & Hs & Hb). pose proof (C_in p Hp). pose proof (C_in q Hq).
      apply (sp_spans n k r p) in E1; try tauto. apply (sp_spans n k r q) in E2; try tauto. congruence.
  - apply F2_reps. intros p k Hp Hk. apply filter_In in Hk as [Hk E]. destruct (column_in k Hk) as (r & Hr & Hs & Hb). pose proof (C_in p Hp).
    apply (sp_spans n k r p) in E; try tauto. subst; auto.
Qed.
Lemma rpieces_length : length (rpieces d u L G) <= length L.
Proof.
  destruct rpieces_spans as (ks0 & HP & HF). rewrite <- (Forall2_length _ _ _ HF), <- (Permutation_length HP). unfold column. rewrite map_length.
  clear. induction L; simpl; auto. destruct (inpre tst u a); simpl; lia.
Qed.
Lemma rpieces_sub xy ks : In ks (filter (inpre tst u) L) ->
  in_subgroup n d (map (piece n) (inside (fst xy) (snd xy) (rpieces d u L G))) ks = tst d xy ks.
Proof.
  intros Hk. assert (Hc : In (nth d ks full_slice) (column d u L)) by (apply (in_map (fun ks => nth d ks full_slice)); auto).
  destruct (column_in _ Hc) as (p & Hp & Hs & Hb & Hbn). unfold tst, in_subgroup. rewrite (normal_spans n _ p) by auto.
  destruct (lies n xy (nth d ks full_slice)) eqn:E.
  - apply (lies_spans n _ p xy) in E; auto. apply existsb_exists. exists (piece n p). split; [|apply slice_eqb_eq; auto].
    apply in_map. unfold inside. apply filter_In. split; [apply rpieces_in; auto|]. apply andb_true_iff. split; apply Nat.leb_le; lia.
  - destruct (existsb _ _) eqn:E'; auto. apply existsb_exists in E' as (s & Hs' & Es). apply slice_eqb_eq in Es. subst s. apply in_map_iff in Hs' as (q & Eq & Hq).
    unfold inside in Hq. apply filter_In in Hq as [Hq Hin]. apply (proj1 (rpieces_in q)) in Hq. pose proof (C_in q Hq). apply piece_inj in Eq; try lia. subst q.
    rewrite <- E. symmetry. apply (lies_spans n _ p xy); auto. apply andb_true_iff in Hin as [A B]. apply Nat.leb_le in A, B. auto.
Qed.
End One.

Lemma F2_in_l {A B} (P : A -> B -> Prop) l r x : Forall2 P l r -> In x l -> exists y, In y r /\ In (x, y) (combine l r) /\ P x y.
Proof.
  induction 1 as [|a b l r H HF IH]; intros [].
  - subst. exists b. simpl; auto.
  - destruct (IH H0) as (y & H1 & H2 & H3). exists y. simpl; auto.
Qed.
Lemma F2_combine {A B} (P : A -> B -> Prop) l r : Forall2 P l r -> forall x y, In (x, y) (combine l r) -> P x y /\ In x l /\ In y r.
Proof.
  induction 1 as [|a b l r H HF IH]; intros x y Hi; [destruct Hi|]. destruct Hi as [E|Hi]; [injection E as <- <-; simpl; auto|].
  destruct (IH x y Hi) as (A1 & A2 & A3). simpl; auto.
Qed.
Lemma combine_fst {A B} (l : list A) (r : list B) : length l = length r -> map fst (combine l r) = l.
Proof. revert r; induction l as [|x l IH]; intros [|y r] H; simpl in *; try discriminate; auto. f_equal. auto. Qed.
Lemma combine_snd {A B} (l : list A) (r : list B) : length l = length r -> map snd (combine l r) = r.
Proof. revert r; induction l as [|x l IH]; intros [|y r] H; simpl in *; try discriminate; auto. f_equal. auto. Qed.
Lemma Forall2_maps {A B C} (R : B -> C -> Prop) (f : A -> B) (g : A -> C) l : (forall x, In x l -> R (f x) (g x)) -> Forall2 R (map f l) (map g l).
Proof. induction l as [|x l IH]; intros H; simpl; constructor; [apply H; simpl; auto|apply IH; intros; apply H; simpl; auto]. Qed.

Lemma grids_ok limit inputs Gs : inputs <> [] -> Forall2 (grid sh) inputs Gs -> list_sum (map (@length ktuple) inputs) <= limit ->
  group_keys limit sh inputs = Ok (expected_boxes sh inputs Gs).
Proof.
  intros Hne HF Hlim. pose proof (Forall2_length _ _ _ HF) as HLen. set (I := map (box_sides sh Gs) (seq 0 (length sh))).
  assert (HI : length I = length sh) by (unfold I; rewrite map_length, seq_length; auto).
  assert (HIn : forall d, d < length sh -> nth d I [] = box_sides sh Gs d) by (intros d Hd; unfold I; apply (nth_map_seq (box_sides sh Gs)); auto).
  assert (HC : forall d G, d < length sh -> In G Gs -> nth d sh 0 <> 0 /\ consecutive 0 (nth d sh 0) (nth d G [])).
  { intros d G Hd HG. apply (In_nth _ _ []) in HG as (j & Hj & <-). eapply (Forall2_nth _ _ _ [] [] j) in HF; [|lia]. apply HF; auto. }
  rewrite (gen_keys limit sh inputs I tst HI).
  - f_equal. unfold expected_boxes. apply map_ext_in. intros u Hu. assert (HLu : length u = length sh).
    { apply prodl_In in Hu. rewrite (Forall2_length _ _ _ Hu). auto. }
    unfold ggrp, gname, gpre. rewrite HLu, Nat.sub_diag. cbn [repeat]. rewrite app_nil_r. auto.
  - intros d Hd. rewrite HIn by auto. split; [apply intervals_NoDup|].
    assert (HB : forall p, In p (box_sides sh Gs d) -> fst p < snd p /\ snd p <= nth d sh 0) by (intros [x y] Hp; apply intervals_in in Hp; simpl; tauto).
    split; auto. destruct (nth d sh 0) as [|m] eqn:En.
    { exfalso. destruct inputs as [|L inp]; [congruence|]. destruct Gs as [|G Gs]; [discriminate|]. destruct (HC d G Hd (or_introl eq_refl)) as [H _]. congruence. }
    rewrite <- En in *. destruct (intervals_cases (nth d sh 0) (map (fun G => nth d G []) Gs)) as [E|E]; [lia| | |].
    + intros ps Hps. apply in_map_iff in Hps as (G & <- & HG). apply HC; auto.
    + left. split; [exact E|]. intros L ks HL Hk. destruct (F2_in_l _ _ _ _ HF HL) as (G & _ & _ & HG).
      destruct (grid_piece L G ks d HG Hk Hd) as (p & _ & Hs & Hb1 & Hb2). unfold tst. apply (lies_spans _ _ p); auto. cbn [fst snd]. lia.
    + right. exact E.
  - intros d L ks [x y] [x' y'] Hd HL Hk. rewrite HIn by auto. intros H1 H2 T1 T2. destruct (F2_in_l _ _ _ _ HF HL) as (G & _ & _ & HG).
    destruct (grid_piece L G ks d HG Hk Hd) as (p & _ & Hs & Hb1 & Hb2). unfold tst in T1, T2. apply (lies_spans _ _ p) in T1, T2; auto. cbn [fst snd] in *.
    apply intervals_in in H1 as (A1 & A2 & A3 & A4 & A5), H2 as (B1 & B2 & B3 & B4 & B5).
    pose proof (A5 x' ltac:(lia) B3). pose proof (A5 y' ltac:(lia) B4). pose proof (B5 x ltac:(lia) A3). pose proof (B5 y ltac:(lia) A4). f_equal; lia.
  - intros d u Hd Hu Hup. assert (Hui : forall i, i < d -> In (nth i u (0, 0)) (box_sides sh Gs i)).
    { intros i Hi. destruct (nth_prodl u _ (0, 0) i Hup) as [_ H]; [rewrite firstn_length; lia|]. rewrite nth_firstn_lt in H by lia. rewrite HIn in H by lia. auto. }
    set (cb := combine inputs Gs).
    assert (Hcb : forall L G, In (L, G) cb -> grid sh L G /\ In L inputs /\ In G Gs) by (apply F2_combine; auto).
    assert (Einp : inputs = map fst cb) by (unfold cb; rewrite combine_fst; auto).
    set (pss := map (fun LG => rpieces d u (fst LG) (snd LG)) cb).
    exists (map (column d u) inputs), (fun xy => map (fun ps => map (piece (nth d sh 0)) (inside (fst xy) (snd xy) ps)) pss). split; [|split].
    + unfold gpre. rewrite <- (map_map (filter (inpre tst u)) (map (fun ks => nth d ks full_slice))).
      rewrite <- (map_id (map (filter (inpre tst u)) inputs)) at 1. apply mapM_map_ok. intros L0 HL0. rewrite <- (map_id L0) at 1. apply mapM_map_ok. intros ks Hk.
      apply in_map_iff in HL0 as (L & <- & HL). apply filter_In in Hk as [Hk _]. destruct (F2_in_l _ _ _ _ HF HL) as (G & _ & _ & HG).
      destruct HG as (_ & _ & H3 & _). destruct (H3 ks Hk) as (t & _ & HLk & _). unfold at_dim. rewrite (nth_error_nth' _ full_slice) by lia. auto.
    + rewrite HIn by auto. unfold box_sides.
      replace (intervals (nth d sh 0) (map (fun G => nth d G []) Gs)) with (intervals (nth d sh 0) pss).
      2:{ apply intervals_ext. replace Gs with (map snd cb) by (unfold cb; rewrite combine_snd; auto). rewrite map_map. unfold pss. apply Forall2_maps.
          intros [L G] HLG p. destruct (Hcb L G HLG) as (K1 & K2 & K3). cbn [fst snd]. eapply rpieces_in; eauto. }
      apply dimension_group_ok.
      * unfold pss, cb. destruct inputs; [congruence|]. destruct Gs; [discriminate|discriminate].
      * unfold pss. apply Forall_map. apply Forall_forall. intros [L G] HLG. destruct (Hcb L G HLG) as (K1 & K2 & K3). eapply rpieces_chain; eauto.
      * rewrite Einp at 1. rewrite map_map. unfold pss. apply Forall2_maps. intros [L G] HLG. destruct (Hcb L G HLG) as (K1 & K2 & K3). eapply rpieces_spans; eauto.
      * eapply Nat.le_trans; [|exact Hlim]. rewrite Einp at 1. unfold pss. rewrite !map_map. apply sum_le. intros [L G] HLG. destruct (Hcb L G HLG) as (K1 & K2 & K3). eapply rpieces_length; eauto.
    + intros xy Hxy. unfold gpre. rewrite Einp at 1. unfold pss. rewrite !map_map. apply Forall2_maps. intros [L G] HLG ks Hk. destruct (Hcb L G HLG) as (K1 & K2 & K3).
      cbn [fst snd] in *. eapply rpieces_sub; eauto.
  - destruct inputs as [|L inp]; [congruence|]. destruct Gs as [|G Gs]; [discriminate|]. inversion HF as [|? ? ? ? HG _]; subst. destruct HG as (H1 & H2 & H3 & H4).
    destruct (choose_nth (fun i q => In q (nth i G [])) (0, 0) (length sh)) as (t & HLt & Ht).
    { intros i Hi. destruct (H2 i Hi) as [Hn HC']. destruct (nth i G []) as [|q l]; [cbn [consecutive] in HC'; congruence|]. exists q. simpl; auto. }
    destruct (H4 t) as (ks0 & Hk0 & _); [apply (prodl_nth _ _ (0, 0)); [lia|]; intros; apply Ht; lia|].
    destruct L as [|ks L]; [destruct Hk0|]. destruct (H3 ks (or_introl eq_refl)) as (_ & _ & HLk & _). exists ks, L, inp. auto.
Qed.
End Grid.

(** More passes never change a result. *)
Lemma foldM_mono {A B} (f f' : B -> A -> res B) l : (forall a x b, f a x = Ok b -> f' a x = Ok b) -> forall a b, foldM f a l = Ok b -> foldM f' a l = Ok b.
Proof.
  intros H. induction l as [|x l IH]; intros a b E; cbn [foldM] in *; auto. destruct (f a x) as [a'|] eqn:E'; [|discriminate]. rewrite (H _ _ _ E'). auto.
Qed.
Lemma group_keys_mono limit k sh inputs g : group_keys limit sh inputs = Ok g -> group_keys (limit + k) sh inputs = Ok g.
Proof.
  unfold group_keys. destruct inputs as [|[|ks L] inp]; auto. apply foldM_mono. intros gs [d n] gs'. unfold group_dim. cbn [fst snd]. apply foldM_mono. intros acc e acc'.
  destruct (mapM (mapM (at_dim d)) (snd e)) as [dk|]; cbn [bind]; auto. unfold dimension_group.
  destruct (group_loop limit n _ _) as [subs|] eqn:E; cbn [bind]; [|discriminate]. rewrite (group_loop_mono _ _ _ k _ _ E). auto.
Qed.
Lemma grids_result limit sh inputs Gs g : inputs <> [] -> Forall2 (grid sh) inputs Gs -> group_keys limit sh inputs = Ok g -> g = expected_boxes sh inputs Gs.
Proof.
  intros H1 H2 H. pose proof (grids_ok sh (limit + list_sum (map (@length ktuple) inputs)) inputs Gs H1 H2 ltac:(lia)) as E.
  rewrite (group_keys_mono _ _ _ _ _ H) in E. congruence.
Qed.

(** Every tuple of an input is in exactly one group. *)
Lemma pair_around (l : list nat) a : StronglySorted lt l -> hd (S a) l <= a -> (exists z, In z l /\ a < z) -> exists x y, In (x, y) (combine l (tl l)) /\ x <= a /\ a < y.
Proof.
  induction l as [|x l IH]; intros HS H1 (z & Hz & Hlt); [destruct Hz|]. cbn [hd] in H1. destruct Hz as [->|Hz]; [lia|].
  destruct l as [|y l]; [destruct Hz|]. apply sorted_tail in HS as [HS _]. destruct (Nat.lt_ge_cases a y) as [Hy|Hy].
  - exists x, y. split; [simpl; auto|lia].
  - destruct (IH HS Hy) as (x' & y' & Hi & Hb); [eauto|]. exists x', y'. split; auto. simpl; auto.
Qed.
Lemma interval_around n pss ps p : n <> 0 -> (forall ps, In ps pss -> consecutive 0 n ps) -> In ps pss -> In p ps ->
  exists xy, In xy (intervals n pss) /\ fst xy <= fst p /\ snd p <= snd xy.
Proof.
  intros Hn HC Hps Hp. pose proof (HC ps Hps) as HCp. pose proof (consec_in _ _ _ _ HCp Hp) as Hb.
  destruct (pair_around (common_cuts n pss) (fst p) (cuts_sorted n pss)) as (x & y & Hi & Hx & Hy).
  - assert (H0 : In 0 (common_cuts n pss)) by (apply cuts_in; split; [lia|apply common_zero]).
    pose proof (cuts_sorted n pss) as HS. destruct (common_cuts n pss) as [|c l]; [destruct H0|]. apply sorted_tail in HS as [_ HF]. cbn [hd].
    destruct H0 as [->|H0]; [lia|]. rewrite Forall_forall in HF. specialize (HF 0 H0). lia.
  - exists n. split; [|lia]. apply cuts_in. split; auto. apply common_end; auto.
  - exists (x, y). split; auto. cbn [fst snd]. split; auto. change (In (x, y) (intervals n pss)) in Hi. apply intervals_in in Hi as (_ & _ & _ & Cy & _).
    unfold common in Cy. rewrite forallb_forall in Cy. specialize (Cy ps Hps). apply orb_true_iff in Cy as [C|C]; [apply Nat.eqb_eq in C; lia|].
    apply existsb_exists in C as (q & Hq & E). apply Nat.eqb_eq in E. subst y. eapply consec_side; eauto.
Qed.
Lemma boxes_partition sh inputs Gs j : Forall2 (grid sh) inputs Gs -> j < length inputs ->
  Permutation (nth j inputs []) (flat_map (fun g => nth j (snd g) []) (expected_boxes sh inputs Gs)).
Proof.
  intros HF Hj. set (L := nth j inputs []). set (I := map (box_sides sh Gs) (seq 0 (length sh))).
  assert (HI : length I = length sh) by (unfold I; rewrite map_length, seq_length; auto).
  assert (HIn : forall d, d < length sh -> nth d I [] = box_sides sh Gs d) by (intros d Hd; unfold I; apply (nth_map_seq (box_sides sh Gs)); auto).
  pose proof (Forall2_length _ _ _ HF) as HLen. pose proof (Forall2_nth _ _ _ [] [] j HF Hj) as HG. fold L in HG. set (G := nth j Gs []) in HG.
  assert (HGs : In G Gs) by (apply nth_In; lia).
  assert (HC : forall d G, d < length sh -> In G Gs -> nth d sh 0 <> 0 /\ consecutive 0 (nth d sh 0) (nth d G [])).
  { intros d G' Hd HG'. apply (In_nth _ _ []) in HG' as (i & Hi & <-). pose proof (Forall2_nth _ _ _ [] [] i HF ltac:(lia)) as HGi. apply HGi; auto. }
  assert (E : flat_map (fun g => nth j (snd g) []) (expected_boxes sh inputs Gs) = flat_map (fun u => filter (lies_box sh u) L) (prodl I)).
  { unfold expected_boxes. fold I. rewrite !flat_map_concat_map, map_map. f_equal. apply map_ext. intros u. cbn [snd].
    rewrite (nth_map (filter (lies_box sh u)) inputs j [] []); auto. }
  rewrite E. apply (part_perm (lies_box sh)).
  - apply prodl_NoDup. unfold I. apply Forall_map. apply Forall_forall. intros d _. apply intervals_NoDup.
  - intros ks Hk. destruct (choose_nth (fun d q => In q (box_sides sh Gs d) /\ lies (nth d sh 0) q (nth d ks full_slice) = true) (0, 0) (length sh)) as (u & HL & Hu).
    { intros d Hd. destruct (grid_piece sh L G ks d HG Hk Hd) as (p & Hp & Hs & Hb1 & Hb2).
      destruct (interval_around (nth d sh 0) (map (fun G => nth d G []) Gs) (nth d G []) p) as (xy & Hxy & Hb); auto.
      - apply (HC d G); auto.
      - intros ps Hps. apply in_map_iff in Hps as (G' & <- & HG'). apply HC; auto.
      - apply (in_map (fun G => nth d G [])). auto.
      - exists xy. split; auto. apply (lies_spans _ _ p); auto. }
    exists u. split.
    + apply (prodl_nth _ _ (0, 0)); [lia|]. intros d Hd. rewrite HIn by lia. apply Hu. lia.
    + unfold lies_box. apply forallb_forall. intros d Hd. apply in_seq in Hd. apply Hu. lia.
  - intros ks u v Hk Hu Hv Tu Tv. unfold lies_box in Tu, Tv. rewrite forallb_forall in Tu, Tv.
    pose proof (proj1 (prodl_In _ _) Hu) as Fu. pose proof (proj1 (prodl_In _ _) Hv) as Fv. pose proof (Forall2_length _ _ _ Fu) as Lu. pose proof (Forall2_length _ _ _ Fv) as Lv.
    apply (nth_error_ext_nth (0, 0)); [lia|]. intros d Hd. specialize (Tu d ltac:(apply in_seq; lia)). specialize (Tv d ltac:(apply in_seq; lia)).
    pose proof (Forall2_nth _ _ _ (0, 0) [] d Fu Hd) as Iu. pose proof (Forall2_nth _ _ _ (0, 0) [] d Fv ltac:(lia)) as Iv. rewrite HIn in Iu, Iv by lia.
    destruct (grid_piece sh L G ks d HG Hk ltac:(lia)) as (p & _ & Hs & Hb1 & Hb2). apply (lies_spans _ _ p) in Tu, Tv; auto.
    destruct (nth d u (0, 0)) as [x y], (nth d v (0, 0)) as [x' y']. cbn [fst snd] in *.
    apply intervals_in in Iu as (A1 & A2 & A3 & A4 & A5), Iv as (B1 & B2 & B3 & B4 & B5).
    pose proof (A5 x' ltac:(lia) B3). pose proof (A5 y' ltac:(lia) B4). pose proof (B5 x ltac:(lia) A3). pose proof (B5 y ltac:(lia) A4). f_equal; lia.
Qed.
