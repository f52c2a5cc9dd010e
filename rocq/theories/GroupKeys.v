(** GroupKeys: grouping of chunk keys when all inputs are cut at the same places
    (key_grouper.py), as the dask engine needs it. *)
From Verif Require Import Base PySlice KeyGrouper GroupSpec Lib GetTrans ChunkLemmas GroupLemmas StreamLemmas Dask.
From Coq Require Import Permutation Sorted.

(** ** One dimension *)
Definition inc_pieces (n : nat) (ps : list (nat * nat)) : Prop :=
  StronglySorted (fun p q => fst p <= fst q /\ snd p < snd q) ps
  /\ Forall (fun p => fst p <= snd p /\ snd p <= n /\ (snd p = 0 -> n = 0)) ps.

Lemma stopn_piece' n p : (snd p = 0 -> n = 0) -> stopn n (piece n p) = Z.of_nat (snd p).
Proof.
  intros H. unfold stopn, piece, high. cbn [s_stop]. destruct (Nat.eqb_spec (snd p) n) as [E|E]; [congruence|].
  destruct (Z.eqb_spec (Z.of_nat (snd p)) 0); [|auto]. exfalso. apply E. rewrite H by lia. lia.
Qed.
Lemma piece_inj n p q : fst p <= snd p -> snd p <= n -> snd q <= n -> piece n p = piece n q -> p = q.
Proof.
  intros H1 H2 H3 E. pose proof (sort_key_piece n p H2) as E1. rewrite E, (sort_key_piece n q H3) in E1. injection E1 as E1 E2.
  destruct p, q; simpl in *; f_equal; lia.
Qed.

Definition fil (n : nat) (L : list pslice) (p : nat * nat) : list pslice := filter (slice_eqb (piece n p)) L.
Lemma fil_in n L p s : In s (fil n L p) -> s = piece n p.
Proof. unfold fil. rewrite filter_In. intros [_ H]. apply slice_eqb_eq in H. auto. Qed.
Lemma const_repeat {A} (x : A) l : (forall y, In y l -> y = x) -> l = repeat x (length l).
Proof. induction l as [|y l IH]; intros H; simpl; auto. rewrite (H y (or_introl eq_refl)). f_equal. apply IH. intros; apply H; simpl; auto. Qed.
Lemma fil_repeat n L p : fil n L p = repeat (piece n p) (length (fil n L p)).
Proof. apply const_repeat. intros s Hs. eapply fil_in; eauto. Qed.
Definition runs (n : nat) (ps : list (nat * nat)) (L : list pslice) : list pslice := flat_map (fil n L) ps.

Lemma sorted_tail {A} (R : A -> A -> Prop) x l : StronglySorted R (x :: l) -> StronglySorted R l /\ Forall (R x) l.
Proof. inversion 1; auto. Qed.
Lemma inc_tail n p ps : inc_pieces n (p :: ps) -> inc_pieces n ps /\ (forall q, In q ps -> fst p <= fst q /\ snd p < snd q)
  /\ fst p <= snd p /\ snd p <= n /\ (snd p = 0 -> n = 0).
Proof.
  intros [H1 H2]. apply sorted_tail in H1 as [H1 H3]. inversion H2; subst. split; [split; auto|]. split; auto.
  rewrite Forall_forall in H3. auto.
Qed.
Lemma inc_in n ps p : inc_pieces n ps -> In p ps -> fst p <= snd p /\ snd p <= n /\ (snd p = 0 -> n = 0).
Proof. intros [_ H] Hp. rewrite Forall_forall in H. auto. Qed.

Lemma filter_perm {A} (f : A -> bool) l : Permutation l (filter f l ++ filter (fun x => negb (f x)) l).
Proof.
  induction l as [|x l IH]; simpl; auto. destruct (f x); simpl; [constructor; auto|].
  rewrite IH at 1. apply Permutation_middle.
Qed.
Lemma filter_ext_in' {A} (f g : A -> bool) l : (forall x, In x l -> f x = g x) -> filter f l = filter g l.
Proof. induction l as [|x l IH]; intros H; simpl; auto. rewrite (H x (or_introl eq_refl)), IH; auto. intros; apply H; simpl; auto. Qed.
Lemma filter_filter {A} (f g : A -> bool) l : filter f (filter g l) = filter (fun x => g x && f x) l.
Proof. induction l as [|x l IH]; simpl; auto. destruct (g x); simpl; [destruct (f x)|]; rewrite ?IH; auto. Qed.

Lemma runs_perm n ps : inc_pieces n ps -> forall L, Forall (fun s => exists p, In p ps /\ s = piece n p) L -> Permutation L (runs n ps L).
Proof.
  induction ps as [|p ps IH]; intros HI L HF.
  - destruct L as [|s L]; auto. inversion HF as [|? ? (q & [] & _)].
  - apply inc_tail in HI as (HI & Hlt & Hb). cbn [runs flat_map]. rewrite (filter_perm (slice_eqb (piece n p)) L) at 1. apply Permutation_app; auto.
    set (L' := filter (fun x => negb (slice_eqb (piece n p) x)) L).
    assert (E : flat_map (fil n L) ps = runs n ps L').
    { unfold runs. rewrite !flat_map_concat_map. f_equal. apply map_ext_in. intros q Hq. unfold fil, L'. rewrite filter_filter. apply filter_ext_in'.
      intros s Hs. destruct (slice_eqb (piece n q) s) eqn:E; [|rewrite andb_false_r; auto]. rewrite andb_true_r. symmetry. apply negb_true_iff.
      destruct (slice_eqb (piece n p) s) eqn:E2; auto. exfalso. apply slice_eqb_eq in E, E2. subst s. pose proof (inc_in _ _ _ HI Hq) as Hqb.
      apply piece_inj in E2; try lia. subst q. specialize (Hlt p Hq). lia. }
    rewrite E. apply IH; auto. unfold L'. rewrite Forall_forall in HF. apply Forall_forall. intros s Hs. apply filter_In in Hs as [Hs Hn].
    destruct (HF s Hs) as (q & [->|Hq] & ->); [|eauto]. exfalso. apply negb_true_iff in Hn. rewrite (proj2 (slice_eqb_eq _ _) eq_refl) in Hn. discriminate.
Qed.

Lemma runs_in n ps L s : In s (runs n ps L) -> exists p, In p ps /\ s = piece n p.
Proof. intros H. apply in_flat_map in H as (p & Hp & H). exists p. split; auto. eapply fil_in; eauto. Qed.
Lemma sorted_app {A} (R : A -> A -> Prop) l r : StronglySorted R l -> StronglySorted R r -> (forall x y, In x l -> In y r -> R x y) -> StronglySorted R (l ++ r).
Proof.
  induction 1 as [|x l H IH HF]; intros Hr HX; simpl; auto. constructor; [apply IH; auto; intros; apply HX; simpl; auto|].
  apply Forall_app. split; auto. apply Forall_forall. intros y Hy. apply HX; simpl; auto.
Qed.
Lemma runs_sorted n ps L : inc_pieces n ps -> StronglySorted (fun s t => key_leb (sort_key n s) (sort_key n t) = true) (runs n ps L).
Proof.
  induction ps as [|p ps IH]; intros HI; [constructor|]. apply inc_tail in HI as (HI & Hlt & Hb). cbn [runs flat_map].
  apply sorted_app.
  - rewrite fil_repeat. generalize (length (fil n L p)) as k. induction k as [|k IHk]; simpl; constructor; auto.
    apply Forall_forall. intros s Hs. apply repeat_spec in Hs. subst s. unfold key_leb. lia.
  - apply IH; auto.
  - intros s t Hs Ht. apply fil_in in Hs. apply runs_in in Ht as (q & Hq & ->). subst s. pose proof (inc_in _ _ _ HI Hq). specialize (Hlt q Hq).
    rewrite !sort_key_piece by lia. unfold key_leb. cbn [fst snd]. lia.
Qed.
Lemma sort_runs n ps L : inc_pieces n ps -> Forall (fun s => exists p, In p ps /\ s = piece n p) L -> sort_by n L = runs n ps L.
Proof.
  intros HI HF. symmetry. apply (sorted_unique n).
  - apply runs_sorted; auto.
  - apply sort_by_sorted.
  - intros s t Hs Ht E. apply runs_in in Hs as (p & Hp & ->), Ht as (q & Hq & ->). pose proof (inc_in _ _ _ HI Hp). pose proof (inc_in _ _ _ HI Hq).
    rewrite !sort_key_piece in E by lia. injection E as E1 E2. f_equal. destruct p, q; simpl in *; f_equal; lia.
  - rewrite sort_by_perm. symmetry. apply runs_perm; auto.
Qed.

(** The last piece of a run. *)
Lemma adjust_run n s stop A B : stopn n s = stop -> (forall x, hd_error B = Some x -> stopn n x <> stop) ->
  forall k i fuel, i <= k -> k - i < fuel -> adjust fuel n (A ++ repeat s (S k) ++ B) stop (length A + i) = length A + k.
Proof.
  intros Hs HB k. assert (G : forall j i fuel, j = k - i -> i <= k -> j < fuel -> adjust fuel n (A ++ repeat s (S k) ++ B) stop (length A + i) = length A + k).
  { induction j as [|j IH]; intros i fuel Hj Hi Hf; destruct fuel as [|fuel]; try lia; cbn [adjust].
    - replace i with k by lia. rewrite nth_error_app2 by lia. replace (length A + k + 1 - length A) with (S k) by lia.
      rewrite nth_error_app2 by (rewrite repeat_length; lia). rewrite repeat_length, Nat.sub_diag.
      destruct B as [|x B]; [auto|]. cbn [nth_error]. specialize (HB x eq_refl). destruct (Z.eqb_spec (stopn n x) stop); [congruence|auto].
    - rewrite nth_error_app2 by lia. replace (length A + i + 1 - length A) with (S i) by lia.
      rewrite nth_error_app1 by (rewrite repeat_length; lia). rewrite (nth_error_nth' _ s) by (rewrite repeat_length; lia).
      rewrite nth_repeat. rewrite Hs, Z.eqb_refl. cbn [negb]. replace (length A + i + 1) with (length A + S i) by lia. apply IH; lia. }
  intros i fuel Hi Hf. apply (G (k - i)); auto.
Qed.

Section Aligned.
Variable n : nat.
Definition agroups (Ls : list (list pslice)) (ps : list (nat * nat)) : groups :=
  map (fun p => ((low (fst p), high n (snd p)), map (fun L => fil n L p) Ls)) ps.

Lemma cut_run {A} (a b c : list A) : b <> [] -> cut_out (a ++ b ++ c) (length a) (length a + length b - 1) = b.
Proof.
  intros H. unfold cut_out. assert (0 < length b) by (destruct b; [congruence|simpl; lia]).
  rewrite skipn_app, skipn_all, Nat.sub_diag. simpl. replace (length a + length b - 1 + 1 - length a) with (length b + 0) by lia.
  rewrite firstn_app_2. simpl. apply app_nil_r.
Qed.

Lemma body_aligned Ls done p todo g : Ls <> [] -> inc_pieces n (done ++ p :: todo) ->
  Forall (fun L => forall q, In q (done ++ p :: todo) -> fil n L q <> []) Ls ->
  (forall e, In e g -> exists q, In q done /\ fst e = (low (fst q), high n (snd q))) ->
  group_body n (map (runs n (done ++ p :: todo)) Ls) (map (fun L => length (runs n done L)) Ls, map (fun L => length (runs n done L)) Ls, g)
  = Ok (map (fun L => length (runs n (done ++ [p]) L)) Ls, map (fun L => length (runs n (done ++ [p]) L)) Ls, g ++ agroups Ls [p]).
Proof.
  intros HL HI HF HG. unfold group_body. rewrite !combine_maps. rewrite Forall_forall in HF.
  assert (Hb : fst p <= snd p /\ snd p <= n /\ (snd p = 0 -> n = 0)) by (apply (inc_in n _ p HI); apply in_or_app; simpl; auto).
  assert (EK : forall L, runs n (done ++ p :: todo) L = runs n done L ++ fil n L p ++ runs n todo L) by (intros; unfold runs; rewrite flat_map_app; auto).
  assert (EK1 : forall L, runs n (done ++ [p]) L = runs n done L ++ fil n L p) by (intros; unfold runs; rewrite flat_map_app; simpl; rewrite app_nil_r; auto).
  assert (HN : forall L, In L Ls -> nth_error (runs n (done ++ p :: todo) L) (length (runs n done L)) = Some (piece n p)).
  { intros L HLi. rewrite EK, nth_error_app2, Nat.sub_diag by lia. pose proof (HF L HLi p ltac:(apply in_or_app; simpl; auto)) as Hne.
    pose proof (fil_repeat n L p) as ER. destruct (fil n L p) as [|s l]; [congruence|]. cbn [app nth_error]. cbn [length repeat] in ER. congruence. }
  rewrite (mapM_map_ok _ _ (fun _ => Z.of_nat (fst p))).
  2:{ intros L HLi. unfold at_index. cbn [fst snd]. rewrite HN by auto. rewrite start0_piece. auto. }
  cbn [bind]. rewrite (all_equal_const _ (Z.of_nat (fst p))) by (intros z Hz; apply in_map_iff in Hz as (? & <- & _); auto). cbn [negb].
  rewrite (mapM_map_ok _ _ (fun _ => Z.of_nat (snd p))).
  2:{ intros L HLi. unfold at_index. cbn [fst snd]. rewrite HN by auto. rewrite stopn_piece' by tauto. auto. }
  cbn [bind]. rewrite (all_equal_const _ (Z.of_nat (snd p))) by (intros z Hz; apply in_map_iff in Hz as (? & <- & _); auto).
  assert (H1 : hd 0%Z (map (fun _ : list pslice => Z.of_nat (fst p)) Ls) = Z.of_nat (fst p)) by (destruct Ls; [congruence|auto]).
  assert (H2 : hd 0%Z (map (fun _ : list pslice => Z.of_nat (snd p)) Ls) = Z.of_nat (snd p)) by (destruct Ls; [congruence|auto]).
  rewrite H1, H2. cbv zeta.
  assert (EC : map (fun q : list pslice * nat => adjust (length (fst q)) n (fst q) (Z.of_nat (snd p)) (snd q))
     (map (fun L => (runs n (done ++ p :: todo) L, length (runs n done L))) Ls) = map (fun L => length (runs n done L) + length (fil n L p) - 1) Ls).
  { rewrite map_map. apply map_ext_in. intros L HLi. cbn [fst snd]. rewrite EK.
    pose proof (HF L HLi p ltac:(apply in_or_app; simpl; auto)) as Hne. pose proof (fil_repeat n L p) as ER.
    destruct (length (fil n L p)) as [|k] eqn:Ek; [destruct (fil n L p); [congruence|discriminate]|]. rewrite ER.
    replace (length (runs n done L) + S k - 1) with (length (runs n done L) + k) by lia.
    pose proof (adjust_run n (piece n p) (Z.of_nat (snd p)) (runs n done L) (runs n todo L) (stopn_piece' n p (proj2 (proj2 Hb)))) as A.
    specialize (A ltac:(intros x Hx E; assert (Hx' : In x (runs n todo L)) by (destruct (runs n todo L); [discriminate|injection Hx as ->; simpl; auto]);
      apply runs_in in Hx' as (q & Hq & ->); pose proof (inc_in n _ q HI ltac:(apply in_or_app; simpl; auto)) as Hqb;
      rewrite stopn_piece' in E by tauto; clear -HI Hq E; destruct HI as [HI _];
      induction done as [|d0 done IH]; cbn [app] in HI; apply sorted_tail in HI as [HI HIx]; [rewrite Forall_forall in HIx; specialize (HIx q Hq); lia|auto])).
    specialize (A k 0 (length (runs n done L ++ repeat (piece n p) (S k) ++ runs n todo L)) ltac:(lia)).
    rewrite Nat.add_0_r in A. apply A. rewrite !app_length, repeat_length. lia. }
  rewrite !EC. rewrite !map_map. rewrite !combine_maps, map_map. cbn [fst snd].
  assert (EL : map (fun L => S (length (runs n done L) + length (fil n L p) - 1)) Ls = map (fun L => length (runs n (done ++ [p]) L)) Ls).
  { apply map_ext_in. intros L HLi. rewrite EK1, app_length. pose proof (HF L HLi p ltac:(apply in_or_app; simpl; auto)). destruct (fil n L p); [congruence|simpl; lia]. }
  rewrite EL. f_equal. f_equal. rewrite put_new.
  - f_equal. unfold agroups. cbn [map]. f_equal. f_equal.
    + f_equal.
      * unfold low. destruct (Nat.eqb_spec (fst p) 0), (Z.eqb_spec (Z.of_nat (fst p)) 0); auto; lia.
      * unfold high. destruct (Nat.eqb_spec (snd p) n), (Z.eqb_spec (Z.of_nat (snd p)) (Z.of_nat n)); auto; lia.
    + apply map_ext_in. intros L HLi. rewrite EK. apply cut_run. apply HF; auto. apply in_or_app; simpl; auto.
  - intros e He. destruct (HG e He) as (q & Hq & E). destruct e as [[e1 e2] ev]. cbn [fst snd] in E. injection E as -> ->. unfold gkey_eqb. apply andb_false_iff. right. cbn [fst snd].
    assert (Hlt : snd q < snd p).
    { clear -HI Hq. destruct HI as [HI _]. induction done as [|d0 done IH]; [destruct Hq|]. cbn [app] in HI. apply sorted_tail in HI as [HI HIx]. destruct Hq as [->|Hq]; auto.
      rewrite Forall_forall in HIx. apply HIx. apply in_or_app; simpl; auto. }
    unfold high. destruct (Nat.eqb_spec (snd q) n); [lia|]. destruct (Z.eqb_spec (Z.of_nat (snd p)) (Z.of_nat n)); simpl; auto. apply Z.eqb_neq. lia.
Qed.

Lemma aligned_loop fuel Ls : Ls <> [] -> forall todo done g, inc_pieces n (done ++ todo) ->
  Forall (fun L => forall q, In q (done ++ todo) -> fil n L q <> []) Ls ->
  (forall e, In e g -> exists q, In q done /\ fst e = (low (fst q), high n (snd q))) -> length todo <= fuel ->
  group_loop fuel n (map (runs n (done ++ todo)) Ls) (map (fun L => length (runs n done L)) Ls, map (fun L => length (runs n done L)) Ls, g)
  = Ok (g ++ agroups Ls todo).
Proof.
  intros HL. induction fuel as [|fuel IH]; intros todo done g HI HF HG Hf.
  - destruct todo; [|simpl in Hf; lia]. rewrite app_nil_r in *. cbn [group_loop fst snd]. rewrite map_map.
    replace (idx_eqb _ _) with true by (symmetry; apply shape_eqb_eq; auto). unfold agroups. simpl. rewrite app_nil_r. auto.
  - destruct todo as [|p todo].
    + rewrite app_nil_r in *. cbn [group_loop fst snd]. rewrite map_map.
      replace (idx_eqb _ _) with true by (symmetry; apply shape_eqb_eq; auto). unfold agroups. simpl. rewrite app_nil_r. auto.
    + cbn [group_loop fst snd]. rewrite map_map.
      assert (NE : idx_eqb (map (fun L => length (runs n done L)) Ls) (map (fun L => length (runs n (done ++ p :: todo) L)) Ls) = false).
      { destruct (idx_eqb _ _) eqn:E; auto. apply shape_eqb_eq in E. destruct Ls as [|L Ls]; [congruence|]. cbn [map] in E. injection E as E _.
        inversion HF as [|? ? HFL _]; subst. specialize (HFL p ltac:(apply in_or_app; simpl; auto)). unfold runs in E. rewrite flat_map_app, app_length in E. cbn [flat_map] in E. rewrite app_length in E.
        destruct (fil n L p); [congruence|simpl in E; lia]. }
      rewrite NE. rewrite body_aligned by auto. cbn [bind].
      replace (done ++ p :: todo) with ((done ++ [p]) ++ todo) in * by (rewrite <- app_assoc; auto).
      rewrite IH; auto.
      * rewrite <- app_assoc. auto.
      * intros e He. apply in_app_or in He as [He|[<-|[]]].
        -- destruct (HG e He) as (q & Hq & E). exists q. split; auto. apply in_or_app; auto.
        -- exists p. split; auto. apply in_or_app; simpl; auto.
      * simpl in Hf. lia.
Qed.

(** All inputs use all of the pieces [ps] and nothing else. *)
Definition uses (ps : list (nat * nat)) (ks : list pslice) : Prop :=
  Forall (fun s => exists p, In p ps /\ normalize_slice s n = piece n p) ks
  /\ (forall p, In p ps -> exists s, In s ks /\ normalize_slice s n = piece n p).
Lemma aligned_dim limit ps dk : dk <> [] -> inc_pieces n ps -> Forall (uses ps) dk -> length ps <= limit ->
  dimension_group limit n dk = Ok (agroups (map (map (fun k => normalize_slice k n)) dk) ps).
Proof.
  intros HD HI HU HL. unfold dimension_group.
  set (Ls := map (map (fun k => normalize_slice k n)) dk).
  assert (EK : map (fun ks => sort_by n (map (fun k => normalize_slice k n) ks)) dk = map (runs n ([] ++ ps)) Ls).
  { unfold Ls. rewrite map_map. apply map_ext_in. intros ks Hks. rewrite Forall_forall in HU. destruct (HU ks Hks) as [H1 _]. apply sort_runs; auto.
    apply Forall_map. eapply Forall_impl; [|exact H1]. cbv beta. intros s (p & Hp & ->). eauto. }
  rewrite EK. replace (repeat 0 (length dk)) with (map (fun L => length (runs n [] L)) Ls).
  2:{ unfold Ls. rewrite map_map. simpl. apply map_zero. }
  rewrite aligned_loop; auto.
  - unfold Ls. destruct dk; [congruence|discriminate].
  - unfold Ls. apply Forall_map. eapply Forall_impl; [|exact HU]. cbv beta. intros ks (_ & H2) p Hp. destruct (H2 p Hp) as (s & Hs & E).
    intros EF. assert (Hin : In (piece n p) (fil n (map (fun k => normalize_slice k n) ks) p)).
    { unfold fil. apply filter_In. split; [rewrite <- E; apply (in_map (fun k => normalize_slice k n)); auto|apply slice_eqb_eq; auto]. }
    rewrite EF in Hin. destruct Hin.
  - intros e [].
Qed.
End Aligned.

(** ** All dimensions *)
Lemma ktuple_eqb_eq a b : ktuple_eqb a b = true <-> a = b.
Proof.
  unfold ktuple_eqb. revert b; induction a as [|x a IH]; intros [|y b]; simpl; try (split; [discriminate|congruence]); [tauto|].
  rewrite andb_true_iff, slice_eqb_eq, IH. split; [intros [-> ->]; auto|intros E; injection E; auto].
Qed.
Lemma ktuple_eqb_neq a b : ktuple_eqb a b = false <-> a <> b.
Proof.
  destruct (ktuple_eqb a b) eqn:E.
  - apply ktuple_eqb_eq in E. split; [discriminate|congruence].
  - split; auto. intros _ H. apply ktuple_eqb_eq in H. congruence.
Qed.
Lemma ktuple_eqb_refl a : ktuple_eqb a a = true.
Proof. apply ktuple_eqb_eq. auto. Qed.

Lemma prodl_In {A} (D : list (list A)) t : In t (prodl D) <-> Forall2 (@In A) t D.
Proof.
  revert t; induction D as [|l D IH]; intros t; simpl.
  - split; [intros [<-|[]]; constructor|intros H; inversion H; auto].
  - rewrite in_flat_map. split.
    + intros (x & Hx & Ht). apply in_map_iff in Ht as (t' & <- & Ht). constructor; auto. apply IH; auto.
    + intros H. inversion H; subst. exists x. split; auto. apply in_map. apply IH; auto.
Qed.
Lemma prodl_snoc {A} (D : list (list A)) l : prodl (D ++ [l]) = flat_map (fun t => map (fun x => t ++ [x]) l) (prodl D).
Proof.
  induction D as [|d D IH]; simpl.
  - rewrite app_nil_r. induction l as [|x l IHl]; simpl; [auto|f_equal; auto].
  - rewrite IH. induction d as [|y d IHd]; simpl; auto. rewrite IHd, flat_map_app. f_equal. clear.
    induction (prodl D) as [|t L IH]; simpl; auto. rewrite map_app, IH. f_equal. rewrite map_map. auto.
Qed.
Lemma prodl_NoDup {A} (D : list (list A)) : Forall (@NoDup A) D -> NoDup (prodl D).
Proof.
  induction 1 as [|l D Hl HD IH]; simpl; [repeat constructor; auto|].
  induction Hl as [|x l Hx Hl IHl]; simpl; [constructor|]. apply NoDup_app_disj; auto.
  - apply NoDup_map_inj; auto. intros a b _ _ E. congruence.
  - intros t Ht Ht'. apply in_map_iff in Ht as (t1 & <- & _). apply in_flat_map in Ht' as (y & Hy & Ht'). apply in_map_iff in Ht' as (t2 & E & _).
    congruence.
Qed.

Lemma inc_NoDup n ps : inc_pieces n ps -> NoDup ps.
Proof.
  induction ps as [|p ps IH]; intros H; [constructor|]. apply inc_tail in H as (H & Hlt & _). constructor; auto.
  intros Hp. specialize (Hlt p Hp). lia.
Qed.
Lemma inc_pieces_NoDup n ps : inc_pieces n ps -> NoDup (map (piece n) ps).
Proof.
  intros H. apply NoDup_map_inj; [|eapply inc_NoDup; eauto]. intros x y Hx Hy E. pose proof (inc_in _ _ _ H Hx). pose proof (inc_in _ _ _ H Hy).
  apply piece_inj in E; auto; lia.
Qed.

(** The pieces of a dimension: one, which is the whole, or several, none of which
    is the whole. *)
Definition dim_ok (n : nat) (ps : list (nat * nat)) : Prop :=
  inc_pieces n ps /\ ((exists p, ps = [p] /\ piece n p = full_slice) \/ (2 <= length ps /\ forall p, In p ps -> piece n p <> full_slice)).

Lemma in_subgroup_fil n d L p ks : fil n L p <> [] -> in_subgroup n d (fil n L p) ks = slice_eqb (piece n p) (normalize_slice (nth d ks full_slice) n).
Proof.
  intros H. unfold in_subgroup. rewrite fil_repeat. destruct (length (fil n L p)) as [|k] eqn:E; [destruct (fil n L p); [congruence|discriminate]|].
  generalize (normalize_slice (nth d ks full_slice) n) as s. intros s.
  destruct (slice_eqb (piece n p) s) eqn:Es.
  - apply existsb_exists. exists (piece n p). split; [simpl; auto|]. apply slice_eqb_eq. apply slice_eqb_eq in Es. auto.
  - destruct (existsb _ _) eqn:Ex; auto. apply existsb_exists in Ex as (x & Hx & E2). apply repeat_spec in Hx. apply slice_eqb_eq in E2. subst x s.
    rewrite (proj2 (slice_eqb_eq _ _) eq_refl) in Es. discriminate.
Qed.

Lemma split_ok n d gk Ls ps : inc_pieces n ps -> Forall (fun L => forall p, In p ps -> fil n L p <> []) Ls -> forall I, length I = length Ls ->
  split_group n d gk I (agroups n Ls ps)
  = map (fun p => (set_nth d (piece n p) gk, map (filter (fun ks => slice_eqb (piece n p) (normalize_slice (nth d ks full_slice) n))) I)) ps.
Proof.
  induction ps as [|p ps IH]; intros HI HF I HL; auto. pose proof HI as HI0. apply inc_tail in HI as (HI & Hlt & Hb).
  cbn [agroups map split_group fst snd]. f_equal.
  - f_equal. assert (E : forall X : list (list ktuple * list pslice), Forall (fun q => exists L, snd q = fil n L p /\ fil n L p <> []) X ->
      map (fun q => filter (in_subgroup n d (snd q)) (fst q)) X
      = map (filter (fun ks => slice_eqb (piece n p) (normalize_slice (nth d ks full_slice) n))) (map fst X)).
    { induction 1 as [|[a b] X (L & E & HN) HX IHX]; simpl; auto. f_equal; auto. cbn [snd] in E. subst b. apply filter_ext_in'. intros ks _. apply in_subgroup_fil; auto. }
    rewrite E.
    + f_equal. clear -HL. revert I HL. induction Ls as [|L Ls IH]; intros [|x I] HL; simpl in *; try discriminate; auto. f_equal; auto.
    + clear -HL HF. revert I HL. induction HF as [|L Ls HFL HF IH]; intros [|x I] HL; simpl in *; try discriminate; constructor; auto.
      cbn [snd]. exists L. split; auto.
  - change (map (fun p0 => (low (fst p0), high n (snd p0), map (fun L => fil n L p0) Ls)) ps) with (agroups n Ls ps).
    rewrite IH; auto.
    + apply map_ext_in. intros q Hq. f_equal. assert (E : forall X : list (list ktuple * list pslice), Forall (fun q => exists L, snd q = fil n L p /\ fil n L p <> []) X ->
      map (filter (fun ks => slice_eqb (piece n q) (normalize_slice (nth d ks full_slice) n)))
          (map (fun q => filter (fun ks => negb (in_subgroup n d (snd q) ks)) (fst q)) X)
      = map (filter (fun ks => slice_eqb (piece n q) (normalize_slice (nth d ks full_slice) n))) (map fst X)).
      { induction 1 as [|[a b] X (L & E & HN) HX IHX]; simpl; auto. f_equal; auto. cbn [snd] in E. subst b. rewrite filter_filter. apply filter_ext_in'. intros ks _.
        rewrite in_subgroup_fil by auto. destruct (slice_eqb (piece n q) _) eqn:Eq; [|apply andb_false_r]. rewrite andb_true_r. apply negb_true_iff.
        destruct (slice_eqb (piece n p) _) eqn:Ep; auto. exfalso. apply slice_eqb_eq in Eq, Ep. rewrite <- Eq in Ep. pose proof (inc_in _ _ _ HI Hq). specialize (Hlt q Hq).
        apply piece_inj in Ep; try lia. subst q. lia. }
      rewrite E.
      * f_equal. clear -HL. revert I HL. induction Ls as [|L Ls IH]; intros [|x I] HL; simpl in *; try discriminate; auto. f_equal; auto.
      * clear -HL HF. revert I HL. induction HF as [|L Ls HFL HF IH]; intros [|x I] HL; simpl in *; try discriminate; constructor; auto.
        cbn [snd]. exists L. split; auto.
    + eapply Forall_impl; [|exact HF]. cbv beta. intros L H q Hq. apply H. simpl; auto.
    + rewrite map_length, combine_length, map_length. lia.
Qed.

Lemma kput_new k v g : ~ In k (map fst g) -> kput k v g = g ++ [(k, v)].
Proof.
  induction g as [|[k' v'] g IH]; intros H; simpl; auto. destruct (ktuple_eqb k k') eqn:E.
  - apply ktuple_eqb_eq in E. subst. exfalso. apply H. simpl; auto.
  - rewrite IH; auto. intros Hi. apply H. simpl; auto.
Qed.
Lemma kputs_new es g : NoDup (map fst es) -> (forall k, In k (map fst es) -> ~ In k (map fst g)) ->
  fold_left (fun acc e => kput (fst e) (snd e) acc) es g = g ++ es.
Proof.
  revert g; induction es as [|[k v] es IH]; intros g HN HD; simpl; [rewrite app_nil_r; auto|].
  inversion HN as [|? ? Hx HN']; subst. rewrite kput_new by (apply HD; simpl; auto). rewrite IH; auto.
  - rewrite <- app_assoc. auto.
  - intros k' Hk' Hi. rewrite map_app in Hi. apply in_app_or in Hi as [Hi|[<-|[]]]; [|auto]. apply (HD k'); simpl; auto.
Qed.
Lemma kpop_head k v g : ~ In k (map fst g) -> kpop k ((k, v) :: g) = g.
Proof.
  intros H. unfold kpop. cbn [filter fst]. rewrite ktuple_eqb_refl. cbn [negb]. induction g as [|[k' v'] g IH]; simpl; auto.
  destruct (ktuple_eqb k k') eqn:E; simpl.
  - apply ktuple_eqb_eq in E. subst. exfalso. apply H. simpl; auto.
  - rewrite IH; auto. intros Hi. apply H. simpl; auto.
Qed.

Lemma app_inj_len {A} (x y x' y' : list A) : x ++ y = x' ++ y' -> length x = length x' -> x = x' /\ y = y'.
Proof.
  revert x'; induction x as [|a x IH]; intros [|b x'] E HL; simpl in *; try discriminate; auto.
  injection E as -> E. destruct (IH x' E ltac:(lia)) as [-> ->]. auto.
Qed.
Lemma skipn_nth_cons {A} d (l : list A) x : d < length l -> skipn d l = nth d l x :: skipn (S d) l.
Proof. revert d; induction l as [|y l IH]; intros [|d] H; simpl in *; try lia; auto. apply IH. lia. Qed.

Section AllDims.
Variable limit : nat.
Variable sh : list nat.
Variable D : list (list (nat * nat)).
Variable inputs : list (list ktuple).
(** the pieces of dimension [d] *)
Definition dsl (d : nat) : list pslice := map (piece (nth d sh 0)) (nth d D []).
Definition DS : list (list pslice) := map dsl (seq 0 (length sh)).
Notation norm ks := (normalize_keys ks sh).
Hypothesis HD : forall d, d < length sh -> dim_ok (nth d sh 0) (nth d D []) /\ length (nth d D []) <= limit.
Hypothesis Hne : inputs <> [].
Hypothesis Hin : forall L ks, In L inputs -> In ks L -> length ks = length sh /\ In (norm ks) (prodl DS).
Hypothesis Hall : forall L t, In L inputs -> In t (prodl DS) -> exists ks, In ks L /\ norm ks = t.

Lemma norm_length ks : length ks = length sh -> length (norm ks) = length sh.
Proof using. clear. intros H. unfold normalize_keys. rewrite map_length, combine_length. lia. Qed.
Lemma norm_nth ks d : length ks = length sh -> d < length sh -> nth d (norm ks) full_slice = normalize_slice (nth d ks full_slice) (nth d sh 0).
Proof using.
  clear. intros H Hd. unfold normalize_keys. rewrite (nth_map _ _ _ _ (full_slice, 0)) by (rewrite combine_length; lia). rewrite combine_nth by auto. auto.
Qed.

Definition pre (u : ktuple) : list (list ktuple) := map (filter (fun ks => ktuple_eqb u (firstn (length u) (norm ks)))) inputs.
Definition grp (u : ktuple) : kgroup := (u ++ repeat full_slice (length sh - length u), pre u).

Lemma DS_length : length DS = length sh. Proof using. unfold DS. rewrite map_length, seq_length. auto. Qed.
Lemma DS_nth d : d < length sh -> nth d DS [] = dsl d.
Proof using. intros H. unfold DS. apply (nth_map_seq dsl); auto. Qed.
Lemma firstn_S_snoc {A} d (l : list A) x : d < length l -> firstn (S d) l = firstn d l ++ [nth d l x].
Proof using. clear. revert d; induction l as [|y l IH]; intros [|d] H; simpl in *; try lia; auto. f_equal. apply IH. lia. Qed.
Lemma dsl_ne d : d < length sh -> dsl d <> [].
Proof using HD.
  intros H. unfold dsl. destruct (HD d H) as [[_ [(p & -> & _)|[H2 _]]] _]; [discriminate|]. destruct (nth d D []); [simpl in H2; lia|discriminate].
Qed.
Lemma dsl_NoDup d : d < length sh -> NoDup (dsl d).
Proof using HD. intros H. apply inc_pieces_NoDup. apply HD; auto. Qed.

(** Any beginning of a tuple can be completed. *)
Lemma complete {A} (L : list (list A)) u : Forall (fun l => l <> []) L -> length u <= length L -> In u (prodl (firstn (length u) L)) ->
  exists r, In (u ++ r) (prodl L).
Proof using.
  clear. intros HL Hu HI. apply prodl_In in HI. rewrite <- (firstn_skipn (length u) L). set (B := skipn (length u) L).
  assert (HB : Forall (fun l => l <> []) B).
  { apply Forall_forall. intros l Hl. rewrite Forall_forall in HL. apply HL. rewrite <- (firstn_skipn (length u) L). apply in_or_app; auto. }
  assert (exists r, Forall2 (@In A) r B) as [r Hr].
  { induction HB as [|l B Hl HB IH]; [exists []; constructor|]. destruct IH as [r Hr]. destruct l as [|x l]; [congruence|]. exists (x :: r). constructor; simpl; auto. }
  exists r. apply prodl_In. apply Forall2_app; auto.
Qed.

(** One group in dimension [d]. *)
Lemma dim_of_group d u : d < length sh -> length u = d -> In u (prodl (firstn d DS)) ->
  exists dk, mapM (mapM (at_dim d)) (pre u) = Ok dk
    /\ dimension_group limit (nth d sh 0) dk = Ok (agroups (nth d sh 0) (map (map (fun k => normalize_slice k (nth d sh 0))) dk) (nth d D []))
    /\ Forall (fun L => forall p, In p (nth d D []) -> fil (nth d sh 0) L p <> []) (map (map (fun k => normalize_slice k (nth d sh 0))) dk)
    /\ length dk = length (pre u).
Proof using HD Hne Hin Hall.
  intros Hd Hu HI. exists (map (map (fun ks => nth d ks full_slice)) (pre u)).
  assert (HU : Forall (uses (nth d sh 0) (nth d D [])) (map (map (fun ks => nth d ks full_slice)) (pre u))).
  { unfold pre. rewrite map_map. apply Forall_map. apply Forall_forall. intros L HL. split.
    - apply Forall_map. apply Forall_forall. intros ks Hks. apply filter_In in Hks as [Hks _]. destruct (Hin L ks HL Hks) as [H1 H2].
      apply prodl_In in H2. eapply (Forall2_nth _ _ _ full_slice [] d) in H2; [|rewrite norm_length; auto]. rewrite norm_nth, DS_nth in H2 by auto.
      unfold dsl in H2. apply in_map_iff in H2 as (p & E & Hp). eauto.
    - intros p Hp. destruct (complete DS (u ++ [piece (nth d sh 0) p])) as (r & Hr).
      + apply Forall_forall. intros l Hl. unfold DS in Hl. apply in_map_iff in Hl as (i & <- & Hi). apply in_seq in Hi. apply dsl_ne. lia.
      + rewrite app_length, DS_length. simpl. lia.
      + rewrite app_length, Hu. simpl. replace (d + 1) with (S d) by lia. rewrite (firstn_S_snoc d DS []) by (rewrite DS_length; auto).
        rewrite prodl_snoc. apply in_flat_map. exists u. split; auto. apply (in_map (fun x => u ++ [x])). rewrite DS_nth by auto. unfold dsl. apply in_map. auto.
      + destruct (Hall L _ HL Hr) as (ks & Hks & E). destruct (Hin L ks HL Hks) as [H1 _]. exists (nth d ks full_slice). split.
        * apply (in_map (fun ks => nth d ks full_slice)). apply filter_In. split; auto. apply ktuple_eqb_eq. rewrite E, <- app_assoc.
          rewrite firstn_app, firstn_all, Nat.sub_diag. simpl. rewrite app_nil_r. auto.
        * rewrite <- norm_nth by auto. rewrite E, <- app_assoc, app_nth2 by lia. rewrite Hu, Nat.sub_diag. auto. }
  split; [|split; [|split]].
  - rewrite <- (map_id (pre u)) at 1. apply mapM_map_ok. intros L HL. rewrite <- (map_id L) at 1. apply mapM_map_ok. intros ks Hks.
    unfold pre in HL. apply in_map_iff in HL as (L0 & <- & HL0). apply filter_In in Hks as [Hks _]. destruct (Hin L0 ks HL0 Hks) as [H1 _].
    unfold at_dim. rewrite (nth_error_nth' _ full_slice) by lia. auto.
  - apply aligned_dim; auto; try (apply HD; auto). unfold pre. destruct inputs; [congruence|discriminate].
  - apply Forall_map. eapply Forall_impl; [|exact HU]. cbv beta. intros ks (_ & H2) p Hp. destruct (H2 p Hp) as (s & Hs & E).
    intros EF. assert (Hi : In (piece (nth d sh 0) p) (fil (nth d sh 0) (map (fun k => normalize_slice k (nth d sh 0)) ks) p)).
    { unfold fil. apply filter_In. split; [rewrite <- E; apply (in_map (fun k => normalize_slice k (nth d sh 0))); auto|apply slice_eqb_eq; auto]. }
    rewrite EF in Hi. destruct Hi.
  - apply map_length.
Qed.

Lemma pre_snoc d u s : d < length sh -> length u = d ->
  map (filter (fun ks => slice_eqb s (normalize_slice (nth d ks full_slice) (nth d sh 0)))) (pre u) = pre (u ++ [s]).
Proof.
  intros Hd Hu. unfold pre. rewrite map_map. apply map_ext_in. intros L HL. rewrite filter_filter. apply filter_ext_in'. intros ks Hks.
  destruct (Hin L ks HL Hks) as [H1 _]. rewrite app_length, Hu. simpl. replace (d + 1) with (S d) by lia.
  rewrite (firstn_S_snoc d _ full_slice) by (rewrite norm_length; auto). rewrite norm_nth by auto. set (s' := normalize_slice _ _).
  destruct (ktuple_eqb (u ++ [s]) _) eqn:E.
  - apply ktuple_eqb_eq in E. apply app_inj_tail in E as [-> ->].
    rewrite ktuple_eqb_refl. apply slice_eqb_eq. auto.
  - apply ktuple_eqb_neq in E. destruct (ktuple_eqb u _) eqn:E1; auto. destruct (slice_eqb s s') eqn:E2; auto. exfalso. apply E.
    apply ktuple_eqb_eq in E1. apply slice_eqb_eq in E2. congruence.
Qed.

Lemma set_full u s k : set_nth (length u) s (u ++ repeat full_slice (S k)) = (u ++ [s]) ++ repeat full_slice k.
Proof. clear. induction u as [|x u IH]; simpl; auto. f_equal. apply IH. Qed.
Lemma grp_fst_inj u v : length u = length v -> fst (grp u) = fst (grp v) -> u = v.
Proof. clear. intros HL E. unfold grp in E. cbn [fst] in E. apply app_inj_len in E; auto. tauto. Qed.

Lemma group_dim_ok d : d < length sh ->
  group_dim limit d (nth d sh 0) (map grp (prodl (firstn d DS))) = Ok (map grp (prodl (firstn (S d) DS))).
Proof.
  intros Hd. rewrite (firstn_S_snoc d DS []) by (rewrite DS_length; auto). rewrite prodl_snoc, DS_nth by auto.
  assert (HU : forall u, In u (prodl (firstn d DS)) -> length u = d).
  { intros u Hu. apply prodl_In in Hu. apply Forall2_length in Hu. rewrite firstn_length, DS_length in Hu. lia. }
  assert (HN : NoDup (prodl (firstn d DS))).
  { apply prodl_NoDup. apply Forall_forall. intros l Hl. assert (In l DS) as Hl' by (rewrite <- (firstn_skipn d DS); apply in_or_app; auto).
    unfold DS in Hl'. apply in_map_iff in Hl' as (i & <- & Hi). apply in_seq in Hi. apply dsl_NoDup. lia. }
  destruct (HD d Hd) as [[HI [(p & Ep & Hp)|[H2 Hp]]] HL].
  - (* one piece: nothing happens *)
    unfold group_dim. assert (E : map grp (flat_map (fun t => map (fun x => t ++ [x]) (dsl d)) (prodl (firstn d DS))) = map grp (prodl (firstn d DS))).
    { unfold dsl. rewrite Ep. cbn [map]. rewrite Hp. transitivity (map grp (map (fun t => t ++ [full_slice]) (prodl (firstn d DS)))).
      - rewrite flat_map_concat_map. clear. generalize (prodl (firstn d DS)) as q. induction q as [|x q IHq]; cbn [map concat app]; [auto|f_equal; auto].
      - rewrite map_map. apply map_ext_in. intros u Hu. specialize (HU u Hu). unfold grp. f_equal.
        + rewrite app_length. cbn [length]. rewrite <- app_assoc. f_equal. replace (length sh - length u) with (S (length sh - (length u + 1))) by lia. auto.
        + rewrite <- (pre_snoc d u full_slice Hd HU). rewrite <- (map_id (pre u)) at 2. apply map_ext_in. intros L HL'. unfold pre in HL'.
          apply in_map_iff in HL' as (L0 & <- & HL0). rewrite filter_filter. apply filter_ext_in'. intros ks Hks.
          destruct (Hin L0 ks HL0 Hks) as [H1 H2]. apply prodl_In in H2. eapply (Forall2_nth _ _ _ full_slice [] d) in H2; [|rewrite norm_length; auto].
          rewrite norm_nth, DS_nth in H2 by auto. unfold dsl in H2. rewrite Ep in H2. cbn [map] in H2. rewrite Hp in H2. destruct H2 as [<-|[]].
          rewrite (proj2 (slice_eqb_eq _ _) eq_refl). apply andb_true_r. }
    rewrite E. clear E HN. generalize (map grp (prodl (firstn d DS))) at 1 3 as acc. revert HU.
    assert (G : forall us, (forall u, In u us -> In u (prodl (firstn d DS))) -> (forall u, In u us -> length u = d) -> forall acc,
      foldM (fun acc g => dk <- mapM (mapM (at_dim d)) (snd g) ;; subs <- dimension_group limit (nth d sh 0) dk ;;
           if length subs =? 1 then Ok acc
           else Ok (fold_left (fun acc e => kput (fst e) (snd e) acc) (split_group (nth d sh 0) d (fst g) (snd g) subs) (kpop (fst g) acc))) acc (map grp us) = Ok acc).
    { induction us as [|u us IH]; intros Hus HU acc; auto. cbn [map foldM]. destruct (dim_of_group d u Hd (HU u (or_introl eq_refl)) (Hus u (or_introl eq_refl))) as (dk & E1 & E2 & _).
      cbn [grp snd]. rewrite E1. cbn [bind]. rewrite E2. cbn [bind]. unfold agroups at 1. rewrite map_length, Ep. cbn [length Nat.eqb]. apply IH; intros; [apply Hus|apply HU]; simpl; auto. }
    intros HU acc. apply G; auto.
  - unfold group_dim. set (n := nth d sh 0) in *. set (ps := nth d D []) in *.
    assert (G : forall us dn, us ++ dn = us ++ dn -> NoDup us -> (forall u, In u us -> In u (prodl (firstn d DS)) /\ ~ In u dn) -> (forall u, In u dn -> length u = d) ->
      foldM (fun acc g => dk <- mapM (mapM (at_dim d)) (snd g) ;; subs <- dimension_group limit n dk ;;
           if length subs =? 1 then Ok acc
           else Ok (fold_left (fun acc e => kput (fst e) (snd e) acc) (split_group n d (fst g) (snd g) subs) (kpop (fst g) acc)))
        (map grp us ++ map grp (flat_map (fun t => map (fun x => t ++ [x]) (dsl d)) dn)) (map grp us)
      = Ok (map grp (flat_map (fun t => map (fun x => t ++ [x]) (dsl d)) (dn ++ us)))).
    { induction us as [|u us IH]; intros dn _ HNu Hus Hdn; [rewrite app_nil_r; auto|].
      inversion HNu as [|? ? Hu HNu']; subst. destruct (Hus u (or_introl eq_refl)) as [Hup Hud]. pose proof (HU u Hup) as HLu.
      destruct (dim_of_group d u Hd HLu Hup) as (dk & E1 & E2 & E3 & E4). fold n ps in E2, E3.
      cbn [map foldM]. cbn [grp snd fst]. rewrite E1. cbn [bind]. rewrite E2. cbn [bind]. unfold agroups at 1. rewrite map_length.
      destruct (Nat.eqb_spec (length ps) 1) as [E|_]; [lia|].
      assert (ES : split_group n d (u ++ repeat full_slice (length sh - length u)) (pre u) (agroups n (map (map (fun k => normalize_slice k n)) dk) ps)
                   = map (fun x => grp (u ++ [x])) (dsl d)).
      { rewrite split_ok; auto; [|rewrite map_length; auto]. unfold dsl. fold n ps. rewrite map_map. apply map_ext_in. intros p Hpi. unfold grp. f_equal.
        - rewrite app_length. cbn [length]. replace (length sh - length u) with (S (length sh - (length u + 1))) by lia. rewrite <- HLu. apply set_full.
        - apply pre_snoc; auto. }
      rewrite ES. change (u ++ repeat full_slice (length sh - length u), pre u) with (grp u).
      (* distinct keys *)
      assert (Hkey : forall v x w, length v = d -> In x (dsl d) -> length w = d -> fst (grp (v ++ [x])) <> fst (grp w)).
      { intros v x w Hv Hx Hw E. unfold grp in E. cbn [fst] in E. rewrite <- app_assoc in E. apply app_inj_len in E as [_ E]; [|lia].
        destruct (length sh - length w) as [|k] eqn:Ek; [lia|]. cbn [repeat app] in E. injection E as E _. unfold dsl in Hx. apply in_map_iff in Hx as (p & <- & Hpi).
        apply (Hp p Hpi). auto. }
      assert (Hk2 : ~ In (fst (grp u)) (map fst (map grp us ++ map grp (flat_map (fun t => map (fun x => t ++ [x]) (dsl d)) dn)))).
      { rewrite map_app, in_app_iff, !map_map. intros [H|H]; apply in_map_iff in H as (w & E & Hw).
        - apply grp_fst_inj in E; [subst w; contradiction|]. rewrite HLu. apply HU. apply Hus. simpl; auto.
        - apply in_flat_map in Hw as (v & Hv & Hw). apply in_map_iff in Hw as (x & <- & Hx). apply (Hkey v x u) in E; auto. }
      replace (kpop (u ++ repeat full_slice (length sh - length u)) ((grp u :: map grp us) ++ map grp (flat_map (fun t => map (fun x => t ++ [x]) (dsl d)) dn)))
        with (map grp us ++ map grp (flat_map (fun t => map (fun x => t ++ [x]) (dsl d)) dn)) by (symmetry; apply kpop_head; auto).
      rewrite kputs_new.
      - rewrite <- app_assoc. replace (map grp (flat_map (fun t => map (fun x => t ++ [x]) (dsl d)) dn) ++ map (fun x => grp (u ++ [x])) (dsl d))
          with (map grp (flat_map (fun t => map (fun x => t ++ [x]) (dsl d)) (dn ++ [u]))).
        2:{ rewrite flat_map_app, map_app. f_equal. cbn [flat_map]. rewrite app_nil_r, map_map. auto. }
        rewrite (IH (dn ++ [u])); auto.
        + rewrite <- app_assoc. auto.
        + intros w Hw. destruct (Hus w (or_intror Hw)) as [H1 H3]. split; auto. rewrite in_app_iff. intros [H|[<-|[]]]; auto.
        + intros w Hw. apply in_app_or in Hw as [Hw|[<-|[]]]; auto.
      - rewrite map_map. apply NoDup_map_inj; [|apply dsl_NoDup; auto]. intros x y _ _ E. apply grp_fst_inj in E; [|rewrite !app_length; auto].
        apply app_inj_tail in E. tauto.
      - intros k Hk. rewrite map_map in Hk. apply in_map_iff in Hk as (x & <- & Hx). rewrite map_app, in_app_iff, !map_map. intros [H|H]; apply in_map_iff in H as (w & E & Hw).
        + symmetry in E. apply (Hkey u x w) in E; auto. apply HU. apply Hus. simpl; auto.
        + apply in_flat_map in Hw as (v & Hv & Hw). apply in_map_iff in Hw as (y & <- & Hy). apply grp_fst_inj in E; [|rewrite !app_length, HLu, (Hdn v Hv); auto].
          apply app_inj_tail in E as [-> _]. auto. }
    specialize (G (prodl (firstn d DS)) [] eq_refl HN). cbn [flat_map map] in G. rewrite app_nil_r in G. apply G; auto. intros u []. 
Qed.

(** Grouping all dimensions: one group per tuple of pieces, with the keys of each
    input that are this tuple. *)
Lemma group_keys_aligned : group_keys limit sh inputs
  = Ok (map (fun t => (t, map (filter (fun ks => ktuple_eqb t (normalize_keys ks sh))) inputs)) (prodl DS)).
Proof.
  assert (H0 : exists t, In t (prodl DS)).
  { destruct (complete DS []) as (r & Hr); simpl; eauto; [|lia]. apply Forall_forall. intros l Hl. unfold DS in Hl. apply in_map_iff in Hl as (i & <- & Hi).
    apply in_seq in Hi. apply dsl_ne. lia. }
  destruct H0 as (t & Ht). assert (HL0 : forall L, In L inputs -> L <> []) by (intros L HL E; destruct (Hall L t HL Ht) as (ks & Hks & _); subst; destruct Hks).
  unfold group_keys. destruct inputs as [|L inp] eqn:Einp; [congruence|]. destruct L as [|ks L]; [exfalso; apply (HL0 [] ltac:(simpl; auto)); auto|].
  rewrite <- Einp in *. assert (Hk : length ks = length sh) by (apply (Hin (ks :: L)); [rewrite Einp|]; simpl; auto).
  replace (map (fun _ => full_slice) ks, inputs) with (grp []).
  2:{ unfold grp, pre. cbn [app length]. rewrite Nat.sub_0_r, <- Hk. f_equal.
      - clear. induction ks; simpl; [auto|f_equal; auto].
      - rewrite <- map_id. apply map_ext. intros l. apply filter_all. auto. }
  assert (G : forall k d, d + k = length sh -> foldM (fun gs dn => group_dim limit (fst dn) (snd dn) gs) (map grp (prodl (firstn d DS))) (combine (seq d k) (skipn d sh))
     = Ok (map grp (prodl DS))).
  { induction k as [|k IH]; intros d Hd.
    - cbn [seq combine foldM]. rewrite firstn_all2 by (rewrite DS_length; lia). auto.
    - rewrite (skipn_nth_cons d sh 0) by lia. cbn [seq combine foldM fst snd]. rewrite group_dim_ok by lia. apply IH. lia. }
  specialize (G (length sh) 0 ltac:(lia)). cbn [firstn skipn prodl map] in G. etransitivity; [exact G|]. f_equal. apply map_ext_in. intros u Hu.
  apply prodl_In in Hu. apply Forall2_length in Hu. rewrite DS_length in Hu. unfold grp. f_equal.
  - rewrite Hu, Nat.sub_diag. apply app_nil_r.
  - unfold pre. apply map_ext_in. intros L' HL'. apply filter_ext_in'. intros k Hk'. rewrite firstn_all2; auto. destruct (Hin L' k HL' Hk') as [H _].
    rewrite norm_length by auto. lia.
Qed.
End AllDims.
