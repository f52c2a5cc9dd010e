(** ThreadClock: a common clock for the streams of an expression graph in which
    every array object is asked for in one order and operands are divided at the same
    places; such graphs never block. *)
From Verif Require Import Base Lib PySlice Keys NDArray Arrays Chunks Handlers Realise Kahn Threads ThreadSpec NetLemmas NetProgress NetSeq NetFail ThreadBuild ThreadNodes ThreadSem.

Lemma rl_length {A} (l : list A) : length (removelast l) = length l - 1.
Proof. rewrite removelast_firstn_len, firstn_length. lia. Qed.

Section Clock.
Variables B L : nat.
(** The iteration order of an aggregation from that of its operand. *)
Definition outer (order : list nat) : list nat :=
  let axis := last order 0 in map (fun i => if i <? axis then i else pred i) (removelast order).
Lemma outer_input axis order : outer (input_order axis order) = order.
Proof.
  unfold outer, input_order. rewrite last_last, removelast_last, map_map. rewrite <- (map_id order) at 2. apply map_ext. intros i.
  destruct (Nat.ltb_spec i axis) as [H|H].
  - apply Nat.ltb_lt in H. rewrite H. auto.
  - destruct (Nat.ltb_spec (S i) axis); [lia|]. auto.
Qed.
Lemma last_input axis order : last (input_order axis order) 0 = axis.
Proof. unfold input_order. apply last_last. Qed.
(** The chunks that belong to one chunk of the aggregation are placed between the
    times of two of its chunks. *)
Fixpoint spread (w : nat) (cur : list key) (t prev : nat) (C : list nat) (ks : list (list key)) : list nat :=
  match ks with
  | [] => [hd 0 C]
  | k :: ks' => if keys_eqb k cur then prev + S t * w :: spread w k (S t) prev C ks'
                else hd 0 C :: spread w k 0 (hd 0 C) (tl C) ks'
  end.
Fixpoint clock (d : nat) (order : list nat) (ks : list (list key)) : list nat :=
  match d with
  | 0 => map (fun i => (1 + i) * B ^ L) (seq 0 (1 + length ks))
  | S d' =>
      let axis := last order 0 in
      let C := clock d' (outer order) (agg_keys axis ks) in
      match map (remove_at axis) ks with
      | [] => [hd 0 C]
      | k :: ks' => B ^ (L - d) :: spread (B ^ (L - d)) k 1 0 C ks'
      end
  end.
Lemma spread_length w C ks : forall cur t prev, length (spread w cur t prev C ks) = 1 + length ks.
Proof. revert C. induction ks as [|k ks IH]; intros C cur t prev; simpl; auto. destruct (keys_eqb k cur); simpl; rewrite IH; auto. Qed.
Lemma clock_length d order ks : length (clock d order ks) = 1 + length ks.
Proof.
  destruct d as [|d]. { simpl. rewrite map_length, seq_length. auto. }
  cbn [clock]. destruct ks as [|k ks]; simpl; auto. rewrite spread_length, map_length. auto.
Qed.
Lemma key_runs_length ks : forall cur, 1 <= length (key_runs cur ks) <= 1 + length ks.
Proof. induction ks as [|k ks IH]; intros cur; simpl; [lia|]. destruct (keys_eqb k cur); simpl; specialize (IH k); lia. Qed.
Lemma agg_keys_length axis ks : 1 <= length (agg_keys axis ks) <= Nat.max 1 (length ks).
Proof.
  unfold agg_keys. destruct ks as [|k ks]; simpl; [lia|]. pose proof (key_runs_length (map (remove_at axis) ks) (remove_at axis k)) as H. rewrite map_length in H. lia.
Qed.
(** The aggregation sends its chunks at the times of its own clock. *)
Lemma spread_sends w ks : forall cur t prev C, length C = 1 + length (key_runs cur ks) ->
  change_ticks cur ks (spread w cur t prev C ks) ++ [nth (length ks) (spread w cur t prev C ks) 0] = removelast C.
Proof.
  induction ks as [|k ks IH]; intros cur t prev C HC.
  - destruct C as [|c [|c' [|]]]; try discriminate. auto.
  - cbn [key_runs spread change_ticks] in *. destruct (keys_eqb k cur) eqn:E; cbn [change_ticks length nth].
    + apply IH. auto.
    + destruct C as [|c C]; [discriminate|]. cbn [hd tl length] in *. cbn [app].
      rewrite (IH k 0 c C) by lia. destruct C; [pose proof (key_runs_length ks k); simpl in HC; lia|]. auto.
Qed.
Lemma agg_ticks_end axis ks ts : removelast (agg_ticks axis ks ts) =
  match map (remove_at axis) ks with [] => [] | k :: ks' => change_ticks k ks' (tl ts) end ++ [nth (length ks) ts 0].
Proof. unfold agg_ticks. match goal with |- removelast (?a ++ [?t; ?u]) = _ => change [t; u] with ([t] ++ [u]) end. rewrite app_assoc, removelast_last. auto. Qed.
Lemma clock_sends d order axis ks : removelast (clock d order (agg_keys axis ks)) =
  removelast (agg_ticks axis ks (clock (S d) (input_order axis order) ks)).
Proof.
  rewrite agg_ticks_end. cbn [clock]. rewrite outer_input. rewrite !last_input.
  pose proof (clock_length d order (agg_keys axis ks)) as HC. set (C := clock d order (agg_keys axis ks)) in *. clearbody C.
  unfold agg_keys in HC. destruct ks as [|k ks]; cbn [map] in *.
  - destruct C as [|c [|c' [|c2 C]]]; simpl in HC; try discriminate. auto.
  - cbn [tl length nth]. rewrite <- (map_length (remove_at axis) ks) at 1. symmetry. apply spread_sends. auto.
Qed.

(** ** The clock goes forward *)
Fixpoint gap (w lo : nat) (C : list nat) : Prop := match C with [] => True | c :: C' => lo + w <= c /\ gap w c C' end.
Lemma gap_spread w ks : forall cur t prev C, length C = 1 + length (key_runs cur ks) -> gap (B * w) prev C -> t + length ks < B ->
  gap w (prev + t * w) (spread w cur t prev C ks).
Proof.
  induction ks as [|k ks IH]; intros cur t prev C HC HG Hb.
  - destruct C as [|c C]; [discriminate|]. cbn [spread gap hd]. cbn [gap] in HG. split; auto. destruct HG as [HG _]. cbn [length] in Hb.
    assert ((t + 1) * w <= B * w) by (apply Nat.mul_le_mono_r; lia). lia.
  - cbn [key_runs spread length] in *. destruct (keys_eqb k cur) eqn:E; cbn [gap].
    + split; [lia|]. apply IH; auto. lia.
    + destruct C as [|c C]; [discriminate|]. cbn [gap] in HG. destruct HG as [HG HG']. cbn [hd tl length] in *. split.
      * assert ((t + 1) * w <= B * w) by (apply Nat.mul_le_mono_r; lia). lia.
      * replace c with (c + 0 * w) at 1 by lia. apply IH; auto; lia.
Qed.
Lemma gap_clock : forall d order ks, d <= L -> 1 < B -> length ks < B -> gap (B ^ (L - d)) 0 (clock d order ks).
Proof.
  induction d as [|d IH]; intros order ks Hd HB Hk.
  - cbn [clock]. rewrite Nat.sub_0_r. clear. assert (G : forall n a lo, lo <= a * B ^ L -> gap (B ^ L) lo (map (fun i => (1 + i) * B ^ L) (seq a n))).
    { induction n as [|n IHn]; intros a lo H; simpl; auto. split; [lia|]. apply IHn. simpl. lia. }
    apply G. lia.
  - cbn [clock]. pose proof (agg_keys_length (last order 0) ks) as HA. assert (HI : gap (B ^ (L - d)) 0 (clock d (outer order) (agg_keys (last order 0) ks))) by (apply IH; lia).
    pose proof (clock_length d (outer order) (agg_keys (last order 0) ks)) as HC. set (C := clock d _ _) in *. clearbody C.
    assert (EB : B ^ (L - d) = B * B ^ (L - S d)). { replace (L - d) with (S (L - S d)) by lia. auto. } rewrite EB in HI. unfold agg_keys in HC.
    destruct ks as [|k ks]; cbn [map] in *.
    + destruct C as [|c C]; [discriminate|]. cbn [hd gap] in *. split; auto. destruct HI as [HI _]. assert (1 * B ^ (L - S d) <= B * B ^ (L - S d)) by (apply Nat.mul_le_mono_r; lia). lia.
    + cbn [gap]. split; [lia|]. replace (B ^ (L - S d)) with (0 + 1 * B ^ (L - S d)) at 2 by lia. apply gap_spread; auto.
      cbn [length] in Hk. rewrite map_length. lia.
Qed.
Lemma gap_ge w C : forall lo i, gap w lo C -> i < length C -> lo + w <= nth i C 0.
Proof. induction C as [|c C IH]; intros lo [|i] H Hi; simpl in *; try lia. specialize (IH c i (proj2 H)). lia. Qed.
Lemma gap_incr w C : 1 <= w -> forall lo, gap w lo C -> incr C.
Proof.
  intros Hw. induction C as [|c C IH]; intros lo H i j Hij Hj; simpl in *; [lia|]. destruct j as [|j]; [lia|]. destruct H as [H1 H2]. destruct i as [|i].
  - pose proof (gap_ge w C c j H2 ltac:(lia)). lia.
  - apply (IH c H2); lia.
Qed.
Lemma clock_incr d order ks : d <= L -> 1 < B -> length ks < B -> incr (clock d order ks).
Proof. intros Hd HB Hk. apply (gap_incr (B ^ (L - d))) with (lo := 0); [|apply gap_clock; auto]. assert (B ^ (L - d) <> 0) by (apply Nat.pow_nonzero; lia). lia. Qed.
End Clock.

Section Aligned.
Context {V : Type} (O : numops V).
Notation cell := (option V).
Notation barr := (@barr V).
Notation chunk := (list key * nd cell)%type.
Notation entry := (@entry V).
Variable maxc : nat.
Variable garbage : list nat -> cell.
Variable rz : barr -> res (nd cell).
Variable m : bool.
Variable dag : list entry.
Variable roots : list nat.
Hypothesis D : dag_ok dag roots.
Notation N := (length dag).
Notation st := (build O dag roots).
Notation BO := (build_ok O garbage dag roots D).
Hypothesis CS : consistent O dag roots.
Variable net : list (node chunk).
Hypothesis HN : network O maxc garbage rz m dag roots = Ok net.
Hypothesis HR : forall r, In r roots -> exists d, engine_eval O maxc garbage rz m (expr O dag r) = Ok d.
Hypothesis AL : aligned O maxc dag roots.
Lemma aligned_balanced : balanced O maxc dag roots.
Proof. intros i o f s1 s2 d Hw He. rewrite (AL i o f s1 s2 d Hw He). auto. Qed.
Notation wr := (wr O dag roots).
Notation full := (full O maxc rz m dag roots).

(** Bounds on the number of chunks and of dimensions. *)
Definition chunks_of (i : nat) : nat := match nth i (fst st) None with Some o => length (stream_keys maxc (expr O dag i) o) | None => 0 end.
Definition dims_of (i : nat) : nat := match nth i (fst st) None with Some o => length o | None => 0 end.
Definition Bmax : nat := 2 + list_max (map chunks_of (seq 0 N)).
Definition Lmax : nat := list_max (map dims_of (seq 0 N)).
Definition tick (i : nat) : list nat := match nth i (fst st) None with Some o => clock Bmax Lmax (length o) o (stream_keys maxc (expr O dag i) o) | None => [] end.
Lemma max_in (f : nat -> nat) i : i < N -> f i <= list_max (map f (seq 0 N)).
Proof.
  intros Hi. pose proof (proj1 (list_max_le (map f (seq 0 N)) _) (Nat.le_refl _)) as H. rewrite Forall_forall in H. apply H. apply in_map. apply in_seq. lia.
Qed.
Lemma aligned_in_step : in_step net wr full (times O maxc rz m dag roots tick).
Proof.
  assert (Hbd : forall i o, nth i (fst st) None = Some o -> length o <= Lmax /\ length (stream_keys maxc (expr O dag i) o) < Bmax).
  { intros i o Ho. assert (Hi : i < N) by (apply (cached_bound O garbage dag roots D); congruence).
    pose proof (max_in chunks_of i Hi) as H1. pose proof (max_in dims_of i Hi) as H2. assert (E1 : chunks_of i = length (stream_keys maxc (expr O dag i) o)) by (unfold chunks_of; rewrite Ho; auto). assert (E2 : dims_of i = length o) by (unfold dims_of; rewrite Ho; auto). unfold Bmax, Lmax. split; lia. }
  apply (network_in_step O maxc garbage rz m dag roots D CS net HN HR aligned_balanced).
  - intros i o Ho. unfold tick. rewrite Ho. apply clock_length.
  - intros i o a Ho He. unfold tick. rewrite Ho. destruct (Hbd i o Ho). apply clock_incr; auto. unfold Bmax. lia.
  - intros i o g s ax d Ho He. unfold tick. rewrite Ho. pose proof (src_cached O garbage dag roots D CS i _ o s Ho He (or_introl eq_refl)) as Hs. cbn [src_order] in Hs. rewrite Hs.
    rewrite (expr_entry O maxc dag i _ He) by (intros; apply (proj1 D i _ _ He); auto). cbn [stream_keys].
    replace (length (input_order ax o)) with (S (length o)) by (unfold input_order; rewrite app_length, map_length; simpl; lia).
    rewrite <- clock_sends. set (ks := stream_keys maxc (expr O dag s) (input_order ax o)).
    pose proof (clock_length Bmax Lmax (length o) o (agg_keys ax ks)) as HC.
    assert (Hne : clock Bmax Lmax (length o) o (agg_keys ax ks) <> []) by (intros E; rewrite E in HC; discriminate).
    exists (last (clock Bmax Lmax (length o) o (agg_keys ax ks)) 0). split; [apply app_removelast_last; auto|].
    pose proof (clock_sends Bmax Lmax (length o) o ax ks) as E. rewrite agg_ticks_end in E.
    destruct (Hbd s _ Hs) as [Hd Hk]. fold ks in Hk. unfold input_order in Hd. rewrite app_length, map_length in Hd. cbn [length] in Hd.
    pose proof (agg_keys_length ax ks) as HA.
    assert (HI : incr (clock Bmax Lmax (length o) o (agg_keys ax ks))) by (apply clock_incr; unfold Bmax in *; lia).
    set (Cs := clock Bmax Lmax (length o) o (agg_keys ax ks)) in *. set (t := nth (length ks) _ 0) in *.
    assert (Ht : nth (length (agg_keys ax ks) - 1) Cs 0 = t).
    { rewrite (app_removelast_last 0 Hne) , E, <- app_assoc. cbn [app]. apply (f_equal (@length nat)) in E. rewrite rl_length, HC, app_length in E. cbn [length] in E.
      rewrite app_nth2 by lia. replace (_ - _) with 0 by lia. auto. }
    assert (Hl : nth (length (agg_keys ax ks)) Cs 0 = last Cs 0).
    { rewrite (app_removelast_last 0 Hne) at 1. rewrite app_nth2 by (rewrite rl_length; lia). rewrite rl_length, HC. replace (_ - _) with 0 by lia. auto. }
    rewrite <- Ht, <- Hl. apply HI; lia.
  - intros i o f s d Ho He. unfold tick. rewrite Ho. pose proof (src_cached O garbage dag roots D CS i _ o s Ho He (or_introl eq_refl)) as Hs. cbn [src_order] in Hs. rewrite Hs.
    rewrite (expr_entry O maxc dag i _ He) by (intros; apply (proj1 D i _ _ He); auto). auto.
  - intros i o f s1 s2 d Ho He. unfold tick. rewrite Ho.
    pose proof (src_cached O garbage dag roots D CS i _ o s1 Ho He (or_introl eq_refl)) as Hs1. pose proof (src_cached O garbage dag roots D CS i _ o s2 Ho He (or_intror (or_introl eq_refl))) as Hs2.
    cbn [src_order] in Hs1, Hs2. rewrite Hs1, Hs2. rewrite (expr_entry O maxc dag i _ He) by (intros; apply (proj1 D i _ _ He); auto). cbn [stream_keys]. split; auto.
    rewrite (AL i o f s1 s2 d); auto. apply (b_wants _ _ _ _ _ BO); auto.
Qed.
End Aligned.
