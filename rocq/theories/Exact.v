(** Exact: the handlers compute the formulas of ExactSpec.v. *)
From Verif Require Import Base PySlice Keys NDArray Arrays Chunks Handlers Realise Spec Supported Lib SelLemmas KeyLemmas GetBase ChunkLemmas HandlerLemmas Realisable StreamLemmas Compose PropSources ExactSpec.
From Coq Require Import ZifyBool ZifyNat.

Lemma blocks_eq maxc r n : map (fun k => kpos k n) (dim_slices maxc true r n) = dim_blocks maxc r n.
Proof.
  unfold dim_slices, dim_blocks, width. destruct (Nat.leb_spec (n * r) maxc) as [H|H].
  - cbn [map]. unfold kpos at 1. rewrite sel_key_full. destruct n as [|n].
    + reflexivity.
    + replace ((S n + S n - 1) / S n) with 1 by (apply Nat.div_unique with n; lia). change (Nat.max 1 1) with 1. cbn [seq map]. rewrite Nat.mul_0_l, Nat.sub_0_r, Nat.min_id. auto.
  - destruct (Nat.ltb_spec maxc r) as [H2|H2].
    + rewrite Nat.div_small by lia. rewrite map_map. change (Nat.max 1 0) with 1. rewrite Nat.div_1_r.
      replace (Nat.max 1 (n + 1 - 1)) with n by nia. apply map_ext_in. intros i Hi. apply in_seq in Hi. unfold kpos. rewrite sel_key_sl by lia.
      f_equal; lia.
    + pose proof (step_pos _ _ _ H H2) as Hs. set (q := maxc / r) in *. rewrite map_map. rewrite (Nat.max_r 1 q) by lia.
      assert (Hn : 1 <= n) by nia. assert (Hc : 1 <= (n + q - 1) / q) by (apply Nat.div_le_lower_bound; lia).
      rewrite Nat.max_r by lia. apply map_ext_in. intros i Hi. apply in_seq in Hi.
      assert (Hi' : i * q < n).
      { assert (q * S i <= n + q - 1) by (pose proof (Nat.mul_div_le (n + q - 1) q ltac:(lia)); nia). nia. }
      unfold kpos. rewrite sel_key_sl by lia. f_equal. lia.
Qed.
Lemma grid_eq maxc : forall sh, grid maxc sh = map (fun p => map (fun k => kpos k (snd p)) (fst p)) (combine (all_slices maxc true sh) sh).
Proof.
  induction sh as [|n sh IH]; auto. rewrite all_slices_cons. cbn [grid combine map fst snd]. rewrite blocks_eq. f_equal. auto.
Qed.

Section Exact.
Context {V : Type} (O : numops V).
Notation cell := (option V).

Lemma running_fold (ps : list (list cell)) : forall t, fold_left (fun st l => vadd O st (vsum O (map (val0 O) l))) ps t
  = fold_left (vadd O) (map (fun p => vsum O (map (plain_val O) p)) ps) t.
Proof. induction ps as [|p ps IH]; intros t; auto. cbn [fold_left map]. apply IH. Qed.

Lemma fold_welford scale step : (forall k a q x, step (k, a, q) x = let d := vdiv O (vsub O x a) (vofn O (S k)) in (S k, vadd O a d, vadd O q (vmul O (vmul O d d) (scale (S k))))) ->
  forall xs k a q, exists a', fold_left step xs (k, a, q) = (k + length xs, a', welford O scale k a q xs).
Proof.
  intros HS. induction xs as [|x xs IH]; intros k a q; [exists a; simpl; rewrite Nat.add_0_r; auto|]. cbn [fold_left length welford]. rewrite HS. cbv zeta.
  edestruct IH as [a' E]. exists a'. rewrite E. f_equal. f_equal. lia.
Qed.

Lemma std_all (ps : list (list cell)) k a q : 2 <= k -> exists a',
  fold_left (std_step O) ps (k, a, q) = (k + length (concat ps), a', welford O (fun k => vofn O (k * (k - 1))) k a q (map (plain_val O) (concat ps))).
Proof.
  intros Hk. assert (E : fold_left (std_step O) ps (k, a, q) = fold_left (welford_step O) (map (plain_val O) (concat ps)) (k, a, q)).
  { revert k a q Hk. induction ps as [|p ps IH]; intros k a q Hk; auto. cbn [fold_left concat]. rewrite map_app, fold_left_app.
    assert (Ep : std_step O (k, a, q) p = fold_left (welford_step O) (map (plain_val O) p) (k, a, q)).
    { unfold std_step. destruct p as [|x p]; auto. replace (k =? 1) with false by (symmetry; apply Nat.eqb_neq; lia). reflexivity. }
    rewrite Ep. destruct (fold_welford (fun k => vofn O (k * (k - 1))) (welford_step O) ltac:(intros; reflexivity) (map (plain_val O) p) k a q) as [a' Ea].
    rewrite Ea. apply IH. lia. }
  rewrite E. destruct (fold_welford (fun k => vofn O (k * (k - 1))) (welford_step O) ltac:(intros; reflexivity) (map (plain_val O) (concat ps)) k a q) as [a' Ea].
  exists a'. rewrite Ea, map_length. auto.
Qed.
Lemma std_run (ps : list (list cell)) : forall a, ps <> [] -> Forall (fun p => p <> []) ps -> exists a',
  fold_left (std_step O) ps (1, a, v0 O) = (length (remembered ps), a', squares O (fun k => vofn O (k * (k - 1))) (map (plain_val O) (remembered ps))).
Proof.
  induction ps as [|p ps IH]; intros a HN HF; [congruence|]. inversion HF as [|? ? Hp HF']; subst. destruct p as [|x p]; [congruence|].
  cbn [fold_left]. unfold std_step at 2. cbn [Nat.eqb]. destruct p as [|y p].
  - destruct ps as [|p' ps].
    + exists (plain_val O x). reflexivity.
    + cbn [map]. destruct (IH (val0 O x)) as [a' E]; [congruence|auto|]. exists a'. exact E.
  - assert (ER : remembered ((x :: y :: p) :: ps) = (x :: y :: p) ++ concat ps) by (destruct ps; reflexivity). rewrite ER.
    destruct (fold_welford (fun k => vofn O (k * (k - 1))) (welford_step O) ltac:(intros; reflexivity) (map (plain_val O) (y :: p)) 1 (plain_val O x) (v0 O)) as [a1 E1].
    assert (E2 : fold_left (welford_step O) (map (val0 O) (y :: p)) (1, val0 O x, v0 O)
      = (1 + length (map (plain_val O) (y :: p)), a1, welford O (fun k => vofn O (k * (k - 1))) 1 (plain_val O x) (v0 O) (map (plain_val O) (y :: p)))) by exact E1.
    rewrite E2. set (l := map (plain_val O) (y :: p)) in *. assert (HL : length l = S (length p)) by (unfold l; rewrite map_length; auto).
    destruct (std_all ps (1 + length l) a1 (welford O (fun k => vofn O (k * (k - 1))) 1 (plain_val O x) (v0 O) l) ltac:(lia)) as [a2 E3].
    exists a2. rewrite E3. f_equal; [f_equal|].
    + rewrite app_length. cbn [length]. lia.
    + cbn [app map squares]. change (plain_val O y :: map (plain_val O) (p ++ concat ps)) with (map (plain_val O) ((y :: p) ++ concat ps)).
      rewrite map_app. fold l. clear -E1.
      assert (G : forall l r k a q a1 sc (st : nat * V * V -> V -> nat * V * V), (forall k a q x, st (k, a, q) x = let d := vdiv O (vsub O x a) (vofn O (S k)) in (S k, vadd O a d, vadd O q (vmul O (vmul O d d) (sc (S k))))) ->
        fold_left st l (k, a, q) = (k + length l, a1, welford O sc k a q l) -> welford O sc (k + length l) a1 (welford O sc k a q l) r = welford O sc k a q (l ++ r)).
      { clear. induction l as [|z l IH]; intros r k a q a1 sc st HS E.
        - cbn in *. rewrite Nat.add_0_r in *. congruence.
        - cbn [fold_left length welford app] in *. rewrite HS in E. cbv zeta in E. rewrite <- (IH r (S k) _ _ a1 sc st HS); [f_equal; lia|]. rewrite E. f_equal. f_equal. lia. }
      apply (G l _ 1 _ _ a1 _ (welford_step O)); auto.
Qed.
Lemma hidden_run (xs : list cell) : forall c a q, 1 <= c -> exists a',
  fold_left (welford_m_step O) xs (c, a, q) = (c + length (obs xs), a', welford O (fun k => vmul O (vofn O k) (vsub O (vofn O k) (vofn O 1))) c a q (obs xs)).
Proof.
  induction xs as [|[x|] xs IH]; intros c a q Hc; cbn [fold_left obs length].
  - exists a. rewrite Nat.add_0_r. auto.
  - unfold welford_m_step at 2. replace (c =? 0) with false by (symmetry; apply Nat.eqb_neq; lia). cbn [negb is_some andb val0].
    edestruct (IH (S c)) as [a' E]; [lia|]. exists a'. rewrite E. cbn [welford]. f_equal. f_equal. lia.
  - unfold welford_m_step at 2. replace (c =? 0) with false by (symmetry; apply Nat.eqb_neq; lia). cbn [negb is_some andb]. apply IH; auto.
Qed.
Lemma hidden_start (xs : list cell) : forall a, exists a',
  fold_left (welford_m_step O) xs (0, a, v0 O) = (length (obs xs), a', squares O (fun k => vmul O (vofn O k) (vsub O (vofn O k) (vofn O 1))) (obs xs)).
Proof.
  induction xs as [|[x|] xs IH]; intros a; cbn [fold_left obs length].
  - exists a. auto.
  - destruct (hidden_run xs 1 x (v0 O) (le_n 1)) as [a' E]. exists a'. exact E.
  - apply (IH (v0 O)).
Qed.
Lemma fold_concat {S} (f : S -> cell -> S) (ps : list (list cell)) : forall s, fold_left (fun st l => fold_left f l st) ps s = fold_left f (concat ps) s.
Proof. induction ps as [|p ps IH]; intros s; auto. cbn [fold_left concat]. rewrite fold_left_app. apply IH. Qed.

Lemma std_m_run (ps : list (list cell)) ddof n : run_handler (h_std_m O ddof) n ps = hidden_std O ddof ps.
Proof.
  unfold run_handler, hidden_std. cbn [h_std_m hfin hboot hstep]. rewrite (fold_concat (welford_m_step O) ps).
  destruct (hidden_start (concat ps) (v0 O)) as [a' ->]. destruct (length (obs (concat ps)) =? 0); auto. cbn [orb].
  destruct (veqb O _ (v0 O)); auto.
Qed.
Lemma masked_count (ps : list (list cell)) : forall c mc t, fold_left (fun (st : nat * nat * V) l => let '(c, mc, t) := st in
    (c + length (somes l), mc + (length l - length (somes l)), vadd O t (vsum O (map (val0 O) l)))) ps (c, mc, t)
  = (c + length (obs (concat ps)), mc + (length (concat ps) - length (obs (concat ps))), fold_left (vadd O) (map (fun p => vsum O (map (plain_val O) p)) ps) t).
Proof.
  induction ps as [|p ps IH]; intros c mc t; [cbn; f_equal; f_equal; lia|]. cbn [fold_left concat map]. rewrite IH, obs_app, !app_length, somes_obs.
  pose proof (obs_length p). pose proof (obs_length (concat ps)). f_equal. f_equal; lia.
Qed.

Theorem exact_run m g n ps : length (concat ps) = n -> ps <> [] -> (needs_item m g -> Forall (fun p => p <> []) ps) ->
  run_handler (handler_of O m g) n ps = in_pieces O m g n ps.
Proof.
  intros HL HN HI. destruct g, m; cbn [handler_of in_pieces].
  - unfold run_handler. cbn [h_count_m hfin hboot hstep]. do 2 f_equal.
    apply (fold_pieces (fun st l => st + length (somes l)) (fun st l => st = length (obs l))) with (l := []); auto.
    intros st l x ->. rewrite obs_app, app_length, somes_obs. auto.
  - unfold run_handler. cbn [h_count hfin hboot hstep]. do 2 f_equal. rewrite <- HL.
    apply (fold_pieces (fun st (l : list cell) => st + length l) (fun st l => st = length l)) with (l := []); auto.
    intros st l x ->. rewrite app_length. auto.
  - unfold run_handler. cbn [h_min_m hfin hboot hstep]. rewrite (fold_last (fun l => vmin_list O (somes l)) ps []), somes_obs by auto. reflexivity.
  - unfold run_handler. cbn [h_min hfin hboot hstep]. rewrite (fold_last (fun l => vmin_list O (map (val0 O) l)) ps []) by auto. reflexivity.
  - unfold run_handler. cbn [h_max_m hfin hboot hstep]. rewrite (fold_last (fun l => vmax_list O (somes l)) ps []), somes_obs by auto. reflexivity.
  - unfold run_handler. cbn [h_max hfin hboot hstep]. rewrite (fold_last (fun l => vmax_list O (map (val0 O) l)) ps []) by auto. reflexivity.
  - unfold run_handler. cbn [h_sum_m hfin hboot hstep].
    assert (H : forall t b, fold_left (fun (st : V * bool) l => (vadd O (fst st) (vsum O (map (val0 O) l)), snd st && forallb (fun c => negb (is_some c)) l)) ps (t, b)
      = (fold_left (vadd O) (map (fun p => vsum O (map (plain_val O) p)) ps) t, b && (length (obs (concat ps)) =? 0))).
    { clear. induction ps as [|p ps IH]; intros t b; [cbn; rewrite andb_true_r; auto|]. cbn [fold_left map concat fst snd]. rewrite IH. f_equal.
      rewrite all_masked, obs_app, app_length, <- andb_assoc. f_equal. lia. }
    rewrite H. cbn [fst snd andb]. auto.
  - unfold run_handler. cbn [h_sum hfin hboot hstep]. rewrite running_fold. auto.
  - unfold run_handler. cbn [h_mean_m hfin hboot hstep].
    match goal with |- context [fold_left ?f ps ?s] => change (fold_left f ps s) with (fold_left (fun (st : nat * nat * V) l => let '(c, mc, t) := st in
      (c + length (somes l), mc + (length l - length (somes l)), vadd O t (vsum O (map (val0 O) l)))) ps (0, 0, v0 O)) end.
    rewrite masked_count. cbn [Nat.add]. rewrite HL. reflexivity.
  - unfold run_handler. cbn [h_mean hfin hboot hstep]. rewrite running_fold. auto.
  - apply std_m_run.
  - unfold run_handler. cbn [h_std hfin hboot hstep]. match goal with |- context [fold_left ?g ps ?s] => change (fold_left g ps s) with (fold_left (std_step O) ps (1, v0 O, v0 O)) end. destruct (std_run ps (v0 O) HN (HI I)) as [a' ->]. unfold plain_std. rewrite map_length. auto.
  - rewrite <- (std_m_run ps ddof n). reflexivity.
  - unfold run_handler. cbn [h_var h_std hfin hboot hstep]. match goal with |- context [fold_left ?g ps ?s] => change (fold_left g ps s) with (fold_left (std_step O) ps (1, v0 O, v0 O)) end. destruct (std_run ps (v0 O) HN (HI I)) as [a' ->]. unfold plain_std. rewrite map_length. auto.
Qed.
End Exact.
