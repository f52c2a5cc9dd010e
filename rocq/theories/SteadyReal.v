(** SteadyReal: steady arrays (Steady.v) meet the conditions of Realisable.v.
    Nothing here models /repo. *)
From Verif Require Import Base PySlice Keys NDArray Arrays Chunks Spec Supported Lib SelLemmas KeyLemmas GetBase GetMosaic ChunkLemmas HandlerLemmas Realisable StreamLemmas Steady.
From Coq Require Import ZifyBool ZifyNat.

Section SteadyReal.
Context {V : Type} (O : numops V).
Notation barr := (@barr V).
Variable maxc : nat.
Variable m : bool.
Variable HG : @agg V -> nat -> Prop.
Variable ints : bool.
Notation steady := (steady maxc m HG ints).

(** ** Chunk boundaries *)
Fixpoint tcuts (t : cst) : list (list key) :=
  match t with CL sh => all_slices maxc true sh | CA ax t => remove_at ax (tcuts t) end.
Lemma cuts_cs (a : barr) : cuts maxc a = tcuts (cs a).
Proof. induction a using barr_ind2; cbn [cuts cs tcuts]; auto. rewrite IHa. auto. Qed.
Lemma tcuts_length t : twf t -> length (tcuts t) = length (tshape t).
Proof.
  induction t as [sh|ax t IH]; cbn [tcuts tshape twf]; intros H; [apply all_slices_length|]. destruct H as [H1 H2].
  rewrite !remove_at_length; rewrite ?IH; auto.
Qed.
Lemma tcuts_nth t : forall axis, twf t -> axis < length (tshape t) ->
  nth axis (tcuts t) [] = dim_slices maxc true (crest t axis) (nth axis (tshape t) 0).
Proof.
  induction t as [sh|ax t IH]; intros axis Hw Hax; cbn [tcuts tshape twf crest] in *; [apply all_slices_nth; auto|].
  destruct Hw as [H1 H2]. rewrite remove_at_length in Hax by auto. pose proof (tcuts_length t H2) as HL.
  destruct (Nat.ltb_spec axis ax) as [L|L].
  - rewrite !nth_remove_lt by auto. apply IH; auto; lia.
  - rewrite !nth_remove_ge by auto. apply IH; auto; lia.
Qed.

(** ** Pieces *)
Lemma dim_pieces r n : map (fun k => length (kpos k n)) (dim_slices maxc true r n) =
  if n * r <=? maxc then [n] else if maxc <? r then repeat 1 n
  else map (fun i => Nat.min (i * (maxc / r) + maxc / r) n - i * (maxc / r)) (seq 0 ((n + maxc / r - 1) / (maxc / r))).
Proof.
  unfold dim_slices. destruct (Nat.leb_spec (n * r) maxc) as [H1|H1].
  { cbn [map]. unfold kpos. rewrite sel_key_full, seq_length. auto. }
  destruct (Nat.ltb_spec maxc r) as [H2|H2].
  - rewrite map_map. rewrite <- (seq_length n 0) at 2. generalize (fun i (H : In i (seq 0 n)) => proj2 (proj1 (in_seq _ _ _) H)). cbn [Nat.add].
    generalize (seq 0 n) as l. induction l as [|i l IH]; intros HB; cbn [map length repeat]; auto. f_equal.
    + specialize (HB i (or_introl eq_refl)). unfold kpos. rewrite sel_key_sl by lia. rewrite seq_length. lia.
    + apply IH. intros j Hj. apply HB. simpl. auto.
  - pose proof (step_pos _ _ _ H1 H2) as Hs. rewrite map_map. apply map_ext_in. intros i Hi. apply in_seq in Hi.
    pose proof (ceil_piece n (maxc / r) i Hs ltac:(lia)). unfold kpos. rewrite sel_key_sl by lia. rewrite seq_length. auto.
Qed.
Lemma one_piece r : map (fun k => length (kpos k 1)) (dim_slices maxc true r 1) = [1].
Proof.
  rewrite dim_pieces. destruct (Nat.leb_spec (1 * r) maxc); auto. destruct (Nat.ltb_spec maxc r); auto. lia.
Qed.
Lemma two_pieces n r : 1 <= n -> n = 1 \/ n * r <= maxc \/ 2 * r <= maxc ->
  exists n1 rest, map (fun k => length (kpos k n)) (dim_slices maxc true r n) = n1 :: rest /\ 1 <= n1
     /\ Forall (fun n => 1 <= n) rest /\ (rest = [] \/ 2 <= n1).
Proof.
  intros Hn H. destruct (Nat.eq_dec n 1) as [->|Hn1]; [rewrite one_piece; exists 1, []; auto|]. rewrite dim_pieces.
  destruct (Nat.leb_spec (n * r) maxc) as [H1|H1]; [exists n, []; auto|].
  assert (H2 : 2 * r <= maxc) by lia. replace (maxc <? r) with false by lia. assert (Hr : 1 <= r) by nia.
  set (q := maxc / r). assert (Hq : 2 <= q) by (apply Nat.div_le_lower_bound; lia).
  assert (Hc : 1 <= (n + q - 1) / q) by (apply Nat.div_le_lower_bound; lia).
  destruct ((n + q - 1) / q) as [|c] eqn:Ec; [lia|]. cbn [seq map]. do 2 eexists. split; [reflexivity|]. cbn [Nat.mul Nat.add]. rewrite Nat.sub_0_r.
  split; [lia|]. split; [|right; lia]. apply Forall_forall. intros x Hx. apply in_map_iff in Hx as (i & <- & Hi). apply in_seq in Hi.
  pose proof (ceil_piece n q i ltac:(lia) ltac:(lia)). lia.
Qed.
Lemma pieces_ok (g : @agg V) n r : piecewise maxc m g n r -> pieces_fine m g (map (fun k => length (kpos k n)) (dim_slices maxc true r n)).
Proof.
  assert (HM : n = 1 \/ 1 <= n /\ n * r <= maxc -> exists n1, map (fun k => length (kpos k n)) (dim_slices maxc true r n) = [n1] /\ 1 <= n1).
  { intros [->|[H1 H2]]; [rewrite one_piece; eauto|]. rewrite dim_pieces. replace (n * r <=? maxc) with true by lia. eauto. }
  destruct g; cbn [piecewise pieces_fine]; auto; (intros [H|H]; [left; auto|right; apply two_pieces; lia]).
Qed.

(** ** Chunks are acceptable keys *)
Lemma chunk_keyok arrs n k : chunk_key n k -> keyok ints arrs k n.
Proof.
  intros [->|(a & b & -> & H1 & H2)]; [apply keyok_full|]. right. split; [exact I|].
  pose proof (sel_key_sl a b n ltac:(lia) H2) as E. unfold sl in *. cbn [sel_key] in E.
  destruct (slice_idx _ n) as [l|]; [|discriminate]. exists l. split; auto. intros ->. injection E as E.
  destruct (b - a) eqn:Eb; [lia|discriminate].
Qed.
Lemma drawn_keyok arrs k sh : Forall2 (@In key) k (all_slices maxc true sh) -> Forall2 (keyok ints arrs) k sh.
Proof.
  revert k. induction sh as [|n sh IH]; intros k H.
  - inversion H. constructor.
  - rewrite all_slices_cons in H. inversion H as [|k0 c ks cs H1 H2]; subst. constructor; auto.
    apply chunk_keyok. pose proof (dim_slices_chunk maxc (prodn sh) n) as HF. rewrite Forall_forall in HF. auto.
Qed.

(** ** Realisable *)
Notation realisable := (realisable maxc m HG).
Notation streamable := (streamable maxc m HG).
Lemma steady_stream f : (forall b arrs, wf b -> steady arrs false f b -> realisable f b) ->
  forall (a : barr) arrs, wf a -> steady arrs true f a -> streamable (realisable f) a.
Proof.
  intros HR a. assert (Hleaf : forall arrs (c : barr), isleaf c -> wf c -> steady arrs true f c ->
     forall k, Forall2 (@In key) k (all_slices maxc true (shape c)) -> okk c k /\ (forall b, getitem c k = Ok b -> realisable f b)).
  { intros arrs c Hl Hw Hs k Hk. apply (drawn_keyok arrs) in Hk.
    assert (Hs' : steady arrs false f c). { destruct c; cbn [Steady.steady isleaf] in *; try contradiction; auto; repeat split; try tauto; discriminate. }
    destruct (steady_get O maxc m HG ints c arrs false f k Hw Hs' Hk) as [K1 K2]. split; auto. intros b Hb.
    destruct (got O HG ints _ _ _ _ Hw K1 Hk Hb) as (s & _ & Wb & _). apply (HR b arrs Wb). apply (K2 b Hb). }
  induction a as [sh v d|o c ks0|a na IH|a dict lead IH|a d IH|a v IH|a axes IH|ssh items IH|tiles axis IH
    |g a axis d IH|o a d IH|o a b0 d IH1 IH2] using barr_ind2; intros arrs Hw Hs; try (cbn [Realisable.streamable]; apply (Hleaf arrs); auto; exact I).
  - destruct Hw as [Hw Hax]. destruct Hs as (Hs & H1 & H2). cbn [Realisable.streamable]. split; [eapply IH; eauto|]. split; auto.
    destruct (cs_shape a Hw) as [T1 T2]. unfold axis_pieces. rewrite cuts_cs, tcuts_nth by (auto; rewrite T1; auto). rewrite T1. apply pieces_ok; auto.
  - destruct Hs as (Hs & H1). cbn [Realisable.streamable]. split; auto. eapply IH; eauto.
  - destruct Hw as (Hw1 & Hw2 & Hsh). destruct Hs as ((Hs1 & Hs2 & Ecs) & H1). cbn [Realisable.streamable]. split; auto.
    split; [eapply IH1; eauto|]. split; [eapply IH2; eauto|]. rewrite !cuts_cs, Ecs. reflexivity.
Qed.
Lemma steady_0 (a : barr) : forall arrs, wf a -> ~ steady arrs false 0 a.
Proof.
  induction a as [sh v d|o c ks0|a na IH|a dict lead IH|a d IH|a v IH|a axes IH|ssh items IH|tiles axis IH
    |g a axis d IH|o a d IH|o a b0 d IH1 IH2] using barr_ind2; intros arrs Hw Hs; cbn [Steady.steady] in Hs.
  - lia.
  - destruct Hs as [Hs _]. lia.
  - eapply IH; eauto. apply Hw.
  - destruct Hs as (_ & _ & Hs). eapply IH; eauto. apply Hw.
  - eapply IH; eauto.
  - eapply IH; eauto.
  - eapply IH; eauto. apply Hw.
  - destruct Hw as (Hne & _ & Hw & _). destruct Hs as (_ & _ & Hs). destruct items as [|it items]; [congruence|]. inversion IH as [|x l IHi _]; subst.
    apply (IHi arrs); [apply Hw|apply Hs].
  - destruct Hw as (Hne & Hw & _). destruct Hs as (_ & _ & Hs). destruct tiles as [|it tiles]; [congruence|]. inversion IH as [|x l IHi _]; subst.
    apply (IHi true); [apply Hw|apply Hs].
  - exact (proj1 Hs).
  - exact (proj1 Hs).
  - exact (proj1 Hs).
Qed.
Theorem steady_realisable f : forall (a : barr) arrs, wf a -> steady arrs false f a -> realisable f a.
Proof.
  induction f as [|f IHf]; [intros a arrs Hw Hs; exfalso; eapply steady_0; eauto|].
  induction a as [sh v d|o c ks0|a na IH|a dict lead IH|a d IH|a v IH|a axes IH|ssh items IH|tiles axis IH
    |g a axis d IH|o a d IH|o a b0 d IH1 IH2] using barr_ind2; intros arrs Hw Hs.
  - exact I.
  - destruct Hs as (_ & _ & _ & H1 & H2). cbn [Realisable.realisable]. split.
    + destruct H1 as [H|[[-> _]|[_ H]]]; auto. right. left. reflexivity.
    + destruct H2 as [H|[H|[_ H]]]; auto.
  - apply (IH arrs); auto. apply Hw.
  - apply (IH arrs); [apply Hw|apply Hs].
  - apply (IH arrs); auto.
  - apply (IH arrs); auto.
  - apply (IH arrs); auto. apply Hw.
  - destruct Hw as (_ & _ & Hw & _). destruct Hs as (_ & _ & Hs). change (fold_right (fun it P => realisable (S f) it /\ P) True items).
    rewrite fold_right_and_Forall in *. rewrite Forall_forall in *. intros it Hit. apply (IH it Hit arrs); [apply Hw; auto|apply Hs; auto].
  - destruct Hw as (_ & Hw & _). destruct Hs as (_ & _ & Hs). change (fold_right (fun it P => realisable (S f) it /\ P) True tiles).
    rewrite fold_right_and_Forall in *. rewrite Forall_forall in *. intros it Hit. apply (IH it Hit true); [apply Hw; auto|apply Hs; auto].
  - destruct Hs as (Hs & Hr). change (streamable (realisable f) (AAgg g a axis d)).
    apply (steady_stream f IHf (AAgg g a axis d) arrs Hw). cbn [Steady.steady]. auto.
  - destruct Hs as (Hs & Hr). split; auto. exact (steady_stream f IHf a arrs Hw Hs).
  - destruct Hs as ((Hs1 & Hs2) & Hr). destruct Hw as (Hw1 & Hw2 & _). split; auto. split; eapply steady_stream; eauto.
Qed.
Lemma steady_streamable f (a : barr) arrs : wf a -> steady arrs true f a -> streamable (realisable f) a.
Proof. intros. eapply steady_stream; eauto. intros; eapply steady_realisable; eauto. Qed.
End SteadyReal.
