(** Footprint: proofs about the memory an evaluation occupies. *)
From Verif Require Import Base Lib PySlice Keys NDArray Arrays Chunks Handlers Realise Spec Supported SelLemmas KeyLemmas GetBase ChunkLemmas HandlerLemmas RealOps Realisable StreamLemmas RealOK BroadcastClaims Compose Kahn Threads ThreadSpec NetLemmas ThreadBuild ThreadNodes ThreadSem FootSpec.

(** ** Slabs: one item of each of the leading dimensions, some of the next, all of
    the others *)
Inductive slab : list nat -> list nat -> Prop :=
| slab_nil : slab [] []
| slab_cut n w sh : 1 <= w -> w <= n -> slab (n :: sh) (w :: sh)
| slab_one n sh c : 1 <= n -> slab sh c -> slab (n :: sh) (1 :: c).
Notation pos := (Forall (fun n => 1 <= n)).

Lemma slab_full sh : pos sh -> slab sh sh.
Proof. destruct sh; intros H; [constructor|]. inversion H; subst. constructor; auto. Qed.
Lemma slab_pos sh c : pos sh -> slab sh c -> pos c.
Proof. intros H S. induction S; auto; inversion H; subst; constructor; auto. Qed.
Lemma slab_len sh c : slab sh c -> length c = length sh.
Proof. induction 1; simpl; auto. Qed.
Lemma pos_prodn sh : pos sh -> 1 <= prodn sh.
Proof. induction 1; simpl; auto. change (1 <= x * prodn l). nia. Qed.
Lemma prodn_cons n sh : prodn (n :: sh) = n * prodn sh.
Proof. reflexivity. Qed.

Lemma pos_remove ax : forall sh, pos sh -> pos (remove_at ax sh).
Proof.
  intros sh H. unfold remove_at. assert (H' := H). rewrite <- (firstn_skipn ax sh) in H. rewrite <- (firstn_skipn (S ax) sh) in H'.
  apply Forall_app in H, H'. apply Forall_app. tauto.
Qed.
Lemma prodn_remove ax : forall c, pos c -> prodn (remove_at ax c) <= prodn c.
Proof.
  intros c H. rewrite <- (firstn_skipn ax c) at 2. unfold remove_at. rewrite !prodn_app. apply Nat.mul_le_mono_l.
  assert (Hs : pos (skipn ax c)) by (rewrite <- (firstn_skipn ax c) in H; apply Forall_app in H; tauto).
  replace (skipn (S ax) c) with (tl (skipn ax c)).
  - destruct Hs as [|x l Hx Hl]; auto. simpl tl. rewrite prodn_cons. pose proof (pos_prodn l Hl). nia.
  - symmetry. apply skipn_S_tl.
Qed.
Lemma slab_remove ax : forall sh c, pos sh -> slab sh c -> ax < length sh -> slab (remove_at ax sh) (remove_at ax c).
Proof.
  induction ax as [|ax IH]; intros sh c HP HS Hax; destruct HS as [|n w sh H1 H2|n sh c H1 HS]; simpl in Hax; try lia; inversion HP; subst.
  - rewrite !remove_at_0. apply slab_full; auto.
  - rewrite !remove_at_0. auto.
  - rewrite !remove_at_S. apply slab_cut; auto.
  - rewrite !remove_at_S. constructor; auto. apply IH; auto. lia.
Qed.

(** *** Broadcasting two slabs of one shape *)
Inductive bd3 : list nat -> list nat -> list nat -> Prop :=
| bd3_nil : bd3 [] [] []
| bd3_cons x y z a b r : bdim x y = Some z -> bd3 a b r -> bd3 (x :: a) (y :: b) (z :: r).
Lemma bd3_app a b r a' b' r' : bd3 a b r -> bd3 a' b' r' -> bd3 (a ++ a') (b ++ b') (r ++ r').
Proof. induction 1; simpl; auto. constructor; auto. Qed.
Lemma bd3_rev a b r : bd3 a b r -> bd3 (rev a) (rev b) (rev r).
Proof. induction 1; simpl; [constructor|]. apply bd3_app; auto. repeat constructor; auto. Qed.
Lemma bshape_rev_bd3 : forall a b r, length a = length b -> bshape_rev a b = Some r -> bd3 a b r.
Proof.
  induction a as [|x a IH]; intros [|y b] r HL H; simpl in HL; try lia; simpl in H.
  - injection H as <-. constructor.
  - destruct (bdim x y) as [z|] eqn:E; [|discriminate]. destruct (bshape_rev a b) as [r'|] eqn:E'; [|discriminate]. injection H as <-.
    constructor; auto.
Qed.
Lemma np_bshape_bd3 a b r : length a = length b -> np_bshape a b = Some r -> bd3 a b r.
Proof.
  unfold np_bshape. intros HL H. destruct (bshape_rev (rev a) (rev b)) as [r'|] eqn:E; [|discriminate]. injection H as <-.
  apply bshape_rev_bd3 in E; [|rewrite !rev_length; auto]. apply bd3_rev in E. rewrite !rev_involutive in E. auto.
Qed.
Lemma bdim_1l n : bdim 1 n = Some n.
Proof. unfold bdim. destruct (Nat.eqb_spec 1 n); subst; auto. Qed.
Lemma bdim_1r n : bdim n 1 = Some n.
Proof. unfold bdim. destruct (Nat.eqb_spec n 1); subst; auto. Qed.
Lemma bdim_same n : bdim n n = Some n.
Proof. unfold bdim. rewrite Nat.eqb_refl. auto. Qed.
Lemma bdim_le w n z : 1 <= w -> w <= n -> bdim w n = Some z -> z = n.
Proof. unfold bdim. intros H1 H2. destruct (Nat.eqb_spec w n); [intros E; injection E; lia|]. destruct (w =? 1); [congruence|]. destruct (Nat.eqb_spec n 1); [lia|discriminate]. Qed.
Lemma bdim_comm a b : bdim a b = bdim b a.
Proof. unfold bdim. destruct (Nat.eqb_spec a b), (Nat.eqb_spec b a); subst; try congruence. destruct (Nat.eqb_spec a 1), (Nat.eqb_spec b 1); subst; congruence. Qed.
Lemma bd3_same sh : forall r, bd3 sh sh r -> r = sh.
Proof. induction sh as [|n sh IH]; intros r H; inversion H; subst; auto. f_equal; auto. rewrite bdim_same in *. congruence. Qed.
Lemma bd3_full_l sh : forall c r, slab sh c -> bd3 sh c r -> r = sh.
Proof.
  induction sh as [|n sh IH]; intros c r S H; inversion S; subst; inversion H; subst; auto.
  - f_equal; [|apply bd3_same; auto]. rewrite bdim_comm in *. eapply bdim_le; [| |eauto]; auto.
  - rewrite bdim_1r in *. f_equal; [congruence|]. eapply IH; eauto.
Qed.
Lemma bd3_comm a b r : bd3 a b r -> bd3 b a r.
Proof. induction 1; constructor; auto. rewrite bdim_comm. auto. Qed.
Lemma slab_bd3 sh : forall a b r, slab sh a -> slab sh b -> bd3 a b r -> r = a \/ r = b.
Proof.
  induction sh as [|n sh IH]; intros a b r SA SB H; inversion SA; subst; inversion SB; subst; inversion H; subst; auto.
  - match goal with X : bdim w w0 = Some _ |- _ => rename X into E end. match goal with X : bd3 sh sh _ |- _ => apply bd3_same in X; subst end. unfold bdim in E. destruct (Nat.eqb_spec w w0) as [->|]; [injection E as <-; auto|].
    destruct (Nat.eqb_spec w 1) as [->|]; [injection E as <-; auto|]. destruct (Nat.eqb_spec w0 1) as [->|]; [injection E as <-; auto|discriminate].
  - rewrite bdim_1r in *. left. f_equal; [congruence|]. eapply bd3_full_l; eauto.
  - rewrite bdim_1l in *. right. f_equal; [congruence|]. eapply bd3_full_l; [|eapply bd3_comm]; eauto.
  - rewrite bdim_1l in *. assert (z = 1) by congruence. subst z. destruct (IH c c0 r0) as [->| ->]; auto.
Qed.

(** *** The blocks of an array *)
Definition extents (ks : list key) (sh : list nat) : list nat := map (fun kn => length (kpos (fst kn) (snd kn))) (combine ks sh).
Lemma kpos_full n : length (kpos KFull n) = n.
Proof. unfold kpos. rewrite sel_key_full, seq_length. auto. Qed.
Lemma kpos_sl a b n : a <= b -> b <= n -> length (kpos (sl a b) n) = b - a.
Proof. intros. unfold kpos. rewrite sel_key_sl, seq_length; auto. Qed.
Lemma slices_slab maxc sh : pos sh -> forall ks, Forall2 (@In key) ks (all_slices maxc true sh) ->
  slab sh (extents ks sh) /\ prodn (extents ks sh) <= Nat.max 1 maxc /\ (prodn sh <= maxc -> extents ks sh = sh).
Proof.
  induction 1 as [|n sh Hn HP IH]; intros ks HK.
  - inversion HK; subst. change (extents [] []) with (@nil nat). split; [constructor|]. split; [change (prodn []) with 1; lia|auto].
  - rewrite all_slices_cons in HK. inversion HK as [|k ? ks' ? Hk HK']; subst. destruct (IH ks' HK') as (S1 & S2 & S3). clear IH HK.
    change (extents (k :: ks') (n :: sh)) with (length (kpos k n) :: extents ks' sh). rewrite !prodn_cons.
    pose proof (pos_prodn sh HP) as Hne. unfold dim_slices in Hk. destruct (Nat.leb_spec (n * prodn sh) maxc) as [H1|H1].
    + destruct Hk as [<-|[]]. rewrite kpos_full, S3 by nia. split; [constructor; auto|]. split; [lia|auto].
    + split; [|split; [|intros; lia]].
      * destruct (Nat.ltb_spec maxc (prodn sh)) as [H2|H2].
        -- apply in_map_iff in Hk as (i & <- & Hi). apply in_seq in Hi. rewrite kpos_sl by lia. replace (i + 1 - i) with 1 by lia. constructor; auto.
        -- rewrite S3 by auto. pose proof (step_pos _ _ _ H1 H2) as Hs. apply in_map_iff in Hk as (i & <- & Hi). apply in_seq in Hi.
           pose proof (ceil_piece n (maxc / prodn sh) i Hs ltac:(lia)). rewrite kpos_sl by lia. constructor; lia.
      * destruct (Nat.ltb_spec maxc (prodn sh)) as [H2|H2].
        -- apply in_map_iff in Hk as (i & <- & Hi). apply in_seq in Hi. rewrite kpos_sl by lia. replace (i + 1 - i) with 1 by lia. lia.
        -- rewrite S3 by auto. pose proof (step_pos _ _ _ H1 H2) as Hs. apply in_map_iff in Hk as (i & <- & Hi). apply in_seq in Hi.
           pose proof (ceil_piece n (maxc / prodn sh) i Hs ltac:(lia)). rewrite kpos_sl by lia.
           assert (maxc / prodn sh * prodn sh <= maxc) by (rewrite Nat.mul_comm; apply Nat.mul_div_le; lia). nia.
Qed.

Section Foot.
Context {V : Type} (O : numops V).
Notation cell := (option V).
Notation barr := (@barr V).
Notation chunk := (list key * nd cell)%type.
Variable maxc : nat.
Variable garbage : list nat -> cell.
Variable rz : barr -> res (nd cell).
Variable m : bool.
Variable dag : list (@entry V).
Variable roots : list nat.
Hypothesis D : dag_ok dag roots.
Hypothesis HS : sized O rz dag.
Variable net : list (node chunk).
Hypothesis HN : network O maxc garbage rz m dag roots = Ok net.
Notation st := (build O dag roots).
Notation wr := (wr O dag roots).

Lemma shape_entry i e : nth_error dag i = Some e -> shape (expr O dag i) =
  match e with EArr a => shape a | EAgg _ s ax _ => remove_at ax (shape (expr O dag s)) | EEl1 _ s _ => shape (expr O dag s) | EEl2 _ s _ _ => shape (expr O dag s) end.
Proof using D maxc. intros He. rewrite (expr_entry O maxc dag i e He) by (intros; apply (proj1 D i e); auto). destruct e; auto. Qed.
Lemma expr_pos : forall i, i < length dag -> pos (shape (expr O dag i)).
Proof using D HS maxc.
  induction i as [i IH] using lt_wf_ind. intros Hi. destruct (nth_error dag i) as [e|] eqn:He; [|apply nth_error_None in He; lia].
  rewrite (shape_entry i e He). pose proof (HS i e He) as HE.
  assert (Hsrc : forall s, In s (entry_srcs e) -> pos (shape (expr O dag s))).
  { intros s Hs. pose proof (proj1 D i e s He Hs). apply IH; auto. lia. }
  destruct e; simpl in Hsrc; auto.
  - tauto.
  - apply pos_remove. auto.
Qed.
Lemma wants_perm i o : wants O dag roots i o -> perm o (ndim (expr O dag i)).
Proof using D HS maxc.
  induction 1 as [r Hr|i o e s H IH He Hs]; [apply perm_seq|]. unfold ndim in *. rewrite (shape_entry i e He) in IH. pose proof (HS i e He) as HE.
  destruct e as [a|g s0 ax d|f s0 d|f s1 s2 d]; cbn [entry_srcs] in Hs; cbn [src_order].
  - destruct Hs.
  - destruct Hs as [<-|[]]. unfold ndim in HE. rewrite remove_at_length in IH by auto.
    replace (length (shape (expr O dag s0))) with (S (pred (length (shape (expr O dag s0))))) by lia. apply input_order_perm; auto. lia.
  - destruct Hs as [<-|[]]. auto.
  - destruct Hs as [<-|[<-|[]]]; auto. rewrite <- HE. auto.
Qed.

(** What is true of the chunks of entry [i]. *)
Definition fits (i : nat) (c : chunk) : Prop := slab (shape (expr O dag i)) (nshape (snd c)) /\ size c <= Nat.max 1 maxc.

Lemma source_fits i a o k b d : nth_error dag i = Some (EArr a) -> perm o (ndim a) -> In k (chunk_index_gen maxc (shape a) o) ->
  getitem a k = Ok b -> rz b = Ok d -> fits i (k, d).
Proof using D HS maxc.
  intros He HP Hk Hb Hd. destruct (HS i _ He) as [Hpos Hh].
  destruct (gen_keys_drawn maxc (fun _ => @None V) (all_slices maxc true (shape a)) (shape a) o (all_slices_good maxc (shape a)) HP k Hk) as (HL & HI & HF).
  assert (HB : block k (shape a)).
  { apply Forall2_nth_intro with (da := KBad) (db := 0); auto. intros j Hj. destruct (good_cuts_nth _ _ j (all_slices_good maxc (shape a)) ltac:(lia)) as (_ & HC & _).
    rewrite Forall_forall in HC. apply HC. apply HI. lia. }
  pose proof (Hh k b d HB Hb Hd) as E. fold (extents k (shape a)) in E. destruct (slices_slab maxc (shape a) Hpos k HF) as (S1 & S2 & _).
  unfold fits, size. cbn [snd]. rewrite E, (shape_entry i _ He). auto.
Qed.

(** *** Aggregation *)
Lemma agg_step_shape h axis n cur c r : agg_step (V := V) h axis n cur c = Ok r ->
  exists k s1, fst r = Some (k, s1) /\ nshape s1 = remove_at axis (nshape (snd c)) /\
    match snd r with Some c' => exists k0 s0, cur = Some (k0, s0) /\ nshape (snd c') = nshape s0 | None => True end.
Proof using.
  unfold agg_step. cbv zeta. intros H.
  match type of H with (bind (agg_process _ _ ?s _) _) = _ => destruct (agg_process h axis s (snd c)) as [s1|] eqn:E; [|discriminate]; assert (Hs : nshape s1 = remove_at axis (nshape (snd c))) end.
  { unfold agg_process in E. destruct (shape_eqb _ _) eqn:Q; [|discriminate]. apply shape_eqb_eq in Q. cbn [negb] in E. destruct (hbad _ _ _); [discriminate|]. injection E as <-. exact Q. }
  cbn [bind] in H. injection H as <-. cbn [fst snd]. do 2 eexists. split; [reflexivity|]. split; auto.
  destruct cur as [[k0 s0]|]; auto. destruct (keys_eqb _ _); auto. exists k0, s0. auto.
Qed.
Lemma agg_run_shape (P : list nat -> Prop) h axis n cs : forall cur lst r,
  Forall (fun c : chunk => P (remove_at axis (nshape (snd c)))) cs ->
  match cur with Some (_, s0) => P (nshape s0) | None => True end ->
  match lst with Some c' => P (nshape (snd c')) | None => True end ->
  agg_run (V := V) h axis n cur lst cs = Ok r ->
  match fst r with Some (_, s0) => P (nshape s0) | None => True end /\ match snd r with Some c' => P (nshape (snd c')) | None => True end.
Proof using.
  induction cs as [|c cs IH]; intros cur lst r HF H1 H2 H; cbn [agg_run] in H.
  - injection H as <-. auto.
  - destruct (agg_step h axis n cur c) as [r1|] eqn:E; [|discriminate]. cbn [bind] in H. inversion HF; subst.
    destruct (agg_step_shape _ _ _ _ _ _ E) as (k & s1 & E1 & E2 & E3). eapply IH; [| | |exact H]; auto.
    + rewrite E1, E2. auto.
    + destruct (snd r1) as [c'|]; auto. destruct E3 as (k0 & s0 & -> & ->). auto.
Qed.
Lemma fits_removed i g s axis d c : nth_error dag i = Some (EAgg g s axis d) -> fits s c ->
  slab (shape (expr O dag i)) (remove_at axis (nshape (snd c))) /\ prodn (remove_at axis (nshape (snd c))) <= Nat.max 1 maxc.
Proof using D HS maxc.
  intros He [S1 S2]. assert (Hs : s < length dag). { pose proof (proj1 D i _ s He (or_introl eq_refl)). assert (i < length dag) by (apply nth_error_Some; congruence). lia. }
  pose proof (expr_pos s Hs) as HP. pose proof (HS i _ He) as Hax. cbn in Hax. rewrite (shape_entry i _ He). split.
  - apply slab_remove; auto.
  - unfold size in S2. etransitivity; [apply prodn_remove|exact S2]. eapply slab_pos; eauto.
Qed.

Definition rows_fit (e : @entry V) (hist : list (list chunk)) : Prop :=
  forall row p c s, In row hist -> nth_error row p = Some c -> nth_error (entry_srcs e) p = Some s -> fits s c.
Lemma op2_fits s (c c' : chunk) f d : fits s c -> slab (shape (expr O dag s)) (nshape (snd c')) -> size c' <= Nat.max 1 maxc ->
  np_op2 f (snd c) (snd c') = Ok d -> slab (shape (expr O dag s)) (nshape (d : nd cell)) /\ prodn (nshape d) <= Nat.max 1 maxc.
Proof using.
  intros [S1 S2] S3 S4 H. unfold np_op2 in H. destruct (np_bshape _ _) as [r|] eqn:E; [|discriminate]. injection H as <-. cbn [nshape].
  apply np_bshape_bd3 in E; [|rewrite (slab_len _ _ S1), (slab_len _ _ S3); auto].
  destruct (slab_bd3 _ _ _ _ S1 S3 E) as [-> | ->]; auto.
Qed.
Lemma cons_fits i e em fin ins os hist c : nth_error dag i = Some e -> entry_node O maxc rz m dag st i e = Ok (NCons em fin ins os) ->
  rows ins hist -> rows_fit e hist -> em hist = Ok (Some c) \/ fin hist = Ok (Some c) -> fits i c.
Proof using D HS maxc.
  intros He Hen Hr Hf Hc. unfold entry_node in Hen. destruct (nth i (fst st) None) as [o|]; [|discriminate].
  destruct e as [a|g s ax d|f s d|f s1 s2 d]; [discriminate| | |].
  - injection Hen as <- <- <- _.
    assert (HF : Forall (fun c : chunk => slab (shape (expr O dag i)) (remove_at ax (nshape (snd c))) /\ prodn (remove_at ax (nshape (snd c))) <= Nat.max 1 maxc) (concat hist)).
    { apply Forall_forall. intros x Hx. apply in_concat in Hx as (row & Hrow & Hx). apply (fits_removed i g s ax d x He).
      unfold rows in Hr. rewrite Forall_forall in Hr. specialize (Hr row Hrow). destruct row as [|y [|? ?]]; simpl in Hr; try lia. destruct Hx as [<-|[]].
      apply (Hf [y] 0 y s Hrow); auto. }
    assert (HQ : forall r, agg_run (handler_of O m g) ax (nth ax (shape (expr O dag s)) 0) None None (concat hist) = Ok r ->
      match fst r with Some (_, s0) => slab (shape (expr O dag i)) (nshape s0) /\ prodn (nshape s0) <= Nat.max 1 maxc | None => True end /\
      match snd r with Some c' => slab (shape (expr O dag i)) (nshape (snd c')) /\ prodn (nshape (snd c')) <= Nat.max 1 maxc | None => True end).
    { intros r. apply (agg_run_shape (fun sh => slab (shape (expr O dag i)) sh /\ prodn sh <= Nat.max 1 maxc)); auto. }
    unfold agg_emit, agg_fin in Hc. destruct (agg_run _ _ _ None None (concat hist)) as [r|]; [|destruct Hc; discriminate]. specialize (HQ r eq_refl). cbn [bind] in Hc.
    destruct Hc as [Hc|Hc].
    + injection Hc as Hc. rewrite Hc in HQ. apply HQ.
    + destruct (fst r) as [[k s0]|]; [|discriminate]. injection Hc as <-. apply HQ.
  - destruct (op1_fun m f) as [f1|]; [|discriminate]. injection Hen as <- <- <- _. destruct Hc as [Hc|Hc]; [|discriminate].
    unfold el1_emit in Hc. destruct hist as [|r0 h0] using rev_ind; [discriminate|]. rewrite last_snoc in Hc. destruct r0 as [|x [|? ?]]; try discriminate. injection Hc as <-.
    destruct (Hf [x] 0 x s) as [S1 S2]; auto; [apply in_or_app; right; left; auto|]. unfold fits, size in *. cbn [snd nd_map nshape]. rewrite (shape_entry i _ He). auto.
  - destruct (op2_fun m f) as [f2|]; [|discriminate]. injection Hen as <- <- <- _. destruct Hc as [Hc|Hc]; [|discriminate].
    unfold el2_emit in Hc. destruct hist as [|r0 h0] using rev_ind; [discriminate|]. rewrite last_snoc in Hc. destruct r0 as [|x [|y [|? ?]]]; try discriminate.
    destruct (np_op2 f2 (snd x) (snd y)) as [d0|] eqn:E; [|discriminate]. cbn [bind] in Hc. injection Hc as <-.
    pose proof (Hf [x; y] 0 x s1 ltac:(apply in_or_app; right; left; auto) eq_refl eq_refl) as F1.
    pose proof (Hf [x; y] 1 y s2 ltac:(apply in_or_app; right; left; auto) eq_refl eq_refl) as [F2 F3].
    pose proof (HS i _ He) as Hsh. cbn in Hsh. rewrite <- Hsh in F2. unfold fits, size. cbn [snd]. rewrite (shape_entry i _ He). eapply op2_fits; eauto.
Qed.

Lemma oks_in (items : list (res chunk)) c : In c (oks items) -> In (Ok c) items.
Proof using. induction items as [|[x|] items IH]; simpl; try tauto. intros [->|]; auto. Qed.
Lemma firstn_in {A} k (l : list A) x : In x (firstn k l) -> In x l.
Proof using. intros. rewrite <- (firstn_skipn k l). apply in_or_app; auto. Qed.
Lemma emitted_in (e : list (list chunk) -> res (option chunk)) hist c : In c (emitted e hist) -> exists r, e (firstn r hist) = Ok (Some c).
Proof using. unfold emitted. intros H. apply in_flat_map in H as (r & _ & H). exists r. destruct (e (firstn r hist)) as [[x|]|]; simpl in H; try tauto. destruct H as [->|[]]; auto. Qed.
Lemma chunk_in (c : chunk) l : In (MChunk c) (map MChunk l) -> In c l.
Proof using. intros H. apply in_map_iff in H as (x & E & H). congruence. Qed.

Variable s : gstate (msg chunk) (loc chunk).
Hypothesis HI : inv net (queues dag roots) wr s.
Notation W := (network_wired O maxc garbage rz m dag roots D net HN).

Definition hist_of (l : loc chunk) : list (list chunk) := match core l with LGet h _ | LHalt _ h _ => h | _ => [] end.
Definition got_of (l : loc chunk) : list (msg chunk) := match core l with LGet _ g | LHalt _ _ g => g | _ => [] end.
Lemma taken_eq (l : loc chunk) : taken l = hist_of l.
Proof using. unfold hist_of. induction l; cbn [taken core]; auto. Qed.
Lemma recvd_eq (l : loc chunk) p : recvd l p = match core l with LGet h g | LHalt _ h g => map MChunk (colm p h) ++ optl (nth_error g p) | _ => [] end.
Proof using. reflexivity. Qed.

Lemma due_fits : forall i n l c, nth_error net i = Some n -> nth_error (fst s) i = Some l -> In (MChunk c) (due n l) -> fits i c.
Proof using All.
  induction i as [i IH] using lt_wf_ind. intros n l c En El Hc.
  assert (HL : lok n l) by (apply (i_loc _ _ _ _ HI i); auto).
  destruct (net_cases O maxc garbage rz m dag roots net HN i n En) as [(e & He & Hen)|(j & r & -> & Hr & ->)].
  - destruct n as [items os|em fin ins os].
    + assert (Hin : In (Ok c) items).
      { unfold due in Hc. destruct (core l); try (destruct Hc; fail).
        - apply chunk_in, oks_in, firstn_in in Hc. auto.
        - apply in_app_or in Hc as [Hc|Hc]; [apply chunk_in, oks_in in Hc; auto|]. destruct ok; destruct Hc as [Hc|[]]; discriminate. }
      unfold entry_node in Hen. destruct (nth i (fst st) None) as [o|] eqn:Eo.
      * destruct e as [a|g s0 ax d|f s0 d|f s1 s2 d]; try discriminate;
          [|destruct (op1_fun m f); discriminate|destruct (op2_fun m f); discriminate].
        injection Hen as <- _. apply in_map_iff in Hin as (k & Ek & Hk). destruct (getitem a k) as [b|] eqn:Eb; [|discriminate].
        cbn [bind] in Ek. destruct (rz b) as [d|] eqn:Ed; [|discriminate]. cbn [bind] in Ek. injection Ek as <-.
        eapply source_fits; eauto. pose proof (wants_perm i o (b_wants O dag roots _ _ (build_ok O garbage dag roots D) i o Eo)) as HP.
        rewrite (expr_entry O maxc dag i _ He) in HP by (intros; apply (proj1 D i _ _ He); auto). auto.
      * injection Hen as <- _. destruct Hin.
    + destruct HL as [HC _]. assert (Hq : nth i (fst st) None <> None) by (unfold entry_node in Hen; destruct (nth i (fst st) None); [discriminate|discriminate]).
      assert (HR : forall p c', In (MChunk c') (recvd l p) -> forall s0, nth_error (entry_srcs e) p = Some s0 -> fits s0 c').
      { intros p c' Hc' s0 Hs0. destruct (entry_outs O maxc rz m dag roots i e _ Hen) as [[Ho _]|(_ & _ & Hins)]; [congruence|].
        assert (Hp : nth_error (ins_of (NCons em fin ins os)) p = Some (2 * i + p)).
        { rewrite Hins. rewrite nth_error_map. assert (p < length (entry_srcs e)) by (apply nth_error_Some; congruence).
          rewrite (nth_error_nth' _ 0) by (rewrite seq_length; auto). rewrite seq_nth by auto. reflexivity. }
        pose proof (wr_entry O garbage dag roots D i e p s0 Hq He Hs0) as Hw.
        destruct (w_in _ _ _ _ W i _ (2 * i + p) En (nth_error_In _ _ Hp)) as (_ & _ & Hlt & nw & Enw & _).
        destruct (nth_error (fst s) (wr (2 * i + p))) as [lw|] eqn:Elw.
        - pose proof (i_queue _ _ _ _ HI i _ l p _ nw lw En El Hp Enw Elw) as HQ. rewrite <- Hw. apply (IH _ Hlt nw lw); auto. rewrite HQ. apply in_or_app; auto.
        - apply nth_error_None in Elw. rewrite (i_len _ _ _ _ HI) in Elw. assert (wr (2 * i + p) < length net) by (apply nth_error_Some; congruence). lia. }
      assert (HF : rows_fit e (hist_of l)).
      { intros row p c' s0 Hrow Hc' Hs0. apply (HR p); auto. rewrite recvd_eq. unfold hist_of in Hrow.
        assert (HX : forall h, In row h -> In (MChunk c') (map MChunk (colm p h))).
        { intros h Hh. apply in_map. unfold colm. apply in_flat_map. exists row. split; auto. rewrite Hc'. left; auto. }
        destruct (core l); try (destruct Hrow; fail); apply in_or_app; left; auto. }
      assert (HR2 : rows ins (hist_of l)). { unfold hist_of. unfold coreok in HC. destruct (core l) as [?|? ?|? ? ?|[] ? ?]; try (destruct HC; fail); tauto. }
      assert (HF1 : forall k, rows_fit e (firstn k (hist_of l))) by (intros k row p c' s0 Hrow; apply (HF row); eapply firstn_in; eauto).
      assert (HR3 : forall k, rows ins (firstn k (hist_of l))). { intros k. unfold rows in *. rewrite Forall_forall in *. intros x Hx. apply HR2. eapply firstn_in; eauto. }
      assert (HE : In c (emitted em (hist_of l)) \/ fin (hist_of l) = Ok (Some c)).
      { unfold due in Hc. unfold hist_of. destruct (core l) as [?|h g|? ? ?|[] h g]; try (destruct Hc; fail).
        - left. apply chunk_in; auto.
        - apply in_app_or in Hc as [Hc|[Hc|[]]]; [|discriminate]. apply chunk_in in Hc. apply in_app_or in Hc as [Hc|Hc]; auto.
          right. unfold opt in Hc. destruct (fin h) as [[x|]|]; try (destruct Hc; fail). destruct Hc as [->|[]]; auto.
        - apply in_app_or in Hc as [Hc|[Hc|[]]]; [|discriminate]. left. apply chunk_in; auto. }
      destruct HE as [HE|HE].
      * apply emitted_in in HE as (k & HE). eapply (cons_fits i e em fin ins os (firstn k (hist_of l))); eauto.
      * eapply (cons_fits i e em fin ins os (hist_of l)); eauto.
  - exfalso. assert (HE : forall h x, sink_emit garbage (shape (expr O dag r)) h <> Ok (Some x)).
    { intros h x. unfold sink_emit. destruct (stored garbage (shape (expr O dag r)) h); discriminate. }
    assert (HM : forall h, ~ In c (emitted (sink_emit garbage (shape (expr O dag r))) h)). { intros h Hin. apply emitted_in in Hin as (k & Hk). eapply HE; eauto. }
    unfold due, sink_node in Hc. destruct (core l) as [?|h g|? ? ?|[] h g]; try (destruct Hc; fail).
    + apply chunk_in in Hc. eapply HM; eauto.
    + apply in_app_or in Hc as [Hc|[Hc|[]]]; [|discriminate]. apply chunk_in in Hc. apply in_app_or in Hc as [Hc|Hc]; [eapply HM; eauto|]. destruct Hc.
    + apply in_app_or in Hc as [Hc|[Hc|[]]]; [|discriminate]. apply chunk_in in Hc. eapply HM; eauto.
Qed.
Lemma recv_fits i n l p c : nth_error net i = Some n -> nth_error (fst s) i = Some l -> p < length (ins_of n) -> In (MChunk c) (recvd l p) ->
  exists w, w < length dag /\ fits w c.
Proof using All.
  intros En El Hp Hc. destruct (nth_error (ins_of n) p) as [q|] eqn:Eq; [|apply nth_error_None in Eq; lia].
  destruct (w_in _ _ _ _ W i _ q En (nth_error_In _ _ Eq)) as (_ & _ & Hlt & nw & Enw & Hout).
  destruct (nth_error (fst s) (wr q)) as [lw|] eqn:Elw.
  - pose proof (i_queue _ _ _ _ HI i _ l p _ nw lw En El Eq Enw Elw) as HQ. exists (wr q). split.
    { destruct (net_cases O maxc garbage rz m dag roots net HN (wr q) nw Enw) as [(e & He & _)|(j & r & _ & _ & ->)]; [apply nth_error_Some; congruence|destruct Hout]. }
    apply (due_fits _ nw lw); auto. rewrite HQ. apply in_or_app; auto.
  - apply nth_error_None in Elw. rewrite (i_len _ _ _ _ HI) in Elw. assert (wr q < length net) by (apply nth_error_Some; congruence). lia.
Qed.
Lemma queue_fits i n p q c : nth_error net i = Some n -> nth_error (ins_of n) p = Some q -> In (MChunk c) (nth q (snd s) []) -> exists w, fits w c.
Proof using All.
  intros En Eq Hc. destruct (w_in _ _ _ _ W i _ q En (nth_error_In _ _ Eq)) as (_ & _ & Hlt & nw & Enw & _).
  assert (exists l, nth_error (fst s) i = Some l) as (l & El).
  { destruct (nth_error (fst s) i) eqn:E; eauto. apply nth_error_None in E. rewrite (i_len _ _ _ _ HI) in E. assert (i < length net) by (apply nth_error_Some; congruence). lia. }
  destruct (nth_error (fst s) (wr q)) as [lw|] eqn:Elw.
  - pose proof (i_queue _ _ _ _ HI i _ l p _ nw lw En El Eq Enw Elw) as HQ. exists (wr q). apply (due_fits _ nw lw); auto. rewrite HQ. apply in_or_app; right. apply in_or_app; auto.
  - apply nth_error_None in Elw. rewrite (i_len _ _ _ _ HI) in Elw. assert (wr q < length net) by (apply nth_error_Some; congruence). lia.
Qed.
End Foot.

(** ** Local facts *)
Section Local.
Context {V : Type}.
Notation chunk := (list key * nd (option V))%type.
Notation node := (node chunk). Notation loc := (loc chunk). Notation msg := (msg chunk).
Variable net : list node.
Variable nq : nat.
Variables wr rd : nat -> nat.
Hypothesis W : wired net nq wr rd.

Definition from_items (n : node) (l : loc) : Prop :=
  match n with
  | NProd items _ => match l with LPut (MChunk c) _ _ => In (Ok c) items | _ => True end /\
                     match core l with LHalt _ h g => h = [] /\ g = [] | _ => True end
  | NCons _ _ _ _ => True
  end.
Lemma from_items_next n l : lok n l -> from_items n l ->
  match node_next n l with
  | ATau l' | APut _ _ l' => from_items n l'
  | AGet _ k => forall m, from_items n (k m)
  | AHalt => True
  end.
Proof using.
  intros [HC HSh] HF. destruct n as [items os|em fin ins os].
  - destruct l as [rest|h g|m j k|ok h g]; cbn [node_next].
    + destruct HC as [cs Hcs]. destruct rest as [|[c|e] rest]; simpl; split; auto. rewrite Hcs. apply in_or_app. right. left. auto.
    + destruct HC.
    + destruct HF as [F1 F2]. destruct (nth_error (outs_of (NProd items os)) j); [split; auto|]. cbn [core] in F2.
      split; auto. destruct k as [| |[]|]; auto; destruct m; cbn [shaped] in HSh; tauto.
    + auto.
  - destruct (node_next (NCons em fin ins os) l); simpl; auto.
Qed.
Definition small (s : gstate msg loc) : Prop :=
  (forall i n l, nth_error net i = Some n -> nth_error (fst s) i = Some l -> from_items n l) /\
  (forall q, length (nth q (snd s) []) <= 3) /\
  (forall q, nth q (snd s) [] <> [] -> exists i n, nth_error net i = Some n /\ In q (outs_of n)).
Lemma node_put (n : node) l q x l' : node_next n l = APut q x l' -> In q (outs_of n).
Proof using.
  destruct n as [items os|em fin ins os], l as [[|[] ?]|h g|y j k|b h g]; cbn [node_next]; try discriminate.
  - destruct (nth_error _ j) eqn:E; [|discriminate]. intros H. injection H as <- <- <-. eapply nth_error_In; eauto.
  - destruct (nth_error _ _); discriminate.
  - destruct (nth_error _ j) eqn:E; [|discriminate]. intros H. injection H as <- <- <-. eapply nth_error_In; eauto.
Qed.
Lemma small_step i s s' : inv net nq wr s -> small s -> fire (net_next net) bounded i s = Some s' -> small s'.
Proof using W.
  destruct s as [ls qs]. intros HI (S1 & S2 & S3). unfold fire. cbn [fst snd] in *. destruct (nth_error ls i) as [l|] eqn:El; [|discriminate].
  unfold net_next. destruct (nth_error net i) as [n|] eqn:En; [|discriminate].
  pose proof (i_loc _ _ _ _ HI i n l En El) as HL. pose proof (from_items_next n l HL (S1 i n l En El)) as HN.
  assert (Bi : i < length ls) by (apply nth_error_Some; congruence).
  assert (HX : forall l', from_items n l' -> forall j n' l2, nth_error net j = Some n' -> nth_error (set_nth i l' ls) j = Some l2 -> from_items n' l2).
  { intros l' Hl' j n' l2 Hn' Hl2. destruct (Nat.eq_dec j i) as [->|Hji].
    - rewrite nth_error_set_eq in Hl2 by auto. replace l2 with l' by congruence. replace n' with n by congruence. auto.
    - rewrite nth_error_set_neq in Hl2 by auto. eapply S1; eauto. }
  destruct (node_next n l) as [|l2|q m l2|q k] eqn:Ea; [discriminate| | |].
  - intros E. injection E as <-. split; [|split]; cbn [fst snd]; auto. apply HX; auto.
  - destruct (bounded _) eqn:Eb; [|discriminate]. intros E. injection E as <-. split; [|split]; cbn [fst snd]; [apply HX; auto| |].
    2:{ intros q' Hq'. destruct (Nat.eq_dec q' q) as [->|Hq]; [|rewrite nth_set_nth_neq in Hq' by auto; auto]. exists i, n. split; auto. eapply node_put; eauto. }
    intros q'. unfold bounded in Eb. apply Nat.ltb_lt in Eb. destruct (Nat.eq_dec q' q) as [->|Hq]; [|rewrite nth_set_nth_neq by auto; auto].
    destruct (Nat.lt_ge_cases q (length qs)).
    + rewrite nth_set_nth_eq by auto. rewrite app_length. simpl. lia.
    + rewrite nth_overflow by (rewrite set_nth_length; auto). simpl. lia.
  - destruct (nth q qs []) as [|m r] eqn:Eq; [discriminate|]. intros E. injection E as <-. split; [|split]; cbn [fst snd]; [apply HX; auto| |].
    2:{ intros q' Hq'. destruct (Nat.eq_dec q' q) as [->|Hq]; [|rewrite nth_set_nth_neq in Hq' by auto; auto]. apply S3. rewrite Eq. discriminate. }
    intros q'. destruct (Nat.eq_dec q' q) as [->|Hq]; [|rewrite nth_set_nth_neq by auto; auto].
    destruct (Nat.lt_ge_cases q (length qs)).
    + rewrite nth_set_nth_eq by auto. specialize (S2 q). rewrite Eq in S2. simpl in S2. lia.
    + rewrite nth_overflow by (rewrite set_nth_length; auto). simpl. lia.
Qed.
Lemma small_reach k s : steps (net_next net) bounded k (net0 net nq) s -> small s /\ inv net nq wr s.
Proof using W.
  assert (H0 : small (net0 net nq)).
  { assert (HQ : forall q, nth q (repeat (@nil msg) nq) [] = []). { intros q. destruct (Nat.lt_ge_cases q nq); [apply nth_repeat|apply nth_overflow; rewrite repeat_length; auto]. }
    split; [|split].
    - intros i n l Hn Hl. simpl in Hl. rewrite nth_error_map, Hn in Hl. injection Hl as <-. destruct n; simpl; auto.
    - intros q. simpl. rewrite HQ. simpl. lia.
    - intros q Hq. simpl in Hq. rewrite HQ in Hq. congruence. }
  pose proof (inv0 net nq wr) as H1. intros H. revert H0 H1. generalize (net0 net nq) as s0, H. clear H.
  intros s0 H. induction H as [s0|k i s0 s1 s2 Hf Hs IH]; auto. intros H0 H1. apply IH.
  - eapply small_step; eauto.
  - eapply inv_step; eauto.
Qed.

(** What a thread holds was received or is to be sent, and is at most four chunks. *)
Lemma held_count n l : lok n l -> from_items n l -> length (ins_of n) <= 2 -> length (held n l) <= 4.
Proof using.
  assert (HG : forall g : list msg, length (chunks g) <= length g).
  { intros g. unfold chunks. induction g as [|[c| |] g IH]; simpl; lia. }
  assert (HP : forall (items : list (res chunk)) os (rest : list (res chunk)), length (held (NProd items os) (LProd rest)) <= 1).
  { intros. cbn [held]. destruct (last _ _); simpl; lia. }
  assert (HL : forall ins (h : list (list chunk)), rows ins h -> length (last h []) <= length ins).
  { intros ins h Hr. destruct h as [|r h] using rev_ind; [simpl; lia|]. rewrite last_snoc. apply Forall_app in Hr as [_ Hr]. inversion Hr; subst. lia. }
  intros [HC HS] HF Hi. destruct n as [items os|em fin ins os].
  - destruct l as [rest|h g|m j k|ok h g].
    + specialize (HP items os rest). lia.
    + destruct HC.
    + destruct HF as [_ F]. cbn [held]. rewrite app_length. assert (length (chunk_of m) <= 1) by (destruct m; simpl; lia).
      destruct k as [rest|h g|m' j' k'|ok h g]; cbn [shaped core] in *.
      * specialize (HP items os rest). lia.
      * destruct HC.
      * destruct m; try tauto. destruct m'; try tauto. destruct j'; try tauto. destruct k' as [| | |[] h g]; try tauto. cbn [core] in F. destruct F as [-> ->]. simpl. lia.
      * destruct F as [-> ->]. simpl. lia.
    + destruct HF as [_ F]. cbn [core] in F. destruct F as [-> ->]. simpl. lia.
  - cbn [ins_of] in Hi. destruct l as [rest|h g|m j k|ok h g].
    + destruct HC.
    + cbn [coreok core] in HC. destruct HC as (Hr & Hg & _). cbn [held]. rewrite app_length. specialize (HG g). specialize (HL ins h Hr). lia.
    + cbn [held]. rewrite app_length. assert (length (chunk_of m) <= 1) by (destruct m; simpl; lia).
      destruct k as [rest|h g|m' j' k'|ok h g]; cbn [shaped core] in *.
      * destruct HC.
      * destruct m; try tauto. destruct g; try tauto. destruct HC as (Hr & _). cbn [held]. rewrite app_length. specialize (HL ins h Hr). simpl. lia.
      * destruct m; try tauto. destruct m'; try tauto. destruct j'; try tauto. destruct k' as [| | |[] h g]; try tauto. cbn [core coreok] in HC. cbn [held chunk_of app]. specialize (HG g). simpl in *. lia.
      * cbn [held]. specialize (HG g). destruct ok; cbn [coreok] in HC; [lia|]. destruct HC as (_ & [(Hg & _)|(-> & _)]); simpl in *; lia.
    + cbn [held]. specialize (HG g). cbn [core] in HC. destruct ok; cbn [coreok] in HC; [lia|]. destruct HC as (_ & [(Hg & _)|(-> & _)]); simpl in *; lia.
Qed.
End Local.

(** ** All together *)
Section Whole.
Context {V : Type} (O : numops V).
Notation cell := (option V).
Notation barr := (@barr V).
Notation chunk := (list key * nd cell)%type.
Variable maxc : nat.
Variable garbage : list nat -> cell.
Variable rz : barr -> res (nd cell).
Variable m : bool.
Variable dag : list (@entry V).
Variable roots : list nat.
Hypothesis D : dag_ok dag roots.
Hypothesis HS : sized O rz dag.
Variable net : list (node chunk).
Hypothesis HN : network O maxc garbage rz m dag roots = Ok net.
Variable s : gstate (msg chunk) (loc chunk).
Hypothesis HR : reached net dag roots s.
Notation W := (network_wired O maxc garbage rz m dag roots D net HN).
Notation ok c := (size c <= Nat.max 1 maxc).

Lemma reach_small : small net s /\ inv net (queues dag roots) (wr O dag roots) s.
Proof using All. destruct HR as (k & Hk). eapply small_reach; [exact W|exact Hk]. Qed.
Lemma ins_short i n : nth_error net i = Some n -> length (ins_of n) <= 2.
Proof using All.
  intros Hn. destruct (net_cases O maxc garbage rz m dag roots net HN i n Hn) as [(e & He & Hen)|(j & r & -> & Hr & ->)]; [|simpl; lia].
  destruct (entry_outs O maxc rz m dag roots i e n Hen) as [[_ ->]|(_ & _ & ->)]; [simpl; lia|]. rewrite map_length, seq_length. apply srcs_short.
Qed.
Lemma due_ok i n l c : nth_error net i = Some n -> nth_error (fst s) i = Some l -> In (MChunk c) (due n l) -> ok c.
Proof using All. intros H1 H2 H3. destruct reach_small as [_ HI]. destruct (due_fits O maxc garbage rz m dag roots D HS net HN s HI i n l c H1 H2 H3). auto. Qed.
Lemma items_ok i items os c : nth_error net i = Some (NProd items os) -> In (Ok c) items -> ok c.
Proof using All.
  intros Hn Hin. destruct (net_cases O maxc garbage rz m dag roots net HN i _ Hn) as [(e & He & Hen)|(j & r & -> & Hr & E)]; [|discriminate].
  unfold entry_node in Hen. destruct (nth i (fst (build O dag roots)) None) as [o|] eqn:Eo.
  - destruct e as [a|g s0 ax d|f s0 d|f s1 s2 d]; try discriminate; [|destruct (op1_fun m f); discriminate|destruct (op2_fun m f); discriminate].
    injection Hen as <- _. apply in_map_iff in Hin as (k & Ek & Hk). destruct (getitem a k) as [b|] eqn:Eb; [|discriminate].
    cbn [bind] in Ek. destruct (rz b) as [d|] eqn:Ed; [|discriminate]. cbn [bind] in Ek. injection Ek as <-.
    pose proof (wants_perm O maxc rz dag roots D HS i o (b_wants O dag roots _ _ (build_ok O garbage dag roots D) i o Eo)) as HP.
    rewrite (expr_entry O maxc dag i _ He) in HP by (intros; apply (proj1 D i _ _ He); auto).
    destruct (source_fits O maxc rz dag roots D HS i a o k b d He HP Hk Eb Ed). auto.
  - injection Hen as <- _. destruct Hin.
Qed.
Lemma row_ok i n l row p c : nth_error net i = Some n -> nth_error (fst s) i = Some l -> rows (ins_of n) (hist_of l) ->
  In row (hist_of l) -> nth_error row p = Some c -> ok c.
Proof using All.
  intros Hn Hl Hr Hrow Hc. destruct reach_small as [_ HI].
  assert (Hp : p < length (ins_of n)). { unfold rows in Hr. rewrite Forall_forall in Hr. rewrite <- (Hr row Hrow). apply nth_error_Some. congruence. }
  destruct (recv_fits O maxc garbage rz m dag roots D HS net HN s HI i n l p c Hn Hl Hp) as (w & _ & _ & H); auto.
  rewrite recvd_eq. unfold hist_of in Hrow.
  assert (HX : forall h, In row h -> In (MChunk c) (map MChunk (colm p h))).
  { intros h Hh. apply in_map. unfold colm. apply in_flat_map. exists row. split; auto. rewrite Hc. left; auto. }
  destruct (core l); try (destruct Hrow; fail); apply in_or_app; left; auto.
Qed.
Lemma got_ok i n l c : nth_error net i = Some n -> nth_error (fst s) i = Some l -> length (got_of l) <= length (ins_of n) ->
  In c (chunks (got_of l)) -> ok c.
Proof using All.
  intros Hn Hl Hg Hc. destruct reach_small as [_ HI]. unfold chunks in Hc. apply in_flat_map in Hc as (x & Hx & Hc).
  destruct x as [c0| |]; try (destruct Hc; fail). destruct Hc as [->|[]]. apply In_nth_error in Hx as (p & Hp).
  assert (Hp' : p < length (ins_of n)) by (assert (p < length (got_of l)) by (apply nth_error_Some; congruence); lia).
  destruct (recv_fits O maxc garbage rz m dag roots D HS net HN s HI i n l p c Hn Hl Hp') as (w & _ & _ & H); auto.
  rewrite recvd_eq. unfold got_of in Hp. destruct (core l); try (destruct p; discriminate); apply in_or_app; right; rewrite Hp; left; auto.
Qed.
Lemma last_rows i n l c : nth_error net i = Some n -> nth_error (fst s) i = Some l -> rows (ins_of n) (hist_of l) -> In c (last (hist_of l) []) -> ok c.
Proof using All.
  intros Hn Hl Hr Hc. apply In_nth_error in Hc as (p & Hp). eapply row_ok; eauto.
  destruct (hist_of l) as [|r h] using rev_ind; [destruct p; discriminate|]. rewrite last_snoc. apply in_or_app. right. left. auto.
Qed.
Lemma held_ok i n l c : nth_error net i = Some n -> nth_error (fst s) i = Some l -> In c (held n l) -> ok c.
Proof using All.
  intros Hn Hl Hc. destruct reach_small as [[HF _] HI]. pose proof (i_loc _ _ _ _ HI i n l Hn Hl) as [HC HSh]. specialize (HF i n l Hn Hl).
  assert (HLast : forall items os rest, n = NProd items os -> In c (held n (LProd rest)) -> ok c).
  { intros items os rest -> H. cbn [held] in H. eapply items_ok; [exact Hn|]. destruct (firstn _ items) as [|x l0] eqn:E using rev_ind; [destruct H|].
    rewrite last_snoc in H. destruct x as [x|]; [|destruct H]. destruct H as [->|[]]. eapply firstn_in. rewrite E. apply in_or_app. right. left. auto. }
  destruct n as [items os|em fin ins os].
  - destruct l as [rest|h g|x j k|b h g].
    + eapply HLast; eauto.
    + destruct HC.
    + destruct HF as [F1 F2]. cbn [held] in Hc. apply in_app_or in Hc as [Hc|Hc].
      * destruct x; try (destruct Hc; fail). destruct Hc as [->|[]]. eapply items_ok; eauto.
      * destruct k as [rest|h g|x' j' k'|b h g]; cbn [shaped core] in *.
        -- eapply HLast; eauto.
        -- destruct HC.
        -- destruct x; try tauto. destruct x'; try tauto. destruct j'; try tauto. destruct k' as [| | |[] h g]; try tauto. cbn [core] in F2. destruct F2 as [-> ->]. destruct Hc.
        -- destruct F2 as [-> ->]. destruct Hc.
    + destruct HF as [_ F2]. cbn [core] in F2. destruct F2 as [-> ->]. destruct Hc.
  - assert (HG : forall b h g, core l = LHalt b h g -> length (got_of l) <= length ins).
    { intros b h g E. unfold got_of. rewrite E in *. destruct b; cbn [coreok] in HC; [lia|]. destruct HC as (_ & [(Hg & _)|(-> & _)]); simpl; lia. }
    destruct l as [rest|h g|x j k|b h g].
    + destruct HC.
    + cbn [held] in Hc. destruct HC as (Hr & Hg & _). apply in_app_or in Hc as [Hc|Hc].
      * eapply (last_rows i _ (LGet h g)); eauto.
      * eapply (got_ok i _ (LGet h g)); eauto.
    + cbn [held] in Hc. apply in_app_or in Hc as [Hc|Hc].
      * destruct x as [x| |]; try (destruct Hc; fail). destruct Hc as [->|[]]. eapply due_ok; eauto. cbn [shaped] in HSh. unfold due. cbn [core].
        destruct k as [rest|h g|x' j' k'|b h g]; try tauto.
        -- cbn [core]. destruct g; try tauto. destruct HSh as [Hne HE]. apply in_map. unfold emitted. apply in_flat_map. exists (length h). split.
           ++ apply in_seq. destruct h; [congruence|]. simpl. lia.
           ++ rewrite firstn_all, HE. left. auto.
        -- destruct x'; try tauto. destruct j'; try tauto. destruct k' as [| | |[] h g]; try tauto. cbn [core]. cbn [from_fin] in HSh.
           apply in_or_app. left. apply in_map. apply in_or_app. right. rewrite HSh. left. auto.
      * destruct k as [rest|h g|x' j' k'|b h g]; cbn [shaped core] in *.
        -- destruct HC.
        -- destruct x; try tauto. destruct g; try tauto. cbn [held] in Hc. rewrite app_nil_r in Hc. destruct HC as (Hr & _).
           eapply (last_rows i _ _ c Hn Hl); auto.
        -- destruct x; try tauto. destruct x'; try tauto. destruct j'; try tauto. destruct k' as [| | |[] h g]; try tauto. cbn [held chunk_of app] in Hc.
           eapply (got_ok i _ _ c Hn Hl); auto. eapply HG. reflexivity.
        -- cbn [held] in Hc. eapply (got_ok i _ _ c Hn Hl); auto. eapply HG. reflexivity.
    + cbn [held] in Hc. eapply (got_ok i _ _ c Hn Hl); auto. eapply HG. reflexivity.
Qed.
Lemma queue_ok q c : In c (chunks (nth q (snd s) [])) -> ok c.
Proof using All.
  intros Hc. destruct reach_small as [(_ & _ & HQ) HI]. unfold chunks in Hc. apply in_flat_map in Hc as (x & Hx & Hc).
  destruct x as [c0| |]; try (destruct Hc; fail). destruct Hc as [->|[]].
  destruct (HQ q) as (i & n & Hn & Ho); [intros E; rewrite E in Hx; destruct Hx|].
  destruct (w_out _ _ _ _ W i n q Hn Ho) as (_ & _ & n' & Hn' & Hi). apply In_nth_error in Hi as (p & Hp).
  destruct (queue_fits O maxc garbage rz m dag roots D HS net HN s HI _ n' p q c Hn' Hp Hx) as (w & _ & H). auto.
Qed.
Lemma flight_ok : Forall (fun c => ok c) (in_flight net s).
Proof using All.
  apply Forall_forall. intros c Hc. unfold in_flight in Hc. apply in_app_or in Hc as [Hc|Hc]; apply in_flat_map in Hc as (x & Hx & Hc).
  - apply (In_nth _ _ []) in Hx as (q & _ & <-). eapply queue_ok; eauto.
  - destruct x as [n l]. apply In_nth_error in Hx as (i & Hi). assert (nth_error net i = Some n /\ nth_error (fst s) i = Some l) as [Hn Hl].
    { clear -Hi. revert i Hi. generalize (fst s) as ls. induction net as [|a net' IH]; intros [|b ls] [|i] H; simpl in *; try discriminate. - injection H as -> ->. auto. - eapply IH; eauto. }
    eapply held_ok; eauto.
Qed.
Lemma flat_map_len {A B} (f : A -> list B) k l : (forall x, In x l -> length (f x) <= k) -> length (flat_map f l) <= k * length l.
Proof using. induction l as [|x l IH]; intros H; simpl; [lia|]. rewrite app_length. specialize (IH ltac:(intros; apply H; simpl; auto)). specialize (H x (or_introl eq_refl)). lia. Qed.
Lemma flight_count : length (in_flight net s) <= 10 * (length dag + length roots).
Proof using All.
  destruct reach_small as [(HF & HQ & _) HI]. unfold in_flight. rewrite app_length.
  assert (H1 : length (flat_map chunks (snd s)) <= 3 * length (snd s)).
  { apply flat_map_len. intros x Hx. apply (In_nth _ _ []) in Hx as (q & _ & <-). specialize (HQ q).
    assert (HG : forall g : list (msg chunk), length (chunks g) <= length g) by (intros g; unfold chunks; induction g as [|[c| |] g IH]; simpl; lia).
    specialize (HG (nth q (snd s) [])). lia. }
  assert (H2 : length (flat_map (fun nl => held (fst nl) (snd nl)) (combine net (fst s))) <= 4 * length (combine net (fst s))).
  { apply flat_map_len. intros [n l] Hx. apply In_nth_error in Hx as (i & Hi). assert (nth_error net i = Some n /\ nth_error (fst s) i = Some l) as [Hn Hl].
    { clear -Hi. revert i Hi. generalize (fst s) as ls. induction net as [|a net' IH]; intros [|b ls] [|i] H; simpl in *; try discriminate. - injection H as -> ->. auto. - eapply IH; eauto. }
    cbn [fst snd]. apply held_count; [apply (i_loc _ _ _ _ HI i); auto|eapply HF; eauto|eapply ins_short; eauto]. }
  rewrite combine_length, (i_len _ _ _ _ HI) in H2. rewrite (i_nq _ _ _ _ HI) in H1. unfold queues in H1.
  pose proof (net_length O maxc garbage rz m dag roots net HN). lia.
Qed.
Lemma queue_len q : length (nth q (snd s) []) <= 3.
Proof using All. destruct reach_small as [(_ & HQ & _) _]. auto. Qed.
(** The arrays an aggregation accumulates in. *)
Lemma state_ok i g src axis d l k st : nth_error dag i = Some (EAgg g src axis d) -> nth_error (fst s) i = Some l ->
  forall c, agg_run (handler_of O m g) axis (nth axis (shape (expr O dag src)) 0) None None (concat (hist_of l)) = Ok (Some (k, st), c) ->
  prodn (nshape st) <= Nat.max 1 maxc.
Proof using All.
  intros He Hl c HA. destruct (net_entry O maxc garbage rz m dag roots net HN i _ He) as (n & Hn & Hen).
  destruct reach_small as [_ HI]. pose proof (i_loc _ _ _ _ HI i n l Hn Hl) as [HC _].
  assert (HF : Forall (fun c : chunk => prodn (remove_at axis (nshape (snd c))) <= Nat.max 1 maxc) (concat (hist_of l))).
  { unfold entry_node in Hen. destruct (nth i (fst (build O dag roots)) None) as [o|] eqn:Eo.
    - injection Hen as <-. assert (Hr : rows [2 * i] (hist_of l)). { unfold hist_of. unfold coreok in HC. destruct (core l) as [?|? ?|? ? ?|[] ? ?]; try (destruct HC; fail); try constructor; tauto. }
      apply Forall_forall. intros x Hx. apply in_concat in Hx as (row & Hrow & Hx). unfold rows in Hr. pose proof Hr as Hr'. rewrite Forall_forall in Hr. specialize (Hr row Hrow).
      destruct row as [|y [|? ?]]; simpl in Hr; try lia. destruct Hx as [<-|[]].
      assert (Hin : In (MChunk y) (recvd l 0)).
      { rewrite recvd_eq. unfold hist_of in Hrow. assert (HX : forall h, In [y] h -> In (MChunk y) (map MChunk (colm 0 h))).
        { intros h Hh. apply in_map. unfold colm. apply in_flat_map. exists [y]. split; auto. left; auto. }
        destruct (core l); try (destruct Hrow; fail); apply in_or_app; left; auto. }
      destruct (recv_fits O maxc garbage rz m dag roots D HS net HN s HI i _ l 0 y Hn Hl ltac:(simpl; lia) Hin) as (w & Hw & [Hsl Hsz]).
      unfold size in Hsz. etransitivity; [apply prodn_remove|exact Hsz]. eapply slab_pos; [|exact Hsl]. eapply expr_pos; eauto.
    - injection Hen as <-. destruct reach_small as [(HF & _) _]. destruct (HF i _ l Hn Hl) as [_ H2]. unfold hist_of. destruct (core l) as [?|? ?|? ? ?|? h g0]; try constructor.
      + destruct HC.
      + destruct H2 as [-> _]. constructor. }
  pose proof (agg_run_shape (fun sh => prodn sh <= Nat.max 1 maxc) (handler_of O m g) axis _ _ None None _ HF I I HA) as [H _]. exact H.
Qed.
End Whole.
