(** ThreadFail: graphs without sharing always finish; a failure is never lost. *)
From Verif Require Import Base Lib PySlice Keys NDArray Arrays Chunks Handlers Realise GetBase BroadcastClaims Kahn Threads ThreadSpec NetLemmas NetProgress NetSeq NetFail ThreadBuild ThreadNodes ThreadSem.

Lemma flat_map_nth_nodup {A B} (f : A -> list B) (l : list A) : NoDup (flat_map f l) ->
  forall i x i' x' p p' s, nth_error l i = Some x -> nth_error l i' = Some x' -> nth_error (f x) p = Some s -> nth_error (f x') p' = Some s -> i = i' /\ p = p'.
Proof.
  induction l as [|y l IH]; intros ND i x i' x' p p' s H1 H2 H3 H4; [destruct i; discriminate|].
  simpl in ND. apply NoDup_app_iff' in ND as (N1 & N2 & N3).
  assert (Hin : forall j z q, nth_error l j = Some z -> nth_error (f z) q = Some s -> In s (flat_map f l)).
  { intros j z q Hj Hq. apply in_flat_map. exists z. split; eapply nth_error_In; eauto. }
  destruct i as [|i], i' as [|i']; simpl in *.
  - injection H1 as ->. injection H2 as ->. split; auto. apply (proj1 (NoDup_nth_error _) N1); [apply nth_error_Some|]; congruence.
  - injection H1 as ->. exfalso. eapply N3; [eapply nth_error_In; exact H3|eauto].
  - injection H2 as ->. exfalso. eapply N3; [eapply nth_error_In; exact H4|eauto].
  - destruct (IH N2 i x i' x' p p' s); auto.
Qed.

Section Fail.
Context {V : Type} (O : numops V).
Notation cell := (option V).
Notation barr := (@barr V).
Notation chunk := (list key * nd cell)%type.
Notation entry := (@entry V).
Variable maxc : nat.
Variable garbage : list nat -> cell.
Variable rz : barr -> res (nd cell).
Variable m : bool.
Notation stream := (stream O maxc rz m).
Variable dag : list entry.
Variable roots : list nat.
Hypothesis D : dag_ok dag roots.
Notation N := (length dag).
Notation st := (build O dag roots).
Notation B := (build_ok O garbage dag roots D).

(** ** Without sharing every array is asked for once *)
Section Unshared.
Hypothesis U : unshared dag roots.
Lemma source_once i e i' e' p p' s : nth_error dag i = Some e -> nth_error dag i' = Some e' -> nth_error (entry_srcs e) p = Some s -> nth_error (entry_srcs e') p' = Some s -> i = i' /\ p = p'.
Proof. unfold unshared in U. apply NoDup_app_iff' in U as (U1 & _). apply (flat_map_nth_nodup entry_srcs dag U1). Qed.
Lemma source_not_root i e s : nth_error dag i = Some e -> In s (entry_srcs e) -> In s roots -> False.
Proof. unfold unshared in U. apply NoDup_app_iff' in U as (_ & _ & U3). intros He Hs Hr. apply (U3 s); auto. apply in_flat_map. exists e. split; auto. eapply nth_error_In; eauto. Qed.
Lemma unshared_consistent : consistent O dag roots.
Proof.
  intros i o o' H. revert o'. induction H as [r Hr|i o e s Hw IH He Hs]; intros o' H'.
  - inversion H' as [r' Hr' E1 E2|i' o2 e' s' Hw' He' Hs' E1 E2]; subst; auto. exfalso. eapply source_not_root; eauto.
  - inversion H' as [r' Hr' E1 E2|i' o2 e' s' Hw' He' Hs' E1 E2]; subst; auto; [exfalso; eapply source_not_root; eauto|].
    apply In_nth_error in Hs as [p Hp]. apply In_nth_error in Hs' as [p' Hp']. destruct (source_once i e i' e' p p' s) as [-> _]; auto.
    assert (e = e') by congruence. subst e'. f_equal. auto.
Qed.
Variable net : list (node chunk).
Hypothesis HN : network O maxc garbage rz m dag roots = Ok net.
Lemma unshared_outs i n : nth_error net i = Some n -> length (outs_of n) <= 1.
Proof.
  intros Hn. destruct (net_cases O maxc garbage rz m dag roots net HN i n Hn) as [(e & He & Hen)|(j & r & _ & _ & ->)]; [|simpl; lia].
  destruct (entry_outs O maxc rz m dag roots i e n Hen) as [[_ ->]|(Hc & Ho & _)]; [simpl; lia|]. rewrite Ho.
  pose proof (outs_nodup O garbage dag roots D i) as ND. destruct (outs (snd st) i) as [|q1 [|q2 qs]] eqn:Eq; simpl; try lia. exfalso.
  assert (Hq : forall q, In q (outs (snd st) i) -> slot dag roots (length roots) (fst st) i q).
  { intros q Hq. apply (b_edges _ _ _ _ _ B). apply in_outs; auto. }
  rewrite Eq in Hq. assert (E12 : q1 = q2); [|subst; inversion ND; subst; simpl in *; tauto].
  destruct (Hq q1) as [(i1 & e1 & p1 & _ & He1 & Hp1 & ->)|(j1 & _ & Hr1 & ->)]; [left; auto| |];
  (destruct (Hq q2) as [(i2 & e2 & p2 & _ & He2 & Hp2 & ->)|(j2 & _ & Hr2 & ->)]; [right; left; auto| |]).
  - destruct (source_once i1 e1 i2 e2 p1 p2 i) as [-> ->]; auto.
  - exfalso. eapply source_not_root; [exact He1|eapply nth_error_In; eauto|eapply nth_error_In; eauto].
  - exfalso. eapply source_not_root; [exact He2|eapply nth_error_In; eauto|eapply nth_error_In; eauto].
  - unfold unshared in U. apply NoDup_app_iff' in U as (_ & U2 & _). assert (j1 = j2); [|subst; auto].
    apply (proj1 (NoDup_nth_error _) U2); [apply nth_error_Some|]; congruence.
Qed.
(** Every result thread finishes, whatever fails. *)
Lemma unshared_joined room s n : room 0 = true -> steps (net_next net) room n (net0 net (queues dag roots)) s -> final (net_next net) room s -> joined dag roots s.
Proof.
  intros Hroom Hs HF j Hj. destruct (nth_error roots j) as [r|] eqn:Er; [|apply nth_error_None in Er; lia].
  pose proof (network_wired O maxc garbage rz m dag roots D net HN) as W. pose proof (inv_reach net _ _ _ W room n s Hs) as HI.
  pose proof (net_sink O maxc garbage rz m dag roots net HN j r Er) as Hn.
  destruct (loc_at net _ _ s HI _ _ Hn) as [l El].
  destruct (sinks_halt net _ _ _ W room Hroom s HI HF unshared_outs _ _ l Hn eq_refl El) as (ok & hist & got & ->).
  exists ok, hist, got. exact El.
Qed.
End Unshared.

(** ** Nothing fails to start if nothing fails *)
Lemma network_ok : (forall r, In r roots -> exists d, engine_eval O maxc garbage rz m (expr O dag r) = Ok d) ->
  exists net, network O maxc garbage rz m dag roots = Ok net.
Proof.
  intros HR. assert (G : forall i e, nth_error dag i = Some e -> exists n, entry_node O maxc rz m dag st i e = Ok n).
  { intros i e He. unfold entry_node. destruct (nth i (fst st) None) as [o|] eqn:Eo; [|eauto].
    destruct (wants_ok O maxc garbage rz m dag roots D HR i o) as [cs Hcs]. { apply (b_wants _ _ _ _ _ B); auto. }
    rewrite (expr_entry O maxc dag i e He) in Hcs by (intros; apply (proj1 D i e); auto).
    destruct e as [a|g s ax d|f s d|f s1 s2 d]; try (eexists; reflexivity); cbn [Realise.stream] in Hcs.
    - destruct (op1_fun m f); [eexists; reflexivity|discriminate].
    - destruct (op2_fun m f); [eexists; reflexivity|discriminate]. }
  unfold network. cbv zeta. assert (H : exists ns, mapM (fun ie => entry_node O maxc rz m dag st (fst ie) (snd ie)) (combine (seq 0 N) dag) = Ok ns).
  { assert (G' : forall l, (forall ie, In ie l -> exists n, entry_node O maxc rz m dag st (fst ie) (snd ie) = Ok n) -> exists ns, mapM (fun ie => entry_node O maxc rz m dag st (fst ie) (snd ie)) l = Ok ns).
    { induction l as [|x l IH]; intros H; [eexists; reflexivity|]. cbn [mapM]. destruct (H x (or_introl eq_refl)) as [n ->].
      destruct IH as [ns ->]; [intros; apply H; right; auto|]. eexists. reflexivity. }
    apply G'. intros [i e] Hin. cbn [fst snd]. apply G. apply In_nth_error in Hin as [k Hk].
    assert (Hk' : k < N). { assert (k < length (combine (seq 0 N) dag)) by (apply nth_error_Some; congruence). rewrite combine_length, seq_length in *. lia. }
    destruct (nth_error dag k) as [e'|] eqn:Ek; [|apply nth_error_None in Ek; lia]. rewrite (nth_error_combine_seq dag k e' Ek) in Hk. injection Hk as -> ->. auto. }
  destruct H as [ns ->]. eexists. reflexivity.
Qed.

(** ** A normal end means that nothing failed *)
Section Normal.
Hypothesis CS : consistent O dag roots.
Hypothesis BL : balanced O maxc dag roots.
Variable net : list (node chunk).
Hypothesis HN : network O maxc garbage rz m dag roots = Ok net.
Notation wr := (wr O dag roots).
Notation W := (network_wired O maxc garbage rz m dag roots D net HN).

Definition nom (i : nat) : list (list key) :=
  match nth i (fst st) None with Some o => stream_keys maxc (expr O dag i) o | None => [] end.
Lemma nom_src i e o p s : nth i (fst st) None = Some o -> nth_error dag i = Some e -> nth_error (entry_srcs e) p = Some s ->
  wr (2 * i + p) = s /\ nom s = stream_keys maxc (expr O dag s) (src_order e o).
Proof.
  intros Ho He Hp. split; [apply (wr_entry O garbage dag roots D i e p s); auto; congruence|].
  unfold nom. rewrite (src_cached O garbage dag roots D CS i e o s Ho He); auto. eapply nth_error_In; eauto.
Qed.
Lemma network_nominal : nominal fst net wr nom.
Proof.
  intros i n Hn. destruct (node_at O maxc garbage rz m dag roots net HN i n Hn) as [(Hc & _ & ->)|[(e & o & He & Ho & Hen)|(j & r & -> & Hr & ->)]].
  - unfold nom. rewrite Hc. constructor.
  - pose proof (fun p s => nom_src i e o p s Ho He) as HS.
    assert (Hi : nom i = stream_keys maxc (expr O dag i) o) by (unfold nom; rewrite Ho; auto).
    rewrite (expr_entry O maxc dag i e He) in Hi by (intros; apply (proj1 D i e); auto).
    unfold entry_node in Hen. rewrite Ho in Hen. destruct e as [a|g s ax d|f s d|f s1 s2 d]; cbn [entry_srcs src_order] in HS.
    + apply Ok_inj' in Hen; subst n. rewrite Hi. assert (Hp : produces a) by (apply (proj1 (proj2 D) i); auto).
      replace (stream_keys maxc a o) with (chunk_index_gen maxc (shape a) o) by (destruct a; simpl in Hp; tauto || reflexivity).
      clear Hn. induction (chunk_index_gen maxc (shape a) o) as [|k ks IH]; constructor; auto.
      destruct (getitem a k) as [b|]; [|exact I]. cbn [bind]. destruct (rz b); [reflexivity|exact I].
    + apply Ok_inj' in Hen; subst n. destruct (HS 0 s eq_refl) as [Ew Es]. rewrite Nat.add_0_r in Ew.
      split; [intros q q' [<-|[]] [<-|[]]; auto|]. intros _ hist HR HA HP. specialize (HP 0 _ eq_refl). rewrite Ew in HP.
      rewrite (rows1 _ _ HR) in HA |- *. set (cs := colm 0 hist) in *. destruct (agg_ok_inv _ _ _ _ HA) as (os & c & E).
      destruct (agg_ok _ _ _ _ _ _ E) as [_ Eem]. rewrite Eem. rewrite Es in HP. rewrite Hi. cbn [stream_keys].
      destruct (agg_keys_part _ _ _ _ _ _ _ E HP) as (P1 & P2 & P3). split; [exact P1|]. split; [intros _; exact P2|].
      intros Hcm. specialize (Hcm _ (or_introl eq_refl)). rewrite Ew, Es in Hcm. unfold single in Hcm. rewrite map_length in Hcm.
      rewrite (agg_fin_outs _ _ _ _ _ _ E). destruct c as [[k stt]|]; [|exact P2]. cbn [opt]. rewrite map_app. cbn [map agg_finalise fst].
      apply P3 with (st := stt); auto. apply prefix_full; auto. rewrite map_length. lia.
    + destruct (op1_fun m f) as [g|]; [|discriminate]. apply Ok_inj' in Hen; subst n. destruct (HS 0 s eq_refl) as [Ew Es]. rewrite Nat.add_0_r in Ew.
      split; [intros q q' [<-|[]] [<-|[]]; auto|]. intros _ hist HR HA HP. specialize (HP 0 _ eq_refl). rewrite Ew in HP.
      rewrite (rows1 _ _ HR) in HA |- *. set (cs := colm 0 hist) in *. destruct (el1_ok g cs) as [_ Eem]. rewrite Eem. rewrite Es in HP. rewrite Hi. cbn [stream_keys].
      rewrite map_map, map_length. cbn [fst el1_out]. pose proof (prefix_length _ _ HP) as HL. rewrite map_length in HL. split; [exact HP|]. split.
      * intros Hnc. destruct (Nat.eq_dec (length cs) (length (stream_keys maxc (expr O dag s) o))) as [El|]; [|lia]. exfalso. apply Hnc. intros q [<-|[]]. rewrite Ew, Es. unfold single. rewrite map_length. auto.
      * intros Hcm. specialize (Hcm _ (or_introl eq_refl)). rewrite Ew, Es in Hcm. unfold single in Hcm. rewrite map_length in Hcm.
        cbn [no_fin opt]. rewrite app_nil_r, map_map. cbn [fst el1_out]. apply prefix_full; auto. rewrite map_length. lia.
    + destruct (op2_fun m f) as [g|]; [|discriminate]. apply Ok_inj' in Hen; subst n. destruct (HS 0 s1 eq_refl) as [Ew1 Es1]. destruct (HS 1 s2 eq_refl) as [Ew2 Es2]. rewrite Nat.add_0_r in Ew1.
      assert (El : length (nom s1) = length (nom s2)). { rewrite Es1, Es2. apply (BL i o f s1 s2 d); auto. apply (b_wants _ _ _ _ _ B); auto. }
      split. { intros q q' [<-|[<-|[]]] [<-|[<-|[]]]; rewrite ?Ew1, ?Ew2; congruence. }
      intros _ hist HR HA HP. pose proof (HP 0 _ eq_refl) as HP1. pose proof (HP 1 _ eq_refl) as HP2. rewrite Ew1 in HP1. rewrite Ew2 in HP2.
      assert (Hl0 : length (colm 0 hist) = length hist) by (apply (colm_length _ _ _ HR); simpl; lia). assert (Hl1 : length (colm 1 hist) = length hist) by (apply (colm_length _ _ _ HR); simpl; lia).
      pose proof (rows2 _ _ _ HR) as Eh. assert (HA' := HA). rewrite Eh in HA'. destruct (el2_ok_inv g _ HA') as [r Er]. destruct (el2_ok g _ _ Er) as [_ Eem].
      rewrite <- Eh in Eem. assert (Ekey : map fst (emitted (el2_emit g) hist) = map fst (colm 0 hist)).
      { etransitivity; [apply f_equal; exact Eem|]. rewrite (el2_keys _ _ _ Er). rewrite <- Hl0 in Hl1. clear -Hl1. revert Hl1. generalize (colm 1 hist). induction (colm 0 hist) as [|x xs IH]; intros [|y ys] H; simpl in *; try discriminate; auto. f_equal. apply IH. lia. }
      assert (Elen : length (emitted (el2_emit g) hist) = length hist) by (rewrite <- (map_length fst), Ekey, map_length; auto).
      rewrite Ekey. rewrite Hi. cbn [stream_keys]. rewrite Es1 in HP1. split; [exact HP1|]. pose proof (prefix_length _ _ HP1) as HL. rewrite map_length in HL. split.
      * intros Hnc. rewrite Elen. destruct (Nat.eq_dec (length hist) (length (stream_keys maxc (expr O dag s1) o))) as [E'|]; [|lia]. exfalso. apply Hnc.
        intros q [<-|[<-|[]]]; rewrite ?Ew1, ?Ew2; rewrite <- ?El, ?Es1; auto.
      * intros Hcm. specialize (Hcm _ (or_introl eq_refl)). rewrite Ew1, Es1 in Hcm.
        cbn [no_fin opt]. rewrite app_nil_r. etransitivity; [exact Ekey|]. apply prefix_full; auto. rewrite map_length. lia.
  - split; [intros q q' [<-|[]] [<-|[]]; auto|]. intros H. congruence.
Qed.

Variable room : nat -> bool.
Variable s : gstate (msg chunk) (loc chunk).
Variable n0 : nat.
Hypothesis Hs : steps (net_next net) room n0 (net0 net (queues dag roots)) s.
Notation HI := (inv_reach net _ _ _ W room n0 s Hs).
(** A node that finished normally has sent its stream. *)
Lemma normal_stream : forall i o n l hist got, nth i (fst st) None = Some o -> nth_error net i = Some n -> nth_error (fst s) i = Some l -> core l = LHalt true hist got ->
  stream (expr O dag i) o = Ok (dchunks n l).
Proof.
  induction i as [i IH] using lt_wf_ind. intros o n l hist got Ho En El Ec.
  destruct (node_at O maxc garbage rz m dag roots net HN i n En) as [(Hc & _ & _)|[(e & o' & He & Ho' & Hen)|(j & r & Ei & _)]]; [congruence| |].
  2:{ exfalso. assert (i < N) by (apply (cached_bound O garbage dag roots D); congruence). lia. }
  assert (o' = o) by congruence. subst o'.
  pose proof (i_loc _ _ _ _ HI i n l En El) as [HK _]. rewrite Ec in HK.
  rewrite (expr_entry O maxc dag i e He) by (intros; apply (proj1 D i e); auto).
  assert (Hin : forall p q s0, nth_error (ins_of n) p = Some q -> nth_error (entry_srcs e) p = Some s0 -> q = 2 * i + p -> stream (expr O dag s0) (src_order e o) = Ok (colm p hist)).
  { intros p q s0 Hp Hs0 Hq. destruct (normal_up fst net _ _ _ W nom network_nominal s HI i n l hist got p q En El Ec Hp) as (nw & lw & h & g & Enw & Elw & Ecw & <-).
    destruct (nom_src i e o p s0 Ho He Hs0) as [Ew _]. subst q. rewrite Ew in Enw, Elw.
    assert (Hlt : s0 < i) by (apply (proj1 D i e); auto; eapply nth_error_In; eauto).
    apply (IH s0 Hlt (src_order e o) nw lw h g); auto. apply (src_cached O garbage dag roots D CS i e o s0 Ho He). eapply nth_error_In; eauto. }
  unfold entry_node in Hen. rewrite Ho in Hen. destruct e as [a|g s0 ax d|f s0 d|f s1 s2 d]; cbn [src_order entry_srcs] in Hin.
  - apply Ok_inj' in Hen; subst n. rewrite stream_producer by (apply (proj1 (proj2 D) i); auto). unfold dchunks. rewrite Ec.
    simpl in HK. destruct HK as [cs Hcs]. rewrite Hcs, oks_all. unfold producer.
    clear -Hcs. revert cs Hcs. induction (chunk_index_gen maxc (shape a) o) as [|k ks IHk]; intros [|c cs] H; try discriminate; auto.
    cbn [map] in H. injection H as H1 H2. cbn [mapM]. rewrite H1, (IHk cs H2). auto.
  - apply Ok_inj' in Hen; subst n. cbn [coreok] in HK. destruct HK as (HR & _ & _ & _ & HA & HF). cbn [Realise.stream].
    rewrite (Hin 0 _ s0 eq_refl eq_refl) by lia. cbn [bind]. unfold dchunks. rewrite Ec. pose proof (rows1 _ _ HR) as Eh. rewrite Eh in HA, HF |- *. 
    replace (colm 0 (single (colm 0 hist))) with (colm 0 hist) by (rewrite <- Eh; auto). apply agg_stream_inv; auto.
  - destruct (op1_fun m f) as [g|] eqn:Eg; [|discriminate]. apply Ok_inj' in Hen; subst n. cbn [coreok] in HK. destruct HK as (HR & _ & _ & _ & HA & HF). cbn [Realise.stream]. rewrite Eg. cbn [bind].
    rewrite (Hin 0 _ s0 eq_refl eq_refl) by lia. cbn [bind]. unfold dchunks. rewrite Ec. pose proof (rows1 _ _ HR) as Eh.
    rewrite Eh. replace (colm 0 (single (colm 0 hist))) with (colm 0 hist) by (rewrite <- Eh; auto). destruct (el1_ok g (colm 0 hist)) as [_ E]. cbn [no_fin opt]. rewrite app_nil_r. f_equal. symmetry. exact E.
  - destruct (op2_fun m f) as [g|] eqn:Eg; [|discriminate]. apply Ok_inj' in Hen; subst n. cbn [coreok] in HK. destruct HK as (HR & _ & _ & _ & HA & HF). cbn [Realise.stream]. rewrite Eg. cbn [bind].
    rewrite (Hin 0 _ s1 eq_refl eq_refl) by lia. rewrite (Hin 1 _ s2 eq_refl eq_refl) by lia. cbn [bind]. unfold dchunks. rewrite Ec. pose proof (rows2 _ _ _ HR) as Eh. rewrite Eh in HA.
    destruct (el2_ok_inv g _ HA) as [r Er]. destruct (el2_ok g _ _ Er) as [_ Eem]. rewrite <- Eh in Eem. rewrite zip_mapM. cbn [no_fin opt]. rewrite app_nil_r. transitivity (Ok r); [exact Er|f_equal; symmetry; exact Eem].
Qed.
(** What is returned is what the sequential evaluation gives. *)
Lemma returned_ok ds : returned O garbage dag roots s = Ok ds -> Forall2 (fun r d => engine_eval O maxc garbage rz m (expr O dag r) = Ok d) roots ds.
Proof.
  assert (G : forall j r d, nth_error roots j = Some r -> match sink_state dag s j with Some (LHalt true hist _) => stored garbage (shape (expr O dag r)) hist | _ => Err EvalError end = Ok d ->
     engine_eval O maxc garbage rz m (expr O dag r) = Ok d).
  { intros j r d Hr H. destruct (sink_state dag s j) as [[| | |[] hist got]|] eqn:El; try discriminate. unfold sink_state in El.
    pose proof (net_sink O maxc garbage rz m dag roots net HN j r Hr) as En. pose proof (i_loc _ _ _ _ HI _ _ _ En El) as [HK _].
    destruct (normal_up fst net _ _ _ W nom network_nominal s HI _ _ _ hist got 0 (2 * (N + j)) En El eq_refl eq_refl) as (nw & lw & h & g & Enw & Elw & Ecw & Ed).
    rewrite (wr_sink O garbage dag roots D j r Hr) in Enw, Elw. pose proof (root_cached O garbage dag roots D CS j r Hr) as Ho.
    pose proof (normal_stream r _ nw lw h g Ho Enw Elw Ecw) as HS. unfold engine_eval. rewrite HS, Ed. cbn [bind].
    cbn [sink_node coreok core] in HK. destruct HK as (HR & _). rewrite (rows1 _ _ HR) in H. unfold stored in H. rewrite concat_single in H. exact H. }
  unfold returned. intros H. apply mapM_ok in H.
  assert (Gen : forall rs a ds0, (forall j r d, nth_error rs j = Some r -> match sink_state dag s (a + j) with Some (LHalt true hist _) => stored garbage (shape (expr O dag r)) hist | _ => Err EvalError end = Ok d ->
     engine_eval O maxc garbage rz m (expr O dag r) = Ok d) ->
     Forall2 (fun jr d => match sink_state dag s (fst jr) with Some (LHalt true hist _) => stored garbage (shape (expr O dag (snd jr))) hist | _ => Err EvalError end = Ok d) (combine (seq a (length rs)) rs) ds0 ->
     Forall2 (fun r d => engine_eval O maxc garbage rz m (expr O dag r) = Ok d) rs ds0).
  { induction rs as [|r rs IH]; intros a ds0 G0 H0; cbn [length seq combine] in H0; inversion H0 as [|jr d jrs ds1 H1 H2]; subst; constructor.
    - apply (G0 0 r d eq_refl). rewrite Nat.add_0_r. exact H1.
    - apply (IH (S a)); auto. intros j r' d' Hr' Hd'. apply (G0 (S j) r' d' Hr'). rewrite Nat.add_succ_r. exact Hd'. }
  apply (Gen roots 0 ds); auto.
Qed.
End Normal.
End Fail.
