(** ThreadSmall: expression graphs whose shared arrays come in few chunks always
    finish. *)
From Verif Require Import Base Lib PySlice Keys NDArray Arrays Chunks Handlers Realise GetBase StreamLemmas Kahn Threads ThreadSpec NetLemmas NetProgress NetSeq NetFail NetSmall ThreadBuild ThreadNodes ThreadSem ThreadFail.

Lemma keys_eqb_true k : forall k', keys_eqb k k' = true -> k = k'.
Proof.
  unfold keys_eqb. induction k as [|x k IH]; intros [|y k'] H; simpl in H; try discriminate; auto.
  apply andb_prop in H as [H1 H2]. f_equal; auto. destruct x, y; simpl in H1; try discriminate.
  - apply Z.eqb_eq in H1. congruence.
  - apply slice_eqb_eq in H1. congruence.
Qed.
Lemma key_runs_hd b : forall k, exists r, key_runs k b = k :: r.
Proof.
  induction b as [|x b IH]; intros k; simpl; [eexists; reflexivity|]. destruct (keys_eqb x k) eqn:E; [|eexists; reflexivity].
  apply keys_eqb_true in E. subst. apply IH.
Qed.
(** The keys sent after a part of the input, finished there. *)
Lemma agg_keys_early {V} (h : handler V) axis n cs ks o k st : agg_outs h axis n None cs = Ok (o, Some (k, st)) -> prefix (map fst cs) ks ->
  prefix (map fst o ++ [k]) (agg_keys axis ks).
Proof.
  intros H [b ->]. destruct (outs_keys0 _ _ _ cs o _ H) as [(-> & -> & E)|(k1 & st1 & E & Hk)]; [discriminate|]. injection E as <- <-.
  destruct cs as [|c cs]; [simpl in H; discriminate|]. unfold agg_keys in *. rewrite map_app. cbn [map app] in *.
  rewrite (key_runs_app _ _ _ _ _ (eq_sym Hk)). destruct (key_runs_hd (map (remove_at axis) b) k) as [r ->]. exists r. rewrite <- app_assoc. auto.
Qed.

Section Small.
Context {V : Type} (O : numops V).
Notation cell := (option V).
Notation barr := (@barr V).
Notation chunk := (list key * nd cell)%type.
Notation entry := (@entry V).
Variable maxc : nat.
Variable garbage : list nat -> cell.
Variable rz : barr -> res (nd cell).
Variable m : bool.
Variable dag : list entry.
Variable roots : list nat.
Hypothesis D : dag_ok dag roots.
Notation N := (length dag).
Notation st := (build O dag roots).
Notation B := (build_ok O garbage dag roots D).
Hypothesis CS : consistent O dag roots.
Variable net : list (node chunk).
Hypothesis HN : network O maxc garbage rz m dag roots = Ok net.
Notation wr := (wr O dag roots).
Notation W := (network_wired O maxc garbage rz m dag roots D net HN).
Notation nom := (nom O maxc dag roots).

Lemma network_sized : sized fst net wr nom.
Proof.
  intros i n Hn. destruct (node_at O maxc garbage rz m dag roots net HN i n Hn) as [(Hc & _ & ->)|[(e & o & He & Ho & Hen)|(j & r & -> & Hr & ->)]].
  - unfold ThreadFail.nom. rewrite Hc. constructor.
  - pose proof (fun p s => nom_src O maxc garbage dag roots D CS i e o p s Ho He) as HS.
    assert (Hi : nom i = stream_keys maxc (expr O dag i) o) by (unfold ThreadFail.nom; rewrite Ho; auto).
    rewrite (expr_entry O maxc dag i e He) in Hi by (intros; apply (proj1 D i e); auto).
    unfold entry_node in Hen. rewrite Ho in Hen. destruct e as [a|g s ax d|f s d|f s1 s2 d]; cbn [entry_srcs src_order] in HS.
    + apply Ok_inj' in Hen; subst n. rewrite Hi. assert (Hp : produces a) by (apply (proj1 (proj2 D) i); auto).
      replace (stream_keys maxc a o) with (chunk_index_gen maxc (shape a) o) by (destruct a; simpl in Hp; tauto || reflexivity).
      clear Hn. induction (chunk_index_gen maxc (shape a) o) as [|k ks IH]; constructor; auto.
      destruct (getitem a k) as [b|]; [|exact I]. cbn [bind]. destruct (rz b); [reflexivity|exact I].
    + apply Ok_inj' in Hen; subst n. destruct (HS 0 s eq_refl) as [Ew Es]. rewrite Nat.add_0_r in Ew.
      intros _ hist HR HA HP. specialize (HP 0 _ eq_refl). rewrite Ew in HP.
      rewrite (rows1 _ _ HR) in HA |- *. set (cs := colm 0 hist) in *. destruct (agg_ok_inv _ _ _ _ HA) as (os & c & E).
      destruct (agg_ok _ _ _ _ _ _ E) as [_ Eem]. rewrite Eem. rewrite Es in HP. rewrite Hi. cbn [stream_keys].
      rewrite (agg_fin_outs _ _ _ _ _ _ E). destruct c as [[k stt]|]; cbn [opt].
      * rewrite map_app. cbn [map agg_finalise fst]. eapply agg_keys_early; eauto.
      * rewrite app_nil_r. apply (agg_keys_part _ _ _ _ _ _ _ E HP).
    + destruct (op1_fun m f) as [g|]; [|discriminate]. apply Ok_inj' in Hen; subst n. destruct (HS 0 s eq_refl) as [Ew Es]. rewrite Nat.add_0_r in Ew.
      intros _ hist HR HA HP. specialize (HP 0 _ eq_refl). rewrite Ew in HP.
      rewrite (rows1 _ _ HR) in HA |- *. set (cs := colm 0 hist) in *. destruct (el1_ok g cs) as [_ Eem]. rewrite Eem. rewrite Es in HP. rewrite Hi. cbn [stream_keys].
      cbn [no_fin opt]. rewrite app_nil_r, map_map. cbn [fst el1_out]. exact HP.
    + destruct (op2_fun m f) as [g|]; [|discriminate]. apply Ok_inj' in Hen; subst n. destruct (HS 0 s1 eq_refl) as [Ew1 Es1]. rewrite Nat.add_0_r in Ew1.
      intros _ hist HR HA HP. pose proof (HP 0 _ eq_refl) as HP1. rewrite Ew1 in HP1.
      assert (Hl0 : length (colm 0 hist) = length hist) by (apply (colm_length _ _ _ HR); simpl; lia). assert (Hl1 : length (colm 1 hist) = length hist) by (apply (colm_length _ _ _ HR); simpl; lia).
      pose proof (rows2 _ _ _ HR) as Eh. assert (HA' := HA). rewrite Eh in HA'. destruct (el2_ok_inv g _ HA') as [r Er]. destruct (el2_ok g _ _ Er) as [_ Eem].
      rewrite <- Eh in Eem. assert (Ekey : map fst (emitted (el2_emit g) hist) = map fst (colm 0 hist)).
      { etransitivity; [apply f_equal; exact Eem|]. rewrite (el2_keys _ _ _ Er). rewrite <- Hl0 in Hl1. clear -Hl1. revert Hl1. generalize (colm 1 hist). induction (colm 0 hist) as [|x xs IH]; intros [|y ys] H; simpl in *; try discriminate; auto. f_equal. apply IH. lia. }
      cbn [no_fin opt]. rewrite app_nil_r. rewrite Ekey, Hi. cbn [stream_keys]. rewrite <- Es1. exact HP1.
  - intros H. congruence.
Qed.
(** A node with two output queues belongs to an array used in two places. *)
Lemma shared_outs i n : nth_error net i = Some n -> 2 <= length (outs_of n) ->
  exists o u u', nth i (fst st) None = Some o /\ wants O dag roots i o /\ used dag roots i u /\ used dag roots i u' /\ u <> u'.
Proof.
  intros Hn HL. destruct (net_cases O maxc garbage rz m dag roots net HN i n Hn) as [(e & He & Hen)|(j & r & _ & _ & ->)]; [|simpl in HL; lia].
  destruct (entry_outs O maxc rz m dag roots i e n Hen) as [[_ E]|(Hc & Ho & _)]; [rewrite E in HL; simpl in HL; lia|]. rewrite Ho in HL.
  destruct (nth i (fst st) None) as [o|] eqn:Eo; [|congruence]. exists o.
  pose proof (outs_nodup O garbage dag roots D i) as ND. destruct (outs (snd st) i) as [|q1 [|q2 qs]] eqn:Eq; simpl in HL; try lia.
  assert (Hq : forall q, In q (outs (snd st) i) -> slot dag roots (length roots) (fst st) i q).
  { intros q Hq. apply (b_edges _ _ _ _ _ B). apply in_outs; auto. }
  rewrite Eq in Hq. assert (H12 : q1 <> q2) by (inversion ND; subst; simpl in *; intros ->; tauto).
  assert (G : forall q, slot dag roots (length roots) (fst st) i q -> exists u, used dag roots i u /\ q = match u with Operand k p => 2 * k + p | Request j => 2 * (N + j) end).
  { intros q [(i1 & e1 & p1 & _ & He1 & Hp1 & ->)|(j1 & _ & Hr1 & ->)]; [exists (Operand i1 p1)|exists (Request j1)]; simpl; eauto. }
  destruct (G q1 (Hq q1 (or_introl eq_refl))) as (u & Hu & E1). destruct (G q2 (Hq q2 (or_intror (or_introl eq_refl)))) as (u' & Hu' & E2).
  exists u, u'. split; auto. split; [apply (b_wants _ _ _ _ _ B); auto|]. split; auto. split; auto. intros ->. congruence.
Qed.
Notation age := (age O dag roots).
(** The queues a node reads, in the order of registration. *)
Lemma node_ins i n p q : nth_error net i = Some n -> nth_error (ins_of n) p = Some q ->
  (exists e, nth_error dag i = Some e /\ nth i (fst st) None <> None /\ p < length (entry_srcs e) /\ q = 2 * i + p) \/ (N <= i /\ p = 0 /\ outs_of n = []).
Proof.
  intros Hn Hp. destruct (net_cases O maxc garbage rz m dag roots net HN i n Hn) as [(e & He & Hen)|(j & r & -> & _ & ->)].
  - left. destruct (entry_outs O maxc rz m dag roots i e n Hen) as [[_ ->]|(Hc & _ & Hi)]; [destruct p; discriminate|]. exists e. rewrite Hi in Hp.
    assert (Hl : p < length (entry_srcs e)). { assert (H : p < length (map (fun p => 2 * i + p) (seq 0 (length (entry_srcs e))))) by (apply nth_error_Some; congruence). rewrite map_length, seq_length in H. auto. }
    repeat split; auto. rewrite nth_error_map in Hp. rewrite (nth_error_nth' _ 0) in Hp by (rewrite seq_length; auto). rewrite seq_nth in Hp by auto. cbn [option_map] in Hp. injection Hp as <-. lia.
  - right. split; [lia|]. split; auto. destruct p as [|p]; auto. destruct p; discriminate.
Qed.
Lemma ages_ins i n p p' q q' : nth_error net i = Some n -> nth_error (ins_of n) p = Some q -> nth_error (ins_of n) p' = Some q' -> p <= p' -> age q <= age q'.
Proof.
  intros Hn Hp Hp' Hle. destruct (Nat.eq_dec p p') as [<-|Hd]; [assert (q = q') by congruence; subst; auto|].
  destruct (node_ins i n p q Hn Hp) as [(e & He & Hc & Hl & ->)|(Hi & -> & Ho)].
  - destruct (node_ins i n p' q' Hn Hp') as [(e' & He' & _ & Hl' & ->)|(_ & -> & _)]; [|lia]. assert (e' = e) by congruence. subst e'. pose proof (srcs_short e).
    assert (p = 0) by lia. assert (p' = 1) by lia. subst p p'. rewrite Nat.add_0_r. apply Nat.lt_le_incl.
    destruct (nth_error (entry_srcs e) 1) as [s|] eqn:Es; [|apply nth_error_None in Es; lia].
    apply (age_pair O garbage dag roots D s). apply (b_edges _ _ _ _ _ B). left. exists i, e, 1. auto.
  - destruct (node_ins i n p' q' Hn Hp') as [(e' & He' & _)|(_ & -> & _)]; [|lia]. exfalso.
    assert (i < N) by (apply nth_error_Some; congruence). lia.
Qed.
Lemma node_outs i n q : nth_error net i = Some n -> In q (outs_of n) -> outs_of n = outs (snd st) i.
Proof.
  intros Hn Hq. destruct (net_cases O maxc garbage rz m dag roots net HN i n Hn) as [(e & He & Hen)|(j & r & _ & _ & ->)]; [|destruct Hq].
  destruct (entry_outs O maxc rz m dag roots i e n Hen) as [[_ ->]|(_ & Ho & _)]; [destruct Hq|auto].
Qed.
Lemma ages_outs i n j j' q q' : nth_error net i = Some n -> nth_error (outs_of n) j = Some q -> nth_error (outs_of n) j' = Some q' -> j < j' -> age q < age q'.
Proof.
  intros Hn Hj Hj' Hlt. pose proof (node_outs i n q Hn (nth_error_In _ _ Hj)) as E. rewrite E in Hj, Hj'. apply (age_outs O garbage dag roots D i j j'); auto.
Qed.
Lemma ages_through i n q q' : nth_error net i = Some n -> In q (ins_of n) -> In q' (outs_of n) -> age q < age q'.
Proof.
  intros Hn Hq Hq'. apply In_nth_error in Hq as [p Hp]. destruct (node_ins i n p q Hn Hp) as [(e & He & Hc & Hl & ->)|(_ & _ & Ho)].
  - rewrite (node_outs i n q' Hn Hq') in Hq'. apply in_outs in Hq'. apply (age_in O garbage dag roots D i q' e p); auto.
  - rewrite Ho in Hq'. destruct Hq'.
Qed.
Lemma small_joined room s n0 b : room 0 = true -> (forall k, k < b -> room k = true) -> shared_few O maxc b dag roots ->
  steps (net_next net) room n0 (net0 net (queues dag roots)) s -> final (net_next net) room s -> joined dag roots s.
Proof.
  intros R0 Rb SF Hs HF j Hj. destruct (nth_error roots j) as [r|] eqn:Er; [|apply nth_error_None in Er; lia].
  pose proof (inv_reach net _ _ _ W room n0 s Hs) as HI. pose proof (net_sink O maxc garbage rz m dag roots net HN j r Er) as Hn.
  destruct (loc_at net _ _ s HI _ _ Hn) as [l El].
  assert (HW : forall i n, nth_error net i = Some n -> 2 <= length (outs_of n) -> forall k, room k = false -> length (nom i) <= k).
  { intros i n Hi H2 k Hk. destruct (shared_outs i n Hi H2) as (o & u & u' & Ho & Hw & H3 & H4 & H5).
    unfold ThreadFail.nom. rewrite Ho. pose proof (SF i o u u' Hw H3 H4 H5). destruct (Nat.le_gt_cases b k) as [Hb|Hb]; [lia|]. rewrite (Rb k Hb) in Hk. discriminate. }
  destruct (small_sinks fst net _ _ _ W nom network_sized s HI room R0 HF HW age ages_ins ages_outs ages_through _ _ l Hn eq_refl El) as (ok & hist & got & ->).
  exists ok, hist, got. exact El.
Qed.
End Small.

(** Without sharing there are no two places. *)
Lemma nodup_flat {A B} (f : A -> list B) l : NoDup (flat_map f l) -> forall i j x y p q b, nth_error l i = Some x -> nth_error l j = Some y ->
  nth_error (f x) p = Some b -> nth_error (f y) q = Some b -> i = j /\ p = q.
Proof.
  induction l as [|a l IH]; intros ND i j x y p q b Hi Hj Hp Hq; [destruct i; discriminate|]. cbn [flat_map] in ND. apply NoDup_app_iff' in ND as (N1 & N2 & N3).
  assert (G : forall k z r, nth_error l k = Some z -> nth_error (f z) r = Some b -> In b (flat_map f l)).
  { intros k z r Hk Hr. apply in_flat_map. exists z. split; eapply nth_error_In; eauto. }
  destruct i as [|i], j as [|j]; simpl in Hi, Hj.
  - assert (x = y) by congruence. subst y. split; auto. injection Hi as ->. apply (proj1 (NoDup_nth_error (f x)) N1 p q); [apply nth_error_Some; congruence|congruence].
  - exfalso. injection Hi as ->. eapply (N3 b); [eapply nth_error_In; eauto|eauto].
  - exfalso. injection Hj as ->. eapply (N3 b); [eapply nth_error_In; eauto|eauto].
  - destruct (IH N2 i j x y p q b Hi Hj Hp Hq) as [-> ->]. auto.
Qed.
Lemma unshared_few {V} (O : numops V) maxc n dag roots : unshared dag roots -> shared_few O maxc n dag roots.
Proof.
  intros U i o u u' _ Hu Hu' Hne. exfalso. apply Hne. unfold unshared in U. apply NoDup_app_iff' in U as (U1 & U2 & U3).
  assert (G : forall k p, used dag roots i (Operand k p) -> In i (flat_map entry_srcs dag)).
  { intros k p (e & He & Hp). apply in_flat_map. exists e. split; eapply nth_error_In; eauto. }
  destruct u as [k p|j], u' as [k' p'|j'].
  - destruct Hu as (e & He & Hp), Hu' as (e' & He' & Hp'). destruct (nodup_flat _ _ U1 _ _ _ _ _ _ _ He He' Hp Hp') as [-> ->]. auto.
  - exfalso. apply (U3 i (G _ _ Hu)). eapply nth_error_In; exact Hu'.
  - exfalso. apply (U3 i (G _ _ Hu')). eapply nth_error_In; exact Hu.
  - simpl in Hu, Hu'. f_equal. apply (proj1 (NoDup_nth_error _) U2); [apply nth_error_Some; congruence|congruence].
Qed.
