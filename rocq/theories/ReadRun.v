(** ReadRun: what the threads of an evaluation have taken from a source. *)
From Verif Require Import Base Lib PySlice Keys NDArray Arrays Chunks Handlers Realise Spec GetBase ChunkLemmas StreamLemmas Kahn Threads ThreadSpec NetLemmas NetProgress NetSeq NetFail ThreadBuild ThreadNodes ThreadSem ThreadFail Reads ReadSpec ReadLemmas ReadOnce.
From Coq Require Import Permutation.

Section Run.
Context {V : Type} (O : numops V).
Notation cell := (option V).
Notation barr := (@barr V).
Notation chunk := (list key * nd cell)%type.
Variable maxc : nat.
Variable garbage : list nat -> cell.
Variable rz : barr -> res (nd cell).
Variable m : bool.
Variable dag : list (@entry V).
Variable roots : list nat.
Hypothesis D : dag_ok dag roots.
Hypothesis HT : typed O dag.
Variable net : list (node chunk).
Hypothesis HN : network O maxc garbage rz m dag roots = Ok net.
Notation st := (build O dag roots).
Notation wr := (wr O dag roots).
Notation rd := (rd O dag roots).
Notation W := (network_wired O maxc garbage rz m dag roots D net HN).

Lemma shape_of i e : nth_error dag i = Some e -> shape (expr O dag i) =
  match e with EArr a => shape a | EAgg _ s ax _ => remove_at ax (shape (expr O dag s)) | EEl1 _ s _ => shape (expr O dag s) | EEl2 _ s _ _ => shape (expr O dag s) end.
Proof using D maxc. intros He. rewrite (expr_entry O maxc dag i e He) by (intros; apply (proj1 D i e); auto). destruct e; auto. Qed.
Lemma order_perm i o : wants O dag roots i o -> perm o (ndim (expr O dag i)).
Proof using D HT maxc.
  induction 1 as [r Hr|i o e s H IH He Hs]; [apply perm_seq|]. unfold ndim in *. rewrite (shape_of i e He) in IH. pose proof (HT i e He) as HE.
  destruct e as [a|g s0 ax d|f s0 d|f s1 s2 d]; cbn [entry_srcs] in Hs; cbn [src_order].
  - destruct Hs.
  - destruct Hs as [<-|[]]. unfold ndim in HE. rewrite remove_at_length in IH by auto.
    replace (length (shape (expr O dag s0))) with (S (pred (length (shape (expr O dag s0))))) by lia. apply input_order_perm; auto. lia.
  - destruct Hs as [<-|[]]. auto.
  - destruct Hs as [<-|[<-|[]]]; auto. rewrite <- HE. auto.
Qed.

(** The keys of computed blocks are a prefix of all keys. *)
Lemma done_oks items : done_keys items = map fst (@NetLemmas.oks chunk items).
Proof. induction items as [|[c|e] items IH]; simpl; auto. f_equal. auto. Qed.
Lemma map_ok_keys (a : barr) ks : forall (cs : list chunk) r, map (fun k => b <- getitem a k ;; d <- rz b ;; Ok (k, d)) ks = map Ok cs ++ r ->
  exists rest, ks = map fst cs ++ rest /\ r = map (fun k => b <- getitem a k ;; d <- rz b ;; Ok (k, d)) rest.
Proof.
  induction ks as [|k ks IH]; intros [|c cs] r H; cbn [map app] in *; try discriminate.
  - exists []. auto.
  - exists (k :: ks). auto.
  - injection H as H1 H2. destruct (IH cs r H2) as (rest & -> & E). exists rest. split; auto. f_equal.
    destruct (getitem a k) as [b|]; [|discriminate]. cbn [bind] in H1. destruct (rz b) as [d|]; [|discriminate]. cbn [bind] in H1. injection H1 as <-. reflexivity.
Qed.
Lemma asked_core n (l : loc chunk) : asked n l = asked n (core l).
Proof. induction l as [r|h g|x j k IH|b h g]; auto. cbn [core]. rewrite <- IH. destruct n; [reflexivity|]. destruct k; reflexivity. Qed.
Lemma asked_prefix (a : barr) ks outs l : lok (NProd (map (fun k => b <- getitem a k ;; d <- rz b ;; Ok (k, d)) ks) outs) l ->
  exists rest, ks = asked (NProd (map (fun k => b <- getitem a k ;; d <- rz b ;; Ok (k, d)) ks) outs) l ++ rest
    /\ (forall h g, core l = LHalt true h g -> rest = []).
Proof.
  intros [HK _]. rewrite asked_core. destruct (core l) as [r|h g|? ? ?|[] h g]; cbn [coreok] in HK; try contradiction; cbn [asked].
  - destruct HK as (cs & E). destruct (map_ok_keys a ks cs r E) as (rest & Ek & _). exists rest. rewrite E, firstn_pre, done_oks, NetLemmas.oks_all. split; [exact Ek|discriminate].
  - destruct HK as (cs & E). rewrite <- (app_nil_r (map Ok cs)) in E. destruct (map_ok_keys a ks cs [] E) as (rest & Ek & Er). exists []. rewrite E, done_oks, NetLemmas.oks_ok. cbn [NetLemmas.oks]. rewrite !app_nil_r.
    destruct rest; [|discriminate]. rewrite app_nil_r in Ek. split; auto.
  - destruct HK as (cs & e & r & E). destruct (map_ok_keys a ks cs _ E) as (rest & Ek & _). exists rest. rewrite E, done_oks, NetLemmas.oks_ok. cbn [NetLemmas.oks]. rewrite app_nil_r. split; [exact Ek|discriminate].
Qed.

Variable room : nat -> bool.
Variable s : gstate (msg chunk) (loc chunk).
Variable n0 : nat.
Hypothesis Hs : steps (net_next net) room n0 (net0 net (queues dag roots)) s.
Notation HI := (inv_reach net _ _ _ W room n0 s Hs).

Lemma source_node i a n : nth_error dag i = Some (EArr a) -> nth_error net i = Some n ->
  (exists outs o, nth i (fst st) None = Some o /\ perm o (ndim a) /\
     n = NProd (map (fun k => b <- getitem a k ;; d <- rz b ;; Ok (k, d)) (chunk_index_gen maxc (shape a) o)) outs)
  \/ (nth i (fst st) None = None /\ n = NProd [] []).
Proof using D HT HN garbage.
  intros He En. destruct (net_entry O maxc garbage rz m dag roots net HN i _ He) as (n' & En' & Hen). rewrite En in En'. injection En' as <-.
  unfold entry_node in Hen. destruct (nth i (fst st) None) as [o|] eqn:Eo; [left|right; split; auto; congruence].
  injection Hen as <-. exists (outs (snd st) i), o. split; auto. split; auto.
  pose proof (order_perm i o (b_wants O dag roots _ _ (build_ok O garbage dag roots D) i o Eo)) as HP.
  rewrite (expr_entry O maxc dag i _ He) in HP by (intros; apply (proj1 D i _ _ He); auto). auto.
Qed.
Lemma source_once i a n l : nth_error dag i = Some (EArr a) -> nth_error net i = Some n -> nth_error (fst s) i = Some l -> wf a -> layout false 0 a ->
  exists taken rest, taken_by a (asked n l) = Ok taken /\ Permutation (taken ++ rest) (parts a)
    /\ (nth i (fst st) None <> None -> forall h g, core l = LHalt true h g -> rest = []).
Proof.
  intros He En El Hw Hl. pose proof (i_loc _ _ _ _ HI i n l En El) as HL.
  destruct (source_node i a n He En) as [(os & o & Eo & HP & ->)|[Eo ->]].
  - destruct (asked_prefix a _ os l HL) as (rest & Ek & Hr). destruct (all_taken O false maxc a o Hw Hl HP) as (ls & Els & HPm).
    rewrite Ek in Els. destruct (taken_app a _ _ _ Els) as (l1 & l2 & E1 & E2 & ->). exists l1, l2. split; auto. split; auto.
    intros _ h g Hc. rewrite (Hr h g Hc) in E2. cbn in E2. congruence.
  - exists [], (parts a). split; [|split; [reflexivity|congruence]]. rewrite asked_core. destruct HL as [HK _].
    destruct (core l) as [r|h g|? ? ?|[] h g]; cbn [coreok] in HK; try contradiction; cbn [asked]; reflexivity.
Qed.
End Run.

Section Returned.
Context {V : Type} (O : numops V).
Notation cell := (option V).
Notation chunk := (list key * nd cell)%type.
Variable maxc : nat.
Variable garbage : list nat -> cell.
Variable rz : @barr V -> res (nd cell).
Variable m : bool.
Variable dag : list (@entry V).
Variable roots : list nat.
Hypothesis D : dag_ok dag roots.
Hypothesis CS : consistent O dag roots.
Hypothesis BL : balanced O maxc dag roots.
Variable net : list (node chunk).
Hypothesis HN : network O maxc garbage rz m dag roots = Ok net.
Variable room : nat -> bool.
Variable s : gstate (msg chunk) (loc chunk).
Variable n0 : nat.
Hypothesis Hs : steps (net_next net) room n0 (net0 net (queues dag roots)) s.
Notation st := (build O dag roots).
Notation W := (network_wired O maxc garbage rz m dag roots D net HN).
Notation HI := (inv_reach net _ _ _ W room n0 s Hs).

(** When [evaluate] has returned results, every thread it needed has finished normally. *)
Lemma all_normal ds : returned O garbage dag roots s = Ok ds -> forall i o, wants O dag roots i o ->
  exists n l h g, nth_error net i = Some n /\ nth_error (fst s) i = Some l /\ core l = LHalt true h g /\ nth i (fst st) None <> None.
Proof.
  intros HR i o H. induction H as [r Hr|i o e sr Hw IH He Hsr].
  - apply In_nth_error in Hr as [j Hr]. unfold returned in HR. apply mapM_ok in HR.
    assert (Hj : nth_error (combine (seq 0 (length roots)) roots) j = Some (j, r)) by (apply nth_error_combine_seq; auto).
    assert (Hx : exists d, nth_error ds j = Some d).
    { destruct (nth_error ds j) as [d|] eqn:E; eauto. apply nth_error_None in E. rewrite <- (Forall2_length _ _ _ HR) in E. assert (j < length (combine (seq 0 (length roots)) roots)) by (apply nth_error_Some; congruence). lia. }
    destruct Hx as [d Hd]. pose proof (Forall2_nth_error _ _ _ j _ _ HR Hj Hd) as HX. cbv beta in HX. cbn [fst snd] in HX.
    destruct (sink_state dag s j) as [[| | |[] hist got]|] eqn:El; try discriminate. unfold sink_state in El.
    pose proof (net_sink O maxc garbage rz m dag roots net HN j r Hr) as En.
    destruct (normal_up fst net _ _ _ W _ (network_nominal O maxc garbage rz m dag roots D CS BL net HN) s HI _ _ _ hist got 0 (2 * (length dag + j)) En El eq_refl eq_refl) as (nw & lw & h & g & Enw & Elw & Ecw & _).
    rewrite (wr_sink O garbage dag roots D j r Hr) in Enw, Elw. exists nw, lw, h, g. repeat split; auto.
    apply (b_roots O dag roots _ _ (build_ok O garbage dag roots D) j); auto. apply nth_error_Some. congruence.
  - destruct IH as (n & l & h & g & En & El & Ec & Hc). apply In_nth_error in Hsr as [p Hp].
    destruct (net_entry O maxc garbage rz m dag roots net HN i _ He) as (n' & En' & Hen). rewrite En in En'. injection En' as <-.
    destruct (entry_outs O maxc rz m dag roots i e n Hen) as [[Ho _]|(_ & _ & Hins)]; [congruence|].
    assert (Hq : nth_error (ins_of n) p = Some (2 * i + p)).
    { rewrite Hins. rewrite nth_error_map. assert (p < length (entry_srcs e)) by (apply nth_error_Some; congruence).
      rewrite (nth_error_nth' _ 0) by (rewrite seq_length; auto). rewrite seq_nth by auto. reflexivity. }
    destruct (normal_up fst net _ _ _ W _ (network_nominal O maxc garbage rz m dag roots D CS BL net HN) s HI _ _ _ h g p _ En El Ec Hq) as (nw & lw & h' & g' & Enw & Elw & Ecw & _).
    rewrite (wr_entry O garbage dag roots D i e p sr Hc He Hp) in Enw, Elw. exists nw, lw, h', g'. repeat split; auto.
    apply (b_srcs O dag roots _ _ (build_ok O garbage dag roots D) i e); auto. eapply nth_error_In; eauto.
Qed.
End Returned.
