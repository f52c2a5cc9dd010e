(** ThreadShare: expressions that can be streamed, with shared array objects. *)
From Verif Require Import Base Lib PySlice Keys NDArray Arrays Chunks Handlers Realise Spec Supported GetBase ChunkLemmas HandlerLemmas RealOps Realisable StreamLemmas RealOK RealiseOK Kahn Threads ThreadSpec NetLemmas NetProgress NetSeq NetFail ThreadBuild ThreadNodes ThreadSem ThreadClock ThreadFail ThreadTree.

Section Share.
Context {V : Type} (O : numops V).
Notation barr := (@barr V).
Variable maxc : nat.
Variable garbage : list nat -> option V.
Variable m : bool.
Variable HG : @agg V -> nat -> Prop.
Hypothesis HR : forall g, handler_right O m g (HG g).
Variable fuel : nat.
Notation rz := (realise O maxc garbage fuel m).
Notation R := (realisable maxc m HG fuel).
Notation streamable := (streamable maxc m HG R).

(** The keys of the chunks of a stream, from the cuts of its dimensions. *)
Lemma stream_keys_cuts (a : barr) : wf a -> streamable a -> forall order, perm order (ndim a) -> stream_keys maxc a order = gen_keys (cuts maxc a) order.
Proof.
  induction a as [sh v d|o c ks|a na IH|a dict lead IH|a d IH|a v IH|a axes IH|ssh items IH|tiles axis IH
                  |g a axis d IH|o a d IH|o a b d IH1 IH2] using barr_ind2; intros Hw HS order HP; try reflexivity.
  - destruct (stream_ok O maxc garbage m HG HR R rz (realise_ok O maxc garbage m HG HR fuel) _ Hw HS order HP) as (out & E1 & E2 & _).
    destruct Hw as [Hw Hax]. destruct HS as (HS & _ & _). cbn [stream_keys]. rewrite <- E2. cbn [stream] in E1.
    assert (HP' : perm (input_order axis order) (ndim a)).
    { unfold ndim in *. cbn [shape] in HP. rewrite remove_at_length in HP by auto. replace (length (shape a)) with (S (pred (length (shape a)))) by lia. apply input_order_perm; auto. lia. }
    destruct (stream_ok O maxc garbage m HG HR R rz (realise_ok O maxc garbage m HG HR fuel) a Hw HS _ HP') as (cs & F1 & F2 & _).
    rewrite F1 in E1. cbn [bind] in E1. rewrite agg_loop_outs in E1. destruct (agg_outs _ _ _ None cs) as [[os c]|] eqn:Eo; [|discriminate]. cbn [bind fst snd] in E1.
    destruct c as [[k stt]|]; [|discriminate]. injection E1 as <-. rewrite (IH Hw HS _ HP'), <- F2.
    destruct (agg_keys_part _ _ _ _ (map fst cs) _ _ Eo) as (_ & _ & H); [exists []; rewrite app_nil_r; auto|].
    rewrite <- (H eq_refl k stt eq_refl). rewrite map_app. reflexivity.
  - destruct HS as (_ & HS). cbn [stream_keys cuts]. apply IH; auto.
  - destruct Hw as (Hwa & Hwb & Hsh). destruct HS as (_ & HSa & _). cbn [stream_keys cuts]. apply IH1; auto.
Qed.

Variable dag : list (@entry V).
Variable roots : list nat.
Hypothesis D : dag_ok dag roots.
Hypothesis HS : forall r, In r roots -> wf (expr O dag r) /\ streamable (expr O dag r).
Lemma wants_fine i o : wants O dag roots i o -> wf (expr O dag i) /\ streamable (expr O dag i) /\ perm o (ndim (expr O dag i)).
Proof.
  induction 1 as [r Hr|i o e s H IH He Hs].
  - destruct (HS r Hr). split; auto. split; auto. apply perm_seq.
  - destruct IH as (Hw & Hst & HP). rewrite (expr_entry O maxc dag i e He) in Hw, Hst, HP by (intros; apply (proj1 D i e); auto).
    destruct e as [a|g s0 ax d|f s0 d|f s1 s2 d]; cbn [entry_srcs] in Hs; cbn [src_order].
    + destruct Hs.
    + destruct Hs as [<-|[]]. destruct Hw as [Hw Hax]. destruct Hst as (Hst & _). split; auto. split; auto.
      unfold ndim in *. cbn [shape] in HP. rewrite remove_at_length in HP by auto. replace (length (shape (expr O dag s0))) with (S (pred (length (shape (expr O dag s0))))) by lia. apply input_order_perm; auto. lia.
    + destruct Hs as [<-|[]]. destruct Hst as (_ & Hst). split; auto.
    + destruct Hw as (Hwa & Hwb & Hsh). destruct Hst as (_ & HSa & HSb & _). destruct Hs as [<-|[<-|[]]]; split; auto; split; auto.
      unfold ndim in *. cbn [shape] in HP. rewrite <- Hsh. auto.
Qed.
Lemma streamable_aligned : aligned O maxc dag roots.
Proof.
  intros i o f s1 s2 d Hw He. destruct (wants_fine i o Hw) as (Hwf & Hst & HP).
  rewrite (expr_entry O maxc dag i _ He) in Hwf, Hst by (intros; apply (proj1 D i _ _ He); auto). destruct Hst as (_ & HSa & HSb & Hcut). destruct Hwf as (Hwa & Hwb & Hsh).
  destruct (wants_fine s1 o) as (_ & _ & HP1); [apply (wants_src _ _ _ i o _ s1 Hw He); simpl; auto|].
  destruct (wants_fine s2 o) as (_ & _ & HP2); [apply (wants_src _ _ _ i o _ s2 Hw He); simpl; auto|].
  rewrite !stream_keys_cuts by auto. rewrite Hcut. auto.
Qed.
Lemma streamable_values : exists ds, Forall2 (fun r d => engine_eval O maxc garbage rz m (expr O dag r) = Ok d) roots ds /\ Forall2 (fun r d => nd_eq d (den O m (expr O dag r))) roots ds.
Proof.
  clear D. induction roots as [|r rs IH]; [exists []; split; constructor|]. destruct IH as (ds & H1 & H2); [intros; apply HS; simpl; auto|].
  destruct (HS r (or_introl eq_refl)) as [Hw Hst].
  destruct (engine_ok O maxc garbage m HG HR R rz (realise_ok O maxc garbage m HG HR fuel) _ Hw Hst) as (d & Ed & Hd).
  exists (d :: ds). split; constructor; auto.
Qed.
End Share.
