(** NetSeq: every execution of the network follows the sequential semantics; a
    network whose binary nodes are fed in step never blocks. *)
From Verif Require Import Base Lib Kahn Threads NetLemmas NetProgress.

Section Seq.
Context {C : Type}.
Notation msg := (msg C). Notation node := (node C). Notation loc := (loc C).

Definition prefix {A} (a b : list A) : Prop := exists c, b = a ++ c.
Lemma prefix_trans {A} (a b c : list A) : prefix a b -> prefix b c -> prefix a c.
Proof. intros [x ->] [y ->]. exists (x ++ y). rewrite app_assoc. auto. Qed.
Lemma prefix_app {A} (a b c : list A) : prefix (a ++ b) c -> prefix a c.
Proof. intros [x ->]. exists (b ++ x). rewrite app_assoc. auto. Qed.
Lemma prefix_length {A} (a b : list A) : prefix a b -> length a <= length b.
Proof. intros [x ->]. rewrite app_length. lia. Qed.
Lemma prefix_nth {A} (a b : list A) i x : prefix a b -> nth_error a i = Some x -> nth_error b i = Some x.
Proof. intros [y ->] H. rewrite nth_error_app1; auto. apply nth_error_Some. congruence. Qed.
Lemma prefix_full {A} (a b : list A) : prefix a b -> length b <= length a -> a = b.
Proof. intros [y ->] H. rewrite app_length in H. destruct y; [rewrite app_nil_r; auto|simpl in H; lia]. Qed.
Lemma prefix_firstn {A} n (l : list A) : prefix (firstn n l) l.
Proof. exists (skipn n l). symmetry. apply firstn_skipn. Qed.
Lemma prefix_map {A B} (f : A -> B) a b : prefix a b -> prefix (map f a) (map f b).
Proof. intros [x ->]. exists (map f x). apply map_app. Qed.

(** The rounds read from complete input streams: as many as the shortest has. *)
Fixpoint minlen (X : list (list C)) : nat :=
  match X with [] => 0 | [x] => length x | x :: r => Nat.min (length x) (minlen r) end.
Definition round_at (X : list (list C)) (r : nat) : list C := flat_map (fun xs => optl (nth_error xs r)) X.
Definition rounds (X : list (list C)) : list (list C) := map (round_at X) (seq 0 (minlen X)).

Lemma minlen_le X x : In x X -> minlen X <= length x.
Proof.
  induction X as [|y X IH]; simpl; [tauto|]. destruct X as [|z X]; intros [->|H]; auto; try destruct H.
  - lia. - subst. specialize (IH (or_introl eq_refl)). lia. - specialize (IH (or_intror H)). lia.
Qed.
Lemma minlen_ge X n : X <> [] -> (forall x, In x X -> n <= length x) -> n <= minlen X.
Proof.
  induction X as [|y X IH]; [congruence|]. intros _ H. simpl. destruct X as [|z X]; [apply H; simpl; auto|].
  apply Nat.min_glb; [apply H; simpl; auto|]. apply IH; [discriminate|]. intros x Hx. apply H. simpl. auto.
Qed.
Lemma minlen_same X n : X <> [] -> (forall x, In x X -> length x = n) -> minlen X = n.
Proof.
  intros HX H. apply Nat.le_antisymm.
  - destruct X as [|x X]; [congruence|]. rewrite <- (H x (or_introl eq_refl)). apply minlen_le. simpl; auto.
  - apply minlen_ge; auto. intros x Hx. rewrite H; auto.
Qed.
Lemma firstn_seq n : forall a m, firstn n (seq a m) = seq a (Nat.min n m).
Proof. induction n; intros a [|m]; simpl; auto. f_equal. auto. Qed.
Lemma rounds_length X : length (rounds X) = minlen X.
Proof. unfold rounds. rewrite map_length, seq_length. auto. Qed.

Lemma colm_nth ins hist p r : rows ins hist -> p < length ins ->
  nth_error (@colm C p hist) r = match nth_error hist r with Some row => nth_error row p | None => None end.
Proof.
  intros HR Hp. revert r. induction HR as [|row hist Hrow HR IH]; intros r; [destruct r; auto|]. unfold colm. simpl.
  destruct (nth_error row p) as [c|] eqn:E; [|apply nth_error_None in E; lia].
  simpl. destruct r; auto. apply IH.
Qed.
Lemma colm_length ins hist p : rows ins hist -> p < length ins -> length (@colm C p hist) = length hist.
Proof.
  intros HR Hp. induction HR as [|row hist Hrow HR IH]; auto. unfold colm in *. simpl.
  destruct (nth_error row p) as [c|] eqn:E; [|apply nth_error_None in E; lia]. simpl. auto.
Qed.
Lemma list_ext {A} (l l' : list A) : (forall i, nth_error l i = nth_error l' i) -> l = l'.
Proof.
  revert l'. induction l as [|x l IH]; intros [|y l'] H; auto; try (specialize (H 0); discriminate).
  pose proof (H 0) as H0. injection H0 as ->. f_equal. apply IH. intros i. apply (H (S i)).
Qed.
Lemma round_at_nth X r p : (forall x, In x X -> r < length x) ->
  nth_error (round_at X r) p = match nth_error X p with Some xs => nth_error xs r | None => None end.
Proof.
  revert p. induction X as [|x X IH]; intros p H; [destruct p; auto|]. unfold round_at. simpl.
  destruct (nth_error x r) as [c|] eqn:E.
  - simpl. destruct p; auto. apply IH. intros y Hy. apply H. simpl. auto.
  - apply nth_error_None in E. specialize (H x (or_introl eq_refl)). lia.
Qed.
(** Rounds whose columns are prefixes of the streams are the first rounds. *)
Lemma rounds_prefix ins hist X : rows ins hist -> length X = length ins -> ins <> [] ->
  (forall p xs, nth_error X p = Some xs -> prefix (colm p hist) xs) -> prefix hist (rounds X).
Proof.
  intros HR HX Hne HP. assert (Hlen : forall x, In x X -> length hist <= length x).
  { intros x Hx. apply In_nth_error in Hx as [p Hp]. assert (p < length ins) by (rewrite <- HX; apply nth_error_Some; congruence).
    rewrite <- (colm_length ins hist p) by auto. apply prefix_length. auto. }
  assert (Hm : length hist <= minlen X). { apply minlen_ge; auto. destruct X, ins; simpl in *; congruence. }
  exists (skipn (length hist) (rounds X)). rewrite <- (firstn_skipn (length hist) (rounds X)) at 1. f_equal.
  apply list_ext. intros r. destruct (Nat.lt_ge_cases r (length hist)) as [Hr|Hr].
  - unfold rounds. rewrite firstn_map, nth_error_map, firstn_seq, Nat.min_l by auto.
    assert (Hs : nth_error (seq 0 (length hist)) r = Some r).
    { rewrite (nth_error_nth' _ 0) by (rewrite seq_length; auto). rewrite seq_nth by auto. auto. }
    rewrite Hs. simpl. destruct (nth_error hist r) as [row|] eqn:Er; [|apply nth_error_None in Er; lia]. f_equal.
    assert (Hrow : length row = length ins). { unfold rows in HR. rewrite Forall_forall in HR. apply HR. eapply nth_error_In; eauto. }
    apply list_ext. intros p. rewrite round_at_nth by (intros x Hx; specialize (Hlen x Hx); lia).
    destruct (nth_error X p) as [xs|] eqn:Ep.
    + assert (Hp : p < length ins) by (rewrite <- HX; apply nth_error_Some; congruence).
      destruct (nth_error row p) as [c|] eqn:Ec; [|apply nth_error_None in Ec; lia].
      apply (prefix_nth _ _ r c (HP p xs Ep)). rewrite (colm_nth ins) by auto. rewrite Er. auto.
    + apply nth_error_None in Ep. symmetry. apply nth_error_None. lia.
  - rewrite (proj2 (nth_error_None hist r)) by auto. apply nth_error_None. rewrite firstn_length. lia.
Qed.

Lemma emitted_prefix e h h' : prefix h h' -> prefix (@emitted C e h) (emitted e h').
Proof.
  intros [x ->]. revert h. induction x as [|row x IH]; intros h; [rewrite app_nil_r; exists []; rewrite app_nil_r; auto|].
  replace (h ++ row :: x) with ((h ++ [row]) ++ x) by (rewrite <- app_assoc; auto).
  apply prefix_trans with (emitted e (h ++ [row])); auto. rewrite emitted_snoc. eexists. reflexivity.
Qed.
Lemma prefix_snoc_chunks (cs xs : list C) : prefix (map MChunk cs) (map MChunk xs ++ [MDone]) -> prefix cs xs.
Proof.
  revert xs. induction cs as [|c cs IH]; intros xs [y H]; [exists xs; auto|].
  destruct xs as [|x xs]; simpl in H; [discriminate|]. injection H as -> H. destruct (IH xs (ex_intro _ y H)) as [z ->]. exists z. auto.
Qed.
Lemma prefix_mid (cs xs : list C) (m : msg) : prefix (map MChunk cs ++ [m]) (map MChunk xs ++ [MDone]) ->
  (m = MDone /\ cs = xs) \/ exists c, m = MChunk c /\ prefix (cs ++ [c]) xs.
Proof.
  revert xs. induction cs as [|c cs IH]; intros xs [y H].
  - destruct xs as [|x xs]; simpl in H; injection H as <- H; [left; auto|]. right. exists x. split; auto. exists xs. auto.
  - destruct xs as [|x xs]; simpl in H; [discriminate|]. injection H as -> H.
    destruct (IH xs (ex_intro _ y H)) as [[-> ->]|(c' & -> & z & ->)]; auto. right. exists c'. split; auto. exists z. auto.
Qed.

Variable net : list node.
Variable nq : nat.
Variables wr rd : nat -> nat.
Hypothesis W : wired net nq wr rd.

(** [full i]: all chunks node [i] sends when nothing fails. *)
Variable full : nat -> list C.
Definition inputs (ins : list nat) : list (list C) := map (fun q => full (wr q)) ins.
Definition solved : Prop := forall i n, nth_error net i = Some n ->
  match n with
  | NProd items _ => items = map Ok (full i)
  | NCons e f ins _ =>
      let h := rounds (inputs ins) in
      all_ok e h /\ (exists o, f h = Ok o) /\ full i = emitted e h ++ opt (f h)
  end.
Hypothesis SV : solved.

Section State.
Variable s : gstate msg loc.
Hypothesis HI : inv net nq wr s.

Lemma loc_at i n : nth_error net i = Some n -> exists l, nth_error (fst s) i = Some l.
Proof.
  intros En. destruct (nth_error (fst s) i) eqn:E; eauto. apply nth_error_None in E. rewrite (i_len _ _ _ _ HI) in E.
  assert (i < length net) by (apply nth_error_Some; congruence). lia.
Qed.
Definition follows (i : nat) (n : node) (l : loc) : Prop :=
  prefix (due n l) (map MChunk (full i) ++ [MDone]) /\
  (forall hist got ok, core l = LGet hist got \/ core l = LHalt ok hist got -> ins_of n <> [] -> prefix hist (rounds (inputs (ins_of n)))) /\
  (forall ok hist got, core l = LHalt ok hist got -> ok = true /\ (ins_of n <> [] -> hist = rounds (inputs (ins_of n)))).

Lemma recvd_prefix i n l p q : nth_error net i = Some n -> nth_error (fst s) i = Some l -> nth_error (ins_of n) p = Some q ->
  (forall nw lw, nth_error net (wr q) = Some nw -> nth_error (fst s) (wr q) = Some lw -> prefix (due nw lw) (map MChunk (full (wr q)) ++ [MDone])) ->
  prefix (recvd l p) (map MChunk (full (wr q)) ++ [MDone]).
Proof.
  intros En El Hp H. destruct (w_in _ _ _ _ W i n q En (nth_error_In _ _ Hp)) as (_ & _ & _ & nw & Enw & _).
  destruct (loc_at (wr q) nw Enw) as [lw Elw]. apply prefix_trans with (due nw lw); auto.
  rewrite (i_queue _ _ _ _ HI i n l p q nw lw En El Hp Enw Elw). eexists. reflexivity.
Qed.

Lemma core_put (m : msg) j (k : loc) : core (LPut m j k) = core k. Proof. reflexivity. Qed.
Lemma core_not_put (l : loc) m j k : core l <> LPut m j k.
Proof. induction l; simpl; auto; discriminate. Qed.

Lemma follow : forall i n l, nth_error net i = Some n -> nth_error (fst s) i = Some l -> follows i n l.
Proof.
  induction i as [i IH] using lt_wf_ind. intros n l En El. pose proof (i_loc _ _ _ _ HI i n l En El) as [HK _].
  pose proof (SV i n En) as HS. destruct n as [items o|e f ins o].
  - unfold follows, due. destruct (core l) as [rest|hist got|m j k|ok hist got] eqn:Ec; simpl in HK; try contradiction.
    + destruct HK as (cs & ->). rewrite firstn_pre, oks_all. repeat split; try (intros; discriminate).
      * apply prefix_trans with (map MChunk (full i)); [apply prefix_map|exists [MDone]; auto].
        assert (H : oks (map Ok cs ++ rest) = oks (map Ok (full i))) by congruence. rewrite oks_ok, oks_all in H. exists (oks rest). auto.
      * intros hist got ok [H|H]; discriminate.
    + rewrite HS, oks_all. destruct ok; [|destruct HK as (cs & x & r & ->)].
      * split; [exists []; rewrite app_nil_r; auto|]. split; [intros ? ? ? _ H; simpl in H; congruence|].
        intros ok h g H. injection H as <- _ _. split; auto. simpl. congruence.
      * exfalso. assert (Hin : In (Err x) (map Ok (full i))) by (rewrite <- HS; apply in_or_app; simpl; auto).
        apply in_map_iff in Hin as (? & ? & _). discriminate.
  - cbn zeta in HS. set (h := rounds (inputs ins)) in *. destruct HS as (HA & (of & Hf) & Hfull).
    pose proof (w_cons _ _ _ _ W i e f ins o En) as Hne.
    assert (HP : forall p q, nth_error ins p = Some q -> prefix (recvd l p) (map MChunk (full (wr q)) ++ [MDone])).
    { intros p q Hp. apply (recvd_prefix i _ l p q En El Hp). intros nw lw Enw Elw.
      destruct (w_in _ _ _ _ W i _ q En (nth_error_In _ _ Hp)) as (_ & _ & Hlt & _). apply (IH (wr q) Hlt nw lw Enw Elw). }
    assert (Hhist : forall hist got, (core l = LGet hist got \/ exists ok, core l = LHalt ok hist got) -> rows ins hist -> prefix hist h /\
              (forall p q m, nth_error ins p = Some q -> nth_error got p = Some m ->
                 (m = MDone /\ length (full (wr q)) = length hist) \/ exists c, m = MChunk c)).
    { intros hist got Hc HR. assert (Er : forall p, recvd l p = map MChunk (colm p hist) ++ optl (nth_error got p)).
      { intros p. unfold recvd. destruct Hc as [->|[ok ->]]; auto. }
      split.
      - apply (rounds_prefix ins); auto. { unfold inputs. apply map_length. }
        intros p xs Hx. unfold inputs in Hx. rewrite nth_error_map in Hx. destruct (nth_error ins p) as [q|] eqn:Eq; [|discriminate].
        injection Hx as <-. apply prefix_snoc_chunks. specialize (HP p q Eq). rewrite Er in HP. apply prefix_app in HP. auto.
      - intros p q m Hp Hm. specialize (HP p q Hp). rewrite Er, Hm in HP. simpl in HP. apply prefix_mid in HP as [[-> H]|(c & -> & _)]; eauto.
        left. split; auto. rewrite <- H. apply (colm_length ins); auto. apply nth_error_Some. congruence. }
    assert (Hdone : forall hist got, (core l = LGet hist got \/ exists ok, core l = LHalt ok hist got) -> rows ins hist -> length got = length ins -> existsb is_done got = true -> hist = h).
    { intros hist got Hc HR Hlg Hd. destruct (Hhist hist got Hc HR) as [H1 H2]. apply existsb_exists in Hd as (m & Hm & Hd).
      destruct m; try discriminate. apply In_nth_error in Hm as [p Hp]. assert (Hp' : p < length ins) by (rewrite <- Hlg; apply nth_error_Some; congruence).
      destruct (nth_error ins p) as [q|] eqn:Eq; [|apply nth_error_None in Eq; lia].
      destruct (H2 p q MDone Eq Hp) as [[_ H]|(c & H)]; [|discriminate]. apply prefix_full; auto. unfold h. rewrite rounds_length.
      rewrite <- H. apply minlen_le. unfold inputs. apply in_map_iff. exists q. split; auto. eapply nth_error_In; eauto. }
    assert (Hnoabort : forall hist got, (core l = LGet hist got \/ exists ok, core l = LHalt ok hist got) -> rows ins hist -> length got <= length ins -> existsb is_abort got = false).
    { intros hist got Hc HR Hlg. destruct (existsb is_abort got) eqn:Ha; auto. exfalso. apply existsb_exists in Ha as (m & Hm & Ha).
      destruct m; try discriminate. apply In_nth_error in Hm as [p Hp]. assert (Hp' : p < length got) by (apply nth_error_Some; congruence).
      destruct (nth_error ins p) as [q|] eqn:Eq; [|apply nth_error_None in Eq; lia].
      destruct (Hhist hist got Hc HR) as [_ H2]. destruct (H2 p q MAbort Eq Hp) as [[H _]|(c & H)]; discriminate. }
    unfold follows, due. destruct (core l) as [rest|hist got|m j k|ok hist got] eqn:Ec; simpl in HK; try contradiction.
    + destruct HK as (HR & HL & HA'). destruct (Hhist hist got (or_introl eq_refl) HR) as [H1 _].
      split; [|split]; [| |intros; discriminate].
      * rewrite Hfull. apply prefix_trans with (map MChunk (emitted e h ++ opt (f h))); [|exists [MDone]; auto]. apply prefix_map.
        apply prefix_trans with (emitted e h); [apply emitted_prefix; auto|eexists; reflexivity].
      * intros hist' got' ok' [E|E] _; [injection E as <- <-; auto|discriminate].
    + destruct ok.
      * destruct HK as (HR & HL & Hab & Hd & HA' & o1 & Hf'). assert (Eh : hist = h) by (apply (Hdone hist got); eauto). subst hist.
        split; [|split].
        -- rewrite Hfull. exists []. rewrite app_nil_r. auto.
        -- intros hist' got' ok' [E|E] _; [discriminate|]. injection E as <- <- <-. exists []. rewrite app_nil_r. auto.
        -- intros ok' hist' got' E. injection E as <- <- <-. auto.
      * exfalso. destruct HK as (HR & [(HL & HA' & Hcase)|(-> & h0 & row & -> & HA' & x & Hx)]).
        -- destruct Hcase as [Hab|[Hd [x Hx]]].
           ++ rewrite (Hnoabort hist got) in Hab; eauto; [discriminate|lia].
           ++ assert (Eh : hist = h) by (apply (Hdone hist got); eauto). congruence.
        -- destruct (Hhist (h0 ++ [row]) [] (or_intror (ex_intro _ false eq_refl)) HR) as [[z Hz] _].
           destruct (HA (length (h0 ++ [row]))) as [o1 Ho1]. { rewrite Hz, !app_length. simpl. lia. }
           rewrite Hz, firstn_app, firstn_all, Nat.sub_diag in Ho1. simpl in Ho1. rewrite app_nil_r in Ho1. congruence.
Qed.
End State.

(** ** Networks in step *)
(** When each message is sent, in steps of the producers behind it: the chunks
    made from round [r] at the time of that round; at the end of the inputs the
    last chunk, if there is one, and then the end of stream. *)
Definition sends (e f : list (list C) -> res (option C)) (h : list (list C)) (t : list nat) (te : nat) : list nat :=
  flat_map (fun r => map (fun _ => nth r t 0) (opt (e (firstn (1 + r) h)))) (seq 0 (length h))
  ++ map (fun _ => nth (length h) t 0) (opt (f h)) ++ [te].
Definition emit_times (e f : list (list C) -> res (option C)) (h : list (list C)) (t : list nat) : list nat :=
  sends e f h t (length (opt (f h)) + nth (length h) t 0).
Lemma sends_end e f h t te te' : sends e f h t te' = removelast (sends e f h t te) ++ [te'].
Proof. unfold sends. rewrite !app_assoc, removelast_last. auto. Qed.
Variable times : nat -> list nat.
Definition incr (t : list nat) : Prop := forall i j, i < j -> j < length t -> nth i t 0 < nth j t 0.
(** The end may be sent any time after that. *)
Definition in_step : Prop := forall i n, nth_error net i = Some n ->
  match n with
  | NProd items _ => incr (times i) /\ length (times i) = 1 + length (full i)
  | NCons e f ins _ => forall q, In q ins ->
      (exists te, times i = sends e f (rounds (inputs ins)) (times (wr q)) te /\
         length (opt (f (rounds (inputs ins)))) + nth (length (rounds (inputs ins))) (times (wr q)) 0 <= te) /\
      forall q', In q' ins -> times (wr q) = times (wr q')
  end.
Hypothesis ST : in_step.

Lemma incr_cons x t : (forall y, In y t -> x < y) -> incr t -> incr (x :: t).
Proof.
  intros Hx Ht [|i] [|j] Hij Hj; simpl in *; try lia.
  - apply Hx. apply nth_In. lia.
  - apply Ht; lia.
Qed.
Lemma incr_app a b : incr a -> incr b -> (forall x y, In x a -> In y b -> x < y) -> incr (a ++ b).
Proof.
  induction a as [|x a IH]; intros Ha Hb H; simpl; auto. apply incr_cons.
  - intros y Hy. apply in_app_or in Hy as [Hy|Hy].
    + apply In_nth with (d := 0) in Hy as (j & Hj & <-). apply (Ha 0 (1 + j)); simpl; lia.
    + apply H; simpl; auto.
  - apply IH; auto.
    + intros i j Hij Hj. apply (Ha (1 + i) (1 + j)); simpl; lia.
    + intros; apply H; simpl; auto.
Qed.
Lemma incr_le t i j : incr t -> i <= j -> j < length t -> nth i t 0 <= nth j t 0.
Proof. intros H Hij Hj. destruct (Nat.eq_dec i j) as [->|]; auto. specialize (H i j). lia. Qed.
Lemma incr_seq n : forall a, incr (seq a n).
Proof. intros a i j Hij Hj. rewrite seq_length in Hj. rewrite !seq_nth by lia. lia. Qed.

Section Times.
Variables (e f : list (list C) -> res (option C)) (h : list (list C)) (t : list nat) (te : nat).
Hypothesis Ht : incr t.
Hypothesis Hlen : length h < length t.
Hypothesis Hte : length (opt (f h)) + nth (length h) t 0 <= te.
Definition sent_at (a n : nat) : list nat := flat_map (fun r => map (fun _ => nth r t 0) (opt (e (firstn (1 + r) h)))) (seq a n).
Lemma opt_cases (r : res (option C)) : opt r = [] \/ exists c, opt r = [c].
Proof. destruct r as [[c|]|]; simpl; eauto. Qed.
Lemma sent_at_in a n x : In x (sent_at a n) -> exists r, a <= r < a + n /\ x = nth r t 0.
Proof.
  unfold sent_at. intros H. apply in_flat_map in H as (r & Hr & Hx). apply in_seq in Hr. exists r. split; auto.
  apply in_map_iff in Hx as (_ & <- & _). auto.
Qed.
Lemma sent_at_incr n : forall a, a + n <= length t -> incr (sent_at a n).
Proof.
  induction n as [|n IH]; intros a Ha; [intros i j Hij Hj; simpl in Hj; lia|]. unfold sent_at. simpl.
  apply incr_app.
  - destruct (opt_cases (e (match h with [] => [] | a0 :: l => a0 :: firstn a l end))) as [->|[c ->]]; simpl; intros i j Hij Hj; simpl in Hj; lia.
  - apply IH. lia.
  - intros x y Hx Hy. apply in_map_iff in Hx as (_ & <- & _). apply sent_at_in in Hy as (r & Hr & ->). apply Ht; lia.
Qed.
Lemma flat_map_length {A B} (g : A -> list B) l : length (flat_map g l) = list_sum (map (fun x => length (g x)) l).
Proof. induction l; simpl; auto. rewrite app_length. auto. Qed.
Lemma sent_at_length n : n <= length h -> length (sent_at 0 n) = length (emitted e (firstn n h)).
Proof.
  intros Hn. unfold sent_at, emitted. rewrite firstn_length, Nat.min_l by auto.
  rewrite <- (seq_shift n 0), !flat_map_concat_map, map_map. rewrite <- !flat_map_concat_map, !flat_map_length. f_equal.
  apply map_ext_in. intros r Hr. apply in_seq in Hr. rewrite map_length, firstn_firstn, Nat.min_l by lia. auto.
Qed.
Lemma times_incr : incr (sends e f h t te).
Proof.
  unfold sends. fold (sent_at 0 (length h)). apply incr_app; [apply sent_at_incr; lia| |].
  - clear W SV ST. destruct (opt_cases (f h)) as [E|[c E]]; rewrite E in Hte |- *; simpl; intros i j Hij Hj; simpl in Hj, Hte; [lia|].
    destruct i as [|i], j as [|[|j]]; simpl; lia.
  - intros x y Hx Hy. apply sent_at_in in Hx as (r & Hr & ->).
    assert (Hy' : y = nth (length h) t 0 \/ y = te).
    { apply in_app_or in Hy as [Hy|[<-|[]]]; auto. apply in_map_iff in Hy as (_ & <- & _). auto. }
    assert (nth r t 0 < nth (length h) t 0) by (apply Ht; lia). lia.
Qed.
Lemma times_length : length (sends e f h t te) = 1 + length (emitted e h ++ opt (f h)).
Proof.
  unfold sends. fold (sent_at 0 (length h)). rewrite !app_length, map_length, sent_at_length, firstn_all by auto. simpl. lia.
Qed.
Lemma sent_split n : n <= length h -> sent_at 0 (length h) = sent_at 0 n ++ sent_at n (length h - n).
Proof. intros Hn. unfold sent_at. rewrite <- flat_map_app, <- seq_app. do 2 f_equal. lia. Qed.
(** The message sent after the first [r] rounds is sent no earlier than round [r]. *)
Lemma times_lower r : r <= length h -> nth r t 0 <= nth (length (emitted e (firstn r h))) (sends e f h t te) 0.
Proof.
  intros Hr. unfold sends. fold (sent_at 0 (length h)). rewrite (sent_split r Hr), <- app_assoc, <- sent_at_length by auto.
  rewrite app_nth2, Nat.sub_diag by lia.
  set (rest := sent_at r (length h - r) ++ _).
  assert (Hall : forall x, In x rest -> nth r t 0 <= x).
  { intros x Hx. unfold rest in Hx. apply in_app_or in Hx as [Hx|Hx].
    - apply sent_at_in in Hx as (r' & Hr' & ->). apply incr_le; auto; lia.
    - assert (x = nth (length h) t 0 \/ x = te).
      { apply in_app_or in Hx as [Hx|[<-|[]]]; auto. apply in_map_iff in Hx as (_ & <- & _). auto. }
      assert (nth r t 0 <= nth (length h) t 0) by (apply incr_le; auto; lia). lia. }
  apply Hall. apply nth_In. unfold rest. rewrite !app_length. simpl. lia.
Qed.
(** The chunk made from round [r] is sent at that time. *)
Lemma times_upper r c : r < length h -> e (firstn (1 + r) h) = Ok (Some c) ->
  nth (length (emitted e (firstn r h))) (sends e f h t te) 0 = nth r t 0.
Proof.
  intros Hr He. unfold sends. fold (sent_at 0 (length h)). rewrite (sent_split r) by lia. rewrite <- app_assoc, <- sent_at_length by lia.
  rewrite app_nth2, Nat.sub_diag by lia. replace (length h - r) with (1 + (length h - r - 1)) by lia.
  unfold sent_at. cbn [Nat.add seq flat_map]. cbn [Nat.add] in He. rewrite He. simpl. auto.
Qed.
End Times.

Lemma full_times : forall i n, nth_error net i = Some n -> incr (times i) /\ length (times i) = 1 + length (full i).
Proof.
  induction i as [i IH] using lt_wf_ind. intros n En. pose proof (ST i n En) as HS. pose proof (SV i n En) as HV. destruct n as [items o|e f ins o].
  - exact HS.
  - cbn zeta in HV. destruct HV as (_ & _ & HV). pose proof (w_cons _ _ _ _ W i e f ins o En) as Hne.
    destruct ins as [|q ins]; [congruence|]. destruct (HS q (or_introl eq_refl)) as [(te & Hi & Hte) _].
    destruct (w_in _ _ _ _ W i _ q En (or_introl eq_refl)) as (_ & _ & Hlt & nw & Enw & _).
    destruct (IH (wr q) Hlt nw Enw) as [H1 H2]. assert (Hl : length (rounds (inputs (q :: ins))) < length (times (wr q))).
    { rewrite H2, rounds_length. assert (minlen (inputs (q :: ins)) <= length (full (wr q))) by (apply minlen_le; simpl; auto). lia. }
    rewrite Hi. split; [apply times_incr; auto|]. rewrite times_length, HV; auto.
Qed.
Lemma rounds_all i e f ins o q : nth_error net i = Some (NCons e f ins o) -> In q ins -> length (rounds (inputs ins)) = length (full (wr q)).
Proof.
  intros En Hq. rewrite rounds_length. apply minlen_same; [destruct ins; [destruct Hq|discriminate]|].
  intros x Hx. apply in_map_iff in Hx as (q' & <- & Hq'). pose proof (ST i _ En q Hq) as [_ H]. specialize (H q' Hq').
  destruct (w_in _ _ _ _ W i _ q En Hq) as (_ & _ & _ & nw & Enw & _). destruct (w_in _ _ _ _ W i _ q' En Hq') as (_ & _ & _ & nw' & Enw' & _).
  destruct (full_times _ _ Enw) as [_ E1]. destruct (full_times _ _ Enw') as [_ E2]. rewrite <- H in E2. lia.
Qed.

Section Final.
Variable room : nat -> bool.
Hypothesis room0 : room 0 = true.
Variable s : gstate msg loc.
Hypothesis HI : inv net nq wr s.
Hypothesis HF : final (net_next net) room s.

(** The time a blocked thread waits for. *)
Definition clock (i : nat) (n : node) (l : loc) : nat :=
  match l with
  | LGet hist got => nth (length hist) (times (wr (nth (length got) (ins_of n) 0))) 0
  | _ => nth (length (due n l) - length (pend l)) (times i) 0
  end.
Definition waiting (l : loc) : Prop := match l with LHalt _ _ _ => False | _ => True end.

Lemma recvd_ge (l : loc) hist got p ins : core l = LGet hist got -> rows ins hist -> p < length ins -> length hist <= length (recvd l p).
Proof. intros E HR Hp. unfold recvd. rewrite E, app_length, map_length, (colm_length ins) by auto. lia. Qed.

Lemma none_waits : forall t i n l, nth_error net i = Some n -> nth_error (fst s) i = Some l -> waiting l -> clock i n l = t -> False.
Proof.
  induction t as [t IHt] using lt_wf_ind. induction i as [i IHi] using lt_wf_ind. intros n l En El Hw Ht.
  assert (Hlt : forall i' n' l', nth_error net i' = Some n' -> nth_error (fst s) i' = Some l' -> waiting l' ->
                  clock i' n' l' < t \/ (clock i' n' l' <= t /\ i' < i) -> False).
  { intros i' n' l' En' El' Hw' [H|[H Hi']].
    - eapply (IHt (clock i' n' l') H); eauto.
    - destruct (Nat.eq_dec (clock i' n' l') t) as [Ec|Ec]; [apply (IHi i' Hi' n' l'); auto|]. eapply (IHt (clock i' n' l')); eauto. lia. }
  clear IHt IHi. pose proof (i_loc _ _ _ _ HI i n l En El) as [HK HSh]. pose proof (follow s HI i n l En El) as (HP & _ & _).
  destruct (blocked net nq wr room s HI HF i n l En El) as [(ok & h & g & ->)|[(hist & got & q & -> & Hq & Hemp)|(m & j & k & q & -> & Hj & Hfull)]].
  - destruct Hw.
  - (* waits for a message: its writer waits for something no later *)
    pose proof (nth_error_In _ _ Hq) as Hin. destruct (w_in _ _ _ _ W i n q En Hin) as (_ & _ & Hlw & nw & Enw & Hout).
    destruct (loc_at s HI (wr q) nw Enw) as [lw Elw].
    pose proof (i_queue _ _ _ _ HI i n _ (length got) q nw lw En El Hq Enw Elw) as HQ. rewrite reading_chunks, Hemp in HQ. cbn [app] in HQ.
    destruct n as [|e f ins o]; [destruct HK|]. cbn [ins_of outs_of core coreok] in *. destruct HK as (HR & HL & HA).
    assert (Hlr : length (colm (length got) hist) = length hist) by (apply (colm_length ins); auto; apply nth_error_Some; congruence).
    unfold clock in Ht. cbn [ins_of] in Ht. rewrite (nth_error_nth ins (length got) 0 Hq) in Ht.
    destruct (full_times _ _ Enw) as [Hinc Hlen].
    pose proof (follow s HI (wr q) nw lw Enw Elw) as (HPw & HPh & _).
    assert (Hrf : length hist <= length (full (wr q))).
    { rewrite HQ in HPw. apply prefix_app in HPw. apply prefix_snoc_chunks in HPw. apply prefix_length in HPw. lia. }
    pose proof (i_loc _ _ _ _ HI _ _ _ Enw Elw) as [HKw HShw].
    destruct (blocked net nq wr room s HI HF (wr q) nw lw Enw Elw) as [(ok & h & g & ->)|[(hw & gw & q' & -> & Hq' & _)|(m & j & k & q' & -> & Hj & Hfull)]].
    + destruct (halted_due nw ok h g HKw) as (cs & Hd). rewrite Hd in HQ. simpl in HQ.
      rewrite app_nil_r in HQ. apply not_only_chunks in HQ; auto. destruct ok; discriminate.
    + apply (Hlt (wr q) nw _ Enw Elw I). right. split; auto. destruct nw as [|ew fw insw ow]; [destruct HKw|].
      cbn [ins_of core coreok] in *. unfold clock. cbn [ins_of]. rewrite (nth_error_nth insw (length gw) 0 Hq').
      assert (Hq'in : In q' insw) by (eapply nth_error_In; eauto).
      assert (Hneq : insw <> []) by (intros ->; destruct Hq'in). specialize (HPh hw gw true (or_introl eq_refl) Hneq).
      destruct HPh as [z Hz]. set (hf := rounds (inputs insw)) in *. pose proof (ST _ _ Enw q' Hq'in) as [(te & Htm & Hte) _]. fold hf in Htm, Hte.
      destruct (w_in _ _ _ _ W _ _ q' Enw Hq'in) as (_ & _ & _ & nw' & Enw' & _). destruct (full_times _ _ Enw') as [Hinc' Hlen'].
      pose proof (rounds_all _ _ _ _ _ q' Enw Hq'in) as Hra. fold hf in Hra.
      assert (Hle : length hw <= length hf) by (rewrite Hz, app_length; lia).
      pose proof (times_lower ew fw hf (times (wr q')) te Hinc' ltac:(lia) Hte (length hw) Hle) as Hlow. rewrite <- Htm in Hlow.
      replace (firstn (length hw) hf) with hw in Hlow by (rewrite Hz, firstn_app, firstn_all, Nat.sub_diag; simpl; rewrite app_nil_r; auto).
      unfold due in HQ. cbn [core todo] in HQ. rewrite app_nil_r in HQ. apply (f_equal (@length msg)) in HQ. rewrite !map_length, Hlr in HQ.
      rewrite HQ in Hlow. lia.
    + apply (Hlt (wr q) nw _ Enw Elw I).
      assert (Hpos : length (due nw (LPut m j k)) - length (pend (LPut m j k)) <= length hist).
      { rewrite HQ, app_length, map_length, Hlr. unfold todo. cbn [pend length]. destruct (in_dec Nat.eq_dec q (firstn j (outs_of nw))); simpl; lia. }
      right. split; auto. unfold clock. rewrite <- Ht. apply incr_le; auto. lia.
  - (* waits for room: the reader waits for something earlier *)
    pose proof (nth_error_In _ _ Hj) as Hout. destruct (w_out _ _ _ _ W i n q En Hout) as (Hwr & _ & nc & Enc & Hin).
    set (c := rd q) in *. destruct (loc_at s HI c nc Enc) as [lc Elc]. apply In_nth_error in Hin as [p Hp].
    assert (En' : nth_error net (wr q) = Some n) by (rewrite Hwr; auto). assert (El' : nth_error (fst s) (wr q) = Some (LPut m j k)) by (rewrite Hwr; auto).
    pose proof (i_queue _ _ _ _ HI c nc lc p q n _ Enc Elc Hp En' El') as HQ.
    assert (Htd : todo (outs_of n) (LPut m j k) q = pend (LPut m j k)).
    { unfold todo. destruct (in_dec Nat.eq_dec q (firstn j (outs_of n))) as [Hi|Hi]; auto. exfalso.
      pose proof (w_outs _ _ _ _ W i n En) as HN. apply nth_error_split in Hj as (l1 & l2 & E & <-). rewrite E in HN, Hi.
      rewrite firstn_app, firstn_all, Nat.sub_diag in Hi. simpl in Hi. rewrite app_nil_r in Hi. apply NoDup_remove_2 in HN. apply HN. apply in_or_app. auto. }
    rewrite Htd in HQ. assert (Hne : 1 <= length (nth q (snd s) [])). { destruct (nth q (snd s) []); simpl in *; [congruence|lia]. }
    pose proof (f_equal (@length msg) HQ) as HQl. rewrite !app_length in HQl. apply prefix_length in HP. rewrite app_length, map_length in HP. cbn [length] in HP.
    assert (Hpend : 1 <= length (pend (LPut m j k))) by (simpl; lia).
    unfold clock in Ht. set (pos := length (due n (LPut m j k)) - length (pend (LPut m j k))) in *.
    destruct (full_times i n En) as [Hinc Hlen].
    pose proof (i_loc _ _ _ _ HI _ _ _ Enc Elc) as [HKc HShc].
    destruct nc as [|e f ins o]; [destruct p; discriminate|]. cbn [ins_of] in Hp.
    assert (Hpl : p < length ins) by (apply nth_error_Some; congruence). pose proof (nth_error_In _ _ Hp) as Hqin.
    pose proof (ST _ _ Enc q Hqin) as [(te & Htm & Hte) Hal]. pose proof (rounds_all _ _ _ _ _ q Enc Hqin) as Hra. rewrite Hwr in *.
    (* the reader has not finished *)
    assert (Hnh : forall ok h g, core lc = LHalt ok h g -> False).
    { intros ok h g Ec. pose proof (follow s HI c _ lc Enc Elc) as (_ & _ & HH). destruct (HH ok h g Ec) as [-> Hh].
      cbn [ins_of] in Hh. rewrite Ec in HKc. cbn [coreok] in HKc. destruct HKc as (HR & Hlg & _).
      assert (Hrl : length (recvd lc p) = 1 + length h).
      { unfold recvd. rewrite Ec, app_length, map_length, (colm_length ins) by auto.
        destruct (nth_error g p) eqn:Eg; [simpl; lia|]. apply nth_error_None in Eg. lia. }
      rewrite Hh in Hrl by (intros E; rewrite E in Hpl; simpl in Hpl; lia). lia. }
    destruct (blocked net nq wr room s HI HF c _ lc Enc Elc) as [(ok & h & g & ->)|[(hc & gc & q' & -> & Hq' & _)|(m' & j' & k' & q' & -> & Hj' & _)]].
    + apply (Hnh ok h g eq_refl).
    + cbn [ins_of] in Hq'. destruct HKc as (HR & _ & _). apply (Hlt c _ _ Enc Elc I). left. unfold clock. cbn [ins_of].
      rewrite (nth_error_nth ins (length gc) 0 Hq'). rewrite <- (Hal q') by (eapply nth_error_In; eauto).
      rewrite <- Ht. apply Hinc; [|lia]. pose proof (recvd_ge (LGet hc gc) hc gc p ins eq_refl HR Hpl). lia.
    + apply (Hlt c _ _ Enc Elc I). left.
      destruct (core k') as [rest|hc gc|m1 j1 k1|ok h g] eqn:Ek.
      * cbn [core] in HKc. rewrite Ek in HKc. destruct HKc.
      * (* it is sending the chunk of its last round *)
        assert (Hk' : k' = LGet hc gc). { cbn [shaped] in HShc. destruct m', k' as [| |[] [] []|]; simpl in Ek, HShc; try contradiction; try discriminate; auto. }
        subst k'. cbn [core coreok] in HKc. destruct HKc as (HR & _ & HA).
        cbn [shaped] in HShc. destruct m' as [cc| |]; try contradiction. destruct gc; [|contradiction]. cbn [from_emit] in HShc. destruct HShc as [Hnil He].
        destruct (exists_last Hnil) as (h0 & row & ->).
        pose proof (follow s HI c _ _ Enc Elc) as (_ & HPh & _). cbn [ins_of] in HPh.
        specialize (HPh (h0 ++ [row]) [] true (or_introl eq_refl)). destruct HPh as [z Hz]. { intros E. rewrite E in Hpl. simpl in Hpl. lia. }
        set (hf := rounds (inputs ins)) in *.
        assert (Hh0 : length h0 < length hf) by (rewrite Hz, !app_length; simpl; lia).
        assert (Ef1 : firstn (1 + length h0) hf = h0 ++ [row]).
        { replace (1 + length h0) with (length (h0 ++ [row])) by (rewrite app_length; simpl; lia).
          rewrite Hz, firstn_app, firstn_all, Nat.sub_diag. simpl. apply app_nil_r. }
        assert (Ef0 : firstn (length h0) hf = h0).
        { rewrite Hz, <- app_assoc, firstn_app, firstn_all, Nat.sub_diag. simpl. apply app_nil_r. }
        pose proof (times_upper e f hf (times i) te ltac:(lia) Hte (length h0) cc Hh0 ltac:(rewrite Ef1; auto)) as Hup. rewrite Ef0, <- Htm in Hup.
        unfold clock, due. cbn [core pend length]. rewrite map_length, emitted_snoc, He, app_length. cbn [opt length].
        replace (length (emitted e h0) + 1 - 1) with (length (emitted e h0)) by lia. rewrite Hup, <- Ht. apply Hinc; [|lia].
        pose proof (recvd_ge (LPut (MChunk cc) j' (LGet (h0 ++ [row]) [])) (h0 ++ [row]) [] p ins eq_refl HR Hpl) as Hge.
        rewrite app_length in Hge. simpl in Hge. lia.
      * exfalso. eapply core_not_put; eauto.
      * exfalso. apply (Hnh ok h g). simpl. auto.
Qed.
(** Every thread has finished normally, having read its complete inputs. *)
Lemma all_halt i n l : nth_error net i = Some n -> nth_error (fst s) i = Some l -> exists hist got, l = LHalt true hist got.
Proof.
  intros En El. destruct l as [r|h g|m j k|ok h g].
  - destruct (none_waits _ i n _ En El I eq_refl).
  - destruct (none_waits _ i n _ En El I eq_refl).
  - destruct (none_waits _ i n _ En El I eq_refl).
  - pose proof (follow s HI i n _ En El) as (_ & _ & H). destruct (H ok h g eq_refl) as [-> _]. eauto.
Qed.
End Final.
End Seq.
