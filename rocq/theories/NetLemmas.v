(** NetLemmas: invariants of the network of threads of Threads.v. *)
From Verif Require Import Base Lib Kahn Threads.

Section Net.
Context {C : Type}.
Notation msg := (msg C). Notation node := (node C). Notation loc := (loc C).

(** How the queues connect the nodes: one writer and one reader each, the writer
    earlier than the reader. *)
Record wired (net : list node) (nq : nat) (wr rd : nat -> nat) : Prop := {
  w_out : forall i n q, nth_error net i = Some n -> In q (outs_of n) ->
    wr q = i /\ q < nq /\ exists n', nth_error net (rd q) = Some n' /\ In q (ins_of n');
  w_in : forall i n q, nth_error net i = Some n -> In q (ins_of n) ->
    rd q = i /\ q < nq /\ wr q < i /\ exists n', nth_error net (wr q) = Some n' /\ In q (outs_of n');
  w_outs : forall i n, nth_error net i = Some n -> NoDup (outs_of n);
  w_ins : forall i n, nth_error net i = Some n -> NoDup (ins_of n);
  w_cons : forall i e f ins outs, nth_error net i = Some (NCons e f ins outs) -> ins <> []
}.

(** ** What a local state says about the messages sent and received *)
Fixpoint core (l : loc) : loc := match l with LPut _ _ k => core k | _ => l end.
Fixpoint pend (l : loc) : list msg := match l with LPut m _ k => m :: pend k | _ => [] end.
Definition todo (outs : list nat) (l : loc) (q : nat) : list msg :=
  match l with
  | LPut m j k => (if in_dec Nat.eq_dec q (firstn j outs) then [] else [m]) ++ pend k
  | _ => []
  end.
Fixpoint oks (items : list (res C)) : list C :=
  match items with Ok c :: r => c :: oks r | _ => [] end.
Definition opt (r : res (option C)) : list C := match r with Ok (Some c) => [c] | _ => [] end.
Definition emitted (e : list (list C) -> res (option C)) (hist : list (list C)) : list C :=
  flat_map (fun r => opt (e (firstn r hist))) (seq 1 (length hist)).
Definition all_ok (e : list (list C) -> res (option C)) (hist : list (list C)) : Prop :=
  forall r, 1 <= r <= length hist -> exists o, e (firstn r hist) = Ok o.
Definition due (n : node) (l : loc) : list msg :=
  match n, core l with
  | NProd items _, LProd rest => map MChunk (oks (firstn (length items - length rest) items))
  | NProd items _, LHalt ok _ _ => map MChunk (oks items) ++ [if ok then MDone else MAbort]
  | NCons e _ _ _, LGet hist _ => map MChunk (emitted e hist)
  | NCons e f _ _, LHalt true hist _ => map MChunk (emitted e hist ++ opt (f hist)) ++ [MDone]
  | NCons e _ _ _, LHalt false hist _ => map MChunk (emitted e hist) ++ [MAbort]
  | _, _ => []
  end.
Definition colm (p : nat) (hist : list (list C)) : list C :=
  flat_map (fun row => match nth_error row p with Some c => [c] | None => [] end) hist.
Definition optl {A} (o : option A) : list A := match o with Some x => [x] | None => [] end.
Definition recvd (l : loc) (p : nat) : list msg :=
  match core l with
  | LGet hist got | LHalt _ hist got => map MChunk (colm p hist) ++ optl (nth_error got p)
  | _ => []
  end.
Definition rows (ins : list nat) (hist : list (list C)) := Forall (fun row => length row = length ins) hist.
Definition coreok (n : node) (l : loc) : Prop :=
  match n, l with
  | NProd items _, LProd rest => exists cs, items = map Ok cs ++ rest
  | NProd items _, LHalt true _ _ => exists cs, items = map Ok cs
  | NProd items _, LHalt false _ _ => exists cs e r, items = map Ok cs ++ Err e :: r
  | NCons e _ ins _, LGet hist got => rows ins hist /\ length got <= length ins /\ all_ok e hist
  | NCons e f ins _, LHalt true hist got =>
      rows ins hist /\ length got = length ins /\ existsb is_abort got = false /\
      existsb is_done got = true /\ all_ok e hist /\ exists o, f hist = Ok o
  | NCons e f ins _, LHalt false hist got =>
      rows ins hist /\
      ((length got = length ins /\ all_ok e hist /\
        (existsb is_abort got = true \/ existsb is_done got = true /\ exists x, f hist = Err x)) \/
       (got = [] /\ exists h row, hist = h ++ [row] /\ all_ok e h /\ exists x, e hist = Err x))
  | _, _ => False
  end.
Definition from_emit (n : node) (hist : list (list C)) (c : C) : Prop :=
  match n with NCons e _ _ _ => hist <> [] /\ e hist = Ok (Some c) | _ => True end.
Definition from_fin (n : node) (hist : list (list C)) (c : C) : Prop :=
  match n with NCons _ f _ _ => f hist = Ok (Some c) | _ => True end.
Definition shaped (n : node) (l : loc) : Prop :=
  match l with
  | LPut m j k => match m, k with
                  | MChunk _, LProd _ => True
                  | MChunk c, LGet hist [] => from_emit n hist c
                  | MChunk c, LPut MDone 0 (LHalt true hist _) => from_fin n hist c
                  | MDone, LHalt true _ _ => True
                  | MAbort, LHalt false _ _ => True
                  | _, _ => False
                  end
  | _ => True
  end.
Definition lok (n : node) (l : loc) : Prop := coreok n (core l) /\ shaped n l.

Lemma oks_ok cs r : oks (map Ok cs ++ r) = cs ++ oks r.
Proof. induction cs; simpl; auto. f_equal. auto. Qed.
Lemma oks_all cs : oks (map Ok cs) = cs.
Proof. rewrite <- (app_nil_r (map Ok cs)), oks_ok. simpl. apply app_nil_r. Qed.
Lemma firstn_pre {A} (l r : list A) : firstn (length (l ++ r) - length r) (l ++ r) = l.
Proof. rewrite app_length. replace (length l + length r - length r) with (length l + 0) by lia. rewrite firstn_app_2. simpl. apply app_nil_r. Qed.
Lemma emitted_snoc e hist row : emitted e (hist ++ [row]) = emitted e hist ++ opt (e (hist ++ [row])).
Proof.
  unfold emitted. rewrite app_length. cbn [length]. rewrite seq_app, flat_map_app. cbn [seq flat_map]. rewrite app_nil_r. f_equal.
  - rewrite !flat_map_concat_map. f_equal. apply map_ext_in. intros r Hr. apply in_seq in Hr. rewrite firstn_app.
    replace (r - length hist) with 0 by lia. simpl. rewrite app_nil_r. auto.
  - replace (1 + length hist) with (length (hist ++ [row])) by (rewrite app_length; simpl; lia). rewrite firstn_all. auto.
Qed.
Lemma all_ok_snoc e hist row o : all_ok e hist -> e (hist ++ [row]) = Ok o -> all_ok e (hist ++ [row]).
Proof.
  intros H He r Hr. rewrite app_length in Hr. simpl in Hr. destruct (Nat.eq_dec r (S (length hist))) as [->|Hn].
  - replace (S (length hist)) with (length (hist ++ [row])) by (rewrite app_length; simpl; lia). rewrite firstn_all. eauto.
  - rewrite firstn_app. replace (r - length hist) with 0 by lia. simpl. rewrite app_nil_r. apply H. lia.
Qed.
Lemma colm_snoc p hist row : colm p (hist ++ [row]) = colm p hist ++ optl (nth_error row p).
Proof. unfold colm. rewrite flat_map_app. simpl. rewrite app_nil_r. auto. Qed.
(** A round of chunks only. *)
Lemma all_chunks got : existsb is_abort got = false -> existsb (@is_done C) got = false -> got = map MChunk (flat_map chunk_of got).
Proof. induction got as [|[c| |] got IH]; simpl; intros; auto; try discriminate. f_equal. auto. Qed.

Lemma todo_pend outs l q : match l with LPut _ j _ => j = 0 | _ => True end -> todo outs l q = pend l.
Proof. destruct l; simpl; auto. intros ->. simpl. auto. Qed.

(** ** One step of one thread *)
Lemma tau_ok n l l' : lok n l -> ins_of n <> [] \/ (exists i o, n = NProd i o) -> node_next n l = ATau l' ->
  lok n l' /\ (forall p, p < length (ins_of n) -> recvd l' p = recvd l p) /\
  exists ms, due n l' = due n l ++ ms /\ forall q, In q (outs_of n) -> todo (outs_of n) l' q = todo (outs_of n) l q ++ ms.
Proof.
  intros [HK HS] _ H. destruct l as [rest|hist got|m j k|ok hist got]; simpl in H.
  - destruct n as [items o|e f ins o]; [|destruct HK]. simpl in HK. destruct HK as (cs & ->).
    destruct rest as [|[c|x] r]; injection H as <-.
    + split. { split; simpl; auto. exists cs. rewrite app_nil_r. auto. }
      split. { intros p Hp. simpl in Hp. lia. }
      exists [MDone]. unfold due. cbn [core]. rewrite firstn_pre, app_nil_r, oks_all. split; auto.
    + split. { split; simpl; auto. exists (cs ++ [c]). rewrite map_app, <- app_assoc. auto. }
      split. { intros p Hp. simpl in Hp. lia. }
      exists [MChunk c]. unfold due. cbn [core].
      assert (E : map Ok cs ++ Ok c :: r = map Ok (cs ++ [c]) ++ r) by (rewrite map_app, <- app_assoc; auto).
      rewrite firstn_pre. rewrite E, firstn_pre. rewrite !oks_all, map_app. split; auto.
    + split. { split; simpl; auto. exists cs, x, r. auto. }
      split. { intros p Hp. simpl in Hp. lia. }
      exists [MAbort]. unfold due. cbn [core aborting]. rewrite firstn_pre, oks_ok, oks_all. simpl. rewrite app_nil_r. split; auto.
  - destruct n as [items o|e f ins o]; [destruct HK|]. simpl in HK. destruct HK as (HR & HL & HA).
    destruct (nth_error ins (length got)) as [q|] eqn:En; [discriminate|]. injection H as <-.
    apply nth_error_None in En. assert (HL' : length got = length ins) by lia. clear HL En.
    unfold round. destruct (existsb is_abort got) eqn:Ea.
    { split. { split; simpl; [|exact I]. split; auto. } split. { intros p Hp. reflexivity. } exists [MAbort]. split; auto. }
    destruct (existsb is_done got) eqn:Ed.
    { destruct (f hist) as [o1|x] eqn:Ef.
      - split. { destruct o1; split; simpl; auto; repeat split; eauto. }
        split. { intros p Hp. destruct o1; reflexivity. }
        exists (map MChunk (opt (f hist)) ++ [MDone]). split.
        + destruct o1; unfold due; cbn [core emitting]; rewrite map_app, <- app_assoc; auto.
        + intros q _. rewrite Ef. destruct o1; reflexivity.
      - split. { split; simpl; eauto 10. } split. { intros p Hp. reflexivity. } exists [MAbort]. split; auto. }
    set (row := flat_map chunk_of got). assert (Eg : got = map MChunk row) by (apply all_chunks; auto).
    assert (Hlen : length row = length ins) by (rewrite <- HL', Eg, map_length; auto).
    assert (HR' : rows ins (hist ++ [row])) by (apply Forall_app; auto).
    assert (Hrec : forall p, map MChunk (colm p (hist ++ [row])) ++ optl (nth_error ([]:list msg) p) = map MChunk (colm p hist) ++ optl (nth_error got p)).
    { intros p. rewrite colm_snoc, map_app, <- app_assoc. f_equal. rewrite Eg, nth_error_map. destruct (nth_error row p); destruct p; simpl; auto. }
    destruct (e (hist ++ [row])) as [o1|x] eqn:Ee.
    + pose proof (all_ok_snoc e hist row o1 HA Ee) as HA'.
      split. { destruct o1; split; simpl; auto; repeat split; auto; try lia. destruct hist; discriminate. }
      split. { intros p Hp. transitivity (map MChunk (colm p (hist ++ [row])) ++ optl (nth_error ([]:list msg) p)); [destruct o1; reflexivity|exact (Hrec p)]. }
      exists (map MChunk (opt (e (hist ++ [row])))). split.
      * destruct o1; unfold due; cbn [core emitting]; rewrite emitted_snoc, map_app; auto.
      * intros q _. rewrite Ee. destruct o1; reflexivity.
    + split. { split; simpl; auto. split; auto. right. split; auto. exists hist, row. eauto. }
      split. { intros p Hp. exact (Hrec p). }
      exists [MAbort]. split; auto. unfold due. cbn [core aborting]. rewrite emitted_snoc, Ee. simpl. rewrite app_nil_r. auto.
  - destruct (nth_error (outs_of n) j) as [q|] eqn:En; [discriminate|]. injection H as <-. cbn [core] in HK.
    assert (HS' : shaped n k). { simpl in HS. destruct m, k as [| |[] [] []|]; simpl; auto; try contradiction. destruct ok; auto; contradiction. }
    split. { split; auto. } split; [reflexivity|]. exists []. rewrite app_nil_r. split; [reflexivity|]. intros q Hq. rewrite app_nil_r.
    rewrite (todo_pend _ k); auto.
    + simpl. destruct (in_dec Nat.eq_dec q (firstn j (outs_of n))) as [|Hn]; auto. destruct Hn. apply nth_error_None in En. rewrite firstn_all2; auto.
    + simpl in HS. destruct m, k as [| |[] [] []|]; simpl; auto; contradiction.
  - discriminate.
Qed.

Lemma put_ok n l q m l' : lok n l -> NoDup (outs_of n) -> node_next n l = APut q m l' ->
  lok n l' /\ In q (outs_of n) /\ due n l' = due n l /\ (forall p, recvd l' p = recvd l p) /\
  todo (outs_of n) l q = m :: todo (outs_of n) l' q /\
  (forall q', q' <> q -> todo (outs_of n) l' q' = todo (outs_of n) l q').
Proof.
  intros [HK HS] HN H. destruct l as [rest|hist got|m0 j k|ok hist got]; simpl in H.
  - destruct rest as [|[]]; discriminate.
  - destruct n as [|e f ins o]; [discriminate|]. destruct (nth_error ins (length got)); discriminate.
  - destruct (nth_error (outs_of n) j) as [q0|] eqn:En; [|discriminate]. injection H as -> -> <-.
    assert (Ef : firstn (S j) (outs_of n) = firstn j (outs_of n) ++ [q]).
    { apply nth_error_split in En as (l1 & l2 & -> & <-). rewrite !firstn_app. rewrite firstn_all, firstn_all2 by lia.
      replace (S (length l1) - length l1) with 1 by lia. rewrite Nat.sub_diag. simpl. rewrite app_nil_r. auto. }
    split. { split; auto. } split. { eapply nth_error_In; eauto. } split; [reflexivity|]. split; [reflexivity|]. unfold todo. split.
    + rewrite Ef. destruct (in_dec Nat.eq_dec q (firstn j (outs_of n))) as [Hi|Hi].
      * exfalso. rewrite <- (firstn_skipn (S j) (outs_of n)), Ef, <- app_assoc in HN. simpl in HN. apply NoDup_remove_2 in HN.
        apply HN. apply in_or_app. auto.
      * destruct (in_dec Nat.eq_dec q (firstn j (outs_of n) ++ [q])) as [_|Hn]; auto. destruct Hn. apply in_or_app. simpl. auto.
    + intros q' Hq. rewrite Ef. destruct (in_dec Nat.eq_dec q' (firstn j (outs_of n))) as [Hi|Hi];
        destruct (in_dec Nat.eq_dec q' (firstn j (outs_of n) ++ [q])) as [Hj|Hj]; auto.
      * destruct Hj. apply in_or_app; auto.
      * apply in_app_or in Hj as [Hj|[Hj|[]]]; [contradiction|congruence].
  - discriminate.
Qed.

Lemma get_ok n l q k m : lok n l -> node_next n l = AGet q k ->
  exists p hist got, l = LGet hist got /\ p = length got /\ nth_error (ins_of n) p = Some q /\
  lok n (k m) /\ due n (k m) = due n l /\ recvd (k m) p = recvd l p ++ [m] /\
  (forall p', p' <> p -> recvd (k m) p' = recvd l p') /\ (forall q', todo (outs_of n) (k m) q' = todo (outs_of n) l q').
Proof.
  intros [HK HS] H. destruct l as [rest|hist got|m0 j k0|ok hist got]; simpl in H.
  - destruct rest as [|[]]; discriminate.
  - destruct n as [|e f ins o]; [discriminate|]. destruct (nth_error ins (length got)) as [q0|] eqn:En; [|discriminate]. injection H as -> <-.
    simpl in HK. destruct HK as (HR & HL & HA). exists (length got), hist, got.
    split; auto. split; auto. split; auto. split.
    { split; simpl; auto. split; auto. split; auto. assert (length got < length ins) by (apply nth_error_Some; congruence). rewrite app_length. simpl. lia. }
    split; [reflexivity|]. unfold recvd. cbn [core]. split.
    { rewrite nth_error_app2 by lia. rewrite Nat.sub_diag. replace (nth_error got (length got)) with (@None msg) by (symmetry; apply nth_error_None; lia).
      simpl. rewrite app_nil_r. auto. }
    split; auto. intros p' Hp. f_equal. f_equal. destruct (Nat.lt_ge_cases p' (length got)).
    + rewrite nth_error_app1; auto.
    + rewrite (proj2 (nth_error_None got p')) by lia. apply nth_error_None. rewrite app_length. simpl. lia.
  - destruct (nth_error (outs_of n) j); discriminate.
  - discriminate.
Qed.

(** ** The global invariant *)
Variable net : list node.
Variable nq : nat.
Variables wr rd : nat -> nat.
Hypothesis W : wired net nq wr rd.
Variable room : nat -> bool.

Record inv (s : gstate msg loc) : Prop := {
  i_len : length (fst s) = length net;
  i_nq : length (snd s) = nq;
  i_loc : forall i n l, nth_error net i = Some n -> nth_error (fst s) i = Some l -> lok n l;
  i_queue : forall c nc lc p q nw lw, nth_error net c = Some nc -> nth_error (fst s) c = Some lc ->
    nth_error (ins_of nc) p = Some q -> nth_error net (wr q) = Some nw -> nth_error (fst s) (wr q) = Some lw ->
    due nw lw = recvd lc p ++ nth q (snd s) [] ++ todo (outs_of nw) lw q
}.

Lemma inv0 : inv (net0 net nq).
Proof.
  constructor.
  - simpl. apply map_length.
  - simpl. apply repeat_length.
  - intros i n l Hn Hl. simpl in Hl. rewrite nth_error_map, Hn in Hl. injection Hl as <-. destruct n; split; simpl; auto.
    + exists []. auto.
    + repeat split; [constructor|lia|]. intros r Hr. simpl in Hr. lia.
  - intros c nc lc p q nw lw Hc Hlc Hp Hw Hlw. simpl in *. rewrite nth_error_map, Hc in Hlc. rewrite nth_error_map, Hw in Hlw.
    injection Hlc as <-. injection Hlw as <-. assert (Hq : nth q (repeat ([]:list msg) nq) [] = []).
    { destruct (Nat.lt_ge_cases q nq). - apply nth_repeat. - apply nth_overflow. rewrite repeat_length; auto. }
    rewrite Hq. destruct nw, nc; simpl.
    + destruct p; discriminate.
    + unfold due. simpl. rewrite Nat.sub_diag. destruct p; auto.
    + destruct p; discriminate.
    + destruct p; auto.
Qed.

Lemma wired_shape i n : nth_error net i = Some n -> ins_of n <> [] \/ (exists it o, n = NProd it o).
Proof. intros H. destruct n as [it o|e f ins o]; eauto. left. apply (w_cons _ _ _ _ W i e f ins o H). Qed.

Lemma inv_step i s s' : inv s -> fire (net_next net) room i s = Some s' -> inv s'.
Proof.
  destruct s as [ls qs]. intros HI. unfold fire. cbn [fst snd]. destruct (nth_error ls i) as [l|] eqn:El; [|discriminate].
  unfold net_next. destruct (nth_error net i) as [n|] eqn:En; [|discriminate].
  pose proof (i_loc _ HI i n l En El) as HL. pose proof (i_len _ HI) as Hlen. pose proof (i_nq _ HI) as Hnq. cbn [fst snd] in Hlen, Hnq.
  assert (Bi : i < length ls) by (apply nth_error_Some; congruence).
  assert (Hother : forall x m lx (l2 : loc), nth_error net x = Some m -> nth_error (set_nth i l2 ls) x = Some lx ->
            (x = i /\ m = n /\ lx = l2) \/ (x <> i /\ nth_error ls x = Some lx)).
  { intros x m lx l2 Hm Hx. destruct (Nat.eq_dec x i) as [->|Hxi].
    - left. rewrite nth_error_set_eq in Hx by auto. split; auto. split; congruence.
    - right. rewrite nth_error_set_neq in Hx by auto. auto. }
  assert (Hqin : forall c nc p q, nth_error net c = Some nc -> nth_error (ins_of nc) p = Some q -> rd q = c /\ q < nq /\ wr q < c).
  { intros c nc p q Hc Hp. apply nth_error_In in Hp. destruct (w_in _ _ _ _ W c nc q Hc Hp) as (? & ? & ? & _). auto. }
  destruct (node_next n l) as [|l2|q m l2|q k] eqn:Ea; [discriminate| | |].
  - intros E. injection E as <-. destruct (tau_ok n l l2 HL (wired_shape i n En) Ea) as (HL2 & Hrec & ms & Hdue & Htodo).
    constructor; cbn [fst snd]; auto.
    + rewrite set_nth_length. auto.
    + intros x m lx Hm Hx. destruct (Hother x m lx l2 Hm Hx) as [(-> & -> & ->)|[_ Hx']]; auto. apply (i_loc _ HI x m lx); auto.
    + intros c nc lc p q nw lw Hc Hlc Hp Hw Hlw. destruct (Hqin c nc p q Hc Hp) as (Hrd & Hq & Hlt).
      destruct (Hother c nc lc l2 Hc Hlc) as [(-> & -> & ->)|[Hci Hlc']]; destruct (Hother (wr q) nw lw l2 Hw Hlw) as [(Ei & -> & ->)|[Hwi Hlw']]; try lia.
      * rewrite (Hrec p) by (apply nth_error_Some; congruence). apply (i_queue _ HI i n l p q nw lw); auto.
      * rewrite Hdue, Htodo.
        -- rewrite (i_queue _ HI c nc lc p q n l Hc Hlc' Hp Hw) by (cbn [fst]; rewrite Ei; auto). cbn [snd]. rewrite !app_assoc. auto.
        -- apply nth_error_In in Hp. destruct (w_in _ _ _ _ W c nc q Hc Hp) as (_ & _ & _ & n' & Hn' & Hin). congruence.
      * apply (i_queue _ HI c nc lc p q nw lw); auto.
  - destruct (room (length (nth q qs []))); [|discriminate]. intros E. injection E as <-.
    destruct (put_ok n l q m l2 HL (w_outs _ _ _ _ W i n En) Ea) as (HL2 & Hin & Hdue & Hrec & Htodo & Hother2).
    destruct (w_out _ _ _ _ W i n q En Hin) as (Hwr & Hq & _).
    constructor; cbn [fst snd]; auto.
    + rewrite set_nth_length. auto.
    + rewrite set_nth_length. auto.
    + intros x m0 lx Hm Hx. destruct (Hother x m0 lx l2 Hm Hx) as [(-> & -> & ->)|[_ Hx']]; auto. apply (i_loc _ HI x m0 lx); auto.
    + intros c nc lc p q' nw lw Hc Hlc Hp Hw Hlw. destruct (Hqin c nc p q' Hc Hp) as (Hrd' & Hq' & Hlt).
      destruct (Nat.eq_dec q' q) as [->|Hqq].
      * rewrite nth_set_nth_eq by lia. assert (Hci : c <> i) by lia.
        destruct (Hother c nc lc l2 Hc Hlc) as [(-> & _)|[_ Hlc']]; [congruence|].
        destruct (Hother (wr q) nw lw l2 Hw Hlw) as [(Ei & -> & ->)|[Hwi Hlw']]; [|congruence].
        rewrite Hdue. rewrite (i_queue _ HI c nc lc p q n l Hc Hlc' Hp Hw) by (cbn [fst]; rewrite Ei; auto). cbn [snd]. rewrite Htodo, <- !app_assoc. auto.
      * rewrite nth_set_nth_neq by auto.
        destruct (Hother c nc lc l2 Hc Hlc) as [(-> & -> & ->)|[Hci Hlc']]; destruct (Hother (wr q') nw lw l2 Hw Hlw) as [(Ei & -> & ->)|[Hwi Hlw']]; try lia.
        -- rewrite (Hrec p). apply (i_queue _ HI i n l p q' nw lw); auto.
        -- rewrite Hdue, Hother2 by auto. apply (i_queue _ HI c nc lc p q' n l); auto. cbn [fst]. rewrite Ei. auto.
        -- apply (i_queue _ HI c nc lc p q' nw lw); auto.
  - destruct (nth q qs []) as [|m r] eqn:Eq; [discriminate|]. intros E. injection E as <-.
    destruct (get_ok n l q k m HL Ea) as (p0 & hist & got & -> & Hp0 & Hpq & HL2 & Hdue & Hrec & Hrec2 & Htodo).
    destruct (Hqin i n p0 q En Hpq) as (Hrd & Hq & Hlt0).
    constructor; cbn [fst snd]; auto.
    + rewrite set_nth_length. auto.
    + rewrite set_nth_length. auto.
    + intros x m0 lx Hm Hx. destruct (Hother x m0 lx _ Hm Hx) as [(-> & -> & ->)|[_ Hx']]; auto. apply (i_loc _ HI x m0 lx); auto.
    + intros c nc lc p q' nw lw Hc Hlc Hp Hw Hlw. destruct (Hqin c nc p q' Hc Hp) as (Hrd' & Hq' & Hlt).
      destruct (Nat.eq_dec q' q) as [->|Hqq].
      * assert (Eci : c = i) by congruence. rewrite Eci in Hc, Hlc, Hrd', Hlt. clear Eci c. assert (Enc : nc = n) by congruence. rewrite Enc in Hp. clear Hc Enc nc. pose proof En as Hc.
        assert (p = p0). { apply (proj1 (NoDup_nth_error (ins_of n)) (w_ins _ _ _ _ W i n En)); [apply nth_error_Some|]; congruence. } subst p.
        rewrite nth_set_nth_eq by lia.
        destruct (Hother i n lc _ Hc Hlc) as [(_ & _ & ->)|[? _]]; [|congruence].
        destruct (Hother (wr q) nw lw _ Hw Hlw) as [(Ei & _)|[Hwi Hlw']]; [lia|].
        rewrite Hrec. rewrite (i_queue _ HI i n _ p0 q nw lw Hc El Hp Hw Hlw'). cbn [snd]. rewrite Eq, <- !app_assoc. auto.
      * rewrite nth_set_nth_neq by auto.
        destruct (Hother c nc lc _ Hc Hlc) as [(-> & -> & ->)|[Hci Hlc']]; destruct (Hother (wr q') nw lw _ Hw Hlw) as [(Ei & -> & ->)|[Hwi Hlw']]; try lia.
        -- rewrite (Hrec2 p) by congruence. apply (i_queue _ HI i n _ p q' nw lw); auto.
        -- rewrite Hdue, Htodo by auto. apply (i_queue _ HI c nc lc p q' n _); auto. cbn [fst]. rewrite Ei. auto.
        -- apply (i_queue _ HI c nc lc p q' nw lw); auto.
Qed.
Lemma inv_steps n s s' : inv s -> steps (net_next net) room n s s' -> inv s'.
Proof. intros H1 H2. induction H2; auto. apply IHsteps. eapply inv_step; eauto. Qed.
Lemma inv_reach n s' : steps (net_next net) room n (net0 net nq) s' -> inv s'.
Proof. intros. eapply inv_steps; eauto. apply inv0. Qed.
End Net.
