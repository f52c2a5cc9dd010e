(** NetFail: a thread that finishes normally has read all of its inputs to a
    normal end, when the inputs of a node have the same number of chunks. *)
From Verif Require Import Base Lib Kahn Threads NetLemmas NetProgress NetSeq.

Section Fail.
Context {C K : Type} (kf : C -> K).
Notation msg := (msg C). Notation node := (node C). Notation loc := (loc C).
Variable net : list node.
Variable nq : nat.
Variables wr rd : nat -> nat.
Hypothesis W : wired net nq wr rd.
(** The keys of the chunks a node sends unless something fails. *)
Variable nom : nat -> list K.

Definition complete (ins : list nat) (hist : list (list C)) : Prop := forall q, In q ins -> length hist = length (nom (wr q)).
Definition nominal : Prop := forall i n, nth_error net i = Some n ->
  match n with
  | NProd items _ => Forall2 (fun it k => match it with Ok c => kf c = k | Err _ => True end) items (nom i)
  | NCons e f ins outs =>
      (forall q q', In q ins -> In q' ins -> length (nom (wr q)) = length (nom (wr q'))) /\
      (outs <> [] -> forall hist, rows ins hist -> all_ok e hist ->
         (forall p q, nth_error ins p = Some q -> prefix (map kf (colm p hist)) (nom (wr q))) ->
         prefix (map kf (emitted e hist)) (nom i) /\
         (~ complete ins hist -> length (emitted e hist) < length (nom i)) /\
         (complete ins hist -> match f hist with
                               | Ok _ => map kf (emitted e hist ++ opt (f hist)) = nom i
                               | Err _ => length (emitted e hist) < length (nom i)
                               end))
  end.
Hypothesis NM : nominal.

Definition dchunks (n : node) (l : loc) : list C :=
  match n, core l with
  | NProd items _, LProd rest => oks (firstn (length items - length rest) items)
  | NProd items _, LHalt ok _ _ => oks items
  | NCons e _ _ _, LGet hist _ => emitted e hist
  | NCons e f _ _, LHalt true hist _ => emitted e hist ++ opt (f hist)
  | NCons e _ _ _, LHalt false hist _ => emitted e hist
  | _, _ => []
  end.
Definition dtail (l : loc) : list msg := match core l with LHalt true _ _ => [MDone] | LHalt false _ _ => [MAbort] | _ => [] end.
Lemma due_split n l : coreok n (core l) -> due n l = map MChunk (dchunks n l) ++ dtail l.
Proof.
  unfold due, dchunks, dtail. destruct n as [items o|e f ins o], (core l) as [rest|hist got|m j k|ok hist got]; simpl; try tauto.
  - intros _. rewrite app_nil_r; auto.
  - intros _. destruct ok; auto.
  - intros _. rewrite app_nil_r; auto.
  - destruct ok; auto.
Qed.

Section State.
Variable s : gstate msg loc.
Hypothesis HI : inv net nq wr s.

Definition counted (i : nat) (n : node) (l : loc) : Prop :=
  prefix (map kf (dchunks n l)) (nom i) /\
  (forall hist got, core l = LHalt true hist got -> map kf (dchunks n l) = nom i) /\
  (forall hist got, core l = LHalt false hist got -> length (dchunks n l) < length (nom i)).

Lemma chunks_inj (a b : list C) : map (@MChunk C) a = map MChunk b -> a = b.
Proof. revert b. induction a as [|x a IH]; intros [|y b] H; try discriminate; auto. injection H as -> H. f_equal. auto. Qed.
(** Messages received so far, from what has been sent. *)
Lemma split_recv (cs xs : list C) (o : option msg) (tl ys : list msg) : (tl = [] \/ tl = [MDone] \/ tl = [MAbort]) ->
  map MChunk xs ++ tl = (map MChunk cs ++ optl o) ++ ys ->
  prefix cs xs /\ match o with
                  | None => True
                  | Some (MChunk c) => prefix (cs ++ [c]) xs
                  | Some MDone => tl = [MDone] /\ cs = xs
                  | Some MAbort => tl = [MAbort] /\ cs = xs
                  end.
Proof.
  intros Htl. revert xs. induction cs as [|c cs IH]; intros xs H.
  - split; [exists xs; auto|]. destruct o as [[c| |]|]; auto; destruct xs as [|x xs]; simpl in H; try (destruct Htl as [->|[->| ->]]; simpl in H; try discriminate H; auto; fail); try discriminate H.
    injection H as -> _. exists xs. auto.
  - destruct xs as [|x xs]; simpl in H; [destruct Htl as [->|[->| ->]]; discriminate H|]. injection H as -> H.
    destruct (IH xs H) as [[z ->] H2]. split; [exists z; auto|]. destruct o as [[c'| |]|]; auto.
    + destruct H2 as [z' ->]. exists z'. auto.
    + destruct H2 as [H2 H3]. rewrite <- H3. auto.
    + destruct H2 as [H2 H3]. rewrite <- H3. auto.
Qed.
Lemma dtail_cases l : dtail l = [] \/ dtail l = [MDone] \/ dtail l = [MAbort].
Proof. unfold dtail. destruct (core l) as [| | |[] ? ?]; auto. Qed.

(** What an input says about its writer. *)
Lemma input_writer i n l p q hist got : nth_error net i = Some n -> nth_error (fst s) i = Some l -> nth_error (ins_of n) p = Some q ->
  (core l = LGet hist got \/ exists ok, core l = LHalt ok hist got) ->
  exists nw lw, nth_error net (wr q) = Some nw /\ nth_error (fst s) (wr q) = Some lw /\ lok nw lw /\ outs_of nw <> [] /\
  prefix (colm p hist) (dchunks nw lw) /\
  match nth_error got p with
  | None => True
  | Some (MChunk c) => prefix (colm p hist ++ [c]) (dchunks nw lw)
  | Some MDone => dtail lw = [MDone] /\ colm p hist = dchunks nw lw
  | Some MAbort => dtail lw = [MAbort] /\ colm p hist = dchunks nw lw
  end.
Proof.
  intros En El Hp Hc. destruct (w_in _ _ _ _ W i n q En (nth_error_In _ _ Hp)) as (_ & _ & _ & nw & Enw & Hout).
  destruct (loc_at net nq wr s HI (wr q) nw Enw) as [lw Elw]. exists nw, lw. split; auto. split; auto.
  pose proof (i_loc _ _ _ _ HI _ _ _ Enw Elw) as HL. split; auto. split. { intros E. rewrite E in Hout. destruct Hout. }
  pose proof (i_queue _ _ _ _ HI i n l p q nw lw En El Hp Enw Elw) as HQ. rewrite (due_split nw lw (proj1 HL)) in HQ.
  assert (Er : recvd l p = map MChunk (colm p hist) ++ optl (nth_error got p)). { unfold recvd. destruct Hc as [->|[ok ->]]; auto. }
  rewrite Er in HQ. apply (split_recv _ _ _ _ _ (dtail_cases lw) HQ).
Qed.

Lemma count : forall i n l, nth_error net i = Some n -> nth_error (fst s) i = Some l -> outs_of n <> [] -> counted i n l.
Proof.
  induction i as [i IH] using lt_wf_ind. intros n l En El Ho. pose proof (i_loc _ _ _ _ HI i n l En El) as [HK _].
  pose proof (NM i n En) as HN. destruct n as [items o|e f ins o].
  - assert (Hoks : forall cs rest, items = map Ok cs ++ rest -> prefix (map kf cs) (nom i) /\ length (nom i) = length cs + length rest).
    { intros cs rest ->. apply Forall2_app_inv_l in HN as (k1 & k2 & H1 & H2 & ->). rewrite app_length.
      pose proof (Forall2_length _ _ _ H1) as E1. pose proof (Forall2_length _ _ _ H2) as E2. rewrite map_length in E1. rewrite <- E1, <- E2. split; auto. exists k2. f_equal.
      clear -H1. revert k1 H1. induction cs as [|c cs IH]; intros k1 H; inversion H; subst; auto. simpl. f_equal. auto. }
    unfold counted, dchunks. destruct (core l) as [rest|hist got|m j k|ok hist got] eqn:Ec; simpl in HK; try contradiction.
    + destruct HK as (cs & Ei). rewrite Ei, firstn_pre, oks_all. destruct (Hoks cs rest Ei). repeat split; auto; intros; discriminate.
    + destruct ok.
      * destruct HK as (cs & Ei). rewrite Ei, oks_all. destruct (Hoks cs []) as [H1 H2]. { rewrite app_nil_r; auto. }
        repeat split; auto; [|intros; discriminate]. intros _ _ _. apply prefix_full; auto. rewrite map_length. simpl in H2. lia.
      * destruct HK as (cs & x & r & Ei). rewrite Ei, oks_ok. simpl. rewrite app_nil_r. destruct (Hoks cs (Err x :: r) Ei) as [H1 H2].
        repeat split; auto; [intros; discriminate|]. intros _ _ _. simpl in H2. lia.
  - destruct HN as [Hsame HN]. specialize (HN Ho). pose proof (w_cons _ _ _ _ W i e f ins o En) as Hne.
    assert (Hkeys : forall hist got, (core l = LGet hist got \/ exists ok, core l = LHalt ok hist got) ->
      forall p q, nth_error ins p = Some q -> prefix (map kf (colm p hist)) (nom (wr q)) /\
        match nth_error got p with
        | Some MDone => map kf (colm p hist) = nom (wr q)
        | Some MAbort => length (colm p hist) < length (nom (wr q))
        | Some (MChunk c) => prefix (map kf (colm p hist ++ [c])) (nom (wr q))
        | None => True end).
    { intros hist got Hc p q Hp. destruct (w_in _ _ _ _ W i _ q En (nth_error_In _ _ Hp)) as (_ & _ & Hlt & _).
      destruct (input_writer i _ l p q hist got En El Hp Hc) as (nw & lw & Enw & Elw & HL & How & HP & HM).
      destruct (IH (wr q) Hlt nw lw Enw Elw How) as (C1 & C2 & C3). split.
      - eapply prefix_trans; [apply prefix_map; exact HP|auto].
      - destruct (nth_error got p) as [[c| |]|]; auto.
        + eapply prefix_trans; [apply prefix_map; exact HM|auto].
        + destruct HM as [Hd ->]. unfold dtail in Hd. destruct (core lw) as [| | |[] h g] eqn:Ec; try discriminate. eapply C2; eauto.
        + destruct HM as [Hd ->]. unfold dtail in Hd. destruct (core lw) as [| | |[] h g] eqn:Ec; try discriminate. eapply C3; eauto. }
    assert (Hcomp : forall hist got, (core l = LGet hist got \/ exists ok, core l = LHalt ok hist got) -> rows ins hist -> length got = length ins ->
              existsb is_done got = true -> complete ins hist).
    { intros hist got Hc HR Hlg Hd q' Hq'. apply existsb_exists in Hd as (m & Hm & Hd).
      destruct m; try discriminate. apply In_nth_error in Hm as [p Hp]. assert (Hp' : p < length ins) by (rewrite <- Hlg; apply nth_error_Some; congruence).
      destruct (nth_error ins p) as [q|] eqn:Eq; [|apply nth_error_None in Eq; lia].
      destruct (Hkeys hist got Hc p q Eq) as [_ H]. rewrite Hp in H. rewrite (Hsame q' q); auto; [|eapply nth_error_In; eauto].
      rewrite <- H, map_length. symmetry. apply (colm_length ins); auto. }
    unfold counted, dchunks. destruct (core l) as [rest|hist got|m j k|ok hist got] eqn:Ec; simpl in HK; try contradiction.
    + destruct HK as (HR & HL & HA). destruct (HN hist HR HA) as (N1 & _). { intros p q Hp. apply (Hkeys hist got (or_introl eq_refl) p q Hp). }
      repeat split; auto; intros; discriminate.
    + destruct ok.
      * destruct HK as (HR & HL & Hab & Hd & HA & of & Hf).
        destruct (HN hist HR HA) as (_ & _ & N3). { intros p q Hp. apply (Hkeys hist got (or_intror (ex_intro _ true eq_refl)) p q Hp). }
        specialize (N3 (Hcomp hist got (or_intror (ex_intro _ true eq_refl)) HR HL Hd)). rewrite Hf in N3. rewrite Hf.
        repeat split; auto; [|intros; discriminate]. rewrite N3. exists []. rewrite app_nil_r. auto.
      * destruct HK as (HR & [(HL & HA & Hcase)|(-> & h0 & row & Eh & HA & x & Hx)]).
        -- destruct (HN hist HR HA) as (N1 & N2 & N3). { intros p q Hp. apply (Hkeys hist got (or_intror (ex_intro _ false eq_refl)) p q Hp). }
           repeat split; auto; [intros; discriminate|]. intros _ _ _. destruct Hcase as [Hab|[Hd [x Hx]]].
           ++ apply existsb_exists in Hab as (m & Hm & Ha).
              destruct m; try discriminate. apply In_nth_error in Hm as [p Hp]. assert (Hp' : p < length ins) by (rewrite <- HL; apply nth_error_Some; congruence).
              destruct (nth_error ins p) as [q|] eqn:Eq; [|apply nth_error_None in Eq; lia].
              destruct (Hkeys hist got (or_intror (ex_intro _ false eq_refl)) p q Eq) as [_ H]. rewrite Hp in H. apply N2. intros Hcc.
              specialize (Hcc q (nth_error_In _ _ Eq)). rewrite (colm_length ins) in H by auto. lia.
           ++ specialize (N3 (Hcomp hist got (or_intror (ex_intro _ false eq_refl)) HR HL Hd)). rewrite Hx in N3. auto.
        -- subst hist. assert (HR0 : rows ins h0) by (apply Forall_app in HR; tauto).
           assert (Hk0 : forall p q, nth_error ins p = Some q -> prefix (map kf (colm p h0)) (nom (wr q)) /\ length h0 < length (nom (wr q))).
           { intros p q Hp. destruct (Hkeys _ _ (or_intror (ex_intro _ false eq_refl)) p q Hp) as [H _].
             assert (Hpl : p < length ins) by (apply nth_error_Some; congruence). pose proof (prefix_length _ _ H) as HLn. rewrite map_length, (colm_length ins), app_length in HLn by auto. simpl in HLn.
             split; [|lia]. rewrite colm_snoc, map_app in H. apply prefix_app in H. auto. }
           destruct (HN h0 HR0 HA) as (N1 & N2 & _). { intros p q Hp. apply (Hk0 p q Hp). }
           rewrite emitted_snoc, Hx. simpl. rewrite app_nil_r. repeat split; auto; [intros; discriminate|]. intros _ _ _. apply N2.
           intros Hcc. destruct ins as [|q ins]; [congruence|]. specialize (Hcc q (or_introl eq_refl)). destruct (Hk0 0 q eq_refl). lia.
Qed.

(** A normal end comes from normal ends of all inputs, read completely. *)
Lemma normal_up i n l hist got p q : nth_error net i = Some n -> nth_error (fst s) i = Some l -> core l = LHalt true hist got ->
  nth_error (ins_of n) p = Some q ->
  exists nw lw h g, nth_error net (wr q) = Some nw /\ nth_error (fst s) (wr q) = Some lw /\ core lw = LHalt true h g /\
    dchunks nw lw = colm p hist.
Proof.
  intros En El Ec Hp. pose proof (i_loc _ _ _ _ HI i n l En El) as [HK _]. rewrite Ec in HK.
  destruct n as [|e f ins o]; [destruct p; discriminate|]. cbn [ins_of coreok] in *. destruct HK as (HR & HL & Hab & Hd & HA & of & Hf).
  pose proof (NM i _ En) as [Hsame _].
  assert (Hin : forall p q, nth_error ins p = Some q -> exists nw lw, nth_error net (wr q) = Some nw /\ nth_error (fst s) (wr q) = Some lw /\
     prefix (map kf (dchunks nw lw)) (nom (wr q)) /\ (forall h g, core lw = LHalt true h g -> map kf (dchunks nw lw) = nom (wr q)) /\
     match nth_error got p with
     | None => True
     | Some (MChunk c) => prefix (colm p hist ++ [c]) (dchunks nw lw)
     | Some MDone => dtail lw = [MDone] /\ colm p hist = dchunks nw lw
     | Some MAbort => dtail lw = [MAbort] /\ colm p hist = dchunks nw lw
     end).
  { intros p0 q0 Hp0. destruct (input_writer i _ l p0 q0 hist got En El Hp0) as (nw & lw & Enw & Elw & HLw & How & HP & HM); eauto.
    destruct (count (wr q0) nw lw Enw Elw How) as (C1 & C2 & _). exists nw, lw. auto. }
  destruct (Hin p q Hp) as (nw & lw & Enw & Elw & C1 & C2 & HM).
  assert (Hpl : p < length ins) by (apply nth_error_Some; congruence).
  destruct (nth_error got p) as [m|] eqn:Em; [|apply nth_error_None in Em; lia]. destruct m as [c| |].
  - (* another input ended: this one cannot have more *)
    exfalso. apply existsb_exists in Hd as (m & Hm & Hd). destruct m; try discriminate. apply In_nth_error in Hm as [p' Hp'].
    assert (Hpl' : p' < length ins) by (rewrite <- HL; apply nth_error_Some; congruence).
    destruct (nth_error ins p') as [q'|] eqn:Eq'; [|apply nth_error_None in Eq'; lia].
    destruct (Hin p' q' Eq') as (nw' & lw' & Enw' & Elw' & C1' & C2' & HM'). rewrite Hp' in HM'. destruct HM' as [Hd' Hc'].
    unfold dtail in Hd'. destruct (core lw') as [| | |[] h g] eqn:Ec'; try discriminate. specialize (C2' h g eq_refl).
    pose proof (Hsame q q' (nth_error_In _ _ Hp) (nth_error_In _ _ Eq')) as Hs. rewrite <- C2', <- Hc', map_length, (colm_length ins) in Hs by auto.
    apply prefix_length in HM. rewrite app_length, (colm_length ins) in HM by auto. simpl in HM. apply prefix_length in C1. rewrite map_length in C1. lia.
  - destruct HM as [Hd' Hc']. unfold dtail in Hd'. destruct (core lw) as [| | |[] h g] eqn:Ec'; try discriminate. exists nw, lw, h, g. auto.
  - exfalso. assert (Hin' : existsb is_abort got = true). { apply existsb_exists. exists MAbort. split; auto. eapply nth_error_In; eauto. } congruence.
Qed.
End State.
End Fail.
