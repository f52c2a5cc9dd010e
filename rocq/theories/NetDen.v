(** NetDen: every execution of the network follows its one-thread meaning, also
    when something fails. *)
From Verif Require Import Base Lib Kahn Threads NetLemmas NetProgress NetSeq.

Section Den.
Context {C : Type}.
Notation msg := (msg C). Notation node := (node C). Notation loc := (loc C).
Notation cfeed := (list C * bool)%type.
Definition last_msg (ok : bool) : msg := if ok then MDone else MAbort.
Definition msgs (x : cfeed) : list msg := map MChunk (fst x) ++ [last_msg (snd x)].

(** A consumer node on the rounds of its inputs: [ab], an abort at their end. *)
Fixpoint go (e f : list (list C) -> res (option C)) (ab : bool) (hist rs : list (list C)) : cfeed :=
  match rs with
  | [] => if ab then ([], false) else match f hist with Ok o => (optl o, true) | Err _ => ([], false) end
  | row :: rs' => match e (hist ++ [row]) with
                  | Ok o => let r := go e f ab (hist ++ [row]) rs' in (optl o ++ fst r, snd r)
                  | Err _ => ([], false)
                  end
  end.
Definition ends_badly (X : list cfeed) : bool := existsb (fun x => negb (snd x) && (length (fst x) =? minlen (map fst X))) X.
Definition cons_feed (e f : list (list C) -> res (option C)) (X : list cfeed) : cfeed :=
  go e f (ends_badly X) [] (rounds (map fst X)).

Lemma opt_optl (o : option C) : opt (Ok o) = optl o. Proof. destruct o; auto. Qed.
(** The cases: an error in some round, or the end. *)
Lemma go_cases e f ab rs : forall hist, all_ok e hist ->
  (all_ok e (hist ++ rs) /\
     emitted e hist ++ fst (go e f ab hist rs) = emitted e (hist ++ rs) ++ (if ab then [] else opt (f (hist ++ rs))) /\
     snd (go e f ab hist rs) = (if ab then false else match f (hist ++ rs) with Ok _ => true | Err _ => false end)) \/
  (exists a row b x, rs = a ++ row :: b /\ all_ok e (hist ++ a) /\ e (hist ++ a ++ [row]) = Err x /\
     emitted e hist ++ fst (go e f ab hist rs) = emitted e (hist ++ a) /\ snd (go e f ab hist rs) = false).
Proof.
  induction rs as [|row rs IH]; intros hist HA.
  - left. rewrite app_nil_r. split; auto. cbn [go]. destruct ab; [auto|]. destruct (f hist); cbn [fst snd opt]; rewrite ?opt_optl; auto.
  - cbn [go]. destruct (e (hist ++ [row])) as [o|x] eqn:Ee.
    + pose proof (all_ok_snoc e hist row o HA Ee) as HA'. cbn [fst snd].
      assert (Em : forall t, emitted e hist ++ optl o ++ t = emitted e (hist ++ [row]) ++ t).
      { intros t. rewrite emitted_snoc, Ee, opt_optl, <- app_assoc. auto. }
      rewrite Em. destruct (IH _ HA') as [(H1 & H2 & H3)|(a & r2 & b & x & H1 & H2 & H3 & H4 & H5)].
      * left. rewrite <- app_assoc in H1, H2, H3. cbn [app] in *. repeat split; auto.
      * right. exists (row :: a), r2, b, x. rewrite <- app_assoc in H2, H3, H4. cbn [app] in *. split; [rewrite H1 at 1; reflexivity|]. repeat split; auto.
    + right. exists [], row, rs, x. cbn [fst snd app]. rewrite !app_nil_r. auto.
Qed.

Lemma prefix_end (cs xs : list C) ok : prefix (map MChunk cs) (map MChunk xs ++ [last_msg ok]) -> prefix cs xs.
Proof.
  revert xs. induction cs as [|c cs IH]; intros xs [y H]; [exists xs; auto|].
  destruct xs as [|x xs]; simpl in H; [destruct ok; discriminate|]. injection H as -> H. destruct (IH xs (ex_intro _ y H)) as [z ->]. exists z. auto.
Qed.
Lemma prefix_at_end (cs xs : list C) ok (m : msg) : prefix (map MChunk cs ++ [m]) (map MChunk xs ++ [last_msg ok]) ->
  (m = last_msg ok /\ cs = xs) \/ exists c, m = MChunk c /\ prefix (cs ++ [c]) xs.
Proof.
  revert xs. induction cs as [|c cs IH]; intros xs [y H].
  - destruct xs as [|x xs]; simpl in H; injection H as <- H; [left; auto|]. right. exists x. split; auto. exists xs. auto.
  - destruct xs as [|x xs]; simpl in H; [destruct ok; discriminate|]. injection H as -> H.
    destruct (IH xs (ex_intro _ y H)) as [[-> ->]|(c' & -> & z & ->)]; auto. right. exists c'. split; auto. exists z. auto.
Qed.

Variable net : list node.
Variable nq : nat.
Variables wr rd : nat -> nat.
Hypothesis W : wired net nq wr rd.
(** [F i]: all node [i] sends. *)
Variable F : nat -> cfeed.
Definition fed (ins : list nat) : list cfeed := map (fun q => F (wr q)) ins.
Definition meant : Prop := forall i n, nth_error net i = Some n ->
  match n with
  | NProd items _ => if snd (F i) then items = map Ok (fst (F i)) else exists x r, items = map Ok (fst (F i)) ++ Err x :: r
  | NCons e f ins _ => F i = cons_feed e f (fed ins)
  end.
Hypothesis SV : meant.

Section State.
Variable s : gstate msg loc.
Hypothesis HI : inv net nq wr s.

Definition follows_feed (i : nat) (n : node) (l : loc) : Prop :=
  prefix (due n l) (msgs (F i)) /\
  (forall ok hist got, core l = LHalt ok hist got -> ok = snd (F i) /\ (ok = true -> ins_of n <> [] -> hist = rounds (map fst (fed (ins_of n))))).

Lemma recvd_pre i n l p q : nth_error net i = Some n -> nth_error (fst s) i = Some l -> nth_error (ins_of n) p = Some q ->
  (forall nw lw, nth_error net (wr q) = Some nw -> nth_error (fst s) (wr q) = Some lw -> prefix (due nw lw) (msgs (F (wr q)))) ->
  prefix (recvd l p) (msgs (F (wr q))).
Proof.
  intros En El Hp H. destruct (w_in _ _ _ _ W i n q En (nth_error_In _ _ Hp)) as (_ & _ & _ & nw & Enw & _).
  destruct (loc_at net nq wr s HI (wr q) nw Enw) as [lw Elw]. apply prefix_trans with (due nw lw); auto.
  rewrite (i_queue _ _ _ _ HI i n l p q nw lw En El Hp Enw Elw). eexists. reflexivity.
Qed.
Lemma prefix_refl {A} (a : list A) : prefix a a. Proof. exists []. rewrite app_nil_r. auto. Qed.

Lemma follow_feed : forall i n l, nth_error net i = Some n -> nth_error (fst s) i = Some l -> follows_feed i n l.
Proof.
  induction i as [i IH] using lt_wf_ind. intros n l En El. pose proof (i_loc _ _ _ _ HI i n l En El) as [HK _].
  pose proof (SV i n En) as HS. destruct n as [items o|e f ins o].
  - unfold follows_feed, due, msgs. destruct (F i) as [cs0 ok0]. cbn [fst snd] in *. cbn [ins_of].
    destruct (core l) as [rest|hist got|m j k|ok hist got] eqn:Ec; simpl in HK; try contradiction.
    + destruct HK as (cs & ->). rewrite firstn_pre, oks_all. split; [|intros; discriminate].
      apply prefix_trans with (map MChunk cs0); [apply prefix_map|eexists; reflexivity]. destruct ok0.
      * assert (H : oks (map Ok cs ++ rest) = oks (map Ok cs0)) by congruence. rewrite oks_ok, oks_all in H. exists (oks rest). auto.
      * destruct HS as (x & r & HS). assert (H : oks (map Ok cs ++ rest) = oks (map Ok cs0 ++ Err x :: r)) by congruence.
        rewrite !oks_ok in H. simpl in H. rewrite app_nil_r in H. exists (oks rest). auto.
    + destruct ok.
      * destruct HK as (cs & ->). destruct ok0.
        -- apply (f_equal oks) in HS. rewrite !oks_all in HS. subst cs. rewrite oks_all. split; [apply prefix_refl|].
           intros ok h g E. injection E as <- _ _. split; auto. congruence.
        -- exfalso. destruct HS as (x & r & HS). assert (Hin : In (Err x) (map Ok cs)) by (rewrite HS; apply in_or_app; simpl; auto).
           apply in_map_iff in Hin as (? & ? & _). discriminate.
      * destruct HK as (cs & x & r & ->). destruct ok0.
        -- exfalso. assert (Hin : In (Err x) (map Ok cs0)) by (rewrite <- HS; apply in_or_app; simpl; auto).
           apply in_map_iff in Hin as (? & ? & _). discriminate.
        -- destruct HS as (x' & r' & HS). apply (f_equal oks) in HS. rewrite !oks_ok in HS. simpl in HS. rewrite !app_nil_r in HS. subst cs0.
           rewrite oks_ok. simpl. rewrite app_nil_r. split; [apply prefix_refl|]. intros ok h g E. injection E as <- _ _. split; auto. discriminate.
  - set (X := fed ins) in *. set (h := rounds (map fst X)) in *. pose proof (w_cons _ _ _ _ W i e f ins o En) as Hne.
    assert (HP : forall p q, nth_error ins p = Some q -> prefix (recvd l p) (msgs (F (wr q)))).
    { intros p q Hp. apply (recvd_pre i _ l p q En El Hp). intros nw lw Enw Elw.
      destruct (w_in _ _ _ _ W i _ q En (nth_error_In _ _ Hp)) as (_ & _ & Hlt & _). apply (IH (wr q) Hlt nw lw Enw Elw). }
    assert (HX : forall p q, nth_error ins p = Some q -> nth_error X p = Some (F (wr q))).
    { intros p q Hp. unfold X, fed. rewrite nth_error_map, Hp. auto. }
    (* the history is a prefix of the rounds; an end message stands at the end of its stream *)
    assert (Hhist : forall hist got, (core l = LGet hist got \/ exists ok, core l = LHalt ok hist got) -> rows ins hist -> prefix hist h /\
              (forall p q m, nth_error ins p = Some q -> nth_error got p = Some m ->
                 (m = last_msg (snd (F (wr q))) /\ length (fst (F (wr q))) = length hist) \/ (exists c, m = MChunk c /\ length hist < length (fst (F (wr q)))))).
    { intros hist got Hc HR. assert (Er : forall p, recvd l p = map MChunk (colm p hist) ++ optl (nth_error got p)).
      { intros p. unfold recvd. destruct Hc as [->|[ok ->]]; auto. }
      split.
      - apply (rounds_prefix ins); auto. { unfold X, fed. rewrite !map_length. auto. }
        intros p xs Hx. rewrite nth_error_map in Hx. destruct (nth_error ins p) as [q|] eqn:Eq.
        + rewrite (HX p q Eq) in Hx. injection Hx as <-. apply (prefix_end _ _ (snd (F (wr q)))). specialize (HP p q Eq). rewrite Er in HP. apply prefix_app in HP. auto.
        + exfalso. assert (nth_error X p = None) by (unfold X, fed; rewrite nth_error_map, Eq; auto). rewrite H in Hx. discriminate.
      - intros p q m Hp Hm. specialize (HP p q Hp). rewrite Er, Hm in HP. simpl in HP. assert (Hpl : p < length ins) by (apply nth_error_Some; congruence).
        apply prefix_at_end in HP as [[-> H]|(c & -> & H)].
        + left. split; auto. rewrite <- H. apply (colm_length ins); auto.
        + right. exists c. split; auto. apply prefix_length in H. rewrite app_length, (colm_length ins) in H by auto. simpl in H. lia. }
    assert (Hend : forall hist got p q, (core l = LGet hist got \/ exists ok, core l = LHalt ok hist got) -> rows ins hist -> length got = length ins ->
              nth_error ins p = Some q -> length (fst (F (wr q))) = length hist -> hist = h).
    { intros hist got p q Hc HR Hlg Hq Hlen. destruct (Hhist hist got Hc HR) as [H1 _]. apply prefix_full; auto. unfold h. rewrite rounds_length, <- Hlen.
      apply minlen_le. apply in_map. apply (nth_error_In X p). auto. }
    assert (Hnon : forall (got : list msg) p, length got = length ins -> p < length got -> exists m q, nth_error got p = Some m /\ nth_error ins p = Some q).
    { intros got p H1 H2. destruct (nth_error got p) as [m|] eqn:E1; [|apply nth_error_None in E1; lia].
      destruct (nth_error ins p) as [q|] eqn:E2; [|apply nth_error_None in E2; lia]. eauto. }
    assert (Hbad : forall hist got, (core l = LGet hist got \/ exists ok, core l = LHalt ok hist got) -> rows ins hist -> length got = length ins ->
              hist = h -> existsb is_abort got = ends_badly X).
    { intros hist got Hc HR Hlg Eh. destruct (Hhist hist got Hc HR) as [_ H2].
      assert (Hm : length hist = minlen (map fst X)) by (rewrite Eh; apply rounds_length).
      apply eq_true_iff_eq. unfold ends_badly. rewrite !existsb_exists. split.
      - intros (m & Hin & Ha). destruct m; try discriminate. apply In_nth_error in Hin as [p Hp].
        destruct (Hnon got p Hlg) as (m & q & E1 & E2); [apply nth_error_Some; congruence|]. destruct (H2 p q MAbort E2 Hp) as [[Hx Hl]|(c & Hx & _)]; [|discriminate].
        exists (F (wr q)). split; [apply (nth_error_In X p); auto|]. rewrite Hl, Hm, Nat.eqb_refl. destruct (snd (F (wr q))); [discriminate|auto].
      - intros (x & Hin & Hb). apply andb_true_iff in Hb as [Hb1 Hb2]. apply Nat.eqb_eq in Hb2. unfold X, fed in Hin. apply in_map_iff in Hin as (q & <- & Hq).
        apply In_nth_error in Hq as [p Hp]. destruct (Hnon got p Hlg) as (m & q' & E1 & E2); [rewrite Hlg; apply nth_error_Some; congruence|].
        assert (q' = q) by congruence. subst q'. exists m. split; [eapply nth_error_In; eauto|]. fold (fed ins) in Hb2. fold X in Hb2.
        destruct (H2 p q m Hp E1) as [[-> _]|(c & _ & Hl)]; [|lia]. destruct (snd (F (wr q))); [discriminate|auto]. }
    unfold cons_feed in HS. fold h in HS. destruct (go_cases e f (ends_badly X) h [] ltac:(intros r Hr; simpl in Hr; lia)) as [(G1 & G2 & G3)|(a & row & b & x & G1 & G2 & G3 & G4 & G5)].
    + rewrite <- HS in G2, G3. cbn [app emitted length seq flat_map] in G1, G2, G3.
      unfold follows_feed, due, msgs. destruct (core l) as [rest|hist got|m j k|ok hist got] eqn:Ec; simpl in HK; try contradiction.
      * destruct HK as (HR & HL & HA'). destruct (Hhist hist got (or_introl eq_refl) HR) as [H1 _]. split; [|intros; discriminate].
        rewrite G2. apply prefix_trans with (map MChunk (emitted e h ++ (if ends_badly X then [] else opt (f h)))); [|eexists; reflexivity]. apply prefix_map.
        apply prefix_trans with (emitted e h); [apply emitted_prefix; auto|eexists; reflexivity].
      * destruct ok.
        -- destruct HK as (HR & HL & Hab & Hd & HA' & o1 & Hf').
           assert (Eh : hist = h).
           { apply existsb_exists in Hd as (mm & Hm & Hd). destruct mm; try discriminate. apply In_nth_error in Hm as [p Hp].
             destruct (Hnon got p HL) as (m & q & E1 & E2); [apply nth_error_Some; congruence|].
             destruct (proj2 (Hhist hist got (or_intror (ex_intro _ true eq_refl)) HR) p q MDone E2 Hp) as [[_ H]|(c & H & _)]; [|discriminate].
             apply (Hend hist got p q); eauto. }
           rewrite (Hbad hist got (or_intror (ex_intro _ true eq_refl)) HR HL Eh) in Hab. rewrite Hab in G2, G3. subst hist. rewrite Hf' in G3. rewrite G2, G3. split; [apply prefix_refl|].
           intros ok hist' got' E. injection E as <- <- <-. split; auto.
        -- destruct HK as (HR & [(HL & HA' & Hcase)|(-> & h0 & row & -> & HA' & x & Hx)]).
           ++ assert (Eh : hist = h).
              { assert (Hd : exists m, In m got /\ is_done m || is_abort m = true).
                { destruct Hcase as [Hab|[Hd _]]; [apply existsb_exists in Hab as (mm & H1 & H2)|apply existsb_exists in Hd as (mm & H1 & H2)]; exists mm; rewrite H2; split; auto; apply orb_true_r. }
                destruct Hd as (mm & Hm & Hd). apply In_nth_error in Hm as [p Hp]. destruct (Hnon got p HL) as (m & q & E1 & E2); [apply nth_error_Some; congruence|].
                destruct (proj2 (Hhist hist got (or_intror (ex_intro _ false eq_refl)) HR) p q mm E2 Hp) as [[_ H]|(c & -> & _)]; [|discriminate].
                apply (Hend hist got p q); eauto. }
              pose proof (Hbad hist got (or_intror (ex_intro _ false eq_refl)) HR HL Eh) as Hb. subst hist.
              assert (E2 : fst (F i) = emitted e h /\ snd (F i) = false).
              { rewrite G2, G3. destruct Hcase as [Hab|[Hd [x Hx]]].
                - rewrite <- Hb, Hab, app_nil_r. auto.
                - rewrite Hx. destruct (ends_badly X); simpl; rewrite ?app_nil_r; auto. }
              destruct E2 as [-> ->]. split; [apply prefix_refl|]. intros ok hist' got' E. injection E as <- <- <-. split; auto; discriminate.
           ++ exfalso. destruct (Hhist (h0 ++ [row]) [] (or_intror (ex_intro _ false eq_refl)) HR) as [[z Hz] _].
              destruct (G1 (length (h0 ++ [row]))) as [o1 Ho1]. { rewrite Hz, !app_length. simpl. lia. }
              rewrite Hz, firstn_app, firstn_all, Nat.sub_diag in Ho1. simpl in Ho1. rewrite app_nil_r in Ho1. congruence.
    + rewrite <- HS in G4, G5. cbn [app emitted length seq flat_map] in G2, G3, G4.
      assert (Hsh : forall hist, prefix hist h -> all_ok e hist -> prefix hist a).
      { intros hist [z Hz] HA. assert (Hl : length hist <= length a).
        { destruct (Nat.le_gt_cases (length hist) (length a)) as [|Hgt]; auto. exfalso.
          assert (Eh : firstn (S (length a)) hist = a ++ [row]).
          { assert (E : firstn (S (length a)) h = a ++ [row]).
            { rewrite G1. replace (a ++ row :: b) with ((a ++ [row]) ++ b) by (rewrite <- app_assoc; auto). rewrite firstn_app.
              replace (S (length a)) with (length (a ++ [row])) by (rewrite app_length; simpl; lia). rewrite firstn_all, Nat.sub_diag. simpl. apply app_nil_r. }
            rewrite Hz, firstn_app in E. replace (S (length a) - length hist) with 0 in E by lia. simpl in E. rewrite app_nil_r in E. auto. }
          destruct (HA (S (length a)) ltac:(lia)) as [o1 Ho1]. rewrite Eh in Ho1. congruence. }
        exists (firstn (length a - length hist) z). transitivity (firstn (length a) h).
        - rewrite G1, firstn_app, firstn_all, Nat.sub_diag. cbn [firstn]. rewrite app_nil_r. reflexivity.
        - rewrite Hz, firstn_app, firstn_all2 by auto. auto. }
      assert (Hno : forall hist, all_ok e hist -> hist = h -> False).
      { intros hist HA E. assert (H0 : prefix hist h) by (rewrite E; apply prefix_refl). pose proof (Hsh hist H0 HA) as Hp. apply prefix_length in Hp. rewrite E, G1, app_length in Hp. simpl in Hp. lia. }
      unfold follows_feed, due, msgs. rewrite G4, G5. destruct (core l) as [rest|hist got|m j k|ok hist got] eqn:Ec; simpl in HK; try contradiction.
      * destruct HK as (HR & HL & HA'). destruct (Hhist hist got (or_introl eq_refl) HR) as [H1 _]. split; [|intros; discriminate].
        apply prefix_trans with (map MChunk (emitted e a)); [|eexists; reflexivity]. apply prefix_map. apply emitted_prefix. auto.
      * assert (Hfull : length got = length ins -> rows ins hist -> all_ok e hist -> existsb (fun m => is_done m || is_abort m) got = true -> False).
        { intros HL HR HA' Hd. apply (Hno hist HA'). apply existsb_exists in Hd as (mm & Hm & Hd). apply In_nth_error in Hm as [p Hp].
          destruct (Hnon got p HL) as (m & q & E1 & E2); [apply nth_error_Some; congruence|].
          destruct (proj2 (Hhist hist got (or_intror (ex_intro _ ok eq_refl)) HR) p q mm E2 Hp) as [[_ H]|(c & -> & _)]; [|discriminate].
          apply (Hend hist got p q); eauto. }
        destruct ok.
        -- exfalso. destruct HK as (HR & HL & Hab & Hd & HA' & o1 & Hf'). apply Hfull; auto. apply existsb_exists in Hd as (mm & H1 & H2). apply existsb_exists. exists mm. rewrite H2. auto.
        -- destruct HK as (HR & [(HL & HA' & Hcase)|(-> & h0 & row0 & Eh & HA' & x0 & Hx)]).
           ++ exfalso. apply Hfull; auto. destruct Hcase as [Hab|[Hd _]].
              ** apply existsb_exists in Hab as (mm & H1 & H2). apply existsb_exists. exists mm. rewrite H2, orb_true_r. auto.
              ** apply existsb_exists in Hd as (mm & H1 & H2). apply existsb_exists. exists mm. rewrite H2. auto.
           ++ destruct (Hhist hist [] (or_intror (ex_intro _ false eq_refl)) HR) as [H1 _]. subst hist.
              assert (Ea : h0 = a).
              { pose proof (Hsh h0 (prefix_app _ _ _ H1) HA') as Hp. apply prefix_full; auto. destruct (Nat.le_gt_cases (length a) (length h0)) as [|Hgt]; auto. exfalso.
                destruct (G2 (S (length h0)) ltac:(lia)) as [o1 Ho1].
                assert (E : firstn (S (length h0)) a = h0 ++ [row0]).
                { destruct H1 as [z Hz]. rewrite G1 in Hz. apply (f_equal (firstn (S (length h0)))) in Hz. rewrite firstn_app in Hz. replace (S (length h0) - length a) with 0 in Hz by lia.
                  simpl firstn in Hz at 2. rewrite app_nil_r in Hz. rewrite Hz. rewrite firstn_app. replace (S (length h0)) with (length (h0 ++ [row0])) by (rewrite app_length; simpl; lia).
                  rewrite firstn_all, Nat.sub_diag. simpl. apply app_nil_r. }
                rewrite E in Ho1. congruence. }
              rewrite emitted_snoc, Hx, Ea. simpl opt. rewrite app_nil_r. split; [apply prefix_refl|].
              intros ok hist' got' E. injection E as <- _ _. split; auto. discriminate.
Qed.
End State.
End Den.
