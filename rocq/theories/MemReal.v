(** MemReal: evaluation on memory refines evaluation without memory. *)
From Verif Require Import Base PySlice Keys NDArray Arrays Chunks Handlers Realise Lib GetBase BuiltClaims Memory MemSpec MemLemmas.
From Coq Require Import ZifyBool ZifyNat.

Section MemReal.
Context {V : Type} (O : numops V).
Notation cell := (option V).
Notation barr := (@barr V).
Notation heap := (@heap V).
Notation read := (read O).
Notation holds := (holds O).
Implicit Types h H : heap.
Local Notation "x <~ e ;; f" := (bindM e (fun x => f)) (at level 61, e at next level, right associativity).

(** Chunks held in memory. *)
Definition ch_holds (H : heap) (mc : mchunk) (c : @chunk V) : Prop := fst mc = fst c /\ holds H (snd mc) (snd c).
Definition chs_hold (H : heap) (ms : list mchunk) (cs : list (@chunk V)) : Prop := Forall2 (ch_holds H) ms cs.
Lemma chs_keep B H H' ms cs : keeps B H H' -> B <= length H -> Forall (fun mc => vloc (snd mc) < B) ms -> chs_hold H ms cs -> chs_hold H' ms cs.
Proof.
  intros K HB HL HS. revert HL. induction HS as [|mc c ms cs [E1 E2] HS IH]; intros HL; constructor.
  - split; auto. inversion HL; subst. eapply holds_keeps; eauto.
  - apply IH. inversion HL; auto.
Qed.
Lemma chs_below H ms cs : chs_hold H ms cs -> Forall (fun mc => vloc (snd mc) < length H) ms.
Proof. induction 1 as [|mc c ms cs [E1 [E2 _]]]; constructor; auto. Qed.
Lemma chs_grow H H' ms cs : grows H H' -> chs_hold H ms cs -> chs_hold H' ms cs.
Proof. intros G HS. eapply chs_keep; [exact G|auto| |exact HS]. eapply chs_below; eauto. Qed.

Lemma run_bind_both {A B C} (x : M A) (y : M B) (f : A -> B -> M C) H a b H1 :
  (p <~ x ;; q <~ y ;; ret (p, q)) H = (Ok (a, b), H1) -> (p <~ x ;; q <~ y ;; f p q) H = f a b H1.
Proof.
  unfold bindM, ret. intros E. destruct (x H) as [[p|] H2]; [|discriminate]. destruct (y H2) as [[q|] H3]; [|discriminate]. inversion E; subst. auto.
Qed.
Section Agg.
Context (mh : @mhandler V) (h : handler V) (I : implements O mh h) (axis n : nat).
Definition cur_ok (B : nat) (H : heap) (mcur : option (list key * list nat * mst mh)) (cur : option (list key * nd (hst h))) : Prop :=
  match mcur, cur with
  | None, None => True
  | Some (k, sh, st), Some (k', s) => k = k' /\ sh = nshape s /\ i_good O _ _ I B H st (nget s)
  | _, _ => False
  end.
Lemma magg_loop_ok cs : forall mcs cur mcur B H, B <= length H -> Forall (fun mc => vloc (snd mc) < B) mcs -> chs_hold H mcs cs -> cur_ok B H mcur cur ->
  match agg_loop h axis n cur cs with
  | Ok out => exists mout H', magg_loop mh axis n mcur mcs H = (Ok mout, H') /\ keeps B H H' /\ chs_hold H' mout out
  | Err e => exists H', magg_loop mh axis n mcur mcs H = (Err e, H') /\ keeps B H H'
  end.
Proof.
  induction cs as [|[k d] cs IH]; intros mcs cur mcur B H HB HL HS HC; inversion HS as [|[mk v] c0 mcs0 cs0 [Ek Hv] HS0]; subst.
  - destruct mcur as [[[mk sh] st]|], cur as [[k s]|]; cbn in HC; try contradiction; cbn [agg_loop magg_loop]; [|exists H; split; [reflexivity|apply keeps_refl]].
    destruct HC as (-> & -> & G). destruct (i_fin O _ _ I B H st (nget s) (nshape s) n G) as (v & H' & E & K & D).
    exists [(k, v)], H'. split; [rewrite (run_bind _ _ _ _ _ E); reflexivity|]. split; auto. constructor; [|constructor]. split; auto.
  - inversion HL as [|? ? HvB HL0]; subst. cbn [fst snd] in *. subst mk. cbn [agg_loop magg_loop]. pose proof (holds_shape O _ _ _ Hv) as Esh.
    destruct Hv as [Hv1 Hv2].
    (* the state that receives this chunk, and what was finalised *)
    assert (PRE : exists B1 H1 out mout st sh s,
       (let same := match mcur with Some (k0, _, _) => keys_eqb (remove_at axis k) k0 | None => false end in
        (out <~ (match mcur with
                | Some (k0, sh, st) => if same then ret [] else v <~ mfin mh sh n st ;; ret [(k0, v)]
                | None => ret []
                end) ;;
        st0 <~ (match mcur with
                | Some (_, sh, st) => if same then ret (sh, st) else st <~ mboot mh (remove_at axis (nshape d)) ;; ret (remove_at axis (nshape d), st)
                | None => st <~ mboot mh (remove_at axis (nshape d)) ;; ret (remove_at axis (nshape d), st)
                end) ;; ret (out, st0)) H) = (Ok (mout, (sh, st)), H1)
       /\ keeps B H H1 /\ B <= B1 <= length H1 /\ chs_hold H1 mout out /\ Forall (fun mc => vloc (snd mc) < B1) mout
       /\ sh = nshape s /\ i_good O _ _ I B1 H1 st (nget s)
       /\ s = (let same := match cur with Some (k0, _) => keys_eqb (remove_at axis k) k0 | None => false end in
          match cur with Some (_, st) => if same then st else agg_boot h axis d | None => agg_boot h axis d end)
       /\ forall r, out ++ r = (let same := match cur with Some (k0, _) => keys_eqb (remove_at axis k) k0 | None => false end in
          match cur with Some (k0, st) => if same then r else agg_finalise h n k0 st :: r | None => r end)).
    { destruct mcur as [[[mk sh] st]|], cur as [[k0 s]|]; cbn in HC; try contradiction; cbv zeta.
      - destruct HC as (-> & -> & G). destruct (keys_eqb (remove_at axis k) k0).
        + exists B, H, [], [], st, (nshape s), s. split; [reflexivity|]. split; [apply keeps_refl|]. split; [lia|]. split; [constructor|]. split; [constructor|]. auto.
        + destruct (i_fin O _ _ I B H st (nget s) (nshape s) n G) as (w & H1 & E1 & K1 & D1).
          destruct (i_boot O _ _ I (remove_at axis (nshape d)) H1) as (st2 & H2 & E2 & K2 & G2).
          exists (length H1), H2, [agg_finalise h n k0 s], [(k0, w)], st2, (remove_at axis (nshape d)), (agg_boot h axis d).
          split; [unfold bindM, ret; rewrite E1, E2; reflexivity|]. split; [eapply keeps_trans; [exact K1|]; eapply keeps_less; [|exact K2]; destruct K1; lia|].
          split; [destruct K1, K2; lia|]. split; [constructor; [|constructor]; split; [auto|eapply holds_grows; eauto]|]. split; [constructor; [apply D1|constructor]|].
          split; [reflexivity|]. split; [exact G2|]. auto.
      - destruct (i_boot O _ _ I (remove_at axis (nshape d)) H) as (st2 & H2 & E2 & K2 & G2).
        exists (length H), H2, [], [], st2, (remove_at axis (nshape d)), (agg_boot h axis d).
        split; [unfold bindM, ret; rewrite E2; reflexivity|]. split; [eapply keeps_less; eauto|]. split; [destruct K2; lia|]. split; [constructor|]. split; [constructor|].
        split; [reflexivity|]. split; [exact G2|]. auto. }
    destruct PRE as (B1 & H1 & out & mout & st & sh & s & E1 & K1 & HB1 & D1 & L1 & -> & G1 & Es & Eo).
    cbv zeta in E1, Es, Eo.
    match goal with |- context [bind (agg_process h axis ?x d) _] => replace x with s end. clear Es.
    rewrite Esh. rewrite (run_bind_both _ _ _ _ _ _ _ E1). clear E1. cbv beta iota.
    unfold agg_process. destruct (negb (shape_eqb (nshape s) (remove_at axis (nshape d)))); [exists H1; split; [reflexivity|exact K1]|].
    rewrite (i_bad O _ _ I). destruct (hbad h (nth axis (nshape d) 0) (prodn (nshape s) =? 0)) eqn:EB; [exists H1; split; [reflexivity|exact K1]|]. cbn [bind].
    destruct (i_step O _ _ I B1 H1 st (nget s) v d axis (prodn (nshape s) =? 0) G1) as (st2 & H2 & E2 & K2 & G2); [lia| |exact EB|].
    { eapply read_keeps; eauto. }
    rewrite (run_bind _ _ _ _ _ E2).
    assert (HB2 : B1 <= length H2) by (destruct K2; lia).
    assert (HL2 : Forall (fun mc : mchunk => vloc (snd mc) < B1) mcs0) by (eapply Forall_impl; [|exact HL0]; intros; cbn in *; lia).
    assert (HS2 : chs_hold H2 mcs0 cs).
    { eapply chs_keep; [eapply keeps_trans; [exact K1|eapply keeps_less; [|exact K2]; lia]|lia| |]; auto. }
    specialize (IH mcs0 (Some (remove_at axis k, mkND (nshape s) (fun o => hstep h (nget s o) (column d axis o)))) (Some (remove_at axis k, nshape s, st2)) B1 H2 HB2 HL2 HS2).
    specialize (IH (conj eq_refl (conj eq_refl G2))).
    destruct (agg_loop h axis n _ cs) as [r|e]; cbn [bind].
    + destruct IH as (mr & H3 & E3 & K3 & D3). rewrite <- (Eo r). exists (mout ++ mr), H3. rewrite (run_bind _ _ _ _ _ E3). split; [reflexivity|].
      split; [eapply keeps_trans; [exact K1|]; eapply keeps_less; [|eapply keeps_trans; [exact K2|exact K3]]; lia|].
      apply Forall2_app; auto. eapply chs_keep; [eapply keeps_trans; [exact K2|exact K3]|lia| |]; auto.
    + destruct IH as (H3 & E3 & K3). exists H3. unfold bindM. rewrite E3. split; [reflexivity|]. eapply keeps_trans; [exact K1|]. eapply keeps_less; [|eapply keeps_trans; [exact K2|exact K3]]; lia.
Qed.
End Agg.
(** ** The sources of an array *)
Lemma bcast_sources a dict lead (b : barr) : mk_bcast a dict lead = Ok b -> sources b = sources a.
Proof.
  unfold mk_bcast. destruct a; cbn [fst snd]; intros E; apply bind_ok in E as (_ & _ & E); destruct (existsb _ _); try discriminate; injection E as <-; auto.
Qed.
Lemma broadcast_one_sources a full off (b : barr) : broadcast_one a full off = Ok b -> sources b = sources a.
Proof. unfold broadcast_one. intros E. destruct (firstn off full), (bdict _ _); try (injection E as <-; auto; fail); eapply bcast_sources; eauto. Qed.
Lemma broadcast_sources a b (c d : barr) : broadcast_arrays a b = Ok (c, d) -> sources c = sources a /\ sources d = sources b.
Proof.
  unfold broadcast_arrays. intros E. apply bind_ok in E as (full & _ & E). apply bind_ok in E as (a' & E1 & E). apply bind_ok in E as (b' & E2 & E).
  injection E as <- <-. split; eapply broadcast_one_sources; eauto.
Qed.
Lemma sources_all (its items : list barr) : (forall y, In y its -> exists it, In it items /\ incl (sources y) (sources it)) -> incl (flat_map sources its) (flat_map sources items).
Proof. intros H c Hc. apply in_flat_map in Hc as (y & Hy & Hc). destruct (H y Hy) as (it & Hi & HI). apply in_flat_map. eauto. Qed.
Lemma sources_one (it : barr) items : In it items -> incl (sources it) (flat_map sources items).
Proof. intros H c Hc. apply in_flat_map. eauto. Qed.
Theorem getitem_sources (a : barr) : forall keys b, getitem a keys = Ok b -> incl (sources b) (sources a).
Proof.
  induction a as [sh v d|o c ks|a na IH|a dict lead IH|a d IH|a v IH|a axes IH|ssh items IH|tiles axis IH|g a axis d IH|o a d IH|o a b' d IH1 IH2]
    using barr_ind2; intros keys b E; cbn [getitem] in E.
  - apply bind_ok in E as (sh' & _ & E). injection E as <-. apply incl_refl.
  - assert (G : forall ks' c', (k <- remap_keys (c_shape c) ks ks' ;; mk_adapter o c k) = Ok c' -> incl (sources c') [c]).
    { intros ks' c' E'. apply bind_ok in E' as (k & _ & E'). unfold mk_adapter in E'. destruct (_ <? _); [discriminate|].
      apply bind_ok in E' as (_ & _ & E'). injection E' as <-. apply incl_refl. }
    apply base_getitem_inv in E as [(k & _ & _ & E)|(_ & k & c' & _ & E & na' & [->|(bd & ->)])]; cbn [sources]; eapply G; eauto.
  - apply newax_getitem_inv in E as (k & c' & E & na' & [->|(bd & ->)]); cbn [sources]; eapply IH; eauto.
  - match type of E with base_getitem ?f _ _ = _ => assert (G : forall k c', f k = Ok c' -> incl (sources c') (sources a)) end.
    { intros k c' E'. apply bind_ok in E' as (l' & _ & E'). apply bind_ok in E' as (r & _ & E'). apply bind_ok in E' as (bb & _ & E').
      apply bind_ok in E' as (sub & Es & E'). rewrite (bcast_sources _ _ _ _ E'). destruct bb; [injection Es as <-; apply incl_refl|]. eapply IH; eauto. }
    apply base_getitem_inv in E as [(k & _ & _ & E)|(_ & k & c' & _ & E & na' & [->|(bd & ->)])]; cbn [sources]; eapply G; eauto.
  - apply bind_ok in E as (c' & E1 & E). injection E as <-. cbn [sources]. eapply IH; eauto.
  - apply bind_ok in E as (c' & E1 & E). injection E as <-. cbn [sources]. eapply IH; eauto.
  - match type of E with base_getitem ?f _ _ = _ => assert (G : forall k c', f k = Ok c' -> incl (sources c') (sources a)) end.
    { intros k c' E'. cbv zeta in E'. apply bind_ok in E' as (x & Ex & E'). apply trans_inv in E' as (ax & ->). cbn [sources]. eapply IH; eauto. }
    apply base_getitem_inv in E as [(k & _ & _ & E)|(_ & k & c' & _ & E & na' & [->|(bd & ->)])]; cbn [sources]; eapply G; eauto.
  - rewrite Forall_forall in IH.
    match type of E with base_getitem ?f _ _ = _ => assert (G : forall k c', f k = Ok c' -> incl (sources c') (sources (AStack ssh items))) end.
    { intros k c' E'. eapply stack_get in E' as [(it & Hi & Ei)|(ssh' & its & Es & Hx)]; [| |reflexivity].
      - eapply incl_tran; [eapply IH; eauto|]. apply sources_one. auto.
      - apply stack_inv in Es as (-> & _). cbn [sources]. apply sources_all. intros y Hy. destruct (Hx y Hy) as (it & Hi & Ei). exists it. split; auto. eapply IH; eauto. }
    apply base_getitem_inv in E as [(k & _ & _ & E)|(_ & k & c' & _ & E & na' & [->|(bd & ->)])]; try change (incl (sources c') (sources (AStack ssh items))); eapply G; eauto.
  - rewrite Forall_forall in IH.
    match type of E with base_getitem ?f _ _ = _ => assert (G : forall k c', existsb is_new k = false -> f k = Ok c' -> incl (sources c') (sources (AMosaic tiles axis))) end.
    { intros k c' Hk E'. eapply mosaic_get in E' as [(it & k' & Hi & _ & Ei)|(ax & its & Es & Hx)]; auto.
      - eapply incl_tran; [eapply IH; eauto|]. apply sources_one. auto.
      - apply mosaic_inv in Es as (-> & _). cbn [sources]. apply sources_all. intros y Hy. destruct (Hx y Hy) as (it & k' & Hi & _ & Ei). exists it. split; auto. eapply IH; eauto. }
    apply base_getitem_inv in E as [(k & _ & N & E)|(_ & k & c' & N & E & na' & [->|(bd & ->)])]; try change (incl (sources c') (sources (AMosaic tiles axis))); eapply G; eauto.
  - match type of E with base_getitem ?f _ _ = _ => assert (G : forall k c', f k = Ok c' -> incl (sources c') (sources a)) end.
    { intros k c' E'. cbv zeta in E'. apply bind_ok in E' as (x & Ex & E'). injection E' as <-. cbn [sources]. eapply IH; eauto. }
    apply base_getitem_inv in E as [(k & _ & _ & E)|(_ & k & c' & _ & E & na' & [->|(bd & ->)])]; cbn [sources]; eapply G; eauto.
  - match type of E with base_getitem ?f _ _ = _ => assert (G : forall k c', f k = Ok c' -> incl (sources c') (sources a)) end.
    { intros k c' E'. apply bind_ok in E' as (x & Ex & E'). injection E' as <-. cbn [mk_el1 sources]. eapply IH; eauto. }
    apply base_getitem_inv in E as [(k & _ & _ & E)|(_ & k & c' & _ & E & na' & [->|(bd & ->)])]; cbn [sources]; eapply G; eauto.
  - match type of E with base_getitem ?f _ _ = _ => assert (G : forall k c', f k = Ok c' -> incl (sources c') (sources a ++ sources b')) end.
    { intros k c' E'. apply bind_ok in E' as (x & Ex & E'). apply bind_ok in E' as (y & Ey & E'). unfold mk_el2 in E'. apply bind_ok in E' as ([x' y'] & Eb & E').
      injection E' as <-. cbn [sources]. destruct (broadcast_sources _ _ _ _ Eb) as [-> ->]. apply incl_app_app; eauto. }
    apply base_getitem_inv in E as [(k & _ & _ & E)|(_ & k & c' & _ & E & na' & [->|(bd & ->)])]; cbn [sources]; eapply G; eauto.
Qed.
(** ** Sequences of computations *)
Definition stable {A B} (R : heap -> A -> B -> Prop) : Prop := forall H H' a b, grows H H' -> R H a b -> R H' a b.
Lemma mapMM_does {A B C D} (P : heap -> Prop) (R : heap -> C -> D -> Prop) (Q : A -> B -> Prop) (f : A -> M C) (g : B -> res D) l l' :
  stable R -> (forall H H', grows H H' -> P H -> P H') -> Forall2 Q l l' -> (forall x y H, Q x y -> In y l' -> P H -> does R (f x) H (g y)) ->
  forall H, P H -> does (fun H => Forall2 (R H)) (mapMM f l) H (mapM g l').
Proof.
  intros HR HP HQ. induction HQ as [|x y l l' Hxy HQ IH]; intros HF H H0; cbn [mapMM mapM].
  - apply does_ret. constructor.
  - apply (does_bind R (fun H => Forall2 (R H)) _ _ _ (g y) (fun d => match mapM g l' with Ok ys => Ok (d :: ys) | Err e => Err e end)).
    + apply HF; auto. left; auto.
    + intros c d H1 G1 R1. apply (does_bind (fun H => Forall2 (R H)) (fun H => Forall2 (R H)) _ _ _ (mapM g l') (fun ys => Ok (d :: ys))).
      * apply IH; eauto. intros. apply HF; auto. right; auto.
      * intros cs ds H2 G2 R2. apply does_ret. constructor; auto. eapply HR; eauto.
Qed.
Lemma eq_list {A} (l : list A) : Forall2 eq l l. Proof. induction l; constructor; auto. Qed.
Lemma holds_stable : stable holds. Proof. intros H H' v d G D. eapply holds_grows; eauto. Qed.
Lemma ch_stable : stable ch_holds. Proof. intros H H' v d G [E D]. split; auto. eapply holds_grows; eauto. Qed.

Lemma mzip_ok f xs ys : forall mxs mys H, chs_hold H mxs xs -> chs_hold H mys ys -> does chs_hold (mzip O f mxs mys) H (zip_stream f xs ys).
Proof.
  revert ys. induction xs as [|[k x] xs IH]; intros ys mxs mys H H1 H2; inversion H1 as [|[mk mx] c1 mxs' xs' [Ek Hx] Hxs]; subst; cbn [mzip zip_stream].
  - apply does_ret. constructor.
  - destruct ys as [|[k2 y] ys]; inversion H2 as [|[mk2 my] c2 mys' ys' [Ek2 Hy] Hys]; subst; [apply does_ret; constructor|].
    cbn [fst snd] in *. subst. apply does_look. eapply does_lift; [apply op2_same; [apply Hx|apply Hy]|]. intros d d' HD.
    eapply (does_bind holds chs_hold _ _ _ (Ok d') (fun d' => r <- zip_stream f xs ys ;; Ok ((k, d') :: r))); [apply does_fresh; auto|].
    intros v e H3 G3 Hv. eapply does_bind; [apply IH; eapply chs_grow; eauto|]. intros mr r H4 G4 Hr. apply does_ret. constructor; auto.
    split; auto. eapply holds_grows; eauto.
Qed.
Lemma mmap_ok f cs mcs H : chs_hold H mcs cs ->
  does chs_hold (mapMM (fun ch => h <~ look_at (fun h => h) ;; v <~ fresh (nd_map f (read h (snd ch))) ;; ret (fst ch, v)) mcs) H (Ok (map (fun ch => (fst ch, nd_map f (snd ch))) cs)).
Proof.
  intros HS. replace (Ok (map (fun ch => (fst ch, nd_map f (snd ch))) cs)) with (mapM (fun ch : chunk => Ok (fst ch, nd_map f (snd ch))) cs).
  2:{ clear. induction cs as [|c cs IH]; cbn; auto. rewrite IH. auto. }
  apply (mapMM_does (fun H' => grows H H') ch_holds (ch_holds H) _ _ mcs cs ch_stable); auto.
  - intros H1 H2 G1 G2. eapply grows_trans; eauto.
  - intros [mk mx] [k x] H1 [E Hx] _ G. cbn [fst snd] in *. subst. apply does_look.
    apply (does_bind holds ch_holds _ _ _ (Ok (nd_map f x)) (fun d => Ok (k, d))).
    + apply does_fresh. apply same_map. apply (holds_grows _ _ _ _ _ G Hx).
    + intros v d H2 G2 Hv. apply does_ret. split; auto.
  - apply grows_refl.
Qed.

(** ** Storing pieces into a new array *)
Variable garbage : list nat -> cell.
Lemma setitem_shape {W} (a : nd W) k v b : np_setitem a k v = Ok b -> nshape b = nshape a.
Proof.
  unfold np_setitem. intros E. apply bind_ok in E as (s & _ & E). unfold nd_assign in E. destruct (assignable_rev _ _); [|discriminate]. injection E as <-. auto.
Qed.
Lemma writes_ok l sh ws : forall mws cur H, l < length H -> nshape cur = sh -> nd_same (read H (whole l sh)) cur ->
  Forall (fun w => vloc (snd w) <> l) mws -> chs_hold H mws ws ->
  match np_setitems cur ws with
  | Ok r => exists H', foldMM (fun _ w => write O l sh (fst w) (snd w)) tt mws H = (Ok tt, H') /\ length H' = length H
      /\ (forall l', l' <> l -> look H' l' = look H l') /\ nd_same (read H' (whole l sh)) r
  | Err e => exists H', foldMM (fun _ w => write O l sh (fst w) (snd w)) tt mws H = (Err e, H') /\ length H' = length H
      /\ forall l', l' <> l -> look H' l' = look H l'
  end.
Proof.
  induction ws as [|[k d] ws IH]; intros mws cur H Hl Hs HC HN HS; inversion HS as [|[mk mx] c1 mws' ws' [Ek Hx] Hxs]; subst.
  - cbn. exists H. auto.
  - inversion HN as [|? ? HN1 HN2]; subst. cbn [fst snd] in *. subst. unfold np_setitems. cbn [foldM foldMM fst snd].
    pose proof (setitem_same (read H (whole l (nshape cur))) cur k (read H mx) d HC (proj2 Hx)) as HR.
    assert (WE : write O l (nshape cur) k mx H = match np_setitem (read H (whole l (nshape cur))) k (read H mx) with
      | Ok d1 => (Ok tt, set_nth l ((fun j => MV (nget d1 j)) : @buffer V) H) | Err e => (Err e, H) end).
    { unfold write, bindM, look_at, lift, put. destruct (np_setitem (read H (whole l (nshape cur))) k (read H mx)); auto. }
    destruct (np_setitem (read H (whole l (nshape cur))) k (read H mx)) as [d1|e1] eqn:E1, (np_setitem cur k d) as [cur'|e2] eqn:E2; cbn [res_rel] in HR; try contradiction.
    + rewrite (run_bind _ _ _ _ _ WE). set (H1 := set_nth l ((fun j => MV (nget d1 j)) : @buffer V) H).
      assert (L1 : length H1 = length H) by apply set_nth_length.
      assert (F1 : forall l', look H1 l' = if l' =? l then (fun j => MV (nget d1 j)) else look H l') by (intros l'; apply look_set; auto).
      specialize (IH mws' cur' H1). unfold np_setitems in IH. rewrite (setitem_shape _ _ _ _ E2) in IH.
      assert (Hl1 : l < length H1) by (unfold H1; rewrite set_nth_length; exact Hl). assert (IH' := IH Hl1 eq_refl). clear IH.
      assert (S1 : nd_same (read H1 (whole l (nshape cur))) cur').
      { eapply same_trans; [|exact HR]. split; [cbn; symmetry; exact (setitem_shape _ _ _ _ E1)|]. intros i. cbn. rewrite F1, Nat.eqb_refl. auto. }
      assert (S2 : chs_hold H1 mws' ws).
      { clear - Hxs HN2 L1 F1. induction Hxs as [|mc c ms cs [E1 [E2 E3]] HS IH]; constructor; inversion HN2; subst.
        - split; auto. split; [lia|]. eapply same_trans; [|exact E3]. split; auto. intros i. cbn. rewrite F1. destruct (Nat.eqb_spec (vloc (snd mc)) l); [contradiction|auto].
        - apply IH; auto. }
      specialize (IH' S1 HN2 S2). fold H1. destruct (foldM (fun r (w : list key * nd cell) => np_setitem r (fst w) (snd w)) cur' ws) as [r|e].
      * destruct IH' as (H' & E & L & F & S). exists H'. split; auto. split; [lia|]. split; auto. intros l' Hl'. rewrite F, F1 by auto. destruct (Nat.eqb_spec l' l); [contradiction|auto].
      * destruct IH' as (H' & E & L & F). exists H'. split; auto. split; [lia|]. intros l' Hl'. rewrite F, F1 by auto. destruct (Nat.eqb_spec l' l); [contradiction|auto].
    + subst. exists H. unfold bindM. rewrite WE. auto.
Qed.
(** A new array. *)
Definition new_holds (H0 H : heap) (v : view) (d : nd cell) : Prop := holds H v d /\ length H0 <= vloc v.
Lemma does_weaken {A B} (R S : heap -> A -> B -> Prop) x H r : (forall H' a b, R H' a b -> S H' a b) -> does R x H r -> does S x H r.
Proof. intros HR. destruct r; cbn; auto. intros (x0 & H' & E & G & D). exists x0, H'. auto. Qed.
Lemma store_ok sh mws ws H : chs_hold H mws ws -> does (new_holds H) (store O garbage sh mws) H (np_setitems (mkND sh garbage) ws).
Proof.
  intros HS. set (l := length H). set (H1 := H ++ [(fun j => MV (garbage j)) : @buffer V]).
  assert (G1 : grows H H1) by apply app_grows. assert (L1 : length H1 = S l) by (unfold H1; rewrite app_length; cbn; unfold l; lia).
  pose proof (writes_ok l sh ws mws (mkND sh garbage) H1) as W.
  assert (W' : match np_setitems (mkND sh garbage) ws with
  | Ok r => exists H', foldMM (fun _ w => write O l sh (fst w) (snd w)) tt mws H1 = (Ok tt, H') /\ length H' = length H1
      /\ (forall l', l' <> l -> look H' l' = look H1 l') /\ nd_same (read H' (whole l sh)) r
  | Err e => exists H', foldMM (fun _ w => write O l sh (fst w) (snd w)) tt mws H1 = (Err e, H') /\ length H' = length H1
      /\ forall l', l' <> l -> look H' l' = look H1 l'
  end).
  { apply W; [lia|auto| | |eapply chs_grow; eauto].
    - split; auto. intros i. cbn. unfold H1, l. rewrite look_app, Nat.eqb_refl. auto.
    - eapply Forall_impl; [|eapply chs_below; eauto]. intros mc Hm. cbn in Hm. unfold l. lia. }
  unfold does, store. rewrite (run_bind (alloc _) _ H l H1 eq_refl).
  destruct (np_setitems (mkND sh garbage) ws) as [r|e].
  - destruct W' as (H' & E & L & F & S). exists (whole l sh), H'. rewrite (run_bind _ _ _ _ _ E). split; [reflexivity|]. split.
    + split; [unfold l in *; lia|]. intros l' Hl. rewrite F by (unfold l; lia). apply G1. auto.
    + split; [split; [cbn; lia|exact S]|cbn; unfold l; lia].
  - destruct W' as (H' & E & L & F). exists H'. unfold bindM at 1. rewrite E. split; [reflexivity|].
    split; [unfold l in *; lia|]. intros l' Hl. rewrite F by (unfold l; lia). apply G1. auto.
Qed.
(** ** Adapters *)
Variable place : @concrete V -> nat.
Variable copies : bool -> @concrete V -> bool.
Notation in_memory := (in_memory place copies).
Notation sources_in := (sources_in place copies).
Lemma in_memory_grows H H' c : grows H H' -> in_memory H c -> in_memory H' c.
Proof. intros [G1 G2] (H1 & H2 & H3). split; [lia|]. split; auto. intros i. rewrite G2 by auto. auto. Qed.

Lemma take_same {W} (a b : nd W) l axis : nd_same a b -> res_rel nd_same (np_take a l axis) (np_take b l axis).
Proof.
  intros [H1 H2]. unfold np_take. rewrite <- H1. destruct l; [reflexivity|]. destruct (norm_ints _ _); [|reflexivity]. cbn [res_rel]. split; cbn; auto.
Qed.
Lemma apply_numpy_same (a b : nd cell) ks : nd_same a b -> res_rel nd_same (apply_numpy a ks) (apply_numpy b ks).
Proof.
  intros HS. unfold apply_numpy. destruct (1 <? length (tuple_keys ks)); [|apply np_index_same; auto].
  assert (HF : forall l (x y : nd cell), nd_same x y -> res_rel nd_same
    (foldM (fun arr it => np_take arr (snd it) (fst it - count_if is_scalar (firstn (S (fst it)) (cut_keys ks)))) x l)
    (foldM (fun arr it => np_take arr (snd it) (fst it - count_if is_scalar (firstn (S (fst it)) (cut_keys ks)))) y l)).
  { clear. intros l. induction l as [|it l IH]; intros x y HS; cbn [foldM]; [exact HS|].
    pose proof (take_same x y (snd it) (fst it - count_if is_scalar (firstn (S (fst it)) (cut_keys ks))) HS) as HT.
    destruct (np_take x _ _), (np_take y _ _); cbn in HT; try contradiction; auto. }
  assert (HI : forall k, res_rel nd_same (np_index a k) (np_index b k)) by (intros; apply np_index_same; auto).
  destruct (length (tuple_keys ks) =? length ks).
  - specialize (HI [KEll]). destruct (np_index a [KEll]), (np_index b [KEll]); cbn in HI; try contradiction; cbn [bind]; auto.
  - specialize (HI (cut_keys ks)). destruct (np_index a (cut_keys ks)), (np_index b (cut_keys ks)); cbn in HI; try contradiction; cbn [bind]; auto.
Qed.
Lemma apply_ortho_same (a b : nd cell) ks : nd_same a b -> res_rel nd_same (apply_ortho a ks) (apply_ortho b ks).
Proof.
  intros [H1 H2]. unfold apply_ortho. rewrite <- H1. destruct (keys_dsel ks (nshape a)); cbn; auto. split; cbn; auto.
Qed.
Lemma basic_tuples ks : forallb is_basic ks = true -> tuple_keys ks = [].
Proof.
  unfold tuple_keys. generalize 0 as n. induction ks as [|k ks IH]; intros n HB; cbn; auto.
  cbn in HB. apply andb_true_iff in HB as [H1 H2]. rewrite IH by auto. destruct k; cbn in *; auto; discriminate.
Qed.
Lemma adapter_same m ortho sh c1 c2 f d ks : (forall i, c1 i = c2 i) ->
  res_rel nd_same (realise_adapter O m ortho (mkC sh c1 f d) ks) (realise_adapter O m ortho (mkC sh c2 f d) ks).
Proof.
  intros HC. unfold realise_adapter. cbn [c_shape c_cell c_fill c_dtype].
  assert (HS : nd_same (mkND sh c1) (mkND sh c2)) by (split; auto).
  assert (HR : res_rel nd_same (if ortho then apply_ortho (mkND sh c1) ks else apply_numpy (mkND sh c1) ks) (if ortho then apply_ortho (mkND sh c2) ks else apply_numpy (mkND sh c2) ks)).
  { destruct ortho; [apply apply_ortho_same; auto|apply apply_numpy_same; auto]. }
  destruct (if ortho then apply_ortho (mkND sh c1) ks else apply_numpy (mkND sh c1) ks), (if ortho then apply_ortho (mkND sh c2) ks else apply_numpy (mkND sh c2) ks);
    cbn in HR; try contradiction; cbn [bind res_rel]; auto. rewrite (proj1 HR). apply same_map. auto.
Qed.
Lemma nd_map_id {W} (f : W -> W) (a b : nd W) : nd_same a b -> (forall i, f (nget a i) = nget a i) -> nd_same a (nd_map f b).
Proof. intros [H1 H2] H. split; auto. intros i. cbn. rewrite <- H2. auto. Qed.

Lemma madapter_ok m ortho c ks H : in_memory H c -> does holds (madapter O place copies m ortho c ks) H (realise_adapter O m ortho c ks).
Proof.
  intros (Hp & Hc & Hm). unfold madapter. destruct (forallb is_basic ks && negb (copies m c)) eqn:EB.
  - apply andb_true_iff in EB as [EB EC]. apply negb_true_iff in EC.
    set (src := mkND (c_shape c) (fun i : list nat => i)).
    set (f := fun j => cellv O (look H (place c) j)).
    (* the elements themselves *)
    assert (R1 : res_rel (fun ix arr => nd_same (nd_map f ix) arr)
       (if ortho then s <- keys_dsel ks (c_shape c) ;; Ok (nd_sel src s) else np_index src ks)
       (if ortho then apply_ortho (mkND (c_shape c) (c_cell c)) ks else apply_numpy (mkND (c_shape c) (c_cell c)) ks)).
    { assert (HS : nd_same (nd_map f src) (mkND (c_shape c) (c_cell c))) by (split; auto; intros i; cbn; unfold f; rewrite Hc; auto).
      destruct ortho.
      - unfold apply_ortho. cbn [nshape]. destruct (keys_dsel ks (c_shape c)); cbn; auto. split; cbn; auto. intros i. apply HS.
      - unfold apply_numpy. rewrite (basic_tuples ks EB). cbn [length Nat.ltb Nat.leb]. pose proof (np_index_same _ _ ks HS) as HI. rewrite np_index_map in HI.
        destruct (np_index src ks), (np_index (mkND (c_shape c) (c_cell c)) ks); cbn in *; auto. }
    unfold realise_adapter.
    eapply (does_lift holds); [exact R1|]. intros ix arr HR.
    assert (HI : nd_same (read H (mkV (place c) ix)) (nd_map (adapter_cell O m (match c_fill c with Some v => v | None => vdfill O (c_dtype c) end) (match nshape arr with [] => true | _ => false end)) arr)).
    { apply nd_map_id; [exact HR|]. intros i. cbn. rewrite Hc. unfold adapter_cell, cellv. destruct (c_cell c (nget ix i)) eqn:E; auto. destruct m; auto. exfalso. eapply Hm; eauto. }
    destruct (nshape ix) as [|x sh].
    + apply does_look. apply does_fresh. exact HI.
    + apply does_ret. split; [exact Hp|exact HI].
  - apply does_look.
    assert (R1 : res_rel nd_same (realise_adapter O m ortho (mkC (c_shape c) (fun i => cellv O (look H (place c) i)) (c_fill c) (c_dtype c)) ks) (realise_adapter O m ortho c ks)).
    { destruct c as [sh cc fi dt]. apply adapter_same. intros i. cbn in Hc. rewrite Hc. auto. }
    replace (realise_adapter O m ortho c ks) with (bind (realise_adapter O m ortho c ks) (fun d => Ok d)) by (destruct (realise_adapter O m ortho c ks); auto).
    eapply does_lift; [exact R1|]. intros d e HD. apply does_fresh. auto.
Qed.

(** ** Streams and realisation *)
Variable maxc : nat.
Lemma sources_grow H H' a : grows H H' -> sources_in H a -> sources_in H' a.
Proof. intros G HS c Hc. eapply in_memory_grows; eauto. Qed.
Lemma sources_get H a k b : getitem a k = Ok b -> sources_in H a -> sources_in H b.
Proof. intros E HS c Hc. apply HS. eapply getitem_sources; eauto. Qed.

Section Engine.
Variables (mrz : barr -> @M V view) (rz : barr -> res (nd cell)) (m : bool).
Hypothesis HRZ : forall b H, sources_in H b -> does holds (mrz b) H (rz b).
Lemma mproducer_ok a order H : sources_in H a -> does chs_hold (mproducer maxc mrz a order) H (producer maxc rz a order).
Proof.
  intros HS. unfold mproducer, producer. apply (mapMM_does (fun H => sources_in H a) ch_holds eq); auto.
  - apply ch_stable.
  - intros H1 H2 G. apply sources_grow; auto.
  - apply eq_list.
  - intros x k H1 -> _ HS1. eapply does_lift with (R := fun b b' => b = b' /\ getitem a k = Ok b').
    { destruct (getitem a k); cbn; auto. }
    intros b b' [-> E]. eapply does_bind; [apply HRZ; eapply sources_get; eauto|]. intros v d H2 G2 Hv. apply does_ret. split; auto.
Qed.
Lemma mstream_ok (a : barr) : forall order H, sources_in H a -> does chs_hold (mstream O maxc mrz m a order) H (stream O maxc rz m a order).
Proof.
  induction a as [sh v d|o c ks|a na IH|a dict lead IH|a d IH|a v IH|a axes IH|ssh items IH|tiles axis IH|g a axis d IH|o a d IH|o a b' d IH1 IH2]
    using barr_ind2; intros order H HS; try (apply mproducer_ok; exact HS); cbn [mstream stream].
  - eapply does_bind; [apply IH; exact HS|]. intros mcs cs H1 G1 HC.
    pose proof (magg_loop_ok _ _ (impl_all O m g) axis (nth axis (shape a) 0) cs mcs None None (length H1) H1 (le_n _) (chs_below _ _ _ HC) HC I) as HA.
    unfold does. destruct (agg_loop _ _ _ _ _); auto.
  - eapply does_lift with (R := eq). { destruct (op1_fun m o); cbn; auto. } intros f f' ->.
    eapply does_bind; [apply IH; exact HS|]. intros mcs cs H1 G1 HC. apply mmap_ok. auto.
  - eapply does_lift with (R := eq). { destruct (op2_fun m o); cbn; auto. } intros f f' ->.
    eapply does_bind; [apply IH1; intros c Hc; apply HS; cbn [sources]; apply in_or_app; auto|]. intros mxs xs H1 G1 HX.
    eapply does_bind; [apply IH2; eapply sources_grow; [exact G1|]; intros c Hc; apply HS; cbn [sources]; apply in_or_app; auto|]. intros mys ys H2 G2 HY.
    apply mzip_ok; auto. eapply chs_grow; eauto.
Qed.
Lemma mengine_ok (a : barr) H : sources_in H a -> does (new_holds H) (mengine O garbage maxc mrz m a) H (engine_eval O maxc garbage rz m a).
Proof.
  intros HS. unfold mengine, engine_eval. eapply does_bind; [apply mstream_ok; auto|]. intros mcs cs H1 G1 HC. eapply does_weaken; [|apply store_ok; auto].
  intros H' v d [D1 D2]. split; auto. destruct G1; lia.
Qed.
End Engine.
Lemma new_old H0 H v d : new_holds H0 H v d -> holds H v d. Proof. intros [D _]; auto. Qed.

Lemma combine_holds H (ks : list (list key)) vs ds : Forall2 (holds H) vs ds -> chs_hold H (combine ks vs) (combine ks ds).
Proof.
  intros HF. revert ks. induction HF; intros [|k ks]; cbn; constructor; auto. split; auto. apply IHHF.
Qed.
Lemma parts_new (mrz : barr -> @M V view) rz sh (ks : list (list key)) (items : list barr) H :
  (forall it H, In it items -> sources_in H it -> does holds (mrz it) H (rz it)) -> (forall it, In it items -> sources_in H it) ->
  does (new_holds H) (vs <~ mapMM mrz items ;; store O garbage sh (combine ks vs)) H (ds <- mapM rz items ;; np_setitems (mkND sh garbage) (combine ks ds)).
Proof.
  intros HF HS. eapply does_bind.
  - apply (mapMM_does (fun H => forall it, In it items -> sources_in H it) holds eq _ _ items items holds_stable); [|apply eq_list| |exact HS].
    + intros H1 H2 G HS1 it Hi. eapply sources_grow; eauto.
    + intros x it H1 -> Hi HS1. auto.
  - intros vs ds H1 G1 HV. eapply does_weaken; [|apply store_ok; apply combine_holds; exact HV]. intros H' v d [D1 D2]. split; auto. destruct G1; lia.
Qed.
Theorem mrealise_ok fuel m : forall (a : barr) H, sources_in H a -> does holds (mrealise O garbage place copies maxc fuel m a) H (realise O maxc garbage fuel m a).
Proof.
  induction fuel as [|f IHf]; [intros a H _; exists H; split; [reflexivity|apply grows_refl]|].
  induction a as [sh v d|o c ks|a na IH|a dict lead IH|a d IH|a v IH|a axes IH|ssh items IH|tiles axis IH|g a axis d IH|o a d IH|o a b' d IH1 IH2]
    using barr_ind2; intros H HS.
  - apply does_fresh. apply same_refl.
  - apply madapter_ok. apply HS. left; auto.
  - change (mrealise O garbage place copies maxc (S f) m (ANewAx a na)) with
      (v <~ mrealise O garbage place copies maxc (S f) m a ;; ix <~ lift (np_index (vix v) (newax_layout KNew (repeat KFull (ndim a)) na)) ;; ret (mkV (vloc v) ix)).
    change (realise O maxc garbage (S f) m (ANewAx a na)) with (d <- realise O maxc garbage (S f) m a ;; np_index d (newax_layout KNew (repeat KFull (ndim a)) na)).
    eapply does_bind; [apply IH; exact HS|]. intros v d H1 G1 [Hv1 Hv2].
    pose proof (np_index_same _ _ (newax_layout KNew (repeat KFull (ndim a)) na) Hv2) as HI. unfold Memory.read in HI. rewrite np_index_map in HI.
    replace (np_index d (newax_layout KNew (repeat KFull (ndim a)) na)) with (bind (np_index d (newax_layout KNew (repeat KFull (ndim a)) na)) (fun x => Ok x)) by (destruct (np_index d _); auto).
    eapply does_lift with (R := fun ix d => nd_same (nd_map (fun j => cellv O (look H1 (vloc v) j)) ix) d).
    + destruct (np_index (vix v) _), (np_index d _); cbn in *; auto.
    + intros ix e HE. apply does_ret. split; auto.
  - change (mrealise O garbage place copies maxc (S f) m (ABcast a dict lead)) with
      (v <~ mrealise O garbage place copies maxc (S f) m a ;; ix <~ lift (bcast_numpy (vix v) dict lead) ;; ret (mkV (vloc v) ix)).
    change (realise O maxc garbage (S f) m (ABcast a dict lead)) with (d <- realise O maxc garbage (S f) m a ;; bcast_numpy d dict lead).
    eapply does_bind; [apply IH; exact HS|]. intros v d H1 G1 [Hv1 Hv2].
    pose proof (bcast_same _ _ dict lead Hv2) as HI. unfold Memory.read in HI. rewrite bcast_map in HI.
    replace (bcast_numpy d dict lead) with (bind (bcast_numpy d dict lead) (fun x => Ok x)) by (destruct (bcast_numpy d _ _); auto).
    eapply does_lift with (R := fun ix d => nd_same (nd_map (fun j => cellv O (look H1 (vloc v) j)) ix) d).
    + destruct (bcast_numpy (vix v) _ _), (bcast_numpy d _ _); cbn in *; auto.
    + intros ix e HE. apply does_ret. split; auto.
  - change (mrealise O garbage place copies maxc (S f) m (AAsTy a d)) with
      (v <~ mrealise O garbage place copies maxc (S f) m a ;; h <~ look_at (fun h => h) ;; fresh (nd_map (lift1 (vcast O d)) (read h v))).
    change (realise O maxc garbage (S f) m (AAsTy a d)) with (e <- realise O maxc garbage (S f) m a ;; Ok (nd_map (lift1 (vcast O d)) e)).
    eapply does_bind; [apply IH; exact HS|]. intros v e H1 G1 [Hv1 Hv2]. apply does_look. apply does_fresh. apply same_map. auto.
  - change (mrealise O garbage place copies maxc (S f) m (AMaskV a v)) with
      (w <~ mrealise O garbage place copies maxc (S f) m a ;; if m then h <~ look_at (fun h => h) ;; fresh (nd_map (mask_equal O m v) (read h w)) else ret w).
    change (realise O maxc garbage (S f) m (AMaskV a v)) with (e <- realise O maxc garbage (S f) m a ;; Ok (nd_map (mask_equal O m v) e)).
    eapply does_bind; [apply IH; exact HS|]. intros w e H1 G1 [Hv1 Hv2]. destruct m.
    + apply does_look. apply does_fresh. apply same_map. auto.
    + apply does_ret. split; auto. apply nd_map_id; auto. intros i. destruct (nget (read H1 w) i); auto.
  - change (mrealise O garbage place copies maxc (S f) m (ATrans a axes)) with
      (v <~ mrealise O garbage place copies maxc (S f) m a ;; ret (mkV (vloc v) (np_transpose (vix v) axes))).
    change (realise O maxc garbage (S f) m (ATrans a axes)) with (e <- realise O maxc garbage (S f) m a ;; Ok (np_transpose e axes)).
    eapply does_bind; [apply IH; exact HS|]. intros v d H1 G1 [Hv1 Hv2]. apply does_ret. split; auto.
    pose proof (transpose_same _ _ axes Hv2) as HT. exact HT.
  - change (mrealise O garbage place copies maxc (S f) m (AStack ssh items)) with
      (vs <~ mapMM (mrealise O garbage place copies maxc (S f) m) items ;; store O garbage (shape (AStack ssh items)) (combine (map (map (fun i => KInt (Z.of_nat i))) (ndindex ssh)) vs)).
    change (realise O maxc garbage (S f) m (AStack ssh items)) with (ds <- mapM (realise O maxc garbage (S f) m) items ;;
      np_setitems (mkND (shape (AStack ssh items)) garbage) (combine (map (map (fun i => KInt (Z.of_nat i))) (ndindex ssh)) ds)).
    eapply does_weaken; [apply new_old|]. apply parts_new.
    + intros it H1 Hi HS1. rewrite Forall_forall in IH. apply IH; auto.
    + intros it Hi c Hc. apply HS. cbn [sources]. eapply sources_one; eauto.
  - change (mrealise O garbage place copies maxc (S f) m (AMosaic tiles axis)) with
      (vs <~ mapMM (mrealise O garbage place copies maxc (S f) m) tiles ;; store O garbage (shape (AMosaic tiles axis))
        (combine (map (fun on => set_nth axis (sl (fst on) (fst on + snd on)) (repeat KFull (ndim (AMosaic tiles axis))))
           (combine (offsets_from 0 (map (fun t : barr => nth axis (shape t) 0) tiles)) (map (fun t : barr => nth axis (shape t) 0) tiles))) vs)).
    change (realise O maxc garbage (S f) m (AMosaic tiles axis)) with (ds <- mapM (realise O maxc garbage (S f) m) tiles ;;
      np_setitems (mkND (shape (AMosaic tiles axis)) garbage) (mosaic_writes (ndim (AMosaic tiles axis)) axis (map (fun t : barr => nth axis (shape t) 0) tiles) ds)).
    eapply does_weaken; [apply new_old|]. apply parts_new.
    + intros it H1 Hi HS1. rewrite Forall_forall in IH. apply IH; auto.
    + intros it Hi c Hc. apply HS. cbn [sources]. eapply sources_one; eauto.
  - eapply does_weaken; [apply new_old|]. apply mengine_ok; auto.
  - change (mrealise O garbage place copies maxc (S f) m (AEl1 o a d)) with
      (g <~ lift (op1_fun m o) ;; v <~ mengine O garbage maxc (mrealise O garbage place copies maxc f m) m a ;; h <~ look_at (fun h => h) ;; fresh (nd_map g (read h v))).
    change (realise O maxc garbage (S f) m (AEl1 o a d)) with (g <- op1_fun m o ;; d <- engine_eval O maxc garbage (realise O maxc garbage f m) m a ;; Ok (nd_map g d)).
    eapply does_lift with (R := eq). { destruct (op1_fun m o); cbn; auto. } intros g g' ->.
    eapply does_bind; [apply mengine_ok; auto|]. intros v e H1 G1 [[Hv1 Hv2] _]. apply does_look. apply does_fresh. apply same_map. auto.
  - change (mrealise O garbage place copies maxc (S f) m (AEl2 o a b' d)) with
      (g <~ lift (op2_fun m o) ;; x <~ mengine O garbage maxc (mrealise O garbage place copies maxc f m) m a ;;
       y <~ mengine O garbage maxc (mrealise O garbage place copies maxc f m) m b' ;; h <~ look_at (fun h => h) ;; d <~ lift (np_op2 g (read h x) (read h y)) ;; fresh d).
    change (realise O maxc garbage (S f) m (AEl2 o a b' d)) with (g <- op2_fun m o ;; x <- engine_eval O maxc garbage (realise O maxc garbage f m) m a ;;
      y <- engine_eval O maxc garbage (realise O maxc garbage f m) m b' ;; np_op2 g x y).
    eapply does_lift with (R := eq). { destruct (op2_fun m o); cbn; auto. } intros g g' ->.
    assert (HS1 : sources_in H a) by (intros c Hc; apply HS; cbn [sources]; apply in_or_app; auto).
    assert (HS2 : sources_in H b') by (intros c Hc; apply HS; cbn [sources]; apply in_or_app; auto).
    eapply does_bind; [apply mengine_ok; auto|]. intros x dx H1 G1 [Hx _].
    eapply does_bind; [apply mengine_ok; [exact IHf|]; eapply sources_grow; eauto|]. intros y dy H2 G2 [Hy _].
    apply does_look. replace (np_op2 g' dx dy) with (bind (np_op2 g' dx dy) (fun d => Ok d)) by (destruct (np_op2 g' dx dy); auto).
    eapply does_lift; [apply op2_same; [apply (holds_grows _ _ _ _ _ G2 Hx)|apply Hy]|]. intros e e' HE. apply does_fresh. auto.
Qed.
(** ** Where results are *)
Lemma basic_isels ks : forallb is_basic ks = true -> forall sh s, np_isels ks sh = Ok s -> length ks <= length sh /\ existsb is_adv s = false /\ length (basic_shape s) + count_if is_scalar ks = length ks.
Proof.
  induction ks as [|k ks IH]; intros HB sh s E; cbn [np_isels] in E.
  - injection E as <-. cbn. split; [lia|auto].
  - cbn [forallb] in HB. apply andb_true_iff in HB as [H1 H2]. destruct k; try discriminate H1; (destruct sh as [|n sh]; [discriminate|]); apply bind_ok in E as (x & Ex & E);
      apply bind_ok in E as (r & Er & E); injection E as <-; destruct (IH H2 _ _ Er) as (L & A & C); cbn [np_isel] in Ex.
    + destruct (norm_int _ _); [|discriminate]. injection Ex as <-. unfold count_if in *. cbn in *. split; [lia|]. split; [auto|lia].
    + apply bind_ok in Ex as (l & _ & Ex). injection Ex as <-. unfold count_if in *. cbn in *. split; [lia|]. split; [auto|lia].
Qed.
Lemma basic_real ks : forallb is_basic ks = true -> n_real ks = length ks /\ existsb is_ell ks = false /\ count_if is_ell ks = 0.
Proof.
  induction ks as [|k ks IH]; cbn [forallb]; intros HB; [repeat split|]. apply andb_true_iff in HB as [H1 H2]. destruct (IH H2) as (A & B & C).
  unfold n_real, count_if in *. destruct k; try discriminate H1; cbn in *; repeat split; try lia; auto.
Qed.
Lemma full_basic n : forallb is_basic (repeat KFull n) = true /\ count_if is_scalar (repeat KFull n) = 0.
Proof. induction n as [|n [A B]]; cbn in *; auto. Qed.
Lemma basic_index {W} (a ix : nd W) ks : forallb is_basic ks = true -> np_index a ks = Ok ix ->
  length (nshape ix) + count_if is_scalar ks = length (nshape a).
Proof.
  intros HB E. unfold np_index in E. apply bind_ok in E as (ks' & E1 & E). apply bind_ok in E as (s & E2 & E).
  destruct (basic_real ks HB) as (R1 & R2 & R3). unfold np_expand in E1. rewrite R3, R2, R1 in E1. destruct (1 <? 0); [discriminate|].
  destruct (Nat.ltb_spec (length (nshape a)) (length ks)) as [L|L]; [discriminate|]. injection E1 as <-.
  destruct (full_basic (length (nshape a) - length ks)) as [F1 F2].
  assert (HB' : forallb is_basic (ks ++ repeat KFull (length (nshape a) - length ks)) = true) by (rewrite forallb_app, HB, F1; auto).
  destruct (basic_isels _ HB' _ _ E2) as (L1 & A & C). rewrite A in E. injection E as <-. cbn [nshape].
  assert (CA : forall (l l' : list key), count_if is_scalar (l ++ l') = count_if is_scalar l + count_if is_scalar l').
  { intros l l'. unfold count_if. rewrite filter_app, app_length. auto. }
  rewrite CA, F2, app_length, repeat_length in C. lia.
Qed.
Lemma basic_ortho ks : forallb is_basic ks = true -> forall sh s, keys_dsel ks sh = Ok s -> length (sel_shape s) + count_if is_scalar ks = length sh.
Proof.
  induction ks as [|k ks IH]; intros HB sh s E; cbn [keys_dsel] in E.
  - injection E as <-. cbn. assert (HX : forall sh, length (sel_shape (map (fun n => DLs (seq 0 n)) sh)) = length sh) by (clear; intros sh; induction sh; cbn; auto). rewrite HX. lia.
  - cbn [forallb] in HB. apply andb_true_iff in HB as [H1 H2]. destruct sh as [|n sh]; [discriminate|]. apply bind_ok in E as (x & Ex & E).
    apply bind_ok in E as (r & Er & E). injection E as <-. specialize (IH H2 _ _ Er). unfold count_if in *. destruct k; try discriminate H1; cbn [key_dsel] in Ex.
    + destruct (norm_int _ _); [|discriminate]. injection Ex as <-. cbn in *. lia.
    + apply bind_ok in Ex as (l & _ & Ex). injection Ex as <-. cbn in *. lia.
Qed.
Definition located (H : heap) (m : bool) (a : barr) (v : view) : Prop :=
  match shared copies m a with Some c => vloc v = place c | None => length H <= vloc v end.
Lemma madapter_at m ortho c ks H v H' : madapter O place copies m ortho c ks H = (Ok v, H') -> located H m (AAdapt ortho c ks) v.
Proof.
  unfold madapter, located. cbn [shared]. destruct (forallb is_basic ks) eqn:EB, (copies m c); cbn [andb negb].
  2:{ set (src := mkND (c_shape c) (fun i : list nat => i)). intros E. unfold bindM at 1 in E. unfold lift at 1 in E.
    destruct (if ortho then s <- keys_dsel ks (c_shape c) ;; Ok (nd_sel src s) else np_index src ks) as [ix|] eqn:EI; [|discriminate].
    assert (L : length (nshape ix) + count_if is_scalar ks = length (c_shape c)).
    { destruct ortho; [|apply (basic_index src ix ks EB EI)]. apply bind_ok in EI as (s & Es & EI). injection EI as <-. apply (basic_ortho ks EB _ _ Es). }
    destruct (nshape ix) as [|x sh]; cbn [length] in L.
    - destruct (Nat.ltb_spec (count_if is_scalar ks) (length (c_shape c))) as [L2|L2]; [lia|]. injection E as <- <-. cbn. lia.
    - destruct (Nat.ltb_spec (count_if is_scalar ks) (length (c_shape c))) as [L2|L2]; [|lia]. injection E as <- <-. auto. }
  all: intros E; unfold bindM at 1, look_at in E; unfold bindM at 1, lift in E;
    (destruct (realise_adapter O m ortho _ ks); [|discriminate]); injection E as <- <-; cbn; lia.
Qed.
Theorem mrealise_at fuel m : forall (a : barr) H v H', sources_in H a -> mrealise O garbage place copies maxc fuel m a H = (Ok v, H') -> located H m a v.
Proof.
  destruct fuel as [|f]; [discriminate|].
  assert (GR : forall (a : barr) H, sources_in H a -> forall r H', mrealise O garbage place copies maxc (S f) m a H = (r, H') -> grows H H').
  { intros a H HS r H' E. pose proof (mrealise_ok (S f) m a H HS) as D. unfold does in D. destruct (realise _ _ _ _ _ _); [destruct D as (x & H2 & E2 & G & _)|destruct D as (H2 & E2 & G)]; congruence. }
  assert (EN : forall (a : barr) H v H', sources_in H a -> mengine O garbage maxc (mrealise O garbage place copies maxc f m) m a H = (Ok v, H') -> length H <= vloc v /\ grows H H').
  { intros a H v H' HS E. pose proof (mengine_ok (mrealise O garbage place copies maxc f m) (realise O maxc garbage f m) m (mrealise_ok f m) a H HS) as D. unfold does in D.
    destruct (engine_eval _ _ _ _ _ _); [destruct D as (x & H2 & E2 & G & _ & L)|destruct D as (H2 & E2 & G)]; split; congruence. }
  induction a as [sh v d|o c ks|a na IH|a dict lead IH|a d IH|a v IH|a axes IH|ssh items IH|tiles axis IH|g a axis d IH|o a d IH|o a b' d IH1 IH2]
    using barr_ind2; intros H w H' HS E.
  - injection E as <- <-. cbn. lia.
  - eapply madapter_at; eauto.
  - change ((v <~ mrealise O garbage place copies maxc (S f) m a ;; ix <~ lift (np_index (vix v) (newax_layout KNew (repeat KFull (ndim a)) na)) ;; ret (mkV (vloc v) ix)) H = (Ok w, H')) in E.
    unfold bindM at 1 in E. destruct (mrealise O garbage place copies maxc (S f) m a H) as [[v|] H1] eqn:E1; [|discriminate].
    unfold bindM, lift in E. destruct (np_index _ _); [|discriminate]. injection E as <- <-. exact (IH H v H1 HS E1).
  - change ((v <~ mrealise O garbage place copies maxc (S f) m a ;; ix <~ lift (bcast_numpy (vix v) dict lead) ;; ret (mkV (vloc v) ix)) H = (Ok w, H')) in E.
    unfold bindM at 1 in E. destruct (mrealise O garbage place copies maxc (S f) m a H) as [[v|] H1] eqn:E1; [|discriminate].
    unfold bindM, lift in E. destruct (bcast_numpy _ _ _); [|discriminate]. injection E as <- <-. exact (IH H v H1 HS E1).
  - change ((v <~ mrealise O garbage place copies maxc (S f) m a ;; h <~ look_at (fun h => h) ;; fresh (nd_map (lift1 (vcast O d)) (read h v))) H = (Ok w, H')) in E.
    unfold bindM at 1 in E. destruct (mrealise O garbage place copies maxc (S f) m a H) as [[v|] H1] eqn:E1; [|discriminate].
    injection E as <- <-. cbn. apply (GR a H HS _ _ E1).
  - change ((w <~ mrealise O garbage place copies maxc (S f) m a ;; if m then h <~ look_at (fun h => h) ;; fresh (nd_map (mask_equal O m v) (read h w)) else ret w) H = (Ok w, H')) in E.
    unfold bindM at 1 in E. destruct (mrealise O garbage place copies maxc (S f) m a H) as [[x|] H1] eqn:E1; [|discriminate].
    unfold located. cbn [shared]. destruct m; injection E as <- <-; [cbn; apply (GR a H HS _ _ E1)|]. exact (IH H x H1 HS E1).
  - change ((v <~ mrealise O garbage place copies maxc (S f) m a ;; ret (mkV (vloc v) (np_transpose (vix v) axes))) H = (Ok w, H')) in E.
    unfold bindM at 1 in E. destruct (mrealise O garbage place copies maxc (S f) m a H) as [[v|] H1] eqn:E1; [|discriminate].
    injection E as <- <-. exact (IH H v H1 HS E1).
  - assert (D : does (new_holds H) (mrealise O garbage place copies maxc (S f) m (AStack ssh items)) H (realise O maxc garbage (S f) m (AStack ssh items))).
    { apply (parts_new (mrealise O garbage place copies maxc (S f) m) (realise O maxc garbage (S f) m)); [intros; apply mrealise_ok; auto|].
      intros it Hi c Hc. apply HS. cbn [sources]. eapply sources_one; eauto. }
    unfold does in D. destruct (realise _ _ _ _ _ _); [destruct D as (x & H2 & E2 & G & _ & L)|destruct D as (H2 & E2 & G)]; cbn [located shared]; congruence.
  - assert (D : does (new_holds H) (mrealise O garbage place copies maxc (S f) m (AMosaic tiles axis)) H (realise O maxc garbage (S f) m (AMosaic tiles axis))).
    { apply (parts_new (mrealise O garbage place copies maxc (S f) m) (realise O maxc garbage (S f) m)); [intros; apply mrealise_ok; auto|].
      intros it Hi c Hc. apply HS. cbn [sources]. eapply sources_one; eauto. }
    unfold does in D. destruct (realise _ _ _ _ _ _); [destruct D as (x & H2 & E2 & G & _ & L)|destruct D as (H2 & E2 & G)]; cbn [located shared]; congruence.
  - exact (proj1 (EN _ _ _ _ HS E)).
  - change ((g <~ lift (op1_fun m o) ;; v <~ mengine O garbage maxc (mrealise O garbage place copies maxc f m) m a ;; h <~ look_at (fun h => h) ;; fresh (nd_map g (read h v))) H = (Ok w, H')) in E.
    unfold bindM at 1 in E. unfold lift in E. destruct (op1_fun m o); [|discriminate]. unfold bindM at 1 in E.
    destruct (mengine O garbage maxc (mrealise O garbage place copies maxc f m) m a H) as [[v|] H1] eqn:E1; [|discriminate].
    injection E as <- <-. cbn. apply (EN a _ _ _ HS E1).
  - change ((g <~ lift (op2_fun m o) ;; x <~ mengine O garbage maxc (mrealise O garbage place copies maxc f m) m a ;;
       y <~ mengine O garbage maxc (mrealise O garbage place copies maxc f m) m b' ;; h <~ look_at (fun h => h) ;; d <~ lift (np_op2 g (read h x) (read h y)) ;; fresh d) H = (Ok w, H')) in E.
    unfold bindM at 1 in E. unfold lift at 1 in E. destruct (op2_fun m o); [|discriminate]. unfold bindM at 1 in E.
    assert (HS1 : sources_in H a) by (intros c Hc; apply HS; cbn [sources]; apply in_or_app; auto).
    assert (HS2 : sources_in H b') by (intros c Hc; apply HS; cbn [sources]; apply in_or_app; auto).
    destruct (mengine O garbage maxc (mrealise O garbage place copies maxc f m) m a H) as [[x|] H1] eqn:E1; [|discriminate].
    destruct (EN _ _ _ _ HS1 E1) as [_ G1]. unfold bindM at 1 in E.
    destruct (mengine O garbage maxc (mrealise O garbage place copies maxc f m) m b' H1) as [[y|] H2] eqn:E2; [|discriminate].
    destruct (EN _ _ _ _ (sources_grow _ _ _ G1 HS2) E2) as [_ G2]. unfold bindM at 1, look_at in E. unfold bindM at 1, lift in E.
    destruct (np_op2 _ _ _); [|discriminate]. injection E as <- <-. cbn. destruct G1, G2; lia.
Qed.
(** ** Several arrays *)
Lemma marrays_ok fuel m (l : list barr) H : (forall a, In a l -> sources_in H a) ->
  does (fun H' => Forall2 (holds H')) (marrays O garbage place copies maxc fuel m l) H (ndarrays O maxc garbage fuel m l).
Proof.
  intros HS. unfold marrays, ndarrays. apply (mapMM_does (fun H => forall a, In a l -> sources_in H a) holds eq _ _ l l holds_stable); [|apply eq_list| |exact HS].
  - intros H1 H2 G HS1 a Ha. eapply sources_grow; eauto.
  - intros x a H1 -> Ha HS1. eapply does_weaken; [apply new_old|]. apply mengine_ok; auto. apply mrealise_ok.
Qed.
Lemma marrays_at fuel m (l : list barr) : forall H vs H', (forall a, In a l -> sources_in H a) -> marrays O garbage place copies maxc fuel m l H = (Ok vs, H') ->
  NoDup (map vloc vs) /\ Forall (fun v => length H <= vloc v < length H') vs /\ grows H H'.
Proof.
  induction l as [|a l IH]; intros H vs H' HS E.
  - injection E as <- <-. split; [constructor|]. split; [constructor|apply grows_refl].
  - unfold marrays in E. cbn [mapMM] in E. unfold bindM at 1 in E.
    pose proof (mengine_ok (mrealise O garbage place copies maxc fuel m) (realise O maxc garbage fuel m) m (mrealise_ok fuel m) a H (HS a (or_introl eq_refl))) as D. unfold does in D.
    destruct (engine_eval _ _ _ _ _ _); [destruct D as (x & H1 & E1 & G1 & [Lx _] & L1)|destruct D as (H1 & E1 & G1)]; rewrite E1 in E; [|discriminate].
    unfold bindM at 1 in E. destruct (mapMM (mengine O garbage maxc (mrealise O garbage place copies maxc fuel m) m) l H1) as [[ys|] H2] eqn:E2; [|discriminate].
    injection E as <- <-. destruct (IH H1 ys H2) as (N & F & G2); [intros b Hb; eapply sources_grow; [exact G1|apply HS; right; auto]|exact E2|].
    split; [|split; [|eapply grows_trans; eauto]].
    + cbn [map]. constructor; auto. intros HI. apply in_map_iff in HI as (y & Ey & Hy). rewrite Forall_forall in F. specialize (F y Hy). lia.
    + constructor; [destruct G2; lia|]. eapply Forall_impl; [|exact F]. intros y Hy. cbn in Hy. destruct G1; lia.
Qed.

(** ** Saving *)
Definition msave_keys fuel m (a : barr) t sh (ks : list (list key)) : @M V unit :=
  foldMM (fun _ k => b <~ lift (getitem a k) ;; v <~ mrealise O garbage place copies maxc fuel m b ;; write O t sh k v) tt ks.
Lemma msave_keys_ok fuel m (a : barr) t ks : forall cur H, sources_in H a -> (forall c, In c (sources a) -> place c <> t) -> t < length H ->
  nd_same (read H (whole t (nshape cur))) cur ->
  exists r H', msave_keys fuel m a t (nshape cur) ks H = (r, H') /\ length H <= length H' /\ (forall l, l < length H -> l <> t -> look H' l = look H l)
    /\ match (ws <- mapM (fun k => b <- getitem a k ;; d <- realise O maxc garbage fuel m b ;; Ok (k, d)) ks ;; np_setitems cur ws), r with
       | Ok d, Ok tt => nd_same (read H' (whole t (nshape cur))) d
       | Err _, Err _ => True
       | _, _ => False
       end.
Proof.
  induction ks as [|k ks IH]; intros cur H HS HP Ht HC.
  - exists (Ok tt), H. cbn. auto.
  - unfold msave_keys. cbn [foldMM mapM]. unfold bindM at 1.
    destruct (getitem a k) as [b|e] eqn:EG; [|exists (Err e), H; cbn; auto].
    pose proof (mrealise_ok fuel m b H (sources_get _ _ _ _ EG HS)) as D. unfold does in D.
    set (one := (b <~ lift (Ok b) ;; v <~ mrealise O garbage place copies maxc fuel m b ;; write O t (nshape cur) k v) H).
    assert (EO : one = (v <~ mrealise O garbage place copies maxc fuel m b ;; write O t (nshape cur) k v) H) by reflexivity.
    cbn [bind]. destruct (realise O maxc garbage fuel m b) as [d|e].
    2:{ destruct D as (H1 & E1 & G1 & K1). unfold bindM in EO. rewrite E1 in EO. rewrite EO. exists (Err e), H1. split; auto. split; [lia|]. split; [auto|exact I]. }
    destruct D as (v & H1 & E1 & [G1 K1] & [Lv Hv]). unfold bindM at 1 in EO. rewrite E1 in EO.
    assert (Sv : nd_same (read H1 (whole t (nshape cur))) cur). { eapply same_trans; [|exact HC]. split; auto. intros i. cbn. rewrite K1 by auto. auto. }
    pose proof (setitem_same _ _ k _ _ Sv Hv) as HR.
    assert (WE : write O t (nshape cur) k v H1 = match np_setitem (read H1 (whole t (nshape cur))) k (read H1 v) with
      | Ok d1 => (Ok tt, set_nth t ((fun j => MV (nget d1 j)) : @buffer V) H1) | Err e => (Err e, H1) end).
    { unfold write, bindM, look_at, lift, put. destruct (np_setitem (read H1 (whole t (nshape cur))) k (read H1 v)); auto. }
    rewrite WE in EO. cbn [bind]. destruct (np_setitem (read H1 (whole t (nshape cur))) k (read H1 v)) as [d1|e1] eqn:E2.
    + destruct (np_setitem cur k d) as [cur'|] eqn:E3; [|contradiction]. rewrite EO. cbn [res_rel] in HR.
      set (H2 := set_nth t ((fun j => MV (nget d1 j)) : @buffer V) H1).
      assert (L2 : length H2 = length H1) by apply set_nth_length.
      assert (F2 : forall l, look H2 l = if l =? t then (fun j => MV (nget d1 j)) else look H1 l) by (intros l; apply look_set; lia).
      assert (HS2 : sources_in H2 a).
      { intros c Hc. destruct (HS c Hc) as (P1 & P2 & P3). split; [lia|]. split; auto. intros i. rewrite F2. destruct (Nat.eqb_spec (place c) t); [exfalso; eapply HP; eauto|]. rewrite K1 by auto. auto. }
      assert (Sc : nshape cur' = nshape cur) by (eapply setitem_shape; eauto).
      destruct (IH cur' H2 HS2 HP) as (r & H3 & E4 & L4 & F4 & M4); [lia| |].
      { rewrite Sc. eapply same_trans; [|exact HR]. split; [cbn; symmetry; exact (setitem_shape _ _ _ _ E2)|]. intros i. cbn. rewrite F2, Nat.eqb_refl. auto. }
      rewrite Sc in E4, M4. exists r, H3. split; [exact E4|]. split; [lia|]. split.
      * intros l Hl Hn. rewrite F4, F2 by lia. destruct (Nat.eqb_spec l t); [contradiction|]. auto.
      * destruct (mapM _ ks) as [ws|]; cbn [bind] in *; [|exact M4]. unfold np_setitems. cbn [foldM fst snd]. rewrite E3. exact M4.
    + destruct (np_setitem cur k d) as [cur'|] eqn:E3; [contradiction|]. rewrite EO. exists (Err e1), H1. split; auto. split; [lia|]. split; [auto|].
      destruct (mapM _ ks) as [ws|]; cbn [bind]; auto. unfold np_setitems. cbn [foldM fst snd]. rewrite E3. auto.
Qed.
End MemReal.
