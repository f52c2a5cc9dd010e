(** C75: saving an array over one of its own sources, [save([a], [x])] where [a]
    reads [x].  [A t] is the array [a] when [x] holds [t]; [save_in_run A t] is what
    [x] holds when save returns or raises, and the error; [save_keys maxc sh] are
    the pieces in the order in which they are visited and [positions sh k] the
    positions of a piece (PropChunks.v).

    Elementwise expressions over [x] are updated in place correctly; other
    expressions only if the pieces visited earlier are not read again.  Otherwise
    save silently stores something else, which depends on MAX_CHUNK_SIZE. *)
From Verif Require Import Base PySlice Keys NDArray Arrays Chunks Handlers Realise Spec Supported Lib SelLemmas KeyLemmas GetBase GetStack ChunkLemmas AssignLemmas HandlerLemmas RealOps Realisable IndexClaims ClassClaims ChunkClaims SaveClaims SaveLoop Samples Steady SteadyReal SteadyClaims PropAgg PropBounds PropSave SaveIn.
From Coq Require Import Permutation.

Section General.
Context {V : Type} (O : numops V).
Variable maxc : nat.
Variable garbage : list nat -> option V.
Variable fuel : nat.
Variable m : bool.
Notation cell := (option V).
Notation realise := (realise O maxc garbage fuel m).
Notation save_in_run := (save_in_run O maxc garbage fuel m).
Notation save_in := (save_in O maxc garbage fuel m).
(** Any array over the target, of the target's shape [sh].  [D t] is the array's
    content when the target holds [t], and whenever the target is in a state
    satisfying [ok] every piece can be read, reads as that piece of [D], and
    storing it leads to such a state again. *)
Variable A : nd cell -> @barr V.
Variable D : nd cell -> nd cell.
Variable ok : nd cell -> Prop.
Variable sh : list nat.
Hypothesis shapes : forall t, nshape t = sh -> ok t -> shape (A t) = sh /\ nshape (D t) = sh.
Hypothesis pieces : forall t k, nshape t = sh -> ok t -> In k (save_keys maxc sh) ->
  exists b d, getitem (A t) k = Ok b /\ realise b = Ok d /\ nd_eq d (oindex (D t) k)
    /\ forall t', np_setitem t k d = Ok t' -> ok t'.

(** The outcome, for every such array: a position of the piece [k] gets the value
    that the array has there when the pieces before [k] have been stored. *)
Theorem C75_outcome t : nshape t = sh -> ok t -> exists r, save_in_run A t = (r, None) /\ nshape r = sh
  /\ forall before k after i, save_keys maxc sh = before ++ k :: after -> In i (positions sh k) ->
       nget r i = nget (D (fst (save_in A before t))) i.
Proof.
  intros Ht Hok. destruct (save_in_state O maxc garbage fuel m A sh D ok) with (ks := save_keys maxc sh) (t := t) as (r & E1 & E2 & E3 & E4 & E5); auto.
  - intros t' H1 H2. apply shapes; auto.
  - intros t' k H1 H2 H3. destruct (pieces t' k H1 H2 H3) as (b & d & P1 & P2 & P3 & P4). exists d. split; [exists b; auto|auto].
  - exists r. unfold SaveIn.save_in_run. rewrite (proj1 (shapes t Ht Hok)). split; [exact E1|]. split; [exact E2|].
    intros before k after i E Hi. destruct (piece_once maxc sh before k after i E Hi) as (P1 & P2 & P3 & P4). apply (E5 before k after i); auto.
Qed.
(** Hence the target gets the array as it was before the save, if no piece depends
    on positions stored before it. *)
Theorem C75_in_order t : nshape t = sh -> ok t ->
  (forall before k after t' i, save_keys maxc sh = before ++ k :: after -> nshape t' = sh -> ok t' ->
     (forall j, inb sh j -> ~ In j (flat_map (positions sh) before) -> nget t' j = nget t j) ->
     In i (positions sh k) -> nget (D t') i = nget (D t) i) ->
  exists r, save_in_run A t = (r, None) /\ nd_eq r (D t).
Proof.
  intros Ht Hok HC. destruct (C75_outcome t Ht Hok) as (r & E1 & E2 & E3). exists r. split; [exact E1|].
  split; [rewrite E2; symmetry; apply shapes; auto|]. rewrite E2. intros i Hi. destruct (piece_of maxc sh i Hi) as (before & k & after & E & Hin).
  rewrite (E3 before k after i E Hin). apply (HC before k after); auto; destruct (save_in_state O maxc garbage fuel m A sh D ok) with (ks := before) (t := t) as (r' & F1 & F2 & F3 & F4 & _);
    try (intros t' H1 H2; apply shapes; auto); try (rewrite F1; exact F2); try (rewrite F1; exact F3); auto;
    try (intros t' k' H1 H2 H3; destruct (pieces t' k' H1 H2 H3) as (b & d & P1 & P2 & P3 & P4); exists d; split; [exists b; auto|auto]);
    try (intros k' Hk'; rewrite E; apply in_or_app; auto).
  intros j Hj Hn. rewrite F1. cbn [fst]. apply F4; auto. destruct (existsb (covers sh j) before) eqn:Ex; auto.
  exfalso. apply Hn. apply (covered_positions maxc sh j before); auto. intros k' Hk'. rewrite E. apply in_or_app; auto.
Qed.
(** In particular if the whole array is within the chunk limit: it is read before
    anything is stored. *)
Theorem C75_one_piece t : nshape t = sh -> ok t -> Forall (fun n => 1 <= n) sh -> prodn sh <= maxc ->
  exists r, save_in_run A t = (r, None) /\ nd_eq r (D t).
Proof.
  intros Ht Hok HF HM. destruct (C75_outcome t Ht Hok) as (r & E1 & E2 & E3). exists r. split; [exact E1|].
  split; [rewrite E2; symmetry; apply shapes; auto|]. rewrite E2. intros i Hi. destruct (one_piece maxc sh HF HM) as (k & Ek).
  destruct (piece_of maxc sh i Hi) as (before & k' & after & E & Hin). pose proof E as E'. rewrite Ek in E'.
  destruct before as [|k0 before]; [|destruct before; discriminate]. rewrite (E3 [] k' after i E Hin). reflexivity.
Qed.
End General.

(** Without any hypothesis: [save] takes the pieces one after another, over what
    the target holds at that moment, and stops at the first one that cannot be
    taken, read or stored, raising its error and leaving the earlier pieces stored.
    No piece is skipped. *)
Section Steps.
Context {V : Type} (O : numops V).
Variable maxc : nat.
Variable garbage : list nat -> option V.
Variable fuel : nat.
Variable m : bool.
Variable A : nd (option V) -> @barr V.
Notation realise := (realise O maxc garbage fuel m).
Notation save_in_run := (save_in_run O maxc garbage fuel m).
Inductive stored_each : nd (option V) -> list (list key) -> nd (option V) -> Prop :=
| stored_none t : stored_each t [] t
| stored_more t k ks b d t' r : getitem (A t) k = Ok b -> realise b = Ok d -> np_setitem t k d = Ok t' -> stored_each t' ks r ->
    stored_each t (k :: ks) r.
Definition fails_at (t : nd (option V)) (k : list key) (e : err) : Prop :=
  getitem (A t) k = Err e \/ exists b, getitem (A t) k = Ok b /\ (realise b = Err e \/ exists d, realise b = Ok d /\ np_setitem t k d = Err e).
Theorem C75_no_skip t r e : save_in_run A t = (r, e) ->
  exists before after, save_keys maxc (shape (A t)) = before ++ after /\ stored_each t before r
    /\ match e with None => after = [] | Some x => exists k rest, after = k :: rest /\ fails_at r k x end.
Proof.
  unfold SaveIn.save_in_run. generalize (save_keys maxc (shape (A t))). intros ks. revert t.
  induction ks as [|k ks IH]; intros t; cbn [save_in].
  { intros E. injection E as <- <-. exists [], []. split; [reflexivity|]. split; [constructor|reflexivity]. }
  destruct (getitem (A t) k) as [b|x] eqn:Eb.
  2: { intros E. injection E as <- <-. exists [], (k :: ks). split; [reflexivity|]. split; [constructor|]. exists k, ks. split; [reflexivity|left; exact Eb]. }
  destruct (realise b) as [d|x] eqn:Ed.
  2: { intros E. injection E as <- <-. exists [], (k :: ks). split; [reflexivity|]. split; [constructor|]. exists k, ks. split; [reflexivity|right; exists b; auto]. }
  destruct (np_setitem t k d) as [t'|x] eqn:Et.
  2: { intros E. injection E as <- <-. exists [], (k :: ks). split; [reflexivity|]. split; [constructor|]. exists k, ks. split; [reflexivity|right; exists b; split; [exact Eb|right; exists d; auto]]. }
  intros E. destruct (IH t' E) as (before & after & H1 & H2 & H3). exists (k :: before), after. split; [cbn [app]; f_equal; exact H1|].
  split; [exact (stored_more t k before b d t' r Eb Ed Et H2)|exact H3].
Qed.
End Steps.

(** Elementwise expressions of the target and of any other arrays and constants of
    its shape, nested to any depth, with any chunk limit: each position of the target
    gets the operations applied to what was at that position before the save.
    [onto T t] is the expression, [optree_at] its element at a position (C27). *)
Theorem C75_elementwise {V} (O : numops V) maxc garbage fuel m sh (T : @tmpl V) t :
  2 <= fuel -> Forall (fun n => 1 <= n) sh -> nshape t = sh ->
  optree m sh (onto T t) -> whole m (onto T t) -> whole_nd m t ->
  exists r, save_in_run O maxc garbage fuel m (onto T) t = (r, None) /\ nshape r = sh
    /\ forall i, inb sh i -> nget r i = optree_at O m (onto T t) i.
Proof.
  intros Hf Hsh Ht HT HW Hn.
  set (D := fun t' : nd (option V) => mkND sh (optree_at O m (onto T t'))).
  assert (Htree : forall t', nshape t' = sh -> whole_nd m t' -> optree m sh (onto T t') /\ whole m (onto T t')).
  { intros t' H1 H2. split; [apply (onto_optree m sh T t t' Ht H1 HT)|apply (onto_whole m T t t' H2 HW)]. }
  destruct (C75_in_order O maxc garbage fuel m (onto T) D (whole_nd m) sh) with (t := t) as (r & E1 & E2); auto.
  - intros t' H1 H2. destruct (Htree t' H1 H2) as [H3 H4]. split; [apply (tree_ok O m sh _ H3)|reflexivity].
  - intros t' k H1 H2 Hk. destruct (Htree t' H1 H2) as [H3 H4].
    destruct (tree_ok O m sh _ H3) as (W & S & _ & De).
    pose proof (whole_top O maxc m (exact O) sh (onto T t') fuel H3 H4 Hsh Hf) as Hst.
    destruct (steady_pieces O maxc garbage fuel m false (onto T t') W Hst) as (DD & R1 & R2 & R3).
    rewrite <- S in Hk. destruct (R3 k Hk) as (b & d & B1 & B2 & B3). rewrite S in Hk.
    assert (HDD : nd_eq DD (D t')).
    { eapply nd_eq_trans; [|exact De]. apply (reads_den O maxc garbage m (exact O) fuel (exact_right O m) (onto T t') DD); auto.
      apply (steady_usable O maxc m (exact O) true false); auto. }
    destruct (save_key_ok maxc sh k Hk) as (s & S1 & S2).
    assert (Hd : nd_eq d (nd_sel (D t') s)).
    { eapply nd_eq_trans; [exact B3|]. unfold oindex. rewrite R2, S, S1. split.
      - reflexivity.
      - intros o Ho. cbn [nd_sel nshape nget] in *. apply (proj2 HDD). rewrite (proj1 HDD). cbn [D nshape]. apply sel_map_inb; [eapply oselect_valid; eauto|exact Ho]. }
    exists b, d. split; [exact B1|]. split; [exact B2|]. split.
    + unfold oindex. cbn [D nshape]. rewrite S1. exact Hd.
    + intros t'' Et. destruct H2 as [H2|H2]; [left; auto|]. destruct m eqn:Em; [left; auto|]. right. intros i.
      destruct (setitem_ok t' k s d) as (t3 & Et3 & St3 & Gt3); [rewrite H1; auto|apply Hd|]. rewrite Et in Et3. injection Et3 as <-.
      rewrite Gt3. destruct (sel_pos s i) as [o|] eqn:Eo; [|apply H2]. apply sel_pos_some in Eo as [Eo1 Eo2].
      rewrite (proj2 Hd) by (rewrite (proj1 Hd); auto). cbn [nd_sel nget D]. apply (whole_some O false sh); auto.
  - intros before k after t' i E H1 H2 HA Hi. cbn [D nget]. apply onto_at. destruct (piece_once maxc sh before k after i E Hi) as (P1 & P2 & P3 & P4).
    apply HA; auto. intros Hc. apply (covered_positions maxc sh i before) in Hc; [congruence| |exact P1]. intros k' Hk'. rewrite E. apply in_or_app; auto.
  - exists r. split; [exact E1|]. destruct E2 as [E2 E3]. split; [exact E2|]. intros i Hi. apply E3. rewrite E2. exact Hi.
Qed.

(** An elementwise operation is not the only thing that a lazy array can be: with
    the target reversed, [save([x[::-1]], [x])], the second piece reads back what the
    first has stored, unless the array is a single piece. *)
Definition flipped (t : nd (option Z)) : @barr Z :=
  AAdapt true (mkC (nshape t) (nget t) None 0) [KSlice (mkS None None (Some (-1)%Z))].
Definition row4 : nd (option Z) := mkND [4] (fun i => Some (Z.of_nat (nth 0 i 0))).
Definition values (a : nd (option Z)) : list (option Z) := map (nget a) (ndindex (nshape a)).
Definition saved (maxc : nat) (A : nd (option Z) -> @barr Z) : list (option Z) * option err :=
  (fun r => (values (fst r), snd r)) (save_in_run z_ops maxc (fun _ => None) 3 false A row4).
Theorem C75_reversed_refuted :
  (exists d, realise z_ops 2 (fun _ => None) 3 false (flipped row4) = Ok d /\ values d = [Some 3; Some 2; Some 1; Some 0]%Z)
  /\ saved 4 flipped = ([Some 3; Some 2; Some 1; Some 0]%Z, None)
  /\ saved 2 flipped = ([Some 3; Some 2; Some 2; Some 3]%Z, None).
Proof. split; [eexists; split; vm_compute; reflexivity|]. split; vm_compute; reflexivity. Qed.
(** [save([x - x.sum(0)], [x])]: the sum is taken again for every piece. *)
Definition zminus2 : @op2 Z := mkOp2 Z.sub None (fun a _ => a) (fun a _ => a).
Definition centred (t : nd (option Z)) : @barr Z :=
  AEl2 zminus2 (AAdapt true (mkC (nshape t) (nget t) None 0) [])
       (ABcast (AAgg GSum (AAdapt true (mkC (nshape t) (nget t) None 0) []) 0 0) [] [4]) 0.
Theorem C75_total_refuted :
  (exists d, realise z_ops 2 (fun _ => None) 3 false (centred row4) = Ok d /\ values d = [Some (-6); Some (-5); Some (-4); Some (-3)]%Z)
  /\ saved 4 centred = ([Some (-6); Some (-5); Some (-4); Some (-3)]%Z, None)
  /\ saved 2 centred = ([Some (-6); Some (-5); Some 8; Some 9]%Z, None).
Proof. split; [eexists; split; vm_compute; reflexivity|]. split; vm_compute; reflexivity. Qed.

Print Assumptions C75_outcome.
Print Assumptions C75_in_order.
Print Assumptions C75_one_piece.
Print Assumptions C75_no_skip.
Print Assumptions C75_elementwise.
Print Assumptions C75_reversed_refuted.
Print Assumptions C75_total_refuted.

(** ** The hypotheses are met *)
(** [save([x + x + y], [x])] for a 3 by 4 array in pieces of at most two elements. *)
Definition doubled : @tmpl Z := TEl2 zadd2 (TSelf true None 0) (TEl2 zadd2 (TSelf false None 0) (TOther (arr [3; 4])) 0) 0.
Definition start (sh : list nat) : nd (option Z) := mkND sh (fun i => Some (Z.of_nat (10 * nth 0 i 0 + nth 1 i 0))).
Example C75_elementwise_case : exists r, save_in_run z_ops 2 (fun _ => None) 2 false (onto doubled) (start [3; 4]) = (r, None)
  /\ nget r [2; 3] = Some 57%Z.
Proof.
  destruct (C75_elementwise z_ops 2 (fun _ => None) 2 false [3; 4] doubled (start [3; 4])) as (r & E1 & _ & E3).
  - lia.
  - repeat constructor.
  - reflexivity.
  - cbn. repeat split; discriminate.
  - cbn. repeat split; right; discriminate.
  - right. discriminate.
  - exists r. split; [exact E1|]. rewrite E3 by (repeat constructor). vm_compute. reflexivity.
Qed.
(** The conditions of the general theorems hold for the reversal. *)
Definition nothing_masked (t : nd (option Z)) : Prop := forall i, nget t i <> None.
Lemma flipped_ok t : nshape t = [4] -> nothing_masked t -> wf (flipped t) /\ steady 2 false (exact z_ops) true false false 3 (flipped t).
Proof.
  intros Ht Hn. destruct t as [s g]. cbn in Ht. subst s. unfold flipped, nothing_masked in *. cbn [nshape nget] in *. split.
  - split; [repeat constructor|]. vm_compute. discriminate.
  - cbn [steady]. split; [lia|]. split; [repeat constructor|]. split; [repeat constructor|]. split; [left; reflexivity|]. right. left. exact Hn.
Qed.
Example flipped_shapes t : nshape t = [4] -> nothing_masked t -> shape (flipped t) = [4] /\ nshape (den z_ops false (flipped t)) = [4].
Proof.
  intros Ht Hn. destruct (flipped_ok t Ht Hn) as [W _]. assert (S : shape (flipped t) = [4]) by (destruct t as [s g]; cbn in Ht; subst s; reflexivity).
  split; [exact S|]. rewrite den_shape by exact W. exact S.
Qed.
Example flipped_pieces garbage t k : nshape t = [4] -> nothing_masked t -> In k (save_keys 2 [4]) ->
  exists b d, getitem (flipped t) k = Ok b /\ realise z_ops 2 garbage 3 false b = Ok d /\ nd_eq d (oindex (den z_ops false (flipped t)) k)
    /\ forall t', np_setitem t k d = Ok t' -> nothing_masked t'.
Proof.
  intros Ht Hn Hk. destruct (flipped_ok t Ht Hn) as [W S]. destruct (flipped_shapes t Ht Hn) as [S1 S2].
  destruct (steady_pieces z_ops 2 garbage 3 false false (flipped t) W S) as (DD & R1 & R2 & R3). rewrite S1 in *.
  destruct (R3 k Hk) as (b & d & B1 & B2 & B3).
  assert (HDD : nd_eq DD (den z_ops false (flipped t))).
  { apply (reads_den z_ops 2 garbage false (exact z_ops) 3 (exact_right z_ops false) (flipped t) DD); auto. apply (steady_usable z_ops 2 false (exact z_ops) true false); auto. }
  destruct (save_key_ok 2 [4] k Hk) as (s & K1 & K2).
  assert (Hd : nd_eq d (nd_sel (den z_ops false (flipped t)) s)).
  { eapply nd_eq_trans; [exact B3|]. unfold oindex. rewrite R2, K1. split; [reflexivity|].
    intros o Ho. cbn [nd_sel nshape nget] in *. apply (proj2 HDD). rewrite R2. apply sel_map_inb; [eapply oselect_valid; eauto|exact Ho]. }
  exists b, d. split; [exact B1|]. split; [exact B2|]. split; [unfold oindex; rewrite S2, K1; exact Hd|].
  intros t' Et i. destruct (setitem_ok t k s d) as (t3 & Et3 & _ & Gt); [rewrite Ht; auto|apply Hd|]. rewrite Et in Et3. injection Et3 as <-.
  rewrite Gt. destruct (sel_pos s i) as [o|] eqn:Eo; [|apply Hn]. apply sel_pos_some in Eo as [Eo1 Eo2].
  rewrite (proj2 Hd) by (rewrite (proj1 Hd); auto). clear -Hn. destruct t as [sh g]. cbn [nd_sel nget].
  cbn [den flipped nd_map nget]. unfold fill_cell. destruct (nget (oindex _ _) _); discriminate.
Qed.
Example C75_outcome_case garbage := C75_outcome z_ops 2 garbage 3 false flipped (fun t => den z_ops false (flipped t)) nothing_masked [4]
  flipped_shapes (flipped_pieces garbage) row4 eq_refl (fun i => ltac:(discriminate)).
(** A reversal is right as one piece. *)
Example C75_one_piece_case : exists r, save_in_run z_ops 4 (fun _ => None) 3 false flipped row4 = (r, None) /\ nget r [1] = Some 2%Z.
Proof. eexists. split; vm_compute; reflexivity. Qed.
(** An array of six elements saved over a target of four, two at a time: the third
    piece does not fit, the first two are stored and stay. *)
Definition wide (t : nd (option Z)) : @barr Z := AAdapt true (mkC [6] (fun i => Some (Z.of_nat (10 + nth 0 i 0))) None 0) [].
Example C75_no_skip_case : exists r, save_in_run z_ops 2 (fun _ => None) 3 false wide row4 = (r, Some ValueError)
  /\ length (save_keys 2 (shape (wide row4))) = 3 /\ values r = [Some 10; Some 11; Some 12; Some 13]%Z.
Proof. eexists. split; [vm_compute; reflexivity|]. split; vm_compute; reflexivity. Qed.
