(** MultiClaims: multidim_array_stack places array number k at the k-th
    multi-index, in C or Fortran order. *)
From Verif Require Import Base PySlice Keys NDArray Arrays Chunks Handlers Realise Spec Supported Lib SelLemmas KeyLemmas GetBase GetStack HandlerLemmas Realisable RealiseOK IndexClaims ClassClaims Small.
From Coq Require Import ZifyBool ZifyNat.

(** Fortran-order flat position of a multi-index (specification). *)
Fixpoint fravel (sh idx : list nat) : nat :=
  match sh, idx with
  | n :: sh', i :: idx' => i + n * fravel sh' idx'
  | _, _ => 0
  end.

Lemma ravel_snoc sh idx n i : length sh = length idx -> ravel (sh ++ [n]) (idx ++ [i]) = ravel sh idx * n + i.
Proof.
  revert idx. induction sh as [|x sh IH]; intros [|y idx] H; try discriminate; cbn [app ravel prodn fold_right]. { lia. }
  injection H as H. rewrite IH by auto. rewrite prodn_app. cbn [prodn fold_right]. lia.
Qed.
Lemma fravel_snoc sh idx n i : length sh = length idx -> fravel (sh ++ [n]) (idx ++ [i]) = fravel sh idx + prodn sh * i.
Proof.
  revert idx. induction sh as [|x sh IH]; intros [|y idx] H; try discriminate; cbn [app fravel]. { cbn [prodn fold_right]. lia. }
  injection H as H. rewrite IH by auto. cbn [prodn fold_right]. fold (prodn sh). nia.
Qed.

Section Groups.
Context {A : Type}.
Lemma groups_of_ok (d : A) n P (l : list A) : 1 <= n -> length l = P * n ->
  length (groups_of n l) = P
  /\ forall p, p < P -> length (nth p (groups_of n l) []) = n
               /\ forall i, i < n -> nth i (nth p (groups_of n l) []) d = nth (p * n + i) l d.
Proof.
  intros Hn HL. unfold groups_of.
  assert (E : (length l + n - 1) / n = P).
  { rewrite HL. symmetry. apply (Nat.div_unique _ n P (n - 1)); lia. }
  rewrite E. split; [rewrite map_length, seq_length; auto|]. intros p Hp.
  rewrite (nth_map_seq (fun i => firstn n (skipn (i * n) l))) by auto.
  split.
  - rewrite firstn_length, skipn_length. nia.
  - intros i Hi. rewrite nth_firstn_lt, nth_skipn_plus by auto. auto.
Qed.
Lemma flat_map_nth_error (d : A) (l : list A) ps : Forall (fun p => p < length l) ps ->
  flat_map (fun p => match nth_error l p with Some x => [x] | None => [] end) ps = map (fun p => nth p l d) ps.
Proof.
  induction 1 as [|p ps H _ IH]; cbn [flat_map map]; auto. rewrite (nth_error_nth' l d H), IH. auto.
Qed.
Lemma every_ok (d : A) n P (l : list A) p : 1 <= n -> length l = P * n -> p < P ->
  length (every P p l) = n /\ forall i, i < n -> nth i (every P p l) d = nth (p + i * P) l d.
Proof.
  intros Hn HL Hp. unfold every.
  assert (E : (length l - p + P - 1) / P = n).
  { rewrite HL. symmetry. apply (Nat.div_unique _ P n (P - 1 - p)); nia. }
  rewrite E. rewrite (flat_map_nth_error d).
  - rewrite map_map, map_length, seq_length. split; auto. intros i Hi.
    rewrite (nth_map_seq (fun x => nth (p + x * P) l d)) by auto. auto.
  - rewrite Forall_forall. intros x Hx. apply in_map_iff in Hx as (t & <- & Ht). apply in_seq in Ht. nia.
Qed.
End Groups.

Section Multi.
Context {V : Type} (O : numops V).
Variable maxc : nat.
Variable garbage : list nat -> option V.
Variable m : bool.
Variable HG : @agg V -> nat -> Prop.
Variable fuel : nat.
Hypothesis HR : forall g, handler_right O m g (HG g).
Notation barr := (@barr V).
Notation usable := (usable maxc m HG fuel).
Notation reads := (reads O maxc garbage m fuel).

Definition good (T : list nat) (D : nat) (a : barr) : Prop := usable a /\ dt_stable a /\ shape a = T /\ dtype a = D.

Lemma stack1 T D (items : list barr) n : 1 <= n -> length items = n -> Forall (good T D) items ->
  mk_stack [length items] items = Ok (AStack [n] items) /\ good (n :: T) D (AStack [n] items)
  /\ forall i o d0, i < n -> nget (den O m (AStack [n] items)) (i :: o) = nget (den O m (nth i items d0)) o.
Proof using garbage.
  intros Hn HL HF. assert (Hne : items <> []) by (intros ->; cbn in HL; lia).
  destruct (stack_usable maxc m HG fuel [n] items) as [E U]; auto.
  { rewrite HL. cbn. lia. }
  { rewrite Forall_forall in *. intros x Hx. apply HF; auto. }
  { rewrite Forall_forall in *. intros x Hx. apply HF; auto. }
  { rewrite Forall_forall in *. intros x Hx. destruct items as [|y items]; [congruence|]. cbn [hd].
    destruct (HF x Hx) as (_ & _ & A & B), (HF y (or_introl eq_refl)) as (_ & _ & A' & B'). split; congruence. }
  rewrite HL. split; auto. split.
  - split; auto. destruct items as [|y items]; [congruence|]. pose proof (Forall_inv HF) as (_ & _ & A & B).
    cbn [shape dtype app]. split; [|split; congruence]. cbn [dt_stable].
    apply (fold_right_and_Forall dt_stable (y :: items)). rewrite Forall_forall in *. intros x Hx. apply HF; auto.
  - intros i o d0 Hi. cbn [den nd_stack nget length firstn skipn ravel prodn fold_right].
    replace (i * 1 + 0) with i by lia. rewrite (nth_map (den O m) items i _ d0) by lia. auto.
Qed.

Lemma rounds T D n P (L : list barr) (groups : list (list barr)) (pos : nat -> nat -> nat) d0 :
  1 <= n -> Forall (good T D) L -> length groups = P ->
  (forall p, p < P -> length (nth p groups []) = n
     /\ forall i, i < n -> nth i (nth p groups []) d0 = nth (pos p i) L d0 /\ pos p i < length L) ->
  exists L', mapM (fun s => mk_stack [length s] s) groups = Ok L' /\ length L' = P /\ Forall (good (n :: T) D) L'
    /\ forall p i o, p < P -> i < n -> nget (den O m (nth p L' d0)) (i :: o) = nget (den O m (nth (pos p i) L d0)) o.
Proof using garbage.
  intros Hn HF HP HG'.
  assert (HG2 : forall s, In s groups -> length s = n /\ Forall (good T D) s).
  { intros s Hs. destruct (In_nth _ _ [] Hs) as (p & Hp & <-). destruct (HG' p) as [E1 E2]; [lia|]. split; auto.
    rewrite Forall_forall in *. intros x Hx. destruct (In_nth _ _ d0 Hx) as (i & Hi & <-). destruct (E2 i) as [-> E4]; [lia|]. apply HF, nth_In; auto. }
  exists (map (fun s => AStack [n] s) groups). rewrite map_length. split; [|split; [auto|split]].
  - clear HG' HP. induction groups as [|s groups IH]; auto. cbn [mapM map]. destruct (HG2 s (or_introl eq_refl)) as [E1 E2].
    destruct (stack1 T D s n Hn E1 E2) as (-> & _). rewrite IH; auto. intros; apply HG2; right; auto.
  - rewrite Forall_forall. intros x Hx. apply in_map_iff in Hx as (s & <- & Hs). destruct (HG2 s Hs). apply stack1; auto.
  - intros p i o Hp Hi. rewrite (nth_map (fun s => AStack [n] s) groups p d0 []) by lia.
    destruct (HG' p Hp) as [E1 E2]. destruct (HG2 (nth p groups [])) as [_ E3]; [apply nth_In; lia|].
    destruct (stack1 T D _ n Hn E1 E3) as (_ & _ & E4). rewrite (E4 i o d0) by auto. destruct (E2 i Hi) as [-> _]. auto.
Qed.

Definition flat_pos (o : order) : list nat -> list nat -> nat := match o with OrdF => fravel | _ => ravel end.

Lemma multi_den o T D d0 sh : o <> OrdBad -> Forall (fun n => 1 <= n) sh -> forall L : list barr, Forall (good T D) L -> length L = prodn sh ->
  exists st rest, foldM (fun l n => subdivide o n l) L (rev sh) = Ok (st :: rest) /\ good (sh ++ T) D st
    /\ forall idx q, inb sh idx -> nget (den O m st) (idx ++ q) = nget (den O m (nth (flat_pos o sh idx) L d0)) q.
Proof using garbage.
  intros Ho. revert T. induction sh as [|n sh IH] using rev_ind; intros T Hsh L HF HL.
  - destruct L as [|st L]; [discriminate|]. exists st, L. split; auto. split; [exact (Forall_inv HF)|]. intros idx q Hi. inversion Hi; subst.
    destruct o; auto.
  - apply Forall_app in Hsh as [Hsh Hn]. apply Forall_inv in Hn. rewrite prodn_app in HL. cbn [prodn fold_right] in HL. rewrite Nat.mul_1_r in HL.
    assert (HP : 1 <= prodn sh). { clear - Hsh. induction Hsh; cbn [prodn fold_right]; [lia|]. fold (prodn l). nia. }
    rewrite rev_app_distr. cbn [rev app foldM].
    assert (R : exists L', subdivide o n L = Ok L' /\ length L' = prodn sh /\ Forall (good (n :: T) D) L'
      /\ forall p i q, p < prodn sh -> i < n -> nget (den O m (nth p L' d0)) (i :: q)
           = nget (den O m (nth (match o with OrdF => p + i * prodn sh | _ => p * n + i end) L d0)) q).
    { destruct o; [| |congruence]; cbn [subdivide]; (destruct (Nat.eqb_spec n 0); [lia|]).
      - destruct (groups_of_ok d0 n (prodn sh) L Hn HL) as [G1 G2].
        apply (rounds T D n (prodn sh) L _ (fun p i => p * n + i)); auto.
        intros p Hp. destruct (G2 p Hp) as [G3 G4]. split; auto. intros i Hi. split; auto. nia.
      - assert (Q : length L / n = prodn sh) by (rewrite HL; apply Nat.div_mul; lia). rewrite Q.
        destruct (Nat.eqb_spec n (length L)) as [E|E].
        + assert (P1 : prodn sh = 1) by nia. rewrite P1 in *.
          change (mapM (mk_stack [length L]) [L]) with (mapM (fun s => mk_stack [length s] s) [L]).
          apply (rounds T D n 1 L [L] (fun p i => p + i * 1)); auto.
          intros p Hp. replace p with 0 by lia. cbn [nth]. split; auto. intros i Hi. rewrite Nat.mul_1_r. split; auto. lia.
        + apply (rounds T D n (prodn sh) L _ (fun p i => p + i * prodn sh)); auto.
          { rewrite map_length, seq_length. auto. }
          intros p Hp. rewrite (nth_map_seq (fun i => every (prodn sh) i L)) by auto.
          destruct (every_ok d0 n (prodn sh) L p Hn HL Hp) as [G3 G4]. split; auto. intros i Hi. split; auto. nia. }
    destruct R as (L' & E & L1 & L2 & L3). rewrite E. destruct (IH (n :: T) Hsh L' L2 L1) as (st & rest & E1 & E2 & E3).
    exists st, rest. split; auto. split. { rewrite <- app_assoc. auto. }
    intros idx q Hi. destruct idx as [|i idx _] using rev_ind.
    { pose proof (inb_length _ _ Hi) as X. rewrite app_length in X. cbn in X. lia. }
    unfold inb in Hi. pose proof (Forall2_length _ _ _ Hi) as X. rewrite !app_length in X. cbn in X.
    apply Forall2_app_inv_l in Hi as (s1 & s2 & H1 & H2 & H3). pose proof (Forall2_length _ _ _ H2) as X2. cbn in X2.
    destruct s2 as [|n2 [|? ?]]; try discriminate. apply app_inj_tail in H3 as [<- <-].
    apply Forall2_length in H1 as X3. inversion H2 as [|? ? ? ? Hi _]; subst. rewrite <- app_assoc. cbn [app]. rewrite E3 by auto. rewrite L3; auto.
    + do 3 f_equal. destruct o; cbn [flat_pos]; [rewrite ravel_snoc by lia; auto|rewrite fravel_snoc by lia; lia|congruence].
    + pose proof (ravel_lt _ _ H1) as Hr. destruct o; cbn [flat_pos]; auto.
      clear - H1. induction H1 as [|i n idx sh H1 H2 IH]; cbn [fravel prodn fold_right]; [lia|]. fold (prodn sh). nia.
Qed.

Lemma multi_claim (arrays : list barr) sh o it0 : o <> OrdBad -> length arrays = prodn sh -> Forall usable arrays -> Forall dt_stable arrays ->
  In it0 arrays -> Forall (fun it => shape it = shape it0 /\ dtype it = dtype it0) arrays ->
  exists st, multidim_array_stack arrays sh o = Ok st /\ usable st
    /\ exists ds d, Forall2 reads arrays ds /\ reads st d /\ nshape d = sh ++ shape it0
       /\ forall i idx d0, inb sh i -> inb (shape it0) idx ->
            nget d (i ++ idx) = nget (nth (flat_pos o sh i) ds d0) idx.
Proof.
  intros Ho HL Hu Ht Hin HF.
  assert (HG' : Forall (good (shape it0) (dtype it0)) arrays).
  { rewrite Forall_forall in *. intros x Hx. destruct (HF x Hx). unfold good. auto. }
  assert (Hsh : Forall (fun n => 1 <= n) sh).
  { assert (1 <= prodn sh) by (rewrite <- HL; destruct arrays; [destruct Hin|cbn; lia]). clear - H. induction sh as [|n sh IH]; constructor;
      cbn [prodn fold_right] in H; fold (prodn sh) in H; [nia|]. apply IH. nia. }
  destruct (multi_den o (shape it0) (dtype it0) it0 sh Ho Hsh arrays HG' HL) as (st & rest & E1 & (E2 & _ & E3 & _) & E4).
  exists st. unfold multidim_array_stack. rewrite HL, Nat.eqb_refl. cbn [negb]. rewrite E1. split; auto. split; auto.
  destruct (reads_all O maxc garbage m HG fuel HR arrays Hu) as (ds & R1 & R2).
  destruct (usable_reads O maxc garbage m HG fuel HR st E2) as (d & Ed & Dd).
  exists ds, d. split; auto. split; auto.
  assert (Hs : nshape d = sh ++ shape it0) by (rewrite (proj1 Dd), den_shape by apply E2; auto).
  split; auto. intros i idx d0 Hi Hx. rewrite (proj2 Dd); [|rewrite Hs; apply Forall2_app; assumption].
  rewrite E4 by auto.
  assert (Hr : flat_pos o sh i < length arrays).
  { rewrite HL. destruct o; cbn [flat_pos]; try (apply ravel_lt; auto).
    clear - Hi. induction Hi as [|i n idx sh H1 H2 IH]; cbn [fravel prodn fold_right]; [lia|]. fold (prodn sh). nia. }
  pose proof (Forall2_nth _ _ _ it0 d0 _ R2 Hr) as Hn. symmetry. apply Hn.
  rewrite (proj1 Hn). rewrite Forall_forall in HG'. destruct (HG' (nth (flat_pos o sh i) arrays it0)) as (U & _ & S & _); [apply nth_In; auto|].
  rewrite den_shape by apply U. rewrite S. auto.
Qed.
End Multi.
Lemma multi_refused {V} (arrays : list (@barr V)) sh o : prodn sh <> length arrays -> multidim_array_stack arrays sh o = Err ValueError.
Proof. intros H. unfold multidim_array_stack. destruct (Nat.eqb_spec (prodn sh) (length arrays)); [congruence|]. auto. Qed.
Lemma multi_bad_order {V} (arrays : list (@barr V)) sh : prodn sh = length arrays -> sh <> [] -> multidim_array_stack arrays sh OrdBad = Err TypeError.
Proof.
  intros H Hne. unfold multidim_array_stack. rewrite H, Nat.eqb_refl. cbn [negb].
  destruct sh as [|n sh _] using rev_ind; [congruence|]. rewrite rev_app_distr. auto.
Qed.
