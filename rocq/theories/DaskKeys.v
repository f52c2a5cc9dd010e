(** DaskKeys: the chunk keys of an expression as the dask engine groups them. *)
From Verif Require Import Base PySlice Keys NDArray Arrays Chunks KeyGrouper GroupSpec Spec Supported Lib SelLemmas KeyLemmas GetBase GetSimple GetTrans GetStack ChunkLemmas GroupLemmas StreamLemmas Threads Dask GroupKeys.
From Coq Require Import Sorted Permutation.

(** ** One dimension *)
Definition kslice (k : key) : pslice := match k with KSlice s => s | _ => full_slice end.
(** The piece a chunk key stands for. *)
Definition kpiece (n : nat) (k : key) : nat * nat :=
  match k with
  | KSlice s => (match s_start s with Some a => Z.to_nat a | None => 0 end, match s_stop s with Some b => Z.to_nat b | None => n end)
  | _ => (0, n)
  end.
Lemma chunk_key_slice n k : chunk_key n k -> k = KSlice (kslice k).
Proof. intros [->|(a & b & -> & _)]; auto. Qed.
Lemma kpiece_bounds n k : chunk_key n k -> fst (kpiece n k) <= snd (kpiece n k) /\ snd (kpiece n k) <= n /\ (1 <= n -> fst (kpiece n k) < snd (kpiece n k)).
Proof.
  intros [->|(a & b & -> & H1 & H2)]; simpl; [lia|]. rewrite !Nat2Z.id. lia.
Qed.
Lemma kpiece_norm n k : chunk_key n k -> normalize_slice (kslice k) n = piece n (kpiece n k).
Proof.
  intros [->|(a & b & -> & H1 & H2)].
  - unfold normalize_slice, piece, low, high. simpl. rewrite Nat.eqb_refl.
    destruct (Z.ltb_spec (Z.of_nat n) 0); [lia|]. rewrite Z.eqb_refl. auto.
  - unfold normalize_slice, piece, low, high, sl. cbn [kslice s_start s_stop s_step kpiece fst snd]. rewrite !Nat2Z.id.
    destruct (Z.ltb_spec (Z.of_nat a) 0); [lia|]. destruct (Z.ltb_spec (Z.of_nat b) 0); [lia|].
    f_equal.
    + destruct (Z.eqb_spec (Z.of_nat a) 0), (Nat.eqb_spec a 0); auto; lia.
    + destruct (Z.eqb_spec (Z.of_nat b) (Z.of_nat n)), (Nat.eqb_spec b n); auto; lia.
Qed.
Lemma piece_norm n p : fst p <= snd p -> snd p <= n -> normalize_slice (piece n p) n = piece n p.
Proof.
  destruct p as [a b]. simpl. intros H1 H2. unfold normalize_slice, piece, low, high. cbn [s_start s_stop s_step fst snd].
  f_equal.
  - destruct (Nat.eqb_spec a 0); auto. destruct (Z.ltb_spec (Z.of_nat a) 0); [lia|]. destruct (Z.eqb_spec (Z.of_nat a) 0); auto; lia.
  - destruct (Nat.eqb_spec b n).
    + destruct (Z.ltb_spec (Z.of_nat n) 0); [lia|]. rewrite Z.eqb_refl. auto.
    + destruct (Z.ltb_spec (Z.of_nat b) 0); [lia|]. destruct (Z.eqb_spec (Z.of_nat b) (Z.of_nat n)); auto; lia.
Qed.
Lemma kpos_piece n k : chunk_key n k -> kpos k n = seq (fst (kpiece n k)) (snd (kpiece n k) - fst (kpiece n k)).
Proof.
  intros [->|(a & b & -> & H1 & H2)]; unfold kpos.
  - rewrite sel_key_full. simpl. rewrite Nat.sub_0_r. auto.
  - rewrite sel_key_sl by lia. simpl. rewrite !Nat2Z.id. auto.
Qed.

Lemma consec ps : Forall (fun p => fst p < snd p) ps -> forall s len, concat (map (fun p => seq (fst p) (snd p - fst p)) ps) = seq s len ->
  StronglySorted (fun p q => snd p <= fst q) ps /\ Forall (fun p => s <= fst p /\ snd p <= s + len) ps.
Proof.
  induction 1 as [|[a b] ps Hp HF IH]; intros s len E; [split; constructor|]. cbn [map concat fst snd] in E, Hp.
  destruct (b - a) as [|k] eqn:Ek; [lia|]. cbn [seq app] in E. destruct len as [|len]; [discriminate|]. cbn [seq] in E. injection E as -> E.
  assert (HL : k <= len).
  { apply (f_equal (@length nat)) in E. rewrite app_length, !seq_length in E. lia. }
  replace len with (k + (len - k)) in E by lia. rewrite seq_app in E. apply app_inv_head in E. apply IH in E as [E1 E2].
  replace (S s + k) with b in E2 by lia. rewrite Forall_forall in E2. split.
  - constructor; auto. apply Forall_forall. intros q Hq. apply E2 in Hq. simpl. lia.
  - constructor; [simpl; lia|]. apply Forall_forall. intros q Hq. apply E2 in Hq. lia.
Qed.

(** The keys of one dimension of good cuts. *)
Definition good_dim (ks : list key) (n : nat) : Prop :=
  concat (map (fun k => kpos k n) ks) = seq 0 n /\ Forall (chunk_key n) ks /\ ks <> [] /\ NoDup ks.
Lemma good_dim_ok ks n : good_dim ks n -> dim_ok n (map (kpiece n) ks).
Proof.
  intros (H1 & H2 & H3 & H4). rewrite Forall_forall in H2.
  destruct (Nat.eq_dec n 0) as [->|Hn].
  - assert (E : ks = [KFull]).
    { assert (A : forall k, In k ks -> k = KFull) by (intros k Hk; destruct (H2 k Hk) as [->|(a & b & -> & ? & ?)]; [auto|lia]).
      destruct ks as [|k ks]; [congruence|]. rewrite (A k (or_introl eq_refl)) in *. f_equal. destruct ks as [|k' ks]; auto. exfalso.
      inversion H4 as [|? ? Hx _]; subst. apply Hx. rewrite (A k') by (simpl; auto). simpl; auto. }
    subst ks. split; [|left; exists (0, 0); auto]. split; [repeat constructor|]. constructor; [simpl; lia|constructor].
  - assert (EK : concat (map (fun p => seq (fst p) (snd p - fst p)) (map (kpiece n) ks)) = seq 0 n).
    { rewrite <- H1, map_map. f_equal. apply map_ext_in. intros k Hk. symmetry. apply kpos_piece; auto. }
    assert (HF : Forall (fun p => fst p < snd p) (map (kpiece n) ks)).
    { apply Forall_map. apply Forall_forall. intros k Hk. apply kpiece_bounds; auto. lia. }
    destruct (consec _ HF _ _ EK) as [S1 S2]. set (ps := map (kpiece n) ks) in *.
    assert (HI : inc_pieces n ps).
    { split.
      - clear -S1 HF. induction S1 as [|p l S1 IH HX]; [constructor|]. inversion HF as [|? ? Hp HF']; subst. constructor; auto.
        rewrite Forall_forall in *. intros q Hq. specialize (HX q Hq). specialize (HF' q Hq). cbv beta in *. lia.
      - rewrite Forall_forall in *. intros p Hp. specialize (S2 p Hp). specialize (HF p Hp). cbv beta in *. lia. }
    split; auto.
    assert (HL : length ps <> 0) by (unfold ps; rewrite map_length; destruct ks; [congruence|simpl; lia]).
    destruct (Nat.eq_dec (length ps) 1) as [E|E]; [left|right].
    + destruct ps as [|[a b] [|q r]] eqn:Eps; try discriminate. exists (a, b). split; auto. cbn [map concat fst snd] in EK. rewrite app_nil_r in EK.
      inversion HF as [|? ? Hab _]; subst. simpl in Hab. pose proof (f_equal (@length nat) EK) as El. rewrite !seq_length in El.
      destruct (b - a) as [|k] eqn:Ek; [lia|]. destruct n; [lia|]. cbn [seq] in EK. injection EK as -> _.
      unfold piece, low, high. cbn [fst snd]. cbn [Nat.eqb]. destruct (Nat.eqb_spec b (S n)); auto. lia.
    + split; [lia|]. intros p Hp Efull. unfold piece, low, high in Efull. destruct p as [a b]. cbn [fst snd] in Efull.
      destruct (Nat.eqb_spec a 0) as [->|]; [|discriminate]. destruct (Nat.eqb_spec b n) as [->|]; [|discriminate].
      (* a whole piece leaves no room for another *)
      apply in_split in Hp as (l1 & l2 & Eps). rewrite Eps in S1, S2, HF, E. clear Eps.
      assert (E1 : l1 = []).
      { destruct l1 as [|q l1]; auto. exfalso. cbn [app] in S1, HF. apply sorted_tail in S1 as [_ S1]. rewrite Forall_forall in S1.
        specialize (S1 (0, n) ltac:(apply in_or_app; simpl; auto)). inversion HF; subst. simpl in *. lia. }
      subst l1. cbn [app] in *. destruct l2 as [|q l2]; [simpl in E; lia|]. apply sorted_tail in S1 as [_ S1]. rewrite Forall_forall in S1, S2, HF.
      specialize (S1 q ltac:(simpl; auto)). specialize (S2 q ltac:(simpl; auto)). specialize (HF q ltac:(simpl; auto)). simpl in *. lia.
Qed.

Lemma good_dim_inj l n x x' : good_dim l n -> In x l -> In x' l -> kpos x n = kpos x' n -> x = x'.
Proof.
  intros (H1 & H2 & _ & H4) Hx Hx' E. rewrite Forall_forall in H2. destruct (Nat.eq_dec n 0) as [->|Hn].
  - destruct (H2 x Hx) as [->|(a & b & -> & ? & ?)]; [|lia]. destruct (H2 x' Hx') as [->|(a & b & -> & ? & ?)]; [auto|lia].
  - set (y := fst (kpiece n x)).
    assert (Hy : In y (kpos x n)) by (rewrite kpos_piece by auto; apply in_seq; pose proof (kpiece_bounds n x (H2 x Hx)); unfold y; lia).
    destruct (concat_unique (map (fun k => kpos k n) l) y) as (j & J1 & J2 & J3).
    + rewrite H1. apply seq_NoDup.
    + apply in_concat. exists (kpos x n). split; auto. apply (in_map (fun k => kpos k n)); auto.
    + rewrite map_length in *. apply (In_nth _ _ KBad) in Hx as (i & Hi & Ei), Hx' as (i' & Hi' & Ei').
      assert (A : i = j) by (apply J3; auto; rewrite (nth_map _ _ _ _ KBad), Ei by auto; auto).
      assert (A' : i' = j) by (apply J3; auto; rewrite (nth_map _ _ _ _ KBad), Ei', <- E by auto; auto). congruence.
Qed.

(** ** Tuples of keys *)
Definition nk (sh : list nat) (k : list key) : ktuple := normalize_keys (map kslice k) sh.
Lemma good_cuts_dim cuts sh : good_cuts cuts sh -> Forall2 good_dim cuts sh.
Proof. intros H. eapply Forall2_impl; [|exact H]. auto. Qed.

Lemma prodl_drawn cuts sh k : good_cuts cuts sh -> In k (prodl cuts) ->
  length k = length sh /\ k = map KSlice (map kslice k) /\ Forall2 chunk_key sh k.
Proof.
  intros HC Hk. apply prodl_In in Hk. revert sh HC. induction Hk as [|x l k cuts Hx Hk IH]; intros sh HC; inversion HC as [|? n ? sh' (_ & HF & _) HC']; subst; simpl; [auto|].
  destruct (IH sh' HC') as (H1 & H2 & H3). rewrite Forall_forall in HF. specialize (HF x Hx). split; [auto|]. split.
  - rewrite <- (chunk_key_slice _ _ HF). f_equal. auto.
  - constructor; auto.
Qed.
Lemma prodl_norm cuts sh : good_cuts cuts sh ->
  prodl (DS sh (map (fun p => map (kpiece (snd p)) (fst p)) (combine cuts sh))) = map (nk sh) (prodl cuts).
Proof.
  intros HC. assert (E : DS sh (map (fun p => map (kpiece (snd p)) (fst p)) (combine cuts sh))
    = map (fun p => map (fun k => normalize_slice (kslice k) (snd p)) (fst p)) (combine cuts sh)).
  { pose proof (good_cuts_length _ _ HC) as HL. apply (nth_ext _ _ [] []).
    - rewrite DS_length, map_length, combine_length. lia.
    - intros d Hd. rewrite DS_length in Hd. rewrite DS_nth by auto. unfold dsl.
      rewrite !(nth_map _ _ _ _ ([], 0)) by (rewrite combine_length; lia). rewrite combine_nth by auto. cbn [fst snd]. rewrite map_map.
      apply map_ext_in. intros k Hk. destruct (good_cuts_nth _ _ d HC Hd) as (_ & HF & _). rewrite Forall_forall in HF. symmetry. apply kpiece_norm; auto. }
  rewrite E. clear E. induction HC as [|l n cuts sh Hl HC IH]; auto.
  cbn [combine map prodl fst snd]. rewrite IH. clear. induction l as [|x l IHl]; auto. cbn [map flat_map]. rewrite IHl, map_app. f_equal.
  rewrite !map_map. auto.
Qed.
Lemma nk_cons n sh x k : nk (n :: sh) (x :: k) = normalize_slice (kslice x) n :: nk sh k.
Proof. auto. Qed.
Lemma nk_inj cuts sh k k' : good_cuts cuts sh -> In k (prodl cuts) -> In k' (prodl cuts) -> nk sh k = nk sh k' -> k = k'.
Proof.
  intros HC Hk Hk'. apply prodl_In in Hk, Hk'. revert sh k' Hk' HC. induction Hk as [|x l k cuts Hx Hk IH]; intros sh k' Hk' HC E.
  - inversion Hk'; auto.
  - inversion Hk' as [|x' ? k2 ? Hx' Hk2]; subst. inversion HC as [|? n ? sh' Hd HC']; subst. rewrite !nk_cons in E.
    pose proof (f_equal (hd full_slice) E) as EN. pose proof (f_equal (@tl _) E) as E2. cbn [hd tl] in EN, E2.
    pose proof Hd as Hd'. destruct Hd as (D1 & D2 & D3 & D4). rewrite Forall_forall in D2. f_equal; [|eapply IH; eauto].
    rewrite !kpiece_norm in EN by auto. pose proof (kpiece_bounds _ _ (D2 x Hx)). pose proof (kpiece_bounds _ _ (D2 x' Hx')).
    apply piece_inj in EN; try lia. assert (EP : kpos x n = kpos x' n) by (rewrite !kpos_piece, EN; auto).
    apply (good_dim_inj l n); auto.
Qed.

(** ** The chunks of a source that belong to one group *)
Lemma prodl_pick cuts : prodl cuts = map (pick KBad cuts) (ndindex (map (@length key) cuts)).
Proof.
  induction cuts as [|c cuts IH]; auto. cbn [prodl map ndindex]. rewrite IH.
  transitivity (flat_map (fun x => map (cons x) (map (pick KBad cuts) (ndindex (map (@length key) cuts)))) (map (fun j => nth j c KBad) (seq 0 (length c)))).
  { rewrite map_nth_seq. auto. }
  generalize (seq 0 (length c)) as q. induction q as [|x q IHq]; auto. cbn [map flat_map]. rewrite IHq, map_app. f_equal. rewrite !map_map. auto.
Qed.
Lemma gen_keys_prodl cuts : gen_keys cuts (seq 0 (length cuts)) = prodl cuts.
Proof.
  rewrite gen_keys_eq by apply perm_seq. rewrite prodl_pick.
  assert (E : map (fun i => length (nth i cuts [])) (seq 0 (length cuts)) = map (@length key) cuts).
  { apply (nth_ext _ _ 0 0); rewrite !map_length, seq_length; auto. intros i Hi.
    rewrite (nth_map_seq (fun i => length (nth i cuts []))) by auto. rewrite (nth_map _ _ _ _ []) by auto. auto. }
  rewrite E. apply map_ext_in. intros ci Hci. apply ndindex_In in Hci. apply key_at_id. auto.
Qed.
Lemma filter_map_swap {A B} (f : A -> B) (p : B -> bool) l : filter p (map f l) = map f (filter (fun x => p (f x)) l).
Proof. induction l as [|x l IH]; simpl; auto. destruct (p (f x)); simpl; rewrite IH; auto. Qed.
Lemma filter_single {A} (p : A -> bool) l x : NoDup l -> In x l -> (forall y, In y l -> p y = true <-> y = x) -> filter p l = [x].
Proof.
  induction 1 as [|z l Hz HN IH]; intros Hx Hp; [destruct Hx|]. simpl. destruct (p z) eqn:E.
  - apply Hp in E; [|simpl; auto]. subst z. f_equal. apply filter_none. intros y Hy. destruct (p y) eqn:Ey; auto. apply Hp in Ey; [|simpl; auto]. congruence.
  - destruct Hx as [->|Hx]; [exfalso; assert (p x = true) by (apply Hp; simpl; auto); congruence|]. apply IH; auto. intros; apply Hp; simpl; auto.
Qed.
Lemma ndindex_filter l : forall p c0 (q : list nat -> bool), p < length l -> inb (remove_at p l) c0 ->
  (forall ci, inb l ci -> q ci = true <-> remove_at p ci = c0) -> filter q (ndindex l) = map (fun j => insert_at p j c0) (seq 0 (nth p l 0)).
Proof.
  induction l as [|n l IH]; intros p c0 q Hp Hc Hq; [simpl in Hp; lia|]. cbn [ndindex]. destruct p as [|p].
  - rewrite remove_at_0 in Hc. cbn [nth]. 
    assert (G : forall xs, (forall x, In x xs -> x < n) -> filter q (flat_map (fun i => map (cons i) (ndindex l)) xs) = map (fun j => insert_at 0 j c0) xs).
    { induction xs as [|x xs IHx]; intros Hx; auto. cbn [flat_map map]. rewrite filter_app, IHx by (intros; apply Hx; simpl; auto).
      rewrite insert_at_0.
      assert (E : filter q (map (cons x) (ndindex l)) = [x :: c0]).
      { apply filter_single.
        - apply NoDup_map_inj; [congruence|apply NoDup_ndindex].
        - apply in_map. apply ndindex_In. auto.
        - intros y Hy. apply in_map_iff in Hy as (z & <- & Hz). apply ndindex_In in Hz. rewrite Hq by (constructor; [apply Hx; simpl; auto|auto]). rewrite remove_at_0. split; congruence. }
      rewrite E. auto. }
    apply G. intros x Hx. apply in_seq in Hx. lia.
  - rewrite remove_at_S in Hc. destruct c0 as [|x0 c0]; [inversion Hc|]. inversion Hc as [|? ? ? ? Hx0 Hc']; subst. clear Hc. rename Hc' into Hc. cbn [nth length] in *.
    assert (G : forall xs, NoDup xs -> (forall x, In x xs -> x < n) -> filter q (flat_map (fun i => map (cons i) (ndindex l)) xs)
       = if existsb (Nat.eqb x0) xs then map (fun j => insert_at (S p) j (x0 :: c0)) (seq 0 (nth p l 0)) else []).
    { induction 1 as [|x xs Hnx HN IHx]; intros Hx; auto. cbn [flat_map existsb]. rewrite filter_app, IHx by (intros; apply Hx; simpl; auto). clear IHx.
      assert (Hxn : x < n) by (apply Hx; simpl; auto). destruct (Nat.eqb_spec x0 x) as [->|Hne].
      - cbn [orb]. replace (existsb (Nat.eqb x) xs) with false.
        2:{ symmetry. destruct (existsb _ xs) eqn:E; auto. apply existsb_exists in E as (y & Hy & E). apply Nat.eqb_eq in E. congruence. }
        rewrite app_nil_r. rewrite filter_map_swap. rewrite (IH p c0 (fun ci => q (x :: ci))); auto; [|lia|].
        + rewrite map_map. apply map_ext. intros j. rewrite insert_at_S. auto.
        + intros ci Hci. rewrite Hq by (constructor; auto). rewrite remove_at_S. split; congruence.
      - cbn [orb]. rewrite filter_none; auto. intros y Hy. apply in_map_iff in Hy as (z & <- & Hz). apply ndindex_In in Hz. destruct (q (x :: z)) eqn:E; auto.
        apply Hq in E; [|constructor; auto]. rewrite remove_at_S in E. congruence. }
    rewrite G; [|apply seq_NoDup|intros x Hx; apply in_seq in Hx; lia].
    replace (existsb (Nat.eqb x0) (seq 0 n)) with true; auto. symmetry. apply existsb_exists. exists x0. split; [apply in_seq; lia|apply Nat.eqb_refl].
Qed.
Lemma nth_insert_remove {A} p (x d : A) l q : p < length l -> nth q (insert_at p x (remove_at p l)) d = if q =? p then x else nth q l d.
Proof.
  intros H. assert (HL : length (remove_at p l) = pred (length l)) by (apply remove_at_length; auto).
  destruct (Nat.eqb_spec q p) as [->|Hn]; [apply nth_insert_at; lia|].
  destruct (Nat.lt_ge_cases q p).
  - rewrite nth_insert_lt by lia. apply nth_remove_lt; auto.
  - destruct q as [|q]; [lia|]. rewrite nth_insert_gt by lia. apply nth_remove_ge; lia.
Qed.
Lemma remove_eq {A} p (d : A) l l' : p < length l -> length l = length l' ->
  (remove_at p l = remove_at p l' <-> forall q, q < length l -> q <> p -> nth q l d = nth q l' d).
Proof.
  intros Hp HL. split.
  - intros E q Hq Hn. pose proof (nth_insert_remove p d d l q Hp) as E1. pose proof (nth_insert_remove p d d l' q ltac:(lia)) as E2.
    destruct (Nat.eqb_spec q p); [congruence|]. rewrite <- E1, <- E2, E. auto.
  - intros H. apply (nth_ext _ _ d d).
    + rewrite !remove_at_length; lia.
    + intros i Hi. rewrite remove_at_length in Hi by auto. destruct (Nat.lt_ge_cases i p).
      * rewrite !nth_remove_lt by auto. apply H; lia.
      * rewrite !nth_remove_ge by auto. apply H; lia.
Qed.

(** The place of a drawn key in the iteration. *)
Lemma drawn_place cuts order k : perm order (length cuts) -> In k (prodl cuts) ->
  exists ci, inb (map (fun i => length (nth i cuts (@nil key))) order) ci /\ key_at cuts order ci = k.
Proof.
  intros HP Hk. apply prodl_In in Hk. pose proof (Forall2_length _ _ _ Hk) as HLk.
  assert (exists js, length js = length cuts /\ forall d, d < length cuts -> nth d js 0 < length (nth d cuts []) /\ nth (nth d js 0) (nth d cuts []) KBad = nth d k KBad) as (js & HJ & Hj).
  { clear -Hk. induction Hk as [|x l k cuts Hx Hk (js & HJ & Hj)]; [exists []; split; auto; simpl; lia|].
    apply (In_nth _ _ KBad) in Hx as (j & Hj1 & Hj2). exists (j :: js). split; [simpl; lia|]. intros [|d] Hd; simpl; auto. apply Hj. simpl in Hd. lia. }
  pose proof HP as (HLo & HNo & HFo). exists (map (fun d => nth d js 0) order). split.
  - apply Forall2_nth_intro with (da := 0) (db := 0); [rewrite !map_length; auto|]. intros i Hi. rewrite map_length in Hi. rewrite !(nth_map _ _ _ _ 0) by auto.
    apply Hj. apply (nth_Forall (fun x => x < length cuts)); auto.
  - apply (nth_ext _ _ KBad KBad); [rewrite key_at_length; auto|]. intros d Hd. rewrite key_at_length in Hd. rewrite key_at_nth by auto.
    destruct (pos_in_ok order _ d HP Hd) as [P1 P2]. rewrite (nth_map _ _ _ _ 0) by lia. rewrite P2. apply Hj. auto.
Qed.
Lemma gen_keys_iff cuts order k : perm order (length cuts) -> In k (gen_keys cuts order) <-> In k (prodl cuts).
Proof.
  intros HP. split.
  - intros H. destruct (gen_keys_In _ _ _ HP H) as [H1 H2]. apply prodl_In. apply Forall2_nth_intro with (da := KBad) (db := []); auto. intros i Hi. apply H2. lia.
  - intros H. destruct (drawn_place _ _ _ HP H) as (ci & H1 & H2). rewrite gen_keys_eq by auto. apply in_map_iff. exists ci. split; auto. apply ndindex_In. auto.
Qed.

(** The chunks of a source with the same key outside the aggregated axis come in
    the order of that axis, whatever the order of iteration. *)
Lemma gen_keys_filter cuts sh order axis r0 (q : list key -> bool) : good_cuts cuts sh -> perm order (length sh) -> axis < length sh ->
  In r0 (prodl (remove_at axis cuts)) -> (forall k, In k (prodl cuts) -> q k = true <-> remove_at axis k = r0) ->
  filter q (gen_keys cuts order) = map (fun c => insert_at axis c r0) (nth axis cuts []).
Proof.
  intros HC HP Hax Hr Hq. pose proof (good_cuts_length _ _ HC) as HL. rewrite <- HL in *.
  destruct (good_cuts_nth _ _ axis HC ltac:(lia)) as (_ & _ & Hne & _).
  destruct (nth axis cuts []) as [|c ax] eqn:Eax; [congruence|]. rewrite <- Eax in *.
  assert (Hr' : length r0 = pred (length cuts)) by (apply prodl_In in Hr; apply Forall2_length in Hr; rewrite remove_at_length in Hr; auto).
  assert (Hk0 : In (insert_at axis c r0) (prodl cuts)).
  { apply prodl_In. apply prodl_In in Hr. apply Forall2_nth_intro with (da := KBad) (db := []); [rewrite insert_at_length; lia|]. intros i Hi.
    rewrite insert_at_length in Hi. destruct (Nat.lt_trichotomy i axis) as [H|[->|H]].
    - rewrite nth_insert_lt by lia. eapply (Forall2_nth _ _ _ KBad [] i) in Hr; [|lia]. rewrite nth_remove_lt in Hr by auto. auto.
    - rewrite nth_insert_at by lia. rewrite Eax. simpl; auto.
    - destruct i as [|i]; [lia|]. rewrite nth_insert_gt by lia. eapply (Forall2_nth _ _ _ KBad [] i) in Hr; [|lia]. rewrite nth_remove_ge in Hr by lia. auto. }
  destruct (drawn_place _ _ _ HP Hk0) as (ci0 & Hci0 & E0). set (lens := map (fun i => length (nth i cuts (@nil key))) order) in *.
  pose proof HP as (HLo & HNo & HFo). destruct (pos_in_ok order _ axis HP Hax) as [P1 P2]. set (p := pos_in order axis) in *.
  assert (HLl : length lens = length cuts) by (unfold lens; rewrite map_length; auto).
  pose proof (inb_length _ _ Hci0) as HLc.
  assert (Hpos : forall d, d < length cuts -> d <> axis -> pos_in order d <> p).
  { intros d Hd Hn E. destruct (pos_in_ok order _ d HP Hd) as [_ D2]. rewrite E in D2. congruence. }
  assert (Hrest : forall d, d < length cuts -> d <> axis -> nth d (key_at cuts order ci0) KBad = nth d (insert_at axis KBad r0) KBad).
  { intros d Hd Hn. rewrite E0. destruct (Nat.lt_ge_cases d axis); [rewrite !nth_insert_lt by lia; auto|]. destruct d as [|d]; [lia|]. rewrite !nth_insert_gt by lia. auto. }
  rewrite gen_keys_eq by auto. fold lens. rewrite filter_map_swap.
  rewrite (ndindex_filter lens p (remove_at p ci0)).
  - rewrite map_map. replace (nth p lens 0) with (length (nth axis cuts [])).
    2:{ unfold lens. rewrite (nth_map _ _ _ _ 0) by lia. rewrite P2. auto. }
    rewrite <- (map_nth_seq (nth axis cuts []) KBad) at 2. rewrite map_map. apply map_ext_in. intros j Hj. apply in_seq in Hj.
    apply (nth_ext _ _ KBad KBad); [rewrite key_at_length, insert_at_length; lia|]. intros d Hd. rewrite key_at_length in Hd. rewrite key_at_nth by auto.
    rewrite nth_insert_remove by lia. destruct (Nat.eq_dec d axis) as [->|Hn].
    + rewrite Nat.eqb_refl, nth_insert_at by lia. auto.
    + destruct (Nat.eqb_spec (pos_in order d) p) as [E|_]; [exfalso; apply (Hpos d); auto|]. rewrite <- key_at_nth by auto. rewrite Hrest by auto.
      destruct (Nat.lt_ge_cases d axis); [rewrite !nth_insert_lt by lia; auto|]. destruct d as [|d]; [lia|]. rewrite !nth_insert_gt by lia. auto.
  - lia.
  - apply Forall2_remove. auto.
  - intros ci Hci. pose proof (inb_length _ _ Hci) as HLi.
    rewrite Hq. 2:{ apply (gen_keys_iff cuts order); auto. rewrite gen_keys_eq by auto. apply in_map. apply ndindex_In. auto. }
    assert (Er : r0 = remove_at axis (key_at cuts order ci0)) by (rewrite E0, remove_insert; auto; lia). rewrite Er.
    rewrite (remove_eq axis KBad) by (rewrite ?key_at_length; auto). rewrite (remove_eq p 0) by lia. rewrite key_at_length. split; intros H.
    + intros i Hi Hn. set (d := nth i order 0). assert (Hd : d < length cuts) by (apply (nth_Forall (fun x => x < length cuts)); auto; lia).
      assert (Ep : pos_in order d = i) by (unfold pos_in, d; rewrite index_of_nth by (auto; lia); auto).
      assert (Hda : d <> axis) by (intros E; apply Hn; rewrite <- Ep, E; auto). specialize (H d Hd Hda). rewrite !key_at_nth, Ep in H by auto.
      destruct (good_cuts_nth _ _ d HC ltac:(lia)) as (_ & _ & _ & HNd).
      pose proof (key_at_in cuts order ci d HP Hci Hd) as B1. pose proof (key_at_in cuts order ci0 d HP Hci0 Hd) as B2. rewrite Ep in B1, B2.
      apply (proj1 (NoDup_nth _ KBad) HNd); auto.
    + intros d Hd Hn. rewrite !key_at_nth by auto. destruct (pos_in_ok order _ d HP Hd) as [D1 _]. rewrite H; auto; lia.
Qed.

(** ** The dependencies of a group *)
Lemma unique_nil seen l : (forall x, In x l -> In x seen) -> unique_from seen l = [].
Proof.
  induction l as [|x l IH]; intros H; auto. cbn [unique_from]. replace (existsb (Nat.eqb x) seen) with true; [apply IH; intros; apply H; simpl; auto|].
  symmetry. apply existsb_exists. exists x. split; [apply H; simpl; auto|apply Nat.eqb_refl].
Qed.
Lemma unique_app l : NoDup l -> forall r seen, (forall x, In x l -> ~ In x seen) -> (forall x, In x r -> In x l \/ In x seen) -> unique_from seen (l ++ r) = l.
Proof.
  induction 1 as [|x l Hx HN IH]; intros r seen Hs Hr.
  - cbn [app]. apply unique_nil. intros x Hx. destruct (Hr x Hx) as [[]|]; auto.
  - cbn [app unique_from]. replace (existsb (Nat.eqb x) seen) with false.
    2:{ symmetry. destruct (existsb _ seen) eqn:E; auto. apply existsb_exists in E as (y & Hy & E). apply Nat.eqb_eq in E. subst y. exfalso. apply (Hs x); simpl; auto. }
    f_equal. apply IH.
    + intros y Hy [<-|Hi]; auto. apply (Hs y); simpl; auto.
    + intros y Hy. destruct (Hr y Hy) as [[<-|H]|H]; simpl; auto.
Qed.
Lemma deps_eq sh t (X : list (ktuple * nat)) : NoDup (map snd X) ->
  (forall x x', In x X -> In x' X -> normalize_keys (fst x) sh = t -> normalize_keys (fst x') sh = t -> fst x = fst x') ->
  unique (flat_map (fun ks => map snd (filter (fun x => ktuple_eqb ks (fst x)) X)) (filter (fun ks => ktuple_eqb t (normalize_keys ks sh)) (map fst X)))
  = map snd (filter (fun x => ktuple_eqb t (normalize_keys (fst x) sh)) X).
Proof.
  intros HN HS. rewrite filter_map_swap. set (Y := filter (fun x => ktuple_eqb t (normalize_keys (fst x) sh)) X).
  assert (HY : forall x, In x Y -> In x X /\ normalize_keys (fst x) sh = t).
  { intros x Hx. apply filter_In in Hx as [H1 H2]. apply ktuple_eqb_eq in H2. auto. }
  assert (HNY : NoDup (map snd Y)).
  { unfold Y. clear -HN. induction X as [|x X IH]; [constructor|]. cbn [map] in HN. inversion HN as [|? ? Hx HN']; subst. cbn [filter].
    destruct (ktuple_eqb t _); auto. cbn [map]. constructor; auto. intros H. apply Hx. apply in_map_iff in H as (y & E & Hy). apply filter_In in Hy as [Hy _].
    apply in_map_iff. eauto. }
  assert (E : flat_map (fun ks => map snd (filter (fun x => ktuple_eqb ks (fst x)) X)) (map fst Y) = flat_map (fun _ => map snd Y) Y).
  { rewrite !flat_map_concat_map, map_map. f_equal. apply map_ext_in. intros y Hy. destruct (HY y Hy) as [Hy1 Hy2]. f_equal. unfold Y. apply filter_ext_in'.
    intros x Hx. destruct (ktuple_eqb (fst y) (fst x)) eqn:E.
    - apply ktuple_eqb_eq in E. symmetry. apply ktuple_eqb_eq. congruence.
    - symmetry. apply ktuple_eqb_neq in E. apply ktuple_eqb_neq. intros E2. apply E. apply HS; auto. }
  rewrite E. clear - HNY. assert (G : forall r : list (ktuple * nat), r <> [] -> unique (flat_map (fun _ => map snd Y) r) = map snd Y).
  { intros [|x r] H; [congruence|]. cbn [flat_map]. apply unique_app; auto. intros y Hy. left. apply in_flat_map in Hy as (_ & _ & Hy). auto. }
  destruct Y as [|y Y']; [auto|apply G; discriminate].
Qed.

(** Nodes, seen through their out keys, with the chunks they stand for. *)
Lemma filter_F2 {A B} (R : A -> B -> Prop) (p : A -> bool) (q : B -> bool) l r : Forall2 R l r -> (forall x y, In y r -> R x y -> p x = q y) ->
  Forall2 R (filter p l) (filter q r).
Proof.
  induction 1 as [|x y l r Hxy H IH]; intros Hp; simpl; auto. rewrite (Hp x y) by (simpl; auto).
  assert (F : Forall2 R (filter p l) (filter q r)) by (apply IH; intros; apply Hp; simpl; auto). destruct (q y); auto.
Qed.
Lemma filter_fst {A B} (q : A -> bool) (cs : list (A * B)) : map fst (filter (fun c => q (fst c)) cs) = filter q (map fst cs).
Proof. induction cs as [|c cs IH]; simpl; auto. destruct (q (fst c)); simpl; rewrite IH; auto. Qed.

(** [remove_at] and normalised keys *)
Lemma kslice_remove axis k : map kslice (remove_at axis k) = remove_at axis (map kslice k).
Proof. unfold remove_at. rewrite map_app, firstn_map, skipn_map. auto. Qed.
Lemma nk_remove axis sh k : length k = length sh -> nk (remove_at axis sh) (remove_at axis k) = remove_at axis (nk sh k).
Proof.
  intros HL. unfold nk, normalize_keys. rewrite kslice_remove. revert axis sh HL. induction k as [|x k IH]; intros axis [|n sh] HL; simpl in HL; try lia.
  - destruct axis; auto.
  - destruct axis as [|axis]; [rewrite !remove_at_0; cbn [map]; rewrite remove_at_0; cbn [combine map]; rewrite remove_at_0; auto|].
    cbn [map]. rewrite !remove_at_S. cbn [combine map]. rewrite remove_at_S. f_equal. apply IH. lia.
Qed.
Lemma nk_idem cuts sh k : good_cuts cuts sh -> In k (prodl cuts) -> normalize_keys (nk sh k) sh = nk sh k.
Proof.
  intros HC Hk. apply prodl_In in Hk. revert sh HC. induction Hk as [|x l k cuts Hx Hk IH]; intros sh HC; inversion HC as [|? n ? sh' (_ & HF & _) HC']; subst; auto.
  rewrite nk_cons. unfold normalize_keys. cbn [combine map fst snd]. fold (normalize_keys (nk sh' k) sh'). rewrite IH by auto. f_equal.
  rewrite Forall_forall in HF. specialize (HF x Hx). rewrite kpiece_norm by auto. pose proof (kpiece_bounds _ _ HF). apply piece_norm; lia.
Qed.
