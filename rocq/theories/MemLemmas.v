(** MemLemmas: evaluation on memory gives the values of the model without memory,
    and writes to no buffer that was there before. *)
From Verif Require Import Base PySlice Keys NDArray Arrays Chunks Handlers Realise Lib Memory.
From Coq Require Import ZifyBool ZifyNat.

(** Arrays equal at every index. *)
Definition nd_same {W} (a b : nd W) : Prop := nshape a = nshape b /\ forall i, nget a i = nget b i.
Lemma same_refl {W} (a : nd W) : nd_same a a. Proof. split; auto. Qed.
Lemma same_sym {W} (a b : nd W) : nd_same a b -> nd_same b a. Proof. intros [H1 H2]; split; auto. Qed.
Lemma same_trans {W} (a b c : nd W) : nd_same a b -> nd_same b c -> nd_same a c.
Proof. intros [H1 H2] [H3 H4]; split; [congruence|]. intros i. rewrite H2; auto. Qed.
Lemma same_map {W X} (f : W -> X) a b : nd_same a b -> nd_same (nd_map f a) (nd_map f b).
Proof. intros [H1 H2]. split; auto. intros i. cbn. rewrite H2. auto. Qed.
Definition res_rel {A B} (R : A -> B -> Prop) (r : res A) (s : res B) : Prop :=
  match r, s with Ok x, Ok y => R x y | Err e, Err f => e = f | _, _ => False end.
Lemma column_same {W} (a b : nd W) axis o : nd_same a b -> column a axis o = column b axis o.
Proof. intros [H1 H2]. unfold column. rewrite H1. apply map_ext. intros i. auto. Qed.

(** Operations treat all arrays alike. *)
Lemma np_index_map {W X} (f : W -> X) (a : nd W) ks : np_index (nd_map f a) ks = match np_index a ks with Ok x => Ok (nd_map f x) | Err e => Err e end.
Proof.
  unfold np_index. cbn [nd_map nshape]. destruct (np_expand ks _); auto. cbn [bind]. destruct (np_isels _ _) as [s|]; auto. cbn [bind].
  destruct (existsb is_adv s); auto. destruct (adv_len s); auto.
Qed.
Lemma np_index_same {W} (a b : nd W) ks : nd_same a b -> res_rel nd_same (np_index a ks) (np_index b ks).
Proof.
  intros [H1 H2]. unfold np_index. rewrite <- H1. destruct (np_expand ks _); cbn; auto. destruct (np_isels _ _) as [s|]; cbn; auto.
  destruct (existsb is_adv s); [destruct (adv_len s); cbn; auto|]; split; cbn; auto.
Qed.
Lemma bcast_map {W X} (f : W -> X) (a : nd W) dict lead :
  bcast_numpy (nd_map f a) dict lead = match bcast_numpy a dict lead with Ok x => Ok (nd_map f x) | Err e => Err e end.
Proof. unfold bcast_numpy. cbn [nd_map nshape]. destruct (shape_from_dict _ _); auto. Qed.
Lemma bcast_same {W} (a b : nd W) dict lead : nd_same a b -> res_rel nd_same (bcast_numpy a dict lead) (bcast_numpy b dict lead).
Proof. intros [H1 H2]. unfold bcast_numpy. rewrite <- H1. destruct (shape_from_dict _ _); cbn; auto. split; cbn; auto. Qed.
Lemma transpose_same {W} (a b : nd W) axes : nd_same a b -> nd_same (np_transpose a axes) (np_transpose b axes).
Proof. intros [H1 H2]. unfold np_transpose. split; cbn; auto. rewrite H1. auto. Qed.
Lemma op2_same {W X Y} (f : W -> X -> Y) a b c d : nd_same a c -> nd_same b d -> res_rel nd_same (np_op2 f a b) (np_op2 f c d).
Proof.
  intros [H1 H2] [H3 H4]. unfold np_op2. rewrite <- H1, <- H3. destruct (np_bshape _ _); cbn; auto. split; cbn; auto. intros i. rewrite H2, H4. auto.
Qed.
Lemma setitem_same {W} (a b : nd W) k v w : nd_same a b -> nd_same v w -> res_rel nd_same (np_setitem a k v) (np_setitem b k w).
Proof.
  intros [H1 H2] [H3 H4]. unfold np_setitem. rewrite <- H1. destruct (assign_sels k _) as [s|]; cbn; auto. unfold nd_assign. rewrite <- H3, <- H1.
  destruct (assignable_rev _ _); cbn; auto. split; cbn; auto. intros i. destruct (sel_pos s i); auto.
Qed.

Section MemLemmas.
Context {V : Type} (O : numops V).
Notation cell := (option V).
Notation barr := (@barr V).
Notation heap := (@heap V).
Notation view := view.
Notation read := (read O).
Notation cellv := (cellv O).
Notation numv := (numv O).
Implicit Types h H : heap.

(** Nothing below location [B] is written. *)
Definition keeps (B : nat) (h h' : heap) : Prop := length h <= length h' /\ forall l, l < B -> look h' l = look h l.
Definition grows (h h' : heap) : Prop := keeps (length h) h h'.
Lemma keeps_refl B h : keeps B h h. Proof. split; auto. Qed.
Lemma keeps_trans B h1 h2 h3 : keeps B h1 h2 -> keeps B h2 h3 -> keeps B h1 h3.
Proof. intros [H1 H2] [H3 H4]. split; [lia|]. intros l Hl. rewrite H4, H2; auto. Qed.
Lemma keeps_less B B' h h' : B' <= B -> keeps B h h' -> keeps B' h h'.
Proof. intros H [H1 H2]. split; auto. intros l Hl. apply H2. lia. Qed.
Lemma grows_refl h : grows h h. Proof. apply keeps_refl. Qed.
Lemma grows_trans h1 h2 h3 : grows h1 h2 -> grows h2 h3 -> grows h1 h3.
Proof. intros H1 H2. eapply keeps_trans; [exact H1|]. eapply keeps_less; [|exact H2]. apply H1. Qed.
Lemma keeps_grows B h1 h2 h3 : B <= length h1 -> keeps B h1 h2 -> keeps B h2 h3 -> keeps B h1 h3.
Proof. intros _. apply keeps_trans. Qed.
Lemma look_app h (b : @buffer V) l : look (h ++ [b]) l = if l =? length h then b else look h l.
Proof.
  unfold look. destruct (Nat.eqb_spec l (length h)) as [->|H]; [rewrite app_nth2, Nat.sub_diag by lia; auto|].
  destruct (Nat.lt_ge_cases l (length h)); [rewrite app_nth1; auto|]. rewrite !nth_overflow; auto. rewrite app_length. cbn. lia.
Qed.
Lemma look_set h l (b : @buffer V) l' : l < length h -> look (set_nth l b h) l' = if l' =? l then b else look h l'.
Proof.
  intros H. unfold look. destruct (Nat.eqb_spec l' l) as [->|Hn]; [apply nth_set_nth_eq; auto|]. apply nth_set_nth_neq. auto.
Qed.
Lemma app_grows h (b : @buffer V) : grows h (h ++ [b]).
Proof. split; [rewrite app_length; lia|]. intros l Hl. rewrite look_app. destruct (Nat.eqb_spec l (length h)); [lia|auto]. Qed.
Lemma set_keeps B h l (b : @buffer V) : B <= l -> l < length h -> keeps B h (set_nth l b h).
Proof. intros H1 H2. split; [rewrite set_nth_length; auto|]. intros l' Hl. rewrite look_set by auto. destruct (Nat.eqb_spec l' l); [lia|auto]. Qed.

(** What a computation does, compared with a pure result: the same error, or a
    related value, old buffers unchanged. *)
Definition does {A B : Type} (R : heap -> A -> B -> Prop) (x : M A) (h : heap) (r : res B) : Prop :=
  match r with
  | Ok b => exists a h', x h = (Ok a, h') /\ grows h h' /\ R h' a b
  | Err e => exists h', x h = (Err e, h') /\ grows h h'
  end.
Lemma does_bind {A B C D : Type} (R : heap -> A -> B -> Prop) (S : heap -> C -> D -> Prop) x f h r g :
  does R x h r -> (forall a b h', grows h h' -> R h' a b -> does S (f a) h' (g b)) -> does S (bindM x f) h (bind r g).
Proof.
  intros H1 H2. destruct r as [b|e]; cbn [does bind] in *; unfold bindM.
  - destruct H1 as (a & h' & E & H3 & H4). specialize (H2 a b h' H3 H4). destruct (g b) as [d|e]; cbn [does] in *; rewrite E.
    + destruct H2 as (c & h2 & E2 & H5 & H6). exists c, h2. split; auto. split; auto. eapply grows_trans; eauto.
    + destruct H2 as (h2 & E2 & H5). exists h2. split; auto. eapply grows_trans; eauto.
  - destruct H1 as (h' & E & H3). rewrite E. eauto.
Qed.
Lemma does_lift {A B C D : Type} (S : heap -> C -> D -> Prop) (R : A -> B -> Prop) (x : res A) (r : res B) f g h :
  res_rel R x r -> (forall a b, R a b -> does S (f a) h (g b)) -> does S (bindM (lift x) f) h (bind r g).
Proof.
  intros H1 H2. unfold bindM, lift. destruct x as [a|e], r as [b|e']; cbn in H1; try contradiction.
  - specialize (H2 a b H1). cbn [bind]. exact H2.
  - subst. exists h. split; auto. apply grows_refl.
Qed.
Lemma does_look {A B C : Type} (S : heap -> A -> B -> Prop) (q : heap -> C) f h r : does S (f (q h)) h r -> does S (bindM (look_at q) f) h r.
Proof. auto. Qed.
Lemma does_ret {A B : Type} (R : heap -> A -> B -> Prop) a b h : R h a b -> does R (ret a) h (Ok b).
Proof. intros H. exists a, h. split; auto. split; auto. apply grows_refl. Qed.

(** A view that holds the array [d]. *)
Definition holds (h : heap) (v : view) (d : nd cell) : Prop := vloc v < length h /\ nd_same (read h v) d.
Lemma holds_keeps B h h' v d : keeps B h h' -> vloc v < B -> B <= length h -> holds h v d -> holds h' v d.
Proof.
  intros [H1 H2] Hv HB [H3 H4]. split; [lia|]. eapply same_trans; [|exact H4]. split; auto. intros i. unfold Memory.read. cbn. rewrite H2; auto.
Qed.
Lemma holds_grows h h' v d : grows h h' -> holds h v d -> holds h' v d.
Proof. intros H1 H2. apply (holds_keeps (length h) h); auto; apply H2. Qed.
Lemma holds_same h v d e : nd_same d e -> holds h v d -> holds h v e.
Proof. intros H [H1 H2]. split; auto. eapply same_trans; eauto. Qed.
Lemma read_keeps B h h' v d : keeps B h h' -> vloc v < B -> nd_same (read h v) d -> nd_same (read h' v) d.
Proof. intros [_ K] Hv R. eapply same_trans; [|exact R]. split; auto. intros i. cbn. rewrite K by auto. auto. Qed.
Lemma does_fresh d e h : nd_same d e -> does holds (fresh d) h (Ok e).
Proof.
  intros H. exists (whole (length h) (nshape d)), (h ++ [fun i => MV (nget d i)]). split; auto. split; [apply app_grows|].
  split; [cbn; rewrite app_length; cbn; lia|]. eapply same_trans; [|exact H]. split; auto. intros i. cbn. rewrite look_app, Nat.eqb_refl. auto.
Qed.
Lemma holds_shape h v d : holds h v d -> nshape (vix v) = nshape d.
Proof. intros [_ [H _]]. exact H. Qed.

(** ** The handlers *)
(** Ownership: [P] is the set of locations a computation may write to.  Nothing that
    existed before and is outside [P] is written. *)
Definition spares (P : nat -> Prop) (h h' : heap) : Prop := length h <= length h' /\ forall l, ~ P l -> l < length h -> look h' l = look h l.
(** New locations may be written to. *)
Definition wide (P : nat -> Prop) (h : heap) : Prop := forall l, length h <= l -> P l.
Lemma spares_refl P h : spares P h h. Proof. split; auto. Qed.
Lemma spares_trans P h1 h2 h3 : spares P h1 h2 -> spares P h2 h3 -> spares P h1 h3.
Proof. intros [H1 H2] [H3 H4]. split; [lia|]. intros l Hl HB. rewrite H4, H2; auto. lia. Qed.
Lemma grows_spares P h h' : grows h h' -> spares P h h'.
Proof. intros [H1 H2]. split; auto. Qed.
Lemma set_spares (P : nat -> Prop) h l (b : @buffer V) : P l -> l < length h -> spares P h (set_nth l b h).
Proof. intros H1 H2. split; [rewrite set_nth_length; auto|]. intros l' Hl _. rewrite look_set by auto. destruct (Nat.eqb_spec l' l); [congruence|auto]. Qed.
Lemma wide_spares P Q h h' : wide P h -> spares Q h h' -> wide P h'.
Proof. intros H [H1 _] l Hl. apply H. lia. Qed.
Lemma read_spares P h h' v d : spares P h h' -> ~ P (vloc v) -> vloc v < length h -> nd_same (read h v) d -> nd_same (read h' v) d.
Proof. intros [_ K] Hv HL R. eapply same_trans; [|exact R]. split; auto. intros i. cbn. rewrite K by auto. auto. Qed.
Lemma holds_spares P h h' v d : spares P h h' -> ~ P (vloc v) -> holds h v d -> holds h' v d.
Proof. intros K Hv [H1 H2]. split; [destruct K; lia|]. eapply read_spares; eauto. Qed.

Record owns (mh : @mhandler V) (h : handler V) := mkO {
  (* memory in [P] holds the states [s] *)
  o_good : (nat -> Prop) -> heap -> mst mh -> (list nat -> hst h) -> Prop;
  o_bad : forall n b, mbad mh n b = hbad h n b;
  o_move : forall (P Q : nat -> Prop) H H' st s, o_good P H st s -> length H <= length H' ->
    (forall l, P l -> l < length H -> Q l /\ look H' l = look H l) -> o_good Q H' st s;
  o_ext : forall P H st s s', (forall o, s o = s' o) -> o_good P H st s -> o_good P H st s';
  o_boot : forall P sh H, wide P H -> exists st H', mboot mh sh H = (Ok st, H') /\ grows H H' /\ o_good P H' st (fun _ => hboot h);
  o_step : forall P H st s d dd axis no, o_good P H st s -> wide P H -> vloc d < length H -> ~ P (vloc d) -> nd_same (read H d) dd -> hbad h (nth axis (nshape dd) 0) no = false ->
    exists st' H', mstep mh axis st d H = (Ok st', H') /\ spares P H H' /\ o_good P H' st' (fun o => hstep h (s o) (column dd axis o));
  o_fin : forall P H st s sh n, o_good P H st s -> wide P H ->
    exists v H', mfin mh sh n st H = (Ok v, H') /\ spares P H H' /\ holds H' v (mkND sh (fun o => hfin h n (s o))) /\ P (vloc v)
}.
#[local] Arguments col : simpl never.
#[local] Arguments column : simpl never.
Lemma col_same h (d : view) dd axis o : nd_same (read h d) dd -> col O h d axis o = column dd axis o.
Proof. intros E. unfold col. apply column_same. auto. Qed.
Lemma whole_holds h l sh d : l < length h -> nshape d = sh -> (forall o, cellv (look h l o) = nget d o) -> holds h (whole l sh) d.
Proof. intros H1 H2 H3. split; auto. split; [auto|]. intros i. cbn. auto. Qed.

Lemma own_count : owns (m_count O) (h_count O).
Proof.
  refine (mkO (m_count O) (h_count O) (fun P H (st : nat) s => forall o, s o = st) _ _ _ _ _ _).
  - auto.
  - auto.
  - intros P H st s s' E HS o. rewrite <- E. auto.
  - intros P sh H W. exists 0, H. split; auto. split; [apply grows_refl|]. cbn. auto.
  - intros P H st s d dd axis no HS W _ _ R _. eexists _, H. split; [reflexivity|]. split; [apply spares_refl|]. intros o. cbn. rewrite HS. f_equal.
    unfold column. rewrite map_length, seq_length. f_equal. symmetry. apply R.
  - intros P H st s sh n HS W. exists (whole (length H) sh). eexists. split; [reflexivity|]. split; [apply grows_spares, app_grows|]. split; [|apply W; auto].
    apply whole_holds; [rewrite app_length; cbn; lia|auto|]. intros o. rewrite look_app, Nat.eqb_refl. cbn. rewrite HS. auto.
Qed.

(** One array, updated in place. *)
Definition one_array {S} (f : S -> mcell) (P : nat -> Prop) (h : heap) (l : nat) (s : list nat -> S) : Prop :=
  P l /\ l < length h /\ forall o, look h l o = f (s o).
Lemma alloc_array {S} (f : S -> mcell) (P : nat -> Prop) (x : S) h : wide P h -> grows h (h ++ [fun _ => f x]) /\ one_array f P (h ++ [fun _ => f x]) (length h) (fun _ => x).
Proof.
  intros W. split; [apply app_grows|]. split; [apply W; auto|]. split; [rewrite app_length; cbn; lia|]. intros o. rewrite look_app, Nat.eqb_refl. auto.
Qed.
Lemma upd_array {S} (f : S -> mcell) (P : nat -> Prop) h l s (g : list nat -> mcell -> mcell) (s' : list nat -> S) : one_array f P h l s ->
  (forall o, g o (f (s o)) = f (s' o)) ->
  exists h', upd l g h = (Ok tt, h') /\ spares P h h' /\ length h' = length h /\ (forall l', l' <> l -> look h' l' = look h l') /\ one_array f P h' l s'.
Proof.
  intros (H0 & H1 & H2) Hg. eexists. split; [reflexivity|]. split; [apply set_spares; auto|]. split; [apply set_nth_length|]. split.
  - intros l' Hl. rewrite look_set by lia. destruct (Nat.eqb_spec l' l); [lia|auto].
  - split; [auto|]. split; [rewrite set_nth_length; lia|]. intros o. rewrite look_set, Nat.eqb_refl by lia. rewrite H2. apply Hg.
Qed.
Lemma array_else {S} (f : S -> mcell) (P : nat -> Prop) h h' l l' s : one_array f P h l s -> length h' = length h -> (forall x, x <> l' -> look h' x = look h x) -> l <> l' -> one_array f P h' l s.
Proof. intros (H0 & H1 & H2) HL HE Hn. split; auto. split; [lia|]. intros o. rewrite HE by auto. auto. Qed.
Lemma array_ext {S} (f : S -> mcell) (P : nat -> Prop) h l s s' : (forall o, s o = s' o) -> one_array f P h l s -> one_array f P h l s'.
Proof. intros E (H0 & H1 & H2). split; auto. split; auto. intros o. rewrite <- E. auto. Qed.
Lemma array_move {S} (f : S -> mcell) (P Q : nat -> Prop) h h' l s : one_array f P h l s -> length h <= length h' ->
  (forall l, P l -> l < length h -> Q l /\ look h' l = look h l) -> one_array f Q h' l s.
Proof. intros (H0 & H1 & H2) HL HE. destruct (HE l H0 H1) as [HQ E]. split; auto. split; [lia|]. intros o. rewrite E. auto. Qed.
Lemma array_grow {S} (f : S -> mcell) (P : nat -> Prop) h h' l s : one_array f P h l s -> grows h h' -> one_array f P h' l s.
Proof. intros A [G1 G2]. eapply array_move; eauto. Qed.
Lemma array_at {S} (f : S -> mcell) (P : nat -> Prop) h l s o : one_array f P h l s -> look h l o = f (s o).
Proof. intros (_ & _ & H). auto. Qed.
Lemma array_holds {S} (f : S -> mcell) (P : nat -> Prop) h l s sh d : one_array f P h l s -> nshape d = sh -> (forall o, cellv (f (s o)) = nget d o) ->
  holds h (whole l sh) d /\ P l.
Proof. intros (H0 & H1 & H2) Hs Hd. split; auto. apply whole_holds; auto. intros o. rewrite H2. auto. Qed.
Lemma fresh_own (P : nat -> Prop) d e H : wide P H -> nd_same d e ->
  exists v H', fresh d H = (Ok v, H') /\ spares P H H' /\ holds H' v e /\ P (vloc v).
Proof.
  intros W E. destruct (does_fresh d e H E) as (v & H' & E1 & G & D). exists v, H'. split; auto. split; [apply grows_spares; auto|]. split; auto.
  injection E1 as <- _. cbn. apply W. auto.
Qed.
Lemma numv_num x : numv (num x) = x. Proof. auto. Qed.

Lemma own_count_m : owns (m_count_m O) (h_count_m O).
Proof.
  refine (mkO (m_count_m O) (h_count_m O) (one_array (@MN V)) _ _ _ _ _ _).
  - auto.
  - intros. eapply array_move; eauto.
  - intros. eapply array_ext; eauto.
  - intros P sh H W. eexists _, _. split; [reflexivity|]. apply (alloc_array (@MN V) P 0 H W).
  - intros P H st s d dd axis no A W HL HP R _.
    destruct (upd_array (@MN V) P H st s (fun o x => MN (natv x + length (somes (col O H d axis o)))) (fun o => hstep (h_count_m O) (s o) (column dd axis o)) A) as (H' & E & K & _ & _ & A').
    { intros o. cbn. rewrite (col_same H d dd); auto. }
    exists st, H'. split; [|auto]. unfold m_count_m, mstep, bindM, look_at. rewrite E. auto.
  - intros P H st s sh n A W. exists (whole st sh), H. split; auto. split; [apply spares_refl|]. eapply array_holds; eauto.
Qed.
Lemma own_pick pick :
  owns (m_pick O pick) (mkH cell (Some (v0 O)) (fun _ l => pick l) (fun _ st => st) no_ident).
Proof.
  refine (mkO (m_pick O pick) (mkH cell (Some (v0 O)) (fun _ l => pick l) (fun _ st => st) no_ident) (one_array (@MV V)) _ _ _ _ _ _).
  - auto.
  - intros. eapply array_move; eauto.
  - intros. eapply array_ext; eauto.
  - intros P sh H W. eexists _, _. split; [reflexivity|]. apply (alloc_array (@MV V) P (Some (v0 O)) H W).
  - intros P H st s d dd axis no A W HL HP R _. eexists _, _. split; [reflexivity|]. split; [apply grows_spares, app_grows|].
    split; [apply W; auto|]. split; [rewrite app_length; cbn; lia|]. intros o. rewrite look_app, Nat.eqb_refl. cbn. rewrite (col_same H d dd); auto.
  - intros P H st s sh n A W. exists (whole st sh), H. split; auto. split; [apply spares_refl|]. eapply array_holds; eauto.
Qed.
Lemma own_sum : owns (m_sum O) (h_sum O).
Proof.
  refine (mkO (m_sum O) (h_sum O) (one_array (@num V)) _ _ _ _ _ _).
  - auto.
  - intros. eapply array_move; eauto.
  - intros. eapply array_ext; eauto.
  - intros P sh H W. eexists _, _. split; [reflexivity|]. apply (alloc_array (@num V) P (v0 O) H W).
  - intros P H st s d dd axis no A W HL HP R _.
    destruct (upd_array (@num V) P H st s (fun o x => num (vadd O (numv x) (vsum O (map (val0 O) (col O H d axis o))))) (fun o => hstep (h_sum O) (s o) (column dd axis o)) A) as (H' & E & K & _ & _ & A').
    { intros o. cbn. rewrite (col_same H d dd); auto. }
    exists st, H'. split; [|auto]. unfold m_sum, mstep, add_sum, bindM, look_at. rewrite E. auto.
  - intros P H st s sh n A W. exists (whole st sh), H. split; auto. split; [apply spares_refl|]. eapply array_holds; eauto.
Qed.
Lemma own_mean : owns (m_mean O) (h_mean O).
Proof.
  refine (mkO (m_mean O) (h_mean O) (one_array (@num V)) _ _ _ _ _ _).
  - auto.
  - intros. eapply array_move; eauto.
  - intros. eapply array_ext; eauto.
  - intros P sh H W. eexists _, _. split; [reflexivity|]. apply (alloc_array (@num V) P (v0 O) H W).
  - intros P H st s d dd axis no A W HL HP R _.
    destruct (upd_array (@num V) P H st s (fun o x => num (vadd O (numv x) (vsum O (map (val0 O) (col O H d axis o))))) (fun o => hstep (h_mean O) (s o) (column dd axis o)) A) as (H' & E & K & _ & _ & A').
    { intros o. cbn. rewrite (col_same H d dd); auto. }
    exists st, H'. split; [|auto]. unfold m_mean, mstep, add_sum, bindM, look_at. rewrite E. auto.
  - intros P H st s sh n A W.
    apply (fresh_own P (mkND sh (fun o => Some (vdiv O (numv (look H st o)) (vofn O n)))) (mkND sh (fun o => hfin (h_mean O) n (s o))) H W).
    split; auto. intros i. cbn. rewrite (array_at _ _ _ _ _ _ A). auto.
Qed.
Lemma own_sum_m : owns (m_sum_m O) (h_sum_m O).
Proof.
  refine (mkO (m_sum_m O) (h_sum_m O) (fun P H (st : nat * nat) (s : list nat -> V * bool) => fst st <> snd st
    /\ one_array (@num V) P H (fst st) (fun o => fst (s o)) /\ one_array (@MB V) P H (snd st) (fun o => snd (s o))) _ _ _ _ _ _).
  - auto.
  - intros P Q H H' st s (E & A1 & A2) HL HE. split; auto. split; eapply array_move; eauto.
  - intros P H st s s' E0 (E & H1 & H2). split; auto. split; [eapply array_ext; [|exact H1]|eapply array_ext; [|exact H2]]; intros o; cbn; rewrite E0; auto.
  - intros P sh H W. destruct (alloc_array (@num V) P (v0 O) H W) as [G1 A1]. set (H1 := H ++ [fun _ => num (v0 O)]) in *.
    assert (L1 : length H1 = S (length H)) by (unfold H1; rewrite app_length; cbn; lia).
    assert (W1 : wide P H1) by (intros l Hl; apply W; lia).
    destruct (alloc_array (@MB V) P true H1 W1) as [G2 A2].
    exists (length H, length H1), (H1 ++ [fun _ => MB true]). split; [reflexivity|]. split; [eapply grows_trans; eauto|]. cbn [fst snd]. split; [lia|].
    split; [eapply array_grow; eauto|]. exact A2.
  - intros P H st s d dd axis no G W HL HP R _. destruct st as [t k]. cbn [fst snd] in *. destruct G as (Hne & At & Ak).
    destruct (upd_array (@MB V) P H k _ (fun o x => MB (boolv x && forallb (fun c => negb (is_some c)) (col O H d axis o))) (fun o => snd (hstep (h_sum_m O) (s o) (column dd axis o))) Ak) as (H1' & E1 & K1 & L1 & F1 & A1).
    { intros o. cbn. rewrite (col_same H d dd); auto. }
    assert (Rd : nd_same (read H1' d) dd) by (eapply read_spares; eauto).
    assert (At1 : one_array (@num V) P H1' t (fun o => fst (s o))) by (eapply array_else; eauto).
    destruct (upd_array (@num V) P H1' t _ (fun o x => num (vadd O (numv x) (vsum O (map (val0 O) (col O H1' d axis o))))) (fun o => fst (hstep (h_sum_m O) (s o) (column dd axis o))) At1) as (H2' & E2 & K2 & L2 & F2 & A2).
    { intros o. cbn. rewrite (col_same H1' d dd); auto. }
    exists (t, k), H2'. split; [unfold m_sum_m, mstep, add_sum, bindM, look_at; cbn [fst snd]; rewrite E1, E2; auto|]. split; [eapply spares_trans; eauto|].
    cbn [fst snd]. split; auto. split; auto. eapply array_else; eauto.
  - intros P H st s sh n G W. destruct st as [t k]. cbn [fst snd] in *. destruct G as (Hne & At & Ak).
    exists (whole t sh), (set_nth t (fun o => if boolv (look H k o) then MV None else look H t o) H). split; [reflexivity|]. pose proof At as (Pt & Rt & _). split; [apply set_spares; auto|].
    split; auto. apply whole_holds; [rewrite set_nth_length; lia|auto|]. intros o. rewrite look_set, Nat.eqb_refl by lia. cbn. rewrite (array_at _ _ _ _ _ _ Ak), (array_at _ _ _ _ _ _ At). cbn.
    destruct (snd (s o)); auto.
Qed.
Lemma own_mean_m mdtol : owns (m_mean_m O mdtol) (h_mean_m O mdtol).
Proof.
  refine (mkO (m_mean_m O mdtol) (h_mean_m O mdtol) (fun P H (st : nat * nat * nat) (s : list nat -> nat * nat * V) =>
    let '(c, mc, t) := st in (c <> mc /\ c <> t /\ mc <> t)
    /\ one_array (@MN V) P H c (fun o => fst (fst (s o))) /\ one_array (@MN V) P H mc (fun o => snd (fst (s o)))
    /\ one_array (@num V) P H t (fun o => snd (s o))) _ _ _ _ _ _).
  - auto.
  - intros P Q H H' [[c mc] t] s (E & A1 & A2 & A3) HL HE. split; auto. split; [|split]; eapply array_move; eauto.
  - intros P H [[c mc] t] s s' H0 (E & H1 & H2 & H3). split; auto. split; [|split]; (eapply array_ext; [|eassumption]); intros o; cbn; rewrite H0; auto.
  - intros P sh H W. destruct (alloc_array (@MN V) P 0 H W) as [G1 A1]. set (H1 := H ++ [fun _ => MN 0]) in *.
    assert (L1 : length H1 = S (length H)) by (unfold H1; rewrite app_length; cbn; lia).
    assert (W1 : wide P H1) by (intros l Hl; apply W; lia).
    destruct (alloc_array (@MN V) P 0 H1 W1) as [G2 A2]. set (H2 := H1 ++ [fun _ => MN 0]) in *.
    assert (L2 : length H2 = S (length H1)) by (unfold H2; rewrite app_length; cbn; lia).
    assert (W2 : wide P H2) by (intros l Hl; apply W; lia).
    destruct (alloc_array (@num V) P (v0 O) H2 W2) as [G3 A3].
    exists (length H, length H1, length H2), (H2 ++ [fun _ => num (v0 O)]). split; [reflexivity|]. split; [eapply grows_trans; [exact G1|]; eapply grows_trans; eauto|].
    split; [lia|]. split; [|split].
    + eapply array_grow; [|exact G3]. eapply array_grow; eauto.
    + eapply array_grow; eauto.
    + exact A3.
  - intros P H st s d dd axis no G W HL HP R _. destruct st as [[c mc] t]. destruct G as ((N1 & N2 & N3) & Ac & Am & At).
    destruct (upd_array (@MN V) P H c _ (fun o x => MN (natv x + length (somes (col O H d axis o)))) (fun o => fst (fst (hstep (h_mean_m O mdtol) (s o) (column dd axis o)))) Ac) as (H1' & E1 & K1 & L1 & F1 & A1).
    { intros o. cbn. destruct (s o) as [[x y] z]. rewrite (col_same H d dd); auto. }
    assert (Am1 : one_array (@MN V) P H1' mc (fun o => snd (fst (s o)))) by (eapply array_else; eauto).
    destruct (upd_array (@MN V) P H1' mc _ (fun o x => MN (natv x + (length (col O H d axis o) - length (somes (col O H d axis o))))) (fun o => snd (fst (hstep (h_mean_m O mdtol) (s o) (column dd axis o)))) Am1) as (H2' & E2 & K2 & L2 & F2 & A2).
    { intros o. cbn. destruct (s o) as [[x y] z]. rewrite (col_same H d dd); auto. }
    assert (At2 : one_array (@num V) P H2' t (fun o => snd (s o))). { eapply array_else; [eapply array_else; [exact At|exact L1|exact F1|auto]|exact L2|exact F2|auto]. }
    assert (Rd : nd_same (read H2' d) dd) by (eapply (read_spares P H H2' d dd); [eapply spares_trans; [exact K1|exact K2]|auto|auto|auto]).
    destruct (upd_array (@num V) P H2' t _ (fun o x => num (vadd O (numv x) (vsum O (map (val0 O) (col O H2' d axis o))))) (fun o => snd (hstep (h_mean_m O mdtol) (s o) (column dd axis o))) At2) as (H3' & E3 & K3 & L3 & F3 & A3).
    { intros o. cbn. destruct (s o) as [[x y] z]. rewrite (col_same H2' d dd); auto. }
    exists (c, mc, t), H3'. split; [unfold m_mean_m, mstep, add_sum, bindM, look_at; cbv beta iota; rewrite E1, E2, E3; auto|]. split; [eapply spares_trans; [exact K1|]; eapply spares_trans; eauto|].
    split; auto. split; [|split; auto].
    + eapply array_else; [eapply array_else; [exact A1|exact L2|exact F2|auto]|exact L3|exact F3|auto].
    + eapply array_else; [exact A2|exact L3|exact F3|auto].
  - intros P H st s sh n G W. destruct st as [[c mc] t]. destruct G as (_ & Ac & Am & At).
    match goal with |- exists v H', ?e = _ /\ _ => change e with (fresh (mkND sh (fun o => let cc := natv (look H c o) in let mm := natv (look H mc o) in
            if cc =? 0 then None
            else if vltb O mdtol (vofn O 1) && vltb O mdtol (vdiv O (vofn O mm) (vadd O (vofn O mm) (vofn O cc)))
            then None else Some (vdiv O (numv (look H t o)) (vofn O cc)))) H) end.
    apply fresh_own; auto. split; auto. intros i. cbn. rewrite (array_at _ _ _ _ _ _ Ac), (array_at _ _ _ _ _ _ Am), (array_at _ _ _ _ _ _ At). destruct (s i) as [[x y] z]. auto.
Qed.
Lemma run_bind {A B} (x : M A) (f : A -> M B) h a h' : x h = (Ok a, h') -> bindM x f h = f a h'.
Proof. intros E. unfold bindM. rewrite E. auto. Qed.
(** Welford's updates, one slice at a time. *)
Definition std_m_good (P : nat -> Prop) (H : heap) (st : nat * nat * nat) (s : list nat -> nat * V * V) : Prop :=
  let '(c, a, q) := st in (c <> a /\ c <> q /\ a <> q)
  /\ one_array (@MN V) P H c (fun o => fst (fst (s o))) /\ one_array (@num V) P H a (fun o => snd (fst (s o)))
  /\ one_array (@num V) P H q (fun o => snd (s o)).
Lemma std_m_slice_ok P H st s d dd axis i : std_m_good P H st s -> nd_same (read H d) dd ->
  exists H', std_m_slice O axis d st i H = (Ok st, H') /\ spares P H H' /\ std_m_good P H' st (fun o => welford_m_step O (s o) (nget dd (insert_at axis i o))).
Proof.
  destruct st as [[c a] q]. intros ((N1 & N2 & N3) & Ac & Aa & Aq) Rd. destruct Rd as [Rs Rd].
  set (x := fun o => nget dd (insert_at axis i o)).
  set (xb := fun o => nget (read H d) (insert_at axis i o)).
  assert (Ex : forall o, xb o = x o) by (intros o; apply Rd).
  set (boot := fun o => negb (natv (look H c o) =? 0)). set (have := fun o => is_some (xb o)).
  set (a1 := fun o => if boot o then snd (fst (s o)) else val0 O (x o)).
  set (c1 := fun o => if have o then S (fst (fst (s o))) else fst (fst (s o))).
  destruct (upd_array (@num V) P H a _ (fun o y => if boot o then y else num (val0 O (xb o))) a1 Aa) as (H1 & E1 & K1 & L1 & F1 & A1).
  { intros o. unfold a1. rewrite Ex. destruct (boot o); auto. }
  assert (Ac1 : one_array (@MN V) P H1 c (fun o => fst (fst (s o)))) by (eapply array_else; [exact Ac|exact L1|exact F1|auto]).
  destruct (upd_array (@MN V) P H1 c _ (fun o y => if have o then MN (S (natv y)) else MN (natv y)) c1 Ac1) as (H2 & E2 & K2 & L2 & F2 & A2).
  { intros o. unfold c1. cbn. destruct (have o); auto. }
  assert (Aa2 : one_array (@num V) P H2 a a1) by (eapply array_else; [exact A1|exact L2|exact F2|auto]).
  set (cnt := fun o => natv (look H2 c o)). set (temp := fun o => vdiv O (vsub O (val0 O (xb o)) (numv (look H2 a o))) (vofn O (cnt o))).
  destruct (upd_array (@num V) P H2 a _ (fun o y => if boot o && have o then num (vadd O (numv y) (temp o)) else num (numv y))
    (fun o => if boot o && have o then vadd O (a1 o) (temp o) else a1 o) Aa2) as (H3 & E3 & K3 & L3 & F3 & A3).
  { intros o. cbn. destruct (boot o && have o); auto. }
  assert (Aq3 : one_array (@num V) P H3 q (fun o => snd (s o))).
  { eapply array_else; [eapply array_else; [eapply array_else; [exact Aq|exact L1|exact F1|auto]|exact L2|exact F2|auto]|exact L3|exact F3|auto]. }
  set (q1 := fun o => if boot o && have o then vadd O (snd (s o)) (vmul O (vmul O (temp o) (temp o)) (vmul O (vofn O (cnt o)) (vsub O (vofn O (cnt o)) (vofn O 1)))) else snd (s o)).
  destruct (upd_array (@num V) P H3 q _ (fun o y => if boot o && have o
                         then num (vadd O (numv y) (vmul O (vmul O (temp o) (temp o)) (vmul O (vofn O (cnt o)) (vsub O (vofn O (cnt o)) (vofn O 1)))))
                         else num (numv y)) q1 Aq3) as (H4 & E4 & K4 & L4 & F4 & A4).
  { intros o. unfold q1. cbn. destruct (boot o && have o); auto. }
  exists H4. split.
  { unfold std_m_slice. eapply eq_trans; [eapply run_bind; reflexivity|]. cbv beta zeta. eapply eq_trans; [eapply run_bind; exact E1|].
    eapply eq_trans; [eapply run_bind; exact E2|]. eapply eq_trans; [eapply run_bind; reflexivity|]. cbv beta zeta.
    eapply eq_trans; [eapply run_bind; exact E3|]. eapply eq_trans; [eapply run_bind; exact E4|]. reflexivity. }
  split; [eapply spares_trans; [exact K1|]; eapply spares_trans; [exact K2|]; eapply spares_trans; [exact K3|exact K4]|].
  assert (W : forall o, welford_m_step O (s o) (x o) = (c1 o, (if boot o && have o then vadd O (a1 o) (temp o) else a1 o), q1 o)).
  { intros o. unfold q1, temp, cnt, a1, c1, boot, have. rewrite (array_at _ _ _ _ _ _ A2), (array_at _ _ _ _ _ _ Aa2), (array_at _ _ _ _ _ _ Ac), Ex. unfold a1, c1, boot, have. rewrite (array_at _ _ _ _ _ _ Ac), Ex. cbn.
    destruct (s o) as [[cc aa] qq]. cbn. unfold Memory.numv. cbn. destruct (negb (cc =? 0)), (is_some (x o)); cbn; auto. }
  split; auto. split; [|split].
  - eapply array_ext; [intros o; change (nget dd (insert_at axis i o)) with (x o); rewrite W; reflexivity|].
    eapply array_else; [eapply array_else; [exact A2|exact L3|exact F3|auto]|exact L4|exact F4|auto].
  - eapply array_ext; [intros o; change (nget dd (insert_at axis i o)) with (x o); rewrite W; reflexivity|].
    eapply array_else; [exact A3|exact L4|exact F4|auto].
  - eapply array_ext; [intros o; change (nget dd (insert_at axis i o)) with (x o); rewrite W; reflexivity|]. exact A4.
Qed.
Lemma std_m_rows P d dd axis rows : ~ P (vloc d) -> forall st s H, std_m_good P H st s -> vloc d < length H -> nd_same (read H d) dd ->
  exists H', foldMM (std_m_slice O axis d) st rows H = (Ok st, H') /\ spares P H H'
    /\ std_m_good P H' st (fun o => fold_left (welford_m_step O) (map (fun i => nget dd (insert_at axis i o)) rows) (s o)).
Proof.
  intros Hd. induction rows as [|i rows IH]; intros st s H G HL R.
  - exists H. split; auto. split; [apply spares_refl|]. auto.
  - destruct (std_m_slice_ok P H st s d dd axis i G R) as (H1 & E1 & K1 & G1).
    destruct (IH st _ H1 G1) as (H2 & E2 & K2 & G2); [destruct K1; lia|eapply read_spares; eauto|].
    exists H2. split; [cbn [foldMM]; eapply eq_trans; [eapply run_bind; exact E1|exact E2]|]. split; [eapply spares_trans; eauto|]. exact G2.
Qed.
Lemma std_m_move (P Q : nat -> Prop) H H' st s : std_m_good P H st s -> length H <= length H' ->
  (forall l, P l -> l < length H -> Q l /\ look H' l = look H l) -> std_m_good Q H' st s.
Proof. destruct st as [[c a] q]. intros (N & A1 & A2 & A3) HL HE. split; auto. split; [|split]; eapply array_move; eauto. Qed.
Lemma std_m_ext P H st s s' : (forall o, s o = s' o) -> std_m_good P H st s -> std_m_good P H st s'.
Proof.
  destruct st as [[c a] q]. intros E (N & A1 & A2 & A3). split; auto. split; [|split]; (eapply array_ext; [|eassumption]); intros o; cbn; rewrite E; auto.
Qed.
Lemma std_m_boots P H : wide P H -> exists st H', std_m_boot O H = (Ok st, H') /\ grows H H' /\ std_m_good P H' st (fun _ => (0, v0 O, v0 O)).
Proof.
  intros W. destruct (alloc_array (@num V) P (v0 O) H W) as [G1 A1]. set (H1 := H ++ [fun _ => num (v0 O)]) in *.
  assert (L1 : length H1 = S (length H)) by (unfold H1; rewrite app_length; cbn; lia).
  assert (W1 : wide P H1) by (intros l Hl; apply W; lia).
  destruct (alloc_array (@num V) P (v0 O) H1 W1) as [G2 A2]. set (H2 := H1 ++ [fun _ => num (v0 O)]) in *.
  assert (L2 : length H2 = S (length H1)) by (unfold H2; rewrite app_length; cbn; lia).
  assert (W2 : wide P H2) by (intros l Hl; apply W; lia).
  destruct (alloc_array (@MN V) P 0 H2 W2) as [G3 A3].
  exists (length H2, length H, length H1), (H2 ++ [fun _ => MN 0]). split; [reflexivity|]. split; [eapply grows_trans; [exact G1|]; eapply grows_trans; eauto|].
  split; [lia|]. split; [|split].
  - exact A3.
  - eapply array_grow; [|exact G3]. eapply array_grow; eauto.
  - eapply array_grow; eauto.
Qed.
Lemma std_m_fins ddof P H st s sh n : std_m_good P H st s -> wide P H ->
  exists v H', std_m_fin O ddof sh n st H = (Ok v, H') /\ spares P H H' /\ holds H' v (mkND sh (fun o => hfin (h_std_m O ddof) n (s o))) /\ P (vloc v).
Proof.
  intros G W. destruct st as [[c a] q]. destruct G as (_ & A1 & A2 & A3).
  unfold std_m_fin. rewrite (run_bind (look_at (fun h => h)) _ H H H eq_refl). cbv beta.
  apply fresh_own; auto. split; auto. intros i. cbn [nget]. rewrite (array_at _ _ _ _ _ _ A1), (array_at _ _ _ _ _ _ A2), (array_at _ _ _ _ _ _ A3).
  rewrite !numv_num. destruct (s i) as [[x y] z]. auto.
Qed.
Lemma squared_ok P H x sh f : wide P H ->
  (exists v H', x H = (Ok v, H') /\ spares P H H' /\ holds H' v (mkND sh f) /\ P (vloc v)) ->
  exists v H', squared O x H = (Ok v, H') /\ spares P H H' /\ holds H' v (mkND sh (fun o => sq O (f o))) /\ P (vloc v).
Proof.
  intros W (v & H1 & E & K & D & _). unfold squared. rewrite (run_bind _ _ _ _ _ E), (run_bind (look_at (fun h => h)) _ H1 H1 H1 eq_refl).
  destruct (fresh_own P (nd_map (sq O) (read H1 v)) (mkND sh (fun o => sq O (f o))) H1) as (w & H2 & E2 & K2 & D2 & P2).
  { eapply wide_spares; eauto. }
  { destruct D as [_ [D1 D2]]. split; [exact D1|]. intros i. cbn. cbn in D2. rewrite D2. auto. }
  exists w, H2. split; auto. split; auto. eapply spares_trans; eauto.
Qed.
Lemma std_m_steps P H st s d dd axis : std_m_good P H st s -> vloc d < length H -> ~ P (vloc d) -> nd_same (read H d) dd ->
  exists st' H', std_m_data O axis st d H = (Ok st', H') /\ spares P H H' /\ std_m_good P H' st' (fun o => fold_left (welford_m_step O) (column dd axis o) (s o)).
Proof.
  intros H0 HL H1 H2. destruct (std_m_rows P d dd axis (seq 0 (nth axis (nshape (vix d)) 0)) H1 st s H H0 HL H2) as (H' & E & K & G).
  exists st, H'. split; auto. split; auto. eapply std_m_ext; [|exact G]. intros o. unfold column. rewrite <- (proj1 H2). auto.
Qed.
Lemma own_std_m ddof : owns (m_std_m O ddof) (h_std_m O ddof).
Proof.
  refine (mkO (m_std_m O ddof) (h_std_m O ddof) std_m_good _ _ _ _ _ _).
  - auto.
  - intros. eapply std_m_move; eauto.
  - intros. eapply std_m_ext; eauto.
  - intros. apply std_m_boots; auto.
  - intros P H st s d dd axis no G W HL HP R _. apply (std_m_steps P H st s d dd axis G HL HP R).
  - intros. apply std_m_fins; auto.
Qed.
Lemma own_var_m ddof : owns (m_var_m O ddof) (h_var_m O ddof).
Proof.
  refine (mkO (m_var_m O ddof) (h_var_m O ddof) std_m_good _ _ _ _ _ _).
  - auto.
  - intros. eapply std_m_move; eauto.
  - intros. eapply std_m_ext; eauto.
  - intros. apply std_m_boots; auto.
  - intros P H st s d dd axis no G W HL HP R _. apply (std_m_steps P H st s d dd axis G HL HP R).
  - intros. apply squared_ok; auto. apply (std_m_fins ddof); auto.
Qed.
(** The running mean is row 0 of array [a]. *)
Definition std_at (P : nat -> Prop) (H : heap) (k a q : nat) (s : list nat -> nat * V * V) : Prop :=
  a <> q /\ (P a /\ a < length H) /\ (forall o, fst (fst (s o)) = k) /\ (forall o, look H a (0 :: o) = num (snd (fst (s o))))
  /\ one_array (@num V) P H q (fun o => snd (s o)).
Lemma std_rows q dc P x rows : forall k a s H, std_at P H k a q s -> dc <> q ->
  (forall i o, In i rows -> (a = dc -> i <> 0) /\ look H dc (i :: o) = num (x i o)) ->
  exists k' H', foldMM (std_row O q dc) (k, a) rows H = (Ok (k', a), H') /\ spares P H H'
    /\ std_at P H' k' a q (fun o => fold_left (welford_step O) (map (fun i => x i o) rows) (s o)).
Proof.
  induction rows as [|i rows IH]; intros k a s H HS Hq HX.
  - exists k, H. split; auto. split; [apply spares_refl|]. auto.
  - destruct HS as (Naq & Ra & Hk & Ha & Aq).
    set (temp := fun o => vdiv O (vsub O (numv (look H dc (i :: o))) (numv (look H a (0 :: o)))) (vofn O (S k))).
    set (b1 := fun j => match j with
                           | i :: o => if i =? 0 then num (vadd O (numv (look H a j)) (temp o)) else look H a j
                           | [] => look H a j
                           end).
    set (H1 := set_nth a b1 H).
    assert (E1 : upd_row a 0 (fun o x => num (vadd O (numv x) (temp o))) H = (Ok tt, H1)) by reflexivity.
    assert (K1 : spares P H H1) by (apply set_spares; apply Ra).
    assert (L1 : length H1 = length H) by apply set_nth_length.
    assert (F1 : forall l, look H1 l = if l =? a then b1 else look H l) by (intros l; apply look_set; apply Ra).
    assert (Aq1 : one_array (@num V) P H1 q (fun o => snd (s o))).
    { apply (array_else _ P H H1 q a _ Aq L1); [intros l Hl; rewrite F1; destruct (Nat.eqb_spec l a); [contradiction|auto]|auto]. }
    destruct (upd_array (@num V) P H1 q _ (fun o x => num (vadd O (numv x) (vmul O (vmul O (temp o) (temp o)) (vofn O (S k * (S k - 1))))))
      (fun o => vadd O (snd (s o)) (vmul O (vmul O (temp o) (temp o)) (vofn O (S k * (S k - 1))))) Aq1) as (H2 & E2 & K2 & L2 & F2 & A2).
    { intros o. cbn [natv]. rewrite numv_num. auto. }
    destruct (HX i []) as [Hi0 _]; [left; auto|].
    assert (W : forall o, welford_step O (s o) (x i o) =
      (S k, vadd O (snd (fst (s o))) (temp o), vadd O (snd (s o)) (vmul O (vmul O (temp o) (temp o)) (vofn O (S k * (S k - 1)))))).
    { intros o. unfold temp. rewrite (proj2 (HX i o (or_introl eq_refl))), Ha, !numv_num. specialize (Hk o). destruct (s o) as [[k0 aa] qq]. cbn [fst snd] in *. subst k0. reflexivity. }
    destruct (IH (S k) a (fun o => welford_step O (s o) (x i o)) H2) as (k' & H3 & E3 & K3 & G3).
    + split; auto. split; [rewrite L2; unfold H1; rewrite set_nth_length; exact Ra|]. split; [intros o; rewrite W; auto|]. split.
      * intros o. rewrite F2, F1, Nat.eqb_refl by auto. cbn [b1 Nat.eqb]. rewrite W. cbn [fst snd]. unfold b1. cbn [Nat.eqb]. rewrite Ha, numv_num. auto.
      * eapply array_ext; [intros o; rewrite W; reflexivity|exact A2].
    + auto.
    + intros j o Hj. destruct (HX j o (or_intror Hj)) as [Hj0 HL]. split; auto. rewrite F2, F1 by auto. destruct (Nat.eqb_spec dc a) as [Ed|]; [|auto]. rewrite Ed in HL.
      unfold b1. destruct (Nat.eqb_spec j 0); auto. exfalso. apply Hj0; auto.
    + exists k', H3. split; [|split; [eapply spares_trans; [exact K1|]; eapply spares_trans; eauto|exact G3]].
      cbn [foldMM]. rewrite (run_bind (std_row O q dc (k, a) i) _ H (S k, a) H2); [exact E3|].
      unfold std_row. eapply eq_trans; [eapply run_bind; reflexivity|]. cbv beta zeta. eapply eq_trans; [eapply run_bind; exact E1|].
      eapply eq_trans; [eapply run_bind; exact E2|]. reflexivity.
Qed.
Definition std_good (P : nat -> Prop) (H : heap) (st : nat * option nat * nat) (s : list nat -> nat * V * V) : Prop :=
  let '(k, a, q) := st in
  match a with
  | Some a => std_at P H k a q s
  | None => k = 1 /\ (forall o, fst (fst (s o)) = 1) /\ one_array (@num V) P H q (fun o => snd (s o))
  end.
Lemma std_array P H k a q s : std_good P H (k, a, q) s -> one_array (@num V) P H q (fun o => snd (s o)).
Proof. destruct a; [intros (_ & _ & _ & _ & A); auto|intros (_ & _ & A); auto]. Qed.
Lemma std_count P H k a q s o : std_good P H (k, a, q) s -> fst (fst (s o)) = k.
Proof. destruct a; [intros (_ & _ & A & _); auto|intros (-> & A & _); auto]. Qed.
Lemma std_move (P Q : nat -> Prop) H H' st s : std_good P H st s -> length H <= length H' ->
  (forall l, P l -> l < length H -> Q l /\ look H' l = look H l) -> std_good Q H' st s.
Proof.
  destruct st as [[k [a|]] q].
  - intros (A1 & (A2 & A2') & A3 & A4 & A5) HL HE. destruct (HE a A2 A2') as [HQ E]. split; auto. split; [split; auto; lia|]. split; auto. split; [intros o; rewrite E; auto|].
    eapply array_move; eauto.
  - intros (A1 & A2 & A3) HL HE. split; auto. split; auto. eapply array_move; eauto.
Qed.
Lemma std_ext P H st s s' : (forall o, s o = s' o) -> std_good P H st s -> std_good P H st s'.
Proof.
  intros E. destruct st as [[k [a|]] q].
  - intros (A1 & A2 & A3 & A4 & A5). split; auto. split; auto. split; [intros o; rewrite <- E; auto|]. split; [intros o; rewrite <- E; auto|].
    eapply array_ext; [|exact A5]. intros o. cbn. rewrite E. auto.
  - intros (A1 & A2 & A3). split; auto. split; [intros o; rewrite <- E; auto|]. eapply array_ext; [|exact A3]. intros o. cbn. rewrite E. auto.
Qed.
Lemma std_boots P H : wide P H -> exists st H', std_boot O H = (Ok st, H') /\ grows H H' /\ std_good P H' st (fun _ => (1, v0 O, v0 O)).
Proof.
  intros W. destruct (alloc_array (@num V) P (v0 O) H W) as [G1 A1]. exists (1, None, length H), (H ++ [fun _ => num (v0 O)]). split; auto. split; auto. split; auto.
Qed.
Lemma std_steps P H st s d dd axis : std_good P H st s -> wide P H -> nd_same (read H d) dd -> nth axis (nshape dd) 0 <> 0 ->
  exists st' H', std_data O axis st d H = (Ok st', H') /\ spares P H H' /\ std_good P H' st' (fun o => std_step O (s o) (column dd axis o)).
Proof.
  destruct st as [[k a] q]. intros G W R Hn. pose proof (std_array _ _ _ _ _ _ G) as Aq.
  set (dc := length H). set (H1 := H ++ [rolled O (read H d) axis]).
  assert (K1 : grows H H1) by apply app_grows.
  assert (L1 : length H1 = S (length H)) by (unfold H1; rewrite app_length; cbn; lia).
  assert (Dc : forall i o, look H1 dc (i :: o) = num (val0 O (nget dd (insert_at axis i o)))).
  { intros i o. unfold H1, dc. rewrite look_app, Nat.eqb_refl. cbn. rewrite <- (proj2 R). auto. }
  assert (Aq1 : one_array (@num V) P H1 q (fun o => snd (s o))) by (eapply array_grow; eauto).
  assert (Nq : dc <> q) by (destruct Aq as (_ & Aq & _); unfold dc; lia).
  assert (Pd : P dc) by (apply W; unfold dc; lia).
  assert (R0 : nth axis (nshape (vix d)) 0 = nth axis (nshape dd) 0) by (rewrite <- (proj1 R); auto).
  unfold std_data. rewrite (run_bind (look_at (fun h => h)) _ H H H eq_refl). rewrite (run_bind (alloc _) _ H dc H1 eq_refl). rewrite R0. unfold column.
  destruct (nth axis (nshape dd) 0) as [|n]; [congruence|].
  destruct (Nat.eqb_spec k 1) as [->|Hk].
  - destruct (std_rows q dc P (fun i o => val0 O (nget dd (insert_at axis i o))) (seq 1 n) 1 dc (fun o => (1, val0 O (nget dd (insert_at axis 0 o)), snd (s o))) H1) as (k' & H2 & E & K & G2).
    + split; [auto|]. split; [split; [auto|unfold dc; lia]|]. split; [auto|]. split; [intros o; apply Dc|auto].
    + auto.
    + intros i o Hi. apply in_seq in Hi. split; [lia|auto].
    + exists (k', Some dc, q), H2. cbn [seq tl]. rewrite (run_bind _ _ _ _ _ E). split; [reflexivity|]. split; [eapply spares_trans; [apply grows_spares; exact K1|exact K]|].
      eapply std_ext; [|exact G2]. intros o. cbn [map]. pose proof (std_count _ _ _ _ _ _ o G) as Hc. unfold std_step. destruct (s o) as [[k0 aa] qq]. cbn [fst snd] in *. subst k0.
      cbn [Nat.eqb]. rewrite map_map. auto.
  - destruct a as [a|]; [|destruct G; contradiction].
    destruct (std_rows q dc P (fun i o => val0 O (nget dd (insert_at axis i o))) (seq 0 (S n)) k a s H1) as (k' & H2 & E & K & G2).
    + destruct G as (A1 & A2 & A3 & A4 & A5). split; auto. split; [split; [tauto|lia]|]. split; auto. split; auto. intros o. rewrite (proj2 K1) by lia. auto.
    + auto.
    + intros i o Hi. split; [|auto]. destruct G as (_ & A2 & _). unfold dc. lia.
    + exists (k', Some a, q), H2. rewrite (run_bind _ _ _ _ _ E). split; [reflexivity|]. split; [eapply spares_trans; [apply grows_spares; exact K1|exact K]|].
      eapply std_ext; [|exact G2]. intros o. pose proof (std_count _ _ _ _ _ _ o G) as Hc. unfold std_step. cbn [seq map]. destruct (s o) as [[k0 aa] qq]. cbn [fst snd] in *. subst k0.
      destruct (Nat.eqb_spec k 1); [contradiction|]. cbn [map]. rewrite map_map. auto.
Qed.
Lemma std_fins ddof P H st s sh n : std_good P H st s -> wide P H ->
  exists v H', std_fin O ddof sh st H = (Ok v, H') /\ spares P H H' /\ holds H' v (mkND sh (fun o => hfin (h_std O ddof) n (s o))) /\ P (vloc v).
Proof.
  intros G W. destruct st as [[k a] q]. pose proof (std_array _ _ _ _ _ _ G) as Aq.
  destruct (upd_array (@num V) P H q _ (fun o x => num (vdiv O (numv x) (vsub O (vofn O k) ddof))) (fun o => vdiv O (snd (s o)) (vsub O (vofn O k) ddof)) Aq) as (H1 & E1 & K1 & L1 & F1 & A1).
  { intros o. rewrite numv_num. auto. }
  unfold std_fin. rewrite (run_bind _ _ _ _ _ E1), (run_bind (look_at (fun h => h)) _ H1 H1 H1 eq_refl).
  match goal with |- exists v H', fresh ?d H1 = _ /\ _ /\ holds _ _ ?e /\ _ => destruct (fresh_own P d e H1) as (v & H' & E & K & D & Pv) end.
  { eapply wide_spares; eauto. }
  { split; auto. intros i. cbn [nget]. rewrite (array_at _ _ _ _ _ _ A1), !numv_num. pose proof (std_count _ _ _ _ _ _ i G). destruct (s i) as [[x y] z]. cbn in *. subst. auto. }
  exists v, H'. split; auto. split; [|auto]. eapply spares_trans; eauto.
Qed.
Lemma own_std ddof : owns (m_std O ddof) (h_std O ddof).
Proof.
  refine (mkO (m_std O ddof) (h_std O ddof) std_good _ _ _ _ _ _).
  - auto.
  - intros. eapply std_move; eauto.
  - intros. eapply std_ext; eauto.
  - intros. apply std_boots; auto.
  - intros P H st s d dd axis no G W HL HP R Hb. apply (std_steps P H st s d dd axis G W R). cbn in Hb. unfold no_first in Hb. lia.
  - intros. apply std_fins; auto.
Qed.
Lemma own_var ddof : owns (m_var O ddof) (h_var O ddof).
Proof.
  refine (mkO (m_var O ddof) (h_var O ddof) std_good _ _ _ _ _ _).
  - auto.
  - intros. eapply std_move; eauto.
  - intros. eapply std_ext; eauto.
  - intros. apply std_boots; auto.
  - intros P H st s d dd axis no G W HL HP R Hb. apply (std_steps P H st s d dd axis G W R). cbn in Hb. unfold no_first in Hb. lia.
  - intros. apply squared_ok; auto. apply (std_fins ddof); auto.
Qed.
Definition own_all m g : owns (mhandler_of O m g) (handler_of O m g).
Proof.
  destruct g, m; cbn [mhandler_of handler_of].
  - apply own_count_m. - apply own_count. - apply own_pick. - apply own_pick. - apply own_pick. - apply own_pick.
  - apply own_sum_m. - apply own_sum. - apply own_mean_m. - apply own_mean. - apply own_std_m. - apply own_std. - apply own_var_m. - apply own_var.
Qed.

(** The same with a bound: locations below [B] belong to others. *)
Record implements (mh : @mhandler V) (h : handler V) := mkI {
  (* memory in [B ..] holds the states [s] *)
  i_good : nat -> heap -> mst mh -> (list nat -> hst h) -> Prop;
  i_bad : forall n b, mbad mh n b = hbad h n b;
  i_base : forall B H st s, i_good B H st s -> B <= length H;
  i_ext : forall B H st s s', (forall o, s o = s' o) -> i_good B H st s -> i_good B H st s';
  i_boot : forall sh H, exists st H', mboot mh sh H = (Ok st, H') /\ grows H H' /\ i_good (length H) H' st (fun _ => hboot h);
  i_step : forall B H st s d dd axis no, i_good B H st s -> vloc d < B -> nd_same (read H d) dd -> hbad h (nth axis (nshape dd) 0) no = false ->
    exists st' H', mstep mh axis st d H = (Ok st', H') /\ keeps B H H' /\ i_good B H' st' (fun o => hstep h (s o) (column dd axis o));
  i_fin : forall B H st s sh n, i_good B H st s ->
    exists v H', mfin mh sh n st H = (Ok v, H') /\ keeps B H H' /\ holds H' v (mkND sh (fun o => hfin h n (s o)))
}.

Lemma own_impl (mh : @mhandler V) (h : handler V) : owns mh h -> implements mh h.
Proof.
  intros [good b1 b2 b3 b4 b5 b6].
  assert (KS : forall B H H', B <= length H -> spares (fun l => B <= l) H H' -> keeps B H H').
  { intros B H H' HB [K1 K2]. split; auto. intros l Hl. apply K2; lia. }
  refine (mkI mh h (fun B H st s => B <= length H /\ good (fun l => B <= l) H st s) _ _ _ _ _ _).
  - auto.
  - tauto.
  - intros B H st s s' E [HB G]. split; auto. eapply b3; eauto.
  - intros sh H. destruct (b4 (fun l => length H <= l) sh H) as (st & H' & E & G & D); [intros l; auto|]. exists st, H'. split; auto. split; auto. split; auto. apply G.
  - intros B H st s d dd axis no [HB G] Hd R Hb. destruct (b5 (fun l => B <= l) H st s d dd axis no G) as (st' & H' & E & K & G'); auto; try lia.
    { intros l Hl. lia. }
    exists st', H'. split; auto. split; auto. split; auto. destruct K; lia.
  - intros B H st s sh n [HB G]. destruct (b6 (fun l => B <= l) H st s sh n G) as (v & H' & E & K & D & _); [intros l Hl; lia|]. exists v, H'. auto.
Qed.
Definition impl_all m g : implements (mhandler_of O m g) (handler_of O m g) := own_impl _ _ (own_all m g).
End MemLemmas.
