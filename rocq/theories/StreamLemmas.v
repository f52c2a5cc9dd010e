(** StreamLemmas: the order in which chunks arrive at an aggregation, and what
    the aggregation loop makes of them. *)
From Verif Require Import Base PySlice Keys NDArray Arrays Chunks Handlers Realise Spec Supported Lib SelLemmas KeyLemmas GetBase GetSimple GetBcast GetTrans GetStack GetMosaic ChunkLemmas AssignLemmas HandlerLemmas.
From Coq Require Import ZifyBool ZifyNat.

(** *** Positions in [insert_at] / [remove_at] *)
Lemma nth_insert_lt {A} ax (x d : A) l i : i < ax -> ax <= length l -> nth i (insert_at ax x l) d = nth i l d.
Proof.
  revert ax i; induction l as [|y l IH]; intros [|ax] i H1 H2; simpl in H2; try lia.
  rewrite insert_at_S. destruct i; auto. simpl. apply IH; lia.
Qed.
Lemma nth_insert_gt {A} ax (x d : A) l i : ax <= i -> ax <= length l -> nth (S i) (insert_at ax x l) d = nth i l d.
Proof.
  revert ax i; induction l as [|y l IH]; intros [|ax] i H1 H2; simpl in H2; try lia.
  - rewrite insert_at_0. destruct i; auto.
  - rewrite insert_at_0. auto.
  - rewrite insert_at_S. destruct i; [lia|]. simpl. apply IH; lia.
Qed.
Lemma nth_remove_lt {A} ax (d : A) l i : i < ax -> nth i (remove_at ax l) d = nth i l d.
Proof.
  revert ax i; induction l as [|y l IH]; intros [|ax] i H1; try lia.
  - unfold remove_at. simpl. destruct i; auto.
  - rewrite remove_at_S. destruct i; auto. simpl. apply IH; lia.
Qed.
Lemma nth_remove_ge {A} ax (d : A) l i : ax <= i -> nth i (remove_at ax l) d = nth (S i) l d.
Proof.
  revert ax i; induction l as [|y l IH]; intros [|ax] i H1.
  - destruct i; auto.
  - destruct i; auto.
  - rewrite remove_at_0. auto.
  - rewrite remove_at_S. destruct i; [lia|]. simpl. rewrite IH by lia. auto.
Qed.
Lemma map_nth_seq {A} (l : list A) d : map (fun j => nth j l d) (seq 0 (length l)) = l.
Proof.
  apply (nth_ext _ _ d d); [rewrite map_length, seq_length; auto|]. intros i Hi. rewrite map_length, seq_length in Hi.
  apply (nth_map_seq (fun j => nth j l d)); auto.
Qed.
Lemma Forall2_remove {A B} (P : A -> B -> Prop) l r ax : Forall2 P l r -> Forall2 P (remove_at ax l) (remove_at ax r).
Proof.
  intros H; revert ax; induction H as [|x y l r Hx H IH]; intros ax; [destruct ax; constructor|].
  destruct ax; [rewrite !remove_at_0; auto|]. rewrite !remove_at_S. constructor; auto.
Qed.

Lemma Forall2_nth_intro {A B} (P : A -> B -> Prop) l r da db : length l = length r ->
  (forall i, i < length l -> P (nth i l da) (nth i r db)) -> Forall2 P l r.
Proof.
  revert r; induction l as [|x l IH]; intros [|y r] HL H; simpl in HL; try lia; constructor.
  - apply (H 0). simpl; lia.
  - apply IH; [lia|]. intros i Hi. apply (H (S i)). simpl; lia.
Qed.

(** *** Well-formed cuts *)
Definition good_cuts (cuts : list (list key)) (sh : list nat) : Prop :=
  Forall2 (fun ks n => concat (map (fun k => kpos k n) ks) = seq 0 n
                       /\ Forall (chunk_key n) ks /\ ks <> [] /\ NoDup ks) cuts sh.

Lemma good_cuts_ok cuts sh : good_cuts cuts sh -> cuts_ok cuts sh.
Proof.
  intros H. eapply Forall2_impl; [|apply H]. cbv beta. intros ks n (H1 & H2 & _). split; auto.
  eapply Forall_impl; [|apply H2]. intros k Hk. destruct (chunk_key_sel _ _ Hk) as (a & len & E & _). split.
  - destruct Hk as [->|(x & y & -> & _)]; auto.
  - eexists; split; eauto. discriminate.
Qed.

Lemma sl_inj a b a' b' : sl a b = sl a' b' -> a = a' /\ b = b'.
Proof. unfold sl. intros H. injection H. intros. split; lia. Qed.

Lemma dim_slices_NoDup maxc ne size : NoDup (dim_slices maxc true ne size).
Proof.
  unfold dim_slices. destruct (size * ne <=? maxc) eqn:E1; [repeat constructor; auto|].
  destruct (maxc <? ne) eqn:E2.
  - apply NoDup_map_inj; [|apply seq_NoDup]. intros x y _ _ H. apply sl_inj in H. lia.
  - assert (1 <= maxc / ne) by (apply (step_pos maxc ne size); lia).
    apply NoDup_map_inj; [|apply seq_NoDup]. intros x y _ _ H0. apply sl_inj in H0 as [H0 _]. nia.
Qed.
Lemma dim_slices_nil maxc al ne size : dim_slices maxc al ne size <> [].
Proof.
  unfold dim_slices. destruct (Nat.leb_spec (size * ne) maxc) as [H1|H1]; [discriminate|].
  destruct (Nat.ltb_spec maxc ne) as [H2|H2].
  - destruct size; [simpl in H1; lia|]. destruct al; discriminate.
  - pose proof (step_pos maxc ne size H1 H2). pose proof (ceil_cover size (maxc / ne) ltac:(lia)).
    destruct ((size + maxc / ne - 1) / (maxc / ne)); [|discriminate]. simpl in *. assert (size = 0) by lia. subst. simpl in H1. lia.
Qed.

Lemma all_slices_good maxc sh : good_cuts (all_slices maxc true sh) sh.
Proof.
  induction sh as [|n sh IH]; [constructor|]. rewrite all_slices_cons. constructor; auto.
  split; [apply dim_slices_concat|]. split; [apply dim_slices_chunk|]. split; [apply dim_slices_nil|apply dim_slices_NoDup].
Qed.

Lemma good_cuts_length cuts sh : good_cuts cuts sh -> length cuts = length sh.
Proof. intros H. eapply Forall2_length; eauto. Qed.
Lemma good_cuts_nth cuts sh i : good_cuts cuts sh -> i < length sh ->
  concat (map (fun k => kpos k (nth i sh 0)) (nth i cuts [])) = seq 0 (nth i sh 0)
  /\ Forall (chunk_key (nth i sh 0)) (nth i cuts []) /\ nth i cuts [] <> [] /\ NoDup (nth i cuts []).
Proof.
  intros H Hi. pose proof (good_cuts_length _ _ H). eapply (Forall2_nth _ cuts sh [] 0 i) in H; [exact H|lia].
Qed.

(** A chunk key selects a list of consecutive positions on every dimension. *)
Lemma drawn_lists cuts sh (ks : list key) : good_cuts cuts sh -> length ks = length sh ->
  (forall i, i < length sh -> In (nth i ks KBad) (nth i cuts [])) ->
  nonew ks /\ forallb plain_key ks = true
  /\ exists s, sel_keys ks sh = Some s /\ oselect ks sh = Some s /\ length s = length sh
    /\ Forall (fun d => d <> DNew) s /\ Forall (fun d => is_pt_sel d = false) s
    /\ forall i, i < length sh -> nth i s DNew = DLs (kpos (nth i ks KBad) (nth i sh 0)).
Proof.
  intros HC HL HI. destruct (drawn_sel cuts sh ks (good_cuts_ok _ _ HC) HL HI) as (HN & s & E1 & E2 & E3 & E4 & E5).
  assert (HK : forall i, i < length sh -> chunk_key (nth i sh 0) (nth i ks KBad)).
  { intros i Hi. destruct (good_cuts_nth _ _ i HC Hi) as (_ & H & _). rewrite Forall_forall in H. apply H. auto. }
  split; auto. split.
  { apply forallb_forall. intros k Hk. destruct (In_nth _ _ KBad Hk) as (i & Hi & <-). specialize (HK i ltac:(lia)).
    destruct HK as [->|(x & y & -> & _)]; auto. }
  exists s. split; auto. split; auto. split; auto. split; auto.
  assert (Hn : forall i, i < length sh -> nth i s DNew = DLs (kpos (nth i ks KBad) (nth i sh 0))).
  { intros i Hi. specialize (E5 i Hi). specialize (HK i Hi). unfold kpos. rewrite E5.
    destruct (chunk_key_sel _ _ HK) as (a & len & E & _). rewrite E in E5. injection E5 as <-. auto. }
  split; auto. apply Forall_forall. intros d Hd. destruct (In_nth _ _ DNew Hd) as (i & Hi & <-).
  rewrite Hn by lia. auto.
Qed.

Lemma rk_lists s i : Forall (fun d => is_pt_sel d = false) s -> i <= length s -> rk s i = i.
Proof.
  intros H. revert i; induction H as [|d s Hd H IH]; intros [|i] Hi; simpl in Hi; try lia; auto.
  unfold rk in *. simpl firstn. rewrite count_if_cons, Hd. simpl. rewrite IH by lia. auto.
Qed.

(** *** Iteration order *)
Lemma ndindex_snoc l n : ndindex (l ++ [n]) = flat_map (fun ci => map (fun j => ci ++ [j]) (seq 0 n)) (ndindex l).
Proof.
  induction l as [|x l IH]; simpl.
  - rewrite app_nil_r. generalize (seq 0 n). auto.
  - rewrite IH. generalize (seq 0 x) as q. induction q as [|y q IHq]; simpl; auto. rewrite IHq.
    rewrite flat_map_app. f_equal. clear. induction (ndindex l) as [|ci L IHL]; simpl; auto.
    rewrite map_app, IHL. f_equal. rewrite map_map. auto.
Qed.

Lemma index_of_app x l1 l2 : index_of x (l1 ++ l2) =
  match index_of x l1 with Some i => Some i | None => match index_of x l2 with Some i => Some (length l1 + i) | None => None end end.
Proof.
  induction l1 as [|y l1 IH]; simpl.
  - destruct (index_of x l2); auto.
  - destruct (x =? y); auto. rewrite IH. destruct (index_of x l1); auto. destruct (index_of x l2); auto.
Qed.
Lemma index_of_map (f : nat -> nat) x l : (forall y, In y l -> f y = f x -> y = x) -> index_of (f x) (map f l) = index_of x l.
Proof.
  induction l as [|y l IH]; intros H; simpl; auto. rewrite IH by (intros; apply H; simpl; auto).
  destruct (Nat.eqb_spec (f x) (f y)) as [E|E], (Nat.eqb_spec x y) as [E'|E']; auto; try congruence.
  exfalso. apply E'. symmetry. apply H; simpl; auto.
Qed.

Definition shift_ax (axis i : nat) : nat := if i <? axis then i else S i.
Lemma shift_inj axis i j : shift_ax axis i = shift_ax axis j -> i = j.
Proof. unfold shift_ax. destruct (Nat.ltb_spec i axis), (Nat.ltb_spec j axis); lia. Qed.

Lemma pos_in_input axis order d : In d order -> pos_in (input_order axis order) (shift_ax axis d) = pos_in order d.
Proof.
  intros Hd. unfold pos_in, input_order. rewrite index_of_app.
  change (map (fun i => if i <? axis then i else S i) order) with (map (shift_ax axis) order).
  rewrite index_of_map by (intros y _ E; apply shift_inj in E; auto). destruct (index_of_In _ _ Hd) as [i ->]. auto.
Qed.
Lemma pos_in_axis axis order : pos_in (input_order axis order) axis = length order.
Proof.
  unfold pos_in, input_order. rewrite index_of_app.
  destruct (index_of axis (map (fun i => if i <? axis then i else S i) order)) as [i|] eqn:E.
  - exfalso. apply index_of_Some in E as [E1 E2]. rewrite map_length in E1.
    rewrite (nth_map _ _ _ _ 0) in E2 by auto. destruct (Nat.ltb_spec (nth i order 0) axis); lia.
  - simpl. rewrite Nat.eqb_refl, map_length. lia.
Qed.

Lemma input_order_perm axis order n : perm order n -> axis < S n -> perm (input_order axis order) (S n).
Proof.
  intros (HL & HN & HF) Hax. unfold input_order. change (map (fun i => if i <? axis then i else S i) order) with (map (shift_ax axis) order).
  split; [rewrite app_length, map_length; simpl; lia|]. split.
  - apply NoDup_app_disj.
    + apply NoDup_map_inj; auto. intros x y _ _ H. apply shift_inj in H; auto.
    + repeat constructor; auto.
    + intros x Hx [<-|[]]. apply in_map_iff in Hx as (y & E & _). unfold shift_ax in E. destruct (Nat.ltb_spec y axis); lia.
  - apply Forall_app. split; [|constructor; auto]. apply Forall_map. eapply Forall_impl; [|apply HF].
    intros x Hx. unfold shift_ax. simpl in Hx. destruct (x <? axis); lia.
Qed.

(** The chunks of an aggregation's source come in groups: all pieces of the
    aggregated axis for one output chunk, then the next output chunk. *)
Lemma gen_keys_input cuts axis order : axis < length cuts -> perm order (pred (length cuts)) ->
  gen_keys cuts (input_order axis order)
  = flat_map (fun k => map (fun c => insert_at axis c k) (nth axis cuts [])) (gen_keys (remove_at axis cuts) order).
Proof.
  intros Hax HP.
  assert (HPi : perm (input_order axis order) (length cuts)).
  { replace (length cuts) with (S (pred (length cuts))) by lia. apply input_order_perm; auto. lia. }
  rewrite gen_keys_eq by auto. rewrite gen_keys_eq by (rewrite remove_at_length; auto).
  unfold input_order at 2. rewrite map_app. cbn [map]. rewrite ndindex_snoc.
  rewrite map_map.
  assert (El : map (fun x => length (nth (if x <? axis then x else S x) cuts [])) order
               = map (fun i => length (nth i (remove_at axis cuts) [])) order).
  { apply map_ext. intros i. destruct (Nat.ltb_spec i axis); [rewrite nth_remove_lt|rewrite nth_remove_ge]; auto. }
  rewrite El. set (L := ndindex _).
  assert (HL : forall ci, In ci L -> inb (map (fun i => length (nth i (remove_at axis cuts) [])) order) ci).
  { intros ci. apply ndindex_In. }
  assert (Hcore : forall ci j, In ci L -> j < length (nth axis cuts []) -> key_at cuts (input_order axis order) (ci ++ [j])
     = insert_at axis (nth j (nth axis cuts []) KBad) (key_at (remove_at axis cuts) order ci)).
  { intros ci j Hci Hj. specialize (HL ci Hci). pose proof (inb_length _ _ HL) as HLc. rewrite map_length in HLc.
    pose proof HP as (HLo & HNo & HFo).
    assert (HLk : length (key_at (remove_at axis cuts) order ci) = pred (length cuts)) by (rewrite key_at_length, remove_at_length; auto).
    apply (nth_ext _ _ KBad KBad).
    - rewrite insert_at_length, HLk, key_at_length. lia.
    - intros i Hi. rewrite key_at_length in Hi. rewrite key_at_nth by auto.
      destruct (Nat.lt_trichotomy i axis) as [H|[->|H]].
      + rewrite nth_insert_lt by lia. rewrite key_at_nth by (rewrite remove_at_length; lia). rewrite nth_remove_lt by auto.
        assert (Hin : In i order) by (apply (perm_In order (pred (length cuts))); auto; lia).
        pose proof (pos_in_input axis order i Hin) as E. unfold shift_ax in E. destruct (Nat.ltb_spec i axis); [|lia]. rewrite E.
        destruct (pos_in_ok order _ i HP ltac:(lia)) as [Hp _]. rewrite app_nth1 by lia. auto.
      + rewrite nth_insert_at by lia. rewrite pos_in_axis. rewrite app_nth2 by lia. rewrite <- HLc, Nat.sub_diag. auto.
      + destruct i as [|i]; [lia|]. rewrite nth_insert_gt by lia. rewrite key_at_nth by (rewrite remove_at_length; lia).
        rewrite nth_remove_ge by lia.
        assert (Hin : In i order) by (apply (perm_In order (pred (length cuts))); auto; lia).
        pose proof (pos_in_input axis order i Hin) as E. unfold shift_ax in E. destruct (Nat.ltb_spec i axis); [lia|]. rewrite E.
        destruct (pos_in_ok order _ i HP ltac:(lia)) as [Hp _]. rewrite app_nth1 by lia. auto. }
  clear HL. induction L as [|ci L IH]; simpl; auto. rewrite map_app, IH by (intros; apply Hcore; simpl; auto). f_equal.
  rewrite map_map. rewrite <- (map_nth_seq (nth axis cuts []) KBad) at 2. rewrite map_map. apply map_ext_in. intros j Hj. apply in_seq in Hj.
  apply Hcore; simpl; auto. lia.
Qed.

Lemma gen_keys_NoDup cuts sh order : good_cuts cuts sh -> perm order (length sh) -> NoDup (gen_keys cuts order).
Proof.
  intros HC HP. pose proof (good_cuts_length _ _ HC) as HL. rewrite <- HL in HP. rewrite gen_keys_eq by auto.
  apply NoDup_map_inj; [|apply NoDup_ndindex]. intros x y Hx Hy E. apply ndindex_In in Hx, Hy.
  pose proof (inb_length _ _ Hx) as Lx. pose proof (inb_length _ _ Hy) as Ly. rewrite map_length in Lx, Ly.
  pose proof HP as (HLo & HNo & HFo).
  apply (nth_ext _ _ 0 0); [lia|]. intros p Hp. set (d := nth p order 0).
  assert (Hd : d < length cuts) by (apply (nth_Forall (fun x => x < length cuts)); auto; lia).
  assert (Ep : pos_in order d = p) by (unfold pos_in, d; rewrite index_of_nth by (auto; lia); auto).
  assert (E' : nth d (key_at cuts order x) KBad = nth d (key_at cuts order y) KBad) by congruence.
  rewrite !key_at_nth, Ep in E' by auto.
  destruct (good_cuts_nth _ _ d HC ltac:(lia)) as (_ & _ & _ & HNd).
  pose proof (key_at_in cuts order x d HP Hx Hd) as Bx. pose proof (key_at_in cuts order y d HP Hy Hd) as By. rewrite Ep in Bx, By.
  apply (proj1 (NoDup_nth _ KBad) HNd); auto.
Qed.

(** *** Comparison of chunk keys *)
Lemma slice_eqb_eq s t : slice_eqb s t = true <-> s = t.
Proof.
  destruct s as [a b c], t as [a' b' c']. unfold slice_eqb. simpl. split.
  - intros H. apply andb_prop in H as [H H3]. apply andb_prop in H as [H1 H2].
    assert (Q : forall x y : option Z, opt_eqb Z.eqb x y = true -> x = y).
    { intros [x|] [y|]; simpl; try discriminate; auto. intros E. f_equal. lia. }
    f_equal; apply Q; auto.
  - intros E. injection E as -> -> ->. assert (Q : forall x : option Z, opt_eqb Z.eqb x x = true).
    { intros [x|]; simpl; auto. lia. }
    rewrite !Q. auto.
Qed.
Lemma keys_eqb_eq k k' : forallb plain_key k = true -> keys_eqb k k' = true <-> k = k'.
Proof.
  unfold keys_eqb. revert k'; induction k as [|x k IH]; intros [|y k'] H; simpl; try (split; [discriminate|congruence]).
  { tauto. }
  simpl in H. apply andb_prop in H as [H1 H2]. rewrite andb_true_iff, IH by auto.
  assert (key_eqb x y = true <-> x = y) as ->.
  { destruct x; try discriminate; destruct y; simpl; try (split; [discriminate|congruence]).
    - rewrite Z.eqb_eq. split; congruence.
    - rewrite slice_eqb_eq. split; congruence. }
  split; [intros [-> ->]; auto|intros E; injection E; auto].
Qed.

(** *** The aggregation loop *)
Section AggLoop.
Context {V : Type} (h : handler V) (axis n : nat).
Notation cell := (option V).
Notation chunk := (@chunk V).

Definition pstep (st : nd (hst h)) (d : nd cell) : nd (hst h) :=
  mkND (nshape st) (fun o => hstep h (nget st o) (column d axis o)).
Definition pfold (st : nd (hst h)) (l : list chunk) : nd (hst h) :=
  fold_left (fun st ch => pstep st (snd ch)) l st.
Definition good_chunk (k : list key) (sh : list nat) (ch : chunk) : Prop :=
  remove_at axis (fst ch) = k /\ remove_at axis (nshape (snd ch)) = sh
  /\ hbad h (nth axis (nshape (snd ch)) 0) (prodn sh =? 0) = false.

Lemma pfold_shape l st : nshape (pfold st l) = nshape st.
Proof. unfold pfold. revert st; induction l as [|c l IH]; intros st; simpl; auto. rewrite IH. auto. Qed.
Lemma pfold_get l st o : nget (pfold st l) o = fold_left (hstep h) (map (fun ch => column (snd ch) axis o) l) (nget st o).
Proof. unfold pfold. revert st; induction l as [|c l IH]; intros st; simpl; auto. rewrite IH. auto. Qed.

Lemma agg_process_ok k sh st ch : good_chunk k sh ch -> nshape st = sh -> agg_process h axis st (snd ch) = Ok (pstep st (snd ch)).
Proof.
  intros (H1 & H2 & H3) Hs. unfold agg_process. rewrite Hs, <- H2, shape_eqb_refl. simpl.
  rewrite H2, H3. unfold pstep. rewrite Hs. auto.
Qed.

Lemma loop_same k sh : keys_eqb k k = true -> forall l st rest, Forall (good_chunk k sh) l -> nshape st = sh ->
  agg_loop h axis n (Some (k, st)) (l ++ rest) = agg_loop h axis n (Some (k, pfold st l)) rest.
Proof.
  intros Hk. induction l as [|[k1 d] l IH]; intros st rest HF Hs; auto.
  inversion HF as [|x y Hc HF']; subst. cbn [app agg_loop]. pose proof Hc as (E1 & _). cbn [fst] in E1. rewrite E1, Hk.
  pose proof (agg_process_ok _ _ _ _ Hc eq_refl) as EP. cbn [snd] in EP. rewrite EP. cbn [bind]. rewrite IH by auto.
  unfold pfold. cbn [fold_left snd].
  match goal with |- (r <- ?x ;; Ok r) = _ => destruct x; auto end.
Qed.

(** One group per output key. *)
Definition group_fin (g : list key * list chunk) : chunk :=
  agg_finalise h n (fst g) (match snd g with [] => mkND [] (fun _ => hboot h) | ch :: _ => pfold (agg_boot h axis (snd ch)) (snd g) end).
Definition good_group (g : list key * list chunk) : Prop :=
  forallb plain_key (fst g) = true /\ snd g <> [] /\ exists sh, Forall (good_chunk (fst g) sh) (snd g).

Lemma loop_groups gs : forall k0 st0, Forall good_group gs -> NoDup (k0 :: map fst gs) ->
  agg_loop h axis n (Some (k0, st0)) (flat_map snd gs) = Ok (agg_finalise h n k0 st0 :: map group_fin gs).
Proof.
  induction gs as [|[k l] gs IH]; intros k0 st0 HF HN; auto.
  inversion HF as [|x y (Hp & Hne & sh & Hl) HF']; subst. cbn [fst snd] in *.
  inversion HN as [|x y Hnin HN']; subst. cbn [map fst] in *.
  cbn [flat_map snd]. destruct l as [|[k1 d] l]; [congruence|]. inversion Hl as [|x y Hc Hl']; subst.
  pose proof Hc as (E1 & E2 & _). cbn [fst snd] in E1, E2.
  cbn [app agg_loop]. rewrite E1.
  assert (Hneq : keys_eqb k k0 = false).
  { destruct (keys_eqb k k0) eqn:E; auto. apply keys_eqb_eq in E; auto. subst. exfalso. apply Hnin. simpl; auto. }
  rewrite Hneq. pose proof (agg_process_ok k sh (agg_boot h axis d) (k1, d) Hc E2) as EP. cbn [snd] in EP. rewrite EP. cbn [bind].
  rewrite (loop_same k sh) by (auto; apply keys_eqb_eq; auto). rewrite IH by auto. cbn [bind].
  f_equal.
Qed.

Lemma loop_groups_None gs : gs <> [] -> Forall good_group gs -> NoDup (map fst gs) ->
  agg_loop h axis n None (flat_map snd gs) = Ok (map group_fin gs).
Proof.
  intros Hgs HF HN. destruct gs as [|[k l] gs]; [congruence|]. clear Hgs.
  inversion HF as [|x y (Hp & Hne & sh & Hl) HF']; subst. cbn [fst snd] in *.
  cbn [flat_map snd]. destruct l as [|[k1 d] l]; [congruence|]. inversion Hl as [|x y Hc Hl']; subst.
  pose proof Hc as (E1 & E2 & _). cbn [fst snd] in E1, E2.
  cbn [app agg_loop]. rewrite E1. pose proof (agg_process_ok k sh (agg_boot h axis d) (k1, d) Hc E2) as EP. cbn [snd] in EP. rewrite EP. cbn [bind].
  rewrite (loop_same k sh) by (auto; apply keys_eqb_eq; auto). rewrite loop_groups by auto. cbn [bind]. auto.
Qed.

End AggLoop.

Lemma sel_keys_insert_gen ks sh cs axis c d : nonew ks -> is_new c = false -> sel_keys ks (remove_at axis sh) = Some cs ->
  axis < length sh -> sel_key c (nth axis sh 0) = Some d ->
  sel_keys (insert_at axis c ks) sh = Some (insert_at axis d cs).
Proof.
  revert sh cs axis; induction ks as [|k ks IH]; intros sh cs axis HN Hc H Hax Hd.
  - simpl in H. destruct (remove_at axis sh) eqn:E; [|discriminate]. injection H as <-.
    pose proof (remove_at_length axis sh Hax) as HL. rewrite E in HL. simpl in HL.
    destruct sh as [|n [|m sh]]; simpl in *; try lia. assert (axis = 0) by lia. subst. simpl in Hd.
    rewrite !insert_at_0, sel_keys_cons_eq, Hd by auto. auto.
  - destruct sh as [|n sh]; [simpl in Hax; lia|]. apply nonew_cons in HN as [HN1 HN2].
    destruct axis as [|axis].
    + rewrite remove_at_0 in H. rewrite !insert_at_0. rewrite sel_keys_cons_eq by auto. simpl in Hd. rewrite Hd, H. auto.
    + rewrite remove_at_S in H. rewrite insert_at_S. rewrite sel_keys_cons_eq in H |- * by auto.
      destruct (sel_key k n) as [e|] eqn:Ed; [|discriminate].
      destruct (sel_keys ks (remove_at axis sh)) as [r|] eqn:Er; [|discriminate]. injection H as <-.
      simpl in Hax. simpl in Hd. rewrite (IH sh r axis HN2 Hc Er ltac:(lia) Hd). rewrite insert_at_S. auto.
Qed.

Lemma split_groups {A B} (F : A -> list A) (L : list A) : forall cs : list (A * B), map fst cs = flat_map F L ->
  exists gs, map fst gs = L /\ cs = flat_map snd gs /\ Forall (fun g => map fst (snd g) = F (fst g)) gs.
Proof.
  induction L as [|k L IH]; intros cs H; simpl in H.
  - destruct cs; [|discriminate]. exists []. auto.
  - set (n := length (F k)). destruct (IH (skipn n cs)) as (gs & E1 & E2 & E3).
    { rewrite <- skipn_map, H. unfold n. rewrite skipn_app, skipn_all, Nat.sub_diag. auto. }
    exists ((k, firstn n cs) :: gs). simpl. split; [congruence|]. split.
    + rewrite <- E2. symmetry. apply firstn_skipn.
    + constructor; auto. simpl. rewrite <- firstn_map, H. unfold n. rewrite firstn_app, firstn_all, Nat.sub_diag. simpl. apply app_nil_r.
Qed.

Lemma group_F2 {A B C} (F : C -> A) (P : A * B -> Prop) (Q : C -> Prop) ax (gl : list (A * B)) :
  map fst gl = map F ax -> Forall P gl -> Forall Q ax -> Forall2 (fun c ch => fst ch = F c /\ P ch /\ Q c) ax gl.
Proof.
  revert gl; induction ax as [|c ax IH]; intros [|ch gl] H HP HQ; simpl in H; try discriminate; constructor.
  - injection H as H1 H2. inversion HP; inversion HQ; subst; auto.
  - injection H as H1 H2. inversion HP; inversion HQ; subst; auto.
Qed.

Section AggStreamOK.
Context {V : Type} (O : numops V).
Notation cell := (option V).
Notation chunk := (@chunk V).

(** A chunk of [D]: its key is valid and its data is what the key selects. *)
Definition chunk_of (D : nd cell) (ch : chunk) : Prop :=
  exists s, sel_keys (fst ch) (nshape D) = Some s /\ nd_eq (snd ch) (nd_sel D s).

Lemma split_chunks (F : list key -> list (list key)) L (cs : list chunk) : map fst cs = flat_map F L ->
  exists gs : list (list key * list chunk), map fst gs = L /\ cs = flat_map snd gs
    /\ Forall (fun g : list key * list chunk => map fst (snd g) = F (fst g)) gs.
Proof. exact (split_groups F L cs). Qed.

Lemma pieces_not_bad m (g : agg) lens l b : pieces_fine m g lens -> In l lens -> hbad (handler_of O m g) l b = false.
Proof.
  intros H Hl. destruct g; try (destruct m; reflexivity).
  1,2: destruct H as (n & -> & Hn); destruct Hl as [<-|[]]; assert (E : (n =? 0) = false) by lia;
       destruct m; simpl; unfold no_ident; rewrite E; auto.
  1,2: destruct m; [reflexivity|]; destruct H as [H|(n1 & rest & -> & H1 & H2 & _)]; [discriminate|];
       simpl; unfold no_first; rewrite Forall_forall in H2; destruct Hl as [<-|Hl]; [lia|apply H2 in Hl; lia].
Qed.

(** The pieces of a column of [D] along [axis] cut by the keys [ax]. *)
Definition cut_column (D : nd cell) (axis : nat) (ax : list key) (o : list nat) : list (list cell) :=
  map (fun c => map (fun i => nget D (insert_at axis i o)) (kpos c (nth axis (nshape D) 0))) ax.

Lemma agg_stream_gen (h : handler V) (D : nd cell) cuts axis order (cs : list chunk) :
  good_cuts cuts (nshape D) -> axis < length (nshape D) -> perm order (pred (length (nshape D))) ->
  (forall l b, In l (map (fun k => length (kpos k (nth axis (nshape D) 0))) (nth axis cuts [])) -> hbad h l b = false) ->
  map fst cs = gen_keys cuts (input_order axis order) -> Forall (chunk_of D) cs ->
  exists out, agg_loop h axis (nth axis (nshape D) 0) None cs = Ok out
    /\ map fst out = gen_keys (remove_at axis cuts) order
    /\ Forall (chunk_of (mkND (remove_at axis (nshape D)) (fun o => run_handler h (nth axis (nshape D) 0) (cut_column D axis (nth axis cuts []) o)))) out.
Proof.
  intros HC Hax HP Hpf Hk HF.
  set (sh := nshape D) in *. set (n := nth axis sh 0) in *. set (ax := nth axis cuts []) in *.
  pose proof (good_cuts_length _ _ HC) as HLc.
  assert (HC' : good_cuts (remove_at axis cuts) (remove_at axis sh)) by (apply Forall2_remove; auto).
  assert (HLr : length (remove_at axis sh) = pred (length sh)) by (apply remove_at_length; auto).
  rewrite gen_keys_input in Hk by (rewrite HLc; auto). fold ax in Hk.
  destruct (split_chunks _ _ _ Hk) as (gs & E1 & -> & E3).
  destruct (good_cuts_nth _ _ axis HC Hax) as (Hcat & Hck & Hne & _). fold n ax in Hcat, Hck, Hne.
  (* what is known of a group *)
  assert (HGr : forall gr, In gr gs -> exists s, sel_keys (fst gr) (remove_at axis sh) = Some s
      /\ forallb plain_key (fst gr) = true /\ length s = pred (length sh)
      /\ Forall (fun d => d <> DNew) s /\ vsel s (remove_at axis sh) /\ rk s axis = axis /\ axis <= length (sel_shape s)
      /\ Forall2 (fun c ch => nd_eq (snd ch) (nd_sel D (insert_at axis (DLs (kpos c n)) s))
                              /\ remove_at axis (fst ch) = fst gr) ax (snd gr)).
  { intros gr Hgr. assert (Hkey : In (fst gr) (gen_keys (remove_at axis cuts) order)) by (rewrite <- E1; apply in_map; auto).
    assert (HPc : perm order (length (remove_at axis cuts))) by (rewrite remove_at_length, HLc; auto; lia).
    destruct (gen_keys_In _ _ _ HPc Hkey) as [HL HI].
    rewrite remove_at_length in HL, HI by lia.
    destruct (drawn_lists _ (remove_at axis sh) (fst gr) HC') as (HN & Hpl & s & S1 & S2 & S3 & S4 & S5 & S6).
    { rewrite HLr. lia. } { intros i Hi. apply HI. lia. }
    exists s. split; auto. split; auto. split; [lia|]. split; auto. split; [eapply sel_keys_valid; eauto|].
    assert (Hrk : rk s axis = axis) by (apply rk_lists; auto; lia). split; auto.
    split. { destruct (sel_shape_insert s axis [] S4 ltac:(lia)) as [_ H]. lia. }
    rewrite Forall_forall in E3. specialize (E3 gr Hgr).
    assert (Hd : Forall (chunk_of D) (snd gr)).
    { apply Forall_forall. intros ch Hch. rewrite Forall_forall in HF. apply HF. apply in_flat_map. eauto. }
    eapply Forall2_impl; [|apply (group_F2 _ _ _ _ _ E3 Hd Hck)]. cbv beta. intros c ch (Ech & Hch & Hc).
    destruct Hch as (s' & Es' & Hs'). fold sh in Es'. rewrite Ech in Es'.
    destruct (chunk_key_sel _ _ Hc) as (a & len & Esel & _).
    rewrite (sel_keys_insert_gen _ _ s axis c (DLs (kpos c n))) in Es'; auto.
    - injection Es' as <-. split; auto. rewrite Ech. apply remove_insert. rewrite HL. lia.
    - destruct Hc as [->|(x & y & -> & _)]; auto.
    - unfold kpos. fold n. rewrite Esel. auto. }
  assert (HGG : Forall (good_group h axis) gs).
  { apply Forall_forall. intros gr Hgr. destruct (HGr gr Hgr) as (s & S1 & S2 & S3 & S4 & S5 & S6 & S7 & S8).
    pose proof (Forall2_length _ _ _ S8) as HLg.
    split; auto. split. { intros E. rewrite E in HLg. destruct ax; [congruence|discriminate]. }
    exists (sel_shape s). apply Forall_forall. intros ch Hch.
    destruct (Forall2_In_r _ _ _ _ S8 Hch) as (c & Hc & (D1 & D2) & Hrm).
    destruct (sel_shape_insert s axis (kpos c n) S4 ltac:(lia)) as [Ei _]. rewrite S6 in Ei.
    split; auto. simpl in D1. rewrite D1, Ei. split; [apply remove_insert; auto|].
    rewrite nth_insert_at by auto. apply Hpf. apply in_map_iff. eauto. }
  exists (map (group_fin h axis n) gs). split; [|split].
  - apply loop_groups_None; auto.
    + intros E. subst gs. simpl in E1. assert (HN0 : gen_keys (remove_at axis cuts) order <> []).
      { rewrite gen_keys_eq by (rewrite remove_at_length, HLc; auto; lia).
        intros E. apply map_eq_nil in E. pose proof (ndindex_length (map (fun i => length (nth i (remove_at axis cuts) [])) order)) as Hl.
        rewrite E in Hl. simpl in Hl. symmetry in Hl.
        assert (Hpos : Forall (fun x => 1 <= x) (map (fun i => length (nth i (remove_at axis cuts) [])) order)).
        { apply Forall_map. destruct HP as (_ & _ & HFo). eapply Forall_impl; [|apply HFo]. cbv beta. intros i Hi.
          destruct (good_cuts_nth _ _ i HC' ltac:(lia)) as (_ & _ & Hn & _). destruct (nth i (remove_at axis cuts) []); [congruence|simpl; lia]. }
        clear -Hl Hpos. induction Hpos; simpl in Hl; [lia|]. nia. }
      congruence.
    + rewrite E1. apply (gen_keys_NoDup _ (remove_at axis sh)); auto. rewrite HLr. auto.
  - rewrite map_map. simpl. rewrite <- E1. apply map_ext. auto.
  - apply Forall_map. apply Forall_forall. intros gr Hgr.
    destruct (HGr gr Hgr) as (s & S1 & S2 & S3 & S4 & S5 & S6 & S7 & S8).
    exists s. split; [exact S1|]. unfold group_fin. destruct (snd gr) as [|ch0 rest] eqn:Egr.
    { inversion S8; subst. congruence. }
    cbn [agg_finalise snd]. rewrite <- Egr in *.
    assert (Hch0 : In ch0 (snd gr)) by (rewrite Egr; simpl; auto).
    destruct (Forall2_In_r _ _ _ _ S8 Hch0) as (c0 & Hc0 & (D1 & _) & _).
    destruct (sel_shape_insert s axis (kpos c0 n) S4 ltac:(lia)) as [Ei _]. rewrite S6 in Ei. simpl in D1.
    assert (Hsh : nshape (pfold h axis (agg_boot h axis (snd ch0)) (snd gr)) = sel_shape s).
    { rewrite pfold_shape. unfold agg_boot. simpl. rewrite D1, Ei. apply remove_insert; auto. }
    split; [exact Hsh|]. simpl nshape. rewrite Hsh. intros o Ho. simpl. rewrite pfold_get. simpl nget.
    set (src := sel_map s o). set (f := fun i => nget D (insert_at axis i src)).
    assert (Ecol : map (fun ch => column (snd ch) axis o) (snd gr) = map (fun c => map f (kpos c n)) ax).
    { clear -S8 S4 S6 S7 Ho S3 Hax. set (gl := snd gr) in *. clearbody gl.
      induction S8 as [|c ch cl chl ((A1 & A2) & _) S8 IH]; auto. simpl. f_equal; auto.
      destruct (sel_shape_insert s axis (kpos c n) S4 ltac:(lia)) as [Ei _]. rewrite S6 in Ei. simpl in A1.
      unfold column. rewrite A1, Ei, nth_insert_at by auto. rewrite <- (map_nth_seq (kpos c n) 0) at 2. rewrite map_map.
      apply map_ext_in. intros i Hi. apply in_seq in Hi. rewrite A2.
      - simpl. rewrite <- S6 at 2. rewrite sel_map_insert; auto; try lia. apply inb_length; auto.
      - rewrite A1, Ei. apply insert_at_inb; auto. lia. }
    rewrite Ecol. reflexivity.
Qed.

Lemma agg_stream_ok m g HG (D : nd cell) cuts axis order (cs : list chunk) :
  handler_right O m g HG -> HG (nth axis (nshape D) 0) ->
  good_cuts cuts (nshape D) -> axis < length (nshape D) -> perm order (pred (length (nshape D))) ->
  pieces_fine m g (map (fun k => length (kpos k (nth axis (nshape D) 0))) (nth axis cuts [])) ->
  map fst cs = gen_keys cuts (input_order axis order) -> Forall (chunk_of D) cs ->
  exists out, agg_loop (handler_of O m g) axis (nth axis (nshape D) 0) None cs = Ok out
    /\ map fst out = gen_keys (remove_at axis cuts) order
    /\ Forall (chunk_of (mkND (remove_at axis (nshape D)) (fun o => agg_spec O m g (column D axis o)))) out.
Proof.
  intros HR Hg HC Hax HP Hpf Hk HF.
  destruct (agg_stream_gen (handler_of O m g) D cuts axis order cs HC Hax HP) as (out & E1 & E2 & E3); auto.
  { intros l b Hl. eapply pieces_not_bad; eauto. }
  exists out. split; auto. split; auto. eapply Forall_impl; [|exact E3]. intros ch (s & Es & Hd). exists s. split; [exact Es|].
  split; [exact (proj1 Hd)|]. intros o Ho. rewrite (proj2 Hd o Ho). cbn [nd_sel nget]. generalize (sel_map s o). clear o Ho. intros o.
  set (n := nth axis (nshape D) 0) in *. set (ax := nth axis cuts []) in *. set (f := fun i => nget D (insert_at axis i o)).
  destruct (good_cuts_nth _ _ axis HC Hax) as (Hcat & _). fold n ax in Hcat.
  assert (Ecat : concat (cut_column D axis ax o) = column D axis o).
  { unfold cut_column, column. fold n f. rewrite <- Hcat, concat_map, map_map. auto. }
  assert (Elen : length (concat (cut_column D axis ax o)) = n) by (rewrite Ecat; unfold column; rewrite map_length, seq_length; auto).
  rewrite <- Ecat, <- HR.
  - rewrite Elen. auto.
  - rewrite Elen. auto.
  - unfold cut_column. fold n. rewrite map_map. erewrite map_ext; [exact Hpf|]. intros c. apply map_length.
Qed.

End AggStreamOK.
