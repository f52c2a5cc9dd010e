(** NewAxLemmas: the bookkeeping of [NewAxesArray.__getitem__]. *)
From Verif Require Import Base PySlice Keys NDArray Arrays Spec Supported Lib SelLemmas KeyLemmas.
From Coq Require Import ZifyBool ZifyNat.

(** Markers: a new axis, a kept dimension, a dimension removed by an integer. *)
Inductive mk := MN | MK | MS.

Definition incr (l : list nat) : list nat := match l with [] => [] | x :: r => S x :: r end.
Fixpoint cntKS (l : list mk) : list nat :=
  match l with [] => [0] | MN :: l' => incr (cntKS l') | _ :: l' => 0 :: cntKS l' end.
Fixpoint cntK (l : list mk) : list nat :=
  match l with
  | [] => [0] | MN :: l' => incr (cntK l') | MK :: l' => 0 :: cntK l' | MS :: l' => cntK l'
  end.
Fixpoint nKS (l : list mk) : nat := match l with [] => 0 | MN :: l' => nKS l' | _ :: l' => S (nKS l') end.
Fixpoint nK (l : list mk) : nat := match l with [] => 0 | MK :: l' => S (nK l') | _ :: l' => nK l' end.
Fixpoint spos (i : nat) (l : list mk) : list nat :=
  match l with
  | [] => [] | MN :: l' => spos i l' | MK :: l' => spos (S i) l' | MS :: l' => i :: spos (S i) l'
  end.
Definition mkf (fl : list bool) : list mk := map (fun b : bool => if b then MN else MK) fl.

Lemma cntKS_nonempty l : cntKS l <> [].
Proof. induction l as [|[] l IH]; simpl; try discriminate. destruct (cntKS l); simpl; congruence. Qed.
Lemma cntK_nonempty l : cntK l <> [].
Proof. induction l as [|[] l IH]; simpl; try discriminate; auto. destruct (cntK l); simpl; congruence. Qed.
Lemma incr_length l : length (incr l) = length l.
Proof. destruct l; auto. Qed.
Lemma cntK_length l : length (cntK l) = S (nK l).
Proof. induction l as [|[] l IH]; simpl; auto. rewrite incr_length; auto. Qed.

Lemma cntKS_insert l1 l2 :
  cntKS (l1 ++ MN :: l2) = set_nth (nKS l1) (S (nth (nKS l1) (cntKS (l1 ++ l2)) 0)) (cntKS (l1 ++ l2)).
Proof.
  induction l1 as [|[] l1 IH]; simpl.
  - pose proof (cntKS_nonempty l2). destruct (cntKS l2); simpl; congruence.
  - rewrite IH. pose proof (cntKS_nonempty (l1 ++ l2)).
    destruct (cntKS (l1 ++ l2)) as [|x r]; [congruence|]. simpl. destruct (nKS l1); auto.
  - rewrite IH; auto.
  - rewrite IH; auto.
Qed.

Lemma cntKS_delete l1 l2 :
  cntKS (l1 ++ l2) = set_nth (nKS l1) (pred (nth (nKS l1) (cntKS (l1 ++ MN :: l2)) 0)) (cntKS (l1 ++ MN :: l2)).
Proof.
  induction l1 as [|[] l1 IH]; simpl.
  - pose proof (cntKS_nonempty l2). destruct (cntKS l2); simpl; congruence.
  - assert (H1 : exists x r, cntKS (l1 ++ MN :: l2) = x :: r /\ (nKS l1 = 0 -> x <> 0)).
    { rewrite cntKS_insert. pose proof (cntKS_nonempty (l1 ++ l2)).
      destruct (cntKS (l1 ++ l2)) as [|x r]; [congruence|]. destruct (nKS l1); simpl; eauto.
      eexists _, _; split; eauto. lia. }
    destruct H1 as (x & r & E & Hx). rewrite E in *. rewrite IH. simpl.
    destruct (nKS l1) as [|p]; simpl; [|reflexivity].
    destruct x; [exfalso; apply Hx; auto|reflexivity].
  - f_equal; auto.
  - f_equal; auto.
Qed.

Lemma cntKS_kind l1 l2 : cntKS (l1 ++ MK :: l2) = cntKS (l1 ++ MS :: l2).
Proof. induction l1 as [|[] l1 IH]; simpl; auto; rewrite IH; auto. Qed.

Lemma nKS_app l1 l2 : nKS (l1 ++ l2) = nKS l1 + nKS l2.
Proof. induction l1 as [|[] l1 IH]; simpl; auto. Qed.
Lemma spos_app i l1 l2 : spos i (l1 ++ l2) = spos i l1 ++ spos (i + nKS l1) l2.
Proof. revert i; induction l1 as [|[] l1 IH]; intros i; simpl; rewrite ?Nat.add_0_r; auto.
  - rewrite IH. do 2 f_equal; lia.
  - rewrite IH. simpl. do 3 f_equal; lia. Qed.

(** ** Merging counts across removed dimensions *)

Definition merge (na : list nat) (axis : nat) : list nat :=
  remove_at (S axis) (set_nth axis (nth axis na 0 + nth (S axis) na 0) na).
Lemma combine_axes_rev na ps : combine_axes na (rev ps) = fold_right (fun p x => merge x p) na ps.
Proof. unfold combine_axes. rewrite <- fold_left_rev_right, rev_involutive. reflexivity. Qed.

Lemma merge_S c na p : merge (c :: na) (S p) = c :: merge na p.
Proof. unfold merge. simpl. rewrite remove_at_S. auto. Qed.
Lemma merge_0 c d na : merge (c :: d :: na) 0 = c + d :: na.
Proof. unfold merge. simpl. rewrite remove_at_S, remove_at_0. auto. Qed.
Lemma merge_incr na p : na <> [] -> merge (incr na) p = incr (merge na p).
Proof.
  destruct na as [|x na]; [congruence|]. intros _. simpl. destruct p.
  - unfold merge. simpl. rewrite !remove_at_S. auto.
  - rewrite !merge_S. auto.
Qed.
Lemma merge_nonempty na p : na <> [] -> merge na p <> [].
Proof. destruct na as [|x na]; [congruence|]. intros _. destruct p.
  - unfold merge. simpl. rewrite remove_at_S. discriminate.
  - rewrite merge_S. discriminate. Qed.

Lemma merges_incr ps na : na <> [] ->
  fold_right (fun p x => merge x p) (incr na) ps = incr (fold_right (fun p x => merge x p) na ps)
  /\ fold_right (fun p x => merge x p) na ps <> [].
Proof.
  intros H. induction ps as [|p ps [IH1 IH2]]; simpl; auto.
  rewrite IH1. rewrite merge_incr by auto. split; auto. apply merge_nonempty; auto.
Qed.

Lemma spos_S i l : spos (S i) l = map S (spos i l).
Proof. revert i; induction l as [|[] l IH]; intros i; simpl; auto. rewrite IH. auto. Qed.

Lemma merges_S c ps na :
  fold_right (fun p x => merge x p) (c :: na) (map S ps) = c :: fold_right (fun p x => merge x p) na ps.
Proof. induction ps; simpl; auto. rewrite IHps, merge_S. auto. Qed.

Lemma combine_cnt l : combine_axes (cntKS l) (rev (spos 0 l)) = cntK l.
Proof.
  rewrite combine_axes_rev. induction l as [|[] l IH]; simpl; auto.
  - destruct (merges_incr (spos 0 l) (cntKS l) (cntKS_nonempty l)) as [E _]. rewrite E, IH. auto.
  - rewrite spos_S, merges_S, IH. auto.
  - rewrite spos_S, merges_S, IH. pose proof (cntK_nonempty l).
    destruct (cntK l) as [|d r]; [congruence|]. rewrite merge_0. auto.
Qed.

(** ** Layout by markers and by flags *)

Fixpoint laymk {A} (one : A) (l : list mk) (base : list A) : list A :=
  match l with
  | [] => []
  | MN :: l' => one :: laymk one l' base
  | MK :: l' => match base with [] => [] | b :: base' => b :: laymk one l' base' end
  | MS :: l' => laymk one l' base
  end.

Lemma newax_layout_incr {A} (one : A) base l : l <> [] ->
  newax_layout one base (incr l) = one :: newax_layout one base l.
Proof. destruct l; [congruence|]. intros _. destruct base; reflexivity. Qed.

Lemma layout_cntK {A} (one : A) l base : nK l = length base ->
  newax_layout one base (cntK l) = laymk one l base.
Proof.
  revert base; induction l as [|[] l IH]; intros base H; simpl in *.
  - destruct base; [auto|discriminate].
  - rewrite newax_layout_incr by apply cntK_nonempty. f_equal; auto.
  - destruct base as [|b base]; [discriminate|]. simpl in *. f_equal; auto.
  - auto.
Qed.

(** The flags of the current dimensions describe the counts. *)
Definition flags (nd : nat) (na : list nat) : list bool := newax_layout true (repeat false nd) na.

Lemma mkf_repeat n fl : mkf (repeat true n ++ fl) = repeat MN n ++ mkf fl.
Proof. induction n; simpl; auto. f_equal; auto. Qed.
Lemma cntKS_repeat n l : cntKS (repeat MN n ++ l) = match cntKS l with [] => [] | x :: r => n + x :: r end.
Proof. induction n; simpl. destruct (cntKS l); auto. rewrite IHn. destruct (cntKS l); auto. Qed.

Lemma cntKS_flags nd na : length na = S nd -> cntKS (mkf (flags nd na)) = na.
Proof.
  unfold flags. revert na; induction nd as [|nd IH]; intros [|n na] H; simpl in *; try discriminate.
  - destruct na; [|discriminate]. rewrite mkf_repeat, cntKS_repeat. simpl. f_equal; lia.
  - rewrite mkf_repeat, cntKS_repeat. simpl. rewrite IH by lia. f_equal; lia.
Qed.

Lemma nK_repeat n l : nK (repeat MN n ++ l) = nK l.
Proof. induction n; simpl; auto. Qed.
Lemma nK_flags nd na : length na = S nd -> nK (mkf (flags nd na)) = nd.
Proof.
  unfold flags. revert na; induction nd as [|nd IH]; intros [|n na] H; simpl in *; try discriminate.
  - destruct na; [|discriminate]. rewrite mkf_repeat, nK_repeat. auto.
  - rewrite mkf_repeat, nK_repeat. simpl. rewrite IH; lia.
Qed.

Lemma cntK_mkf fl : cntK (mkf fl) = cntKS (mkf fl).
Proof. induction fl as [|[] fl IH]; simpl; auto; rewrite IH; auto. Qed.

Lemma layout_flags {A} (one : A) base na : length na = S (length base) ->
  newax_layout one base na = laymk one (mkf (flags (length base) na)) base.
Proof.
  intros H. rewrite <- layout_cntK by (apply nK_flags; auto).
  rewrite cntK_mkf, cntKS_flags by auto. auto.
Qed.

Lemma flags_length nd na : length na = S nd -> length (flags nd na) = nd + fold_right Nat.add 0 na.
Proof.
  unfold flags. revert na; induction nd as [|nd IH]; intros [|n na] H; simpl in *; try discriminate.
  - destruct na; [|discriminate]. simpl. rewrite app_length, repeat_length. simpl. lia.
  - rewrite app_length, repeat_length. simpl. rewrite IH by lia. lia.
Qed.

Lemma laymk_length {A} (one : A) fl base : nK (mkf fl) = length base ->
  length (laymk one (mkf fl) base) = length fl.
Proof. revert base; induction fl as [|[] fl IH]; intros base H; simpl in *; auto.
  destruct base; [discriminate|]. simpl in *. f_equal; auto. Qed.

(** ** What the loop computes *)

Fixpoint nx_mks (ks : list key) (fl : list bool) : list mk :=
  match ks with
  | [] => []
  | KNew :: ks' => MN :: nx_mks ks' fl
  | k :: ks' => match fl with
                | [] => []
                | true :: fl' => (if is_scalar k then [] else [MN]) ++ nx_mks ks' fl'
                | false :: fl' => (if is_scalar k then MS else MK) :: nx_mks ks' fl'
                end
  end.
Fixpoint nx_bd (ki : nat) (ks : list key) (fl : list bool) : list (nat * nat) :=
  match ks with
  | [] => []
  | KNew :: ks' => nx_bd (S ki) ks' fl
  | k :: ks' => match fl with
                | [] => []
                | true :: fl' =>
                    match k with
                    | KSlice s => match slice_idx s 1 with
                                  | Ok l => if length l =? 1 then [] else [(ki, length l)]
                                  | Err _ => []
                                  end
                    | KTuple l => [(ki, length l)]
                    | _ => []
                    end ++ nx_bd (S ki) ks' fl'
                | false :: fl' => nx_bd (S ki) ks' fl'
                end
  end.
Fixpoint nx_cs (s : list dsel) (fl : list bool) : list dsel :=
  match s with
  | [] => []
  | DNew :: s' => nx_cs s' fl
  | d :: s' => match fl with
               | [] => []
               | true :: fl' => nx_cs s' fl'
               | false :: fl' => d :: nx_cs s' fl'
               end
  end.
Fixpoint dropN (l : list mk) (o : list nat) : list nat :=
  match l with
  | [] => []
  | MN :: l' => dropN l' (tl o)
  | MK :: l' => match o with [] => [] | i :: o' => i :: dropN l' o' end
  | MS :: l' => dropN l' o
  end.

(** Shape of the array being indexed, by flags. *)
Notation lay1 fl sh := (laymk 1 (mkf fl) sh).

(** Inversion of a selection along the flags. *)
Lemma sel_lay ks fl sh s : nK (mkf fl) = length sh -> sel_keys ks (lay1 fl sh) = Some s ->
  match ks with
  | [] => s = [] /\ fl = [] /\ sh = []
  | k :: ks' =>
    (k = KNew /\ exists r, s = DNew :: r /\ sel_keys ks' (lay1 fl sh) = Some r)
    \/ (is_new k = false /\ exists fl' d r, fl = true :: fl' /\ s = d :: r /\ sel_key k 1 = Some d
                          /\ sel_keys ks' (lay1 fl' sh) = Some r /\ nK (mkf fl') = length sh)
    \/ (is_new k = false /\ exists fl' n sh' d r, fl = false :: fl' /\ sh = n :: sh' /\ s = d :: r
                          /\ sel_key k n = Some d /\ sel_keys ks' (lay1 fl' sh') = Some r
                          /\ nK (mkf fl') = length sh')
  end.
Proof.
  intros HK H. destruct ks as [|k ks].
  - simpl in H. destruct fl as [|[] fl]; simpl in *.
    + destruct sh; [|discriminate]. injection H as <-. auto.
    + discriminate.
    + destruct sh; simpl in *; discriminate.
  - apply sel_keys_cons in H as [(-> & r & -> & H)|(Hn & He & n & sh' & d & r & E & -> & Hd & H)].
    + left. eauto.
    + right. destruct fl as [|[] fl]; simpl in *; try discriminate.
      * injection E as <- <-. left. split; auto. exists fl, d, r. repeat split; auto.
      * destruct sh as [|m sh]; [discriminate|]. injection E as <- <-. right.
        split; auto. exists fl, m, sh, d, r. simpl in HK. repeat split; auto; lia.
Qed.

Lemma nx_child ks fl sh s : nK (mkf fl) = length sh -> sel_keys ks (lay1 fl sh) = Some s ->
  nonew (nx_ck ks fl) /\ sel_keys (nx_ck ks fl) sh = Some (nx_cs s fl)
  /\ nK (nx_mks ks fl) = length (sel_shape (nx_cs s fl)).
Proof.
  revert fl sh s; induction ks as [|k ks IH]; intros fl sh s HK H.
  - apply sel_lay in H as (-> & -> & ->); auto. simpl. repeat split; auto.
  - apply sel_lay in H; auto.
    destruct H as [(-> & r & -> & H)|[(Hn & fl' & d & r & -> & -> & Hd & H & HK')|
                  (Hn & fl' & n & sh' & d & r & -> & -> & -> & Hd & H & HK')]].
    + apply IH in H as (H1 & H2 & H3); auto. 
    + apply IH in H as (H1 & H2 & H3); auto.
      assert (E1 : nx_ck (k :: ks) (true :: fl') = nx_ck ks fl') by (destruct k; auto; discriminate).
      assert (E2 : nx_cs (d :: r) (true :: fl') = nx_cs r fl')
        by (pose proof (sel_key_not_new _ _ _ Hd); destruct d; auto; congruence).
      assert (E3 : nK (nx_mks (k :: ks) (true :: fl')) = nK (nx_mks ks fl'))
        by (destruct k; auto; discriminate).
      rewrite E1, E2, E3. auto.
    + apply IH in H as (H1 & H2 & H3); auto.
      assert (E1 : nx_ck (k :: ks) (false :: fl') = k :: nx_ck ks fl') by (destruct k; auto; discriminate).
      assert (E2 : nx_cs (d :: r) (false :: fl') = d :: nx_cs r fl')
        by (pose proof (sel_key_not_new _ _ _ Hd); destruct d; auto; congruence).
      assert (E3 : nx_mks (k :: ks) (false :: fl') = (if is_scalar k then MS else MK) :: nx_mks ks fl')
        by (destruct k; auto; discriminate).
      rewrite E1, E2, E3. split; [apply nonew_cons; auto|]. split.
      * rewrite sel_keys_cons_eq, Hd, H2 by auto. auto.
      * apply sel_key_kind in Hd as [(-> & i & ->)|(-> & l & ->)]; simpl; auto.
Qed.

Lemma nx_loop ks : forall fl sh s ki seen done comb ckeys bd,
  nK (mkf fl) = length sh -> sel_keys ks (lay1 fl sh) = Some s -> nx_ok seen ks fl ->
  comb = rev (spos 0 done) ->
  newax_loop ks ki (cntKS (done ++ mkf fl)) comb fl ckeys (nKS done) bd
  = Ok (cntKS (done ++ nx_mks ks fl), rev (spos 0 (done ++ nx_mks ks fl)),
        ckeys ++ nx_ck ks fl, bd ++ nx_bd ki ks fl).
Proof.
  induction ks as [|k ks IH]; intros fl sh s ki seen done comb ckeys bd HK H Hok Hc.
  - apply sel_lay in H as (-> & -> & ->); auto. simpl. rewrite !app_nil_r. subst; auto.
  - apply sel_lay in H; auto.
    destruct H as [(-> & r & -> & H)|[(Hn & fl' & d & r & -> & -> & Hd & H & HK')|
                  (Hn & fl' & n & sh' & d & r & -> & -> & -> & Hd & H & HK')]].
    + simpl. rewrite <- cntKS_insert. specialize (IH fl sh r (S ki) seen (done ++ [MN])).
      rewrite nKS_app in IH. simpl in IH. rewrite Nat.add_0_r in IH. rewrite <- !app_assoc in IH. simpl in IH.
      apply IH; auto. rewrite spos_app. simpl. rewrite app_nil_r. auto.
    + destruct k; simpl in Hn; try discriminate; simpl in Hok; try contradiction.
      * (* integer on a new axis *)
        simpl in Hd. destruct (norm_int i 1) as [j|] eqn:E; [|discriminate].
        assert (B : ((-1 <=? i) && (i <? 1))%Z = true).
        { unfold norm_int in E. simpl in E. destruct ((-1 <=? i) && (i <? 1))%Z; congruence. }
        simpl. rewrite B. rewrite <- cntKS_delete. eapply IH; eauto.
      * (* slice on a new axis *)
        destruct Hok as [_ Hok]. simpl in Hd. destruct (slice_idx s 1) as [l|] eqn:E; [|discriminate].
        simpl. rewrite E. simpl.
        specialize (IH fl' sh r (S ki) seen (done ++ [MN]) comb ckeys (bd ++ (if length l =? 1 then [] else [(ki, length l)]))).
        rewrite nKS_app in IH. simpl in IH. rewrite Nat.add_0_r in IH. rewrite <- !app_assoc in IH. simpl in IH.
        replace (if length l =? 1 then bd else bd ++ [(ki, length l)])
          with (bd ++ (if length l =? 1 then [] else [(ki, length l)]))
          by (destruct (length l =? 1); auto using app_nil_r).
        apply IH; auto. rewrite spos_app. simpl. rewrite app_nil_r. auto.
      * (* tuple on a new axis *)
        destruct Hok as [_ Hok]. simpl in Hd. destruct (norm_ints l 1) as [q|] eqn:E; [|discriminate].
        assert (B : existsb (fun i : Z => negb ((-1 <=? i) && (i <? 1))%Z) l = false).
        { apply existsb_false_Forall. apply norm_ints_Forall2 in E. clear - E.
          induction E as [|i j l q Hij E IH]; constructor; auto.
          unfold norm_int in Hij. simpl in Hij. destruct ((-1 <=? i) && (i <? 1))%Z; auto. discriminate. }
        simpl. rewrite B.
        specialize (IH fl' sh r (S ki) seen (done ++ [MN]) comb ckeys (bd ++ [(ki, length l)])).
        rewrite nKS_app in IH. simpl in IH. rewrite Nat.add_0_r in IH. rewrite <- !app_assoc in IH. simpl in IH.
        apply IH; auto. rewrite spos_app. simpl. rewrite app_nil_r. auto.
    + assert (Hok' : nx_ok (seen || is_scalar k) ks fl') by (destruct k; auto; discriminate).
      assert (E1 : nx_ck (k :: ks) (false :: fl') = k :: nx_ck ks fl') by (destruct k; auto; discriminate).
      assert (E3 : nx_mks (k :: ks) (false :: fl') = (if is_scalar k then MS else MK) :: nx_mks ks fl')
        by (destruct k; auto; discriminate).
      assert (E4 : nx_bd ki (k :: ks) (false :: fl') = nx_bd (S ki) ks fl') by (destruct k; auto; discriminate).
      assert (E5 : newax_loop (k :: ks) ki (cntKS (done ++ mkf (false :: fl'))) comb (false :: fl') ckeys (nKS done) bd
                   = newax_loop ks (S ki) (cntKS (done ++ mkf (false :: fl'))) (if is_scalar k then nKS done :: comb else comb)
                                fl' (ckeys ++ [k]) (S (nKS done)) bd) by (destruct k; auto; discriminate).
      rewrite E1, E3, E4, E5.
      specialize (IH fl' sh' r (S ki) (seen || is_scalar k)
                     (done ++ [if is_scalar k then MS else MK])
                     (if is_scalar k then nKS done :: comb else comb) (ckeys ++ [k]) bd HK' H Hok').
      rewrite nKS_app in IH. rewrite <- !app_assoc in IH. cbn [app] in IH.
      assert (E6 : cntKS (done ++ (if is_scalar k then MS else MK) :: mkf fl') = cntKS (done ++ mkf (false :: fl'))).
      { destruct (is_scalar k); auto. simpl. rewrite <- cntKS_kind. auto. }
      rewrite E6 in IH.
      replace (nKS done + nKS [if is_scalar k then MS else MK]) with (S (nKS done)) in IH
        by (destruct (is_scalar k); simpl; lia).
      apply IH. subst comb. rewrite spos_app. destruct (is_scalar k); simpl.
      * rewrite rev_app_distr. auto.
      * rewrite app_nil_r. auto.
Qed.

(** ** The broadcast dictionary gives the selected shape *)

Definition dict_step (sh : list nat) (al : nat * nat) : res (list nat) :=
  let '(axis, len) := al in
  if length sh <=? axis then Err ValueError
  else if nth axis sh 0 =? 1 then Ok (set_nth axis len sh) else Err ValueError.
Lemma shape_from_dict_eq sh dict : shape_from_dict sh dict = foldM dict_step sh dict.
Proof. reflexivity. Qed.

Lemma set_nth_app {A} (x y : A) pre r : set_nth (length pre) x (pre ++ y :: r) = pre ++ x :: r.
Proof. induction pre; simpl; auto. f_equal; auto. Qed.
Lemma nth_app_mid {A} (y d : A) pre r : nth (length pre) (pre ++ y :: r) d = y.
Proof. induction pre; simpl; auto. Qed.

Lemma dict_step_mid pre r len : dict_step (pre ++ 1 :: r) (length pre, len) = Ok (pre ++ len :: r).
Proof. unfold dict_step. rewrite app_length. simpl.
  replace (length pre + S (length r) <=? length pre) with false by lia.
  rewrite nth_app_mid, set_nth_app. auto. Qed.

Lemma nx_shape ks : forall fl sh s ki seen pre,
  nK (mkf fl) = length sh -> sel_keys ks (lay1 fl sh) = Some s -> nx_ok seen ks fl ->
  (seen = false -> length pre = ki) ->
  shape_from_dict (pre ++ laymk 1 (nx_mks ks fl) (sel_shape (nx_cs s fl))) (nx_bd ki ks fl)
  = Ok (pre ++ sel_shape s).
Proof.
  induction ks as [|k ks IH]; intros fl sh s ki seen pre HK H Hok Hp.
  - apply sel_lay in H as (-> & -> & ->); auto.
  - apply sel_lay in H; auto.
    destruct H as [(-> & r & -> & H)|[(Hn & fl' & d & r & -> & -> & Hd & H & HK')|
                  (Hn & fl' & n & sh' & d & r & -> & -> & -> & Hd & H & HK')]].
    + simpl. specialize (IH fl sh r (S ki) seen (pre ++ [1]) HK H Hok).
      rewrite <- !app_assoc in IH. apply IH. intros E. rewrite app_length. simpl. rewrite Hp; auto; lia.
    + destruct k; simpl in Hn; try discriminate; simpl in Hok; try contradiction.
      * simpl in Hd. destruct (norm_int i 1) as [j|] eqn:E; [|discriminate]. injection Hd as <-.
        simpl. eapply IH; eauto. discriminate.
      * simpl in Hd. destruct (slice_idx s 1) as [l|] eqn:E; [|discriminate]. injection Hd as <-.
        destruct Hok as [Hs Hok]. simpl. rewrite E. rewrite map_length.
        destruct (Nat.eqb_spec (length l) 1) as [EL|EL].
        -- rewrite EL. simpl. specialize (IH fl' sh r (S ki) seen (pre ++ [1]) HK' H Hok).
           rewrite <- !app_assoc in IH. apply IH. intros E'. rewrite app_length. simpl. rewrite Hp; auto; lia.
        -- destruct Hs as [Hs|[p Hs]]; [|injection Hs as ->; simpl in EL; lia].
           specialize (IH fl' sh r (S ki) seen (pre ++ [length l]) HK' H Hok).
           rewrite <- !app_assoc in IH. rewrite shape_from_dict_eq in *. cbn [app foldM].
           rewrite <- (Hp Hs). rewrite dict_step_mid. rewrite (Hp Hs). cbn [app] in IH. apply IH.
           intros _. rewrite app_length. simpl. rewrite Hp; auto; lia.
      * simpl in Hd. destruct (norm_ints l 1) as [q|] eqn:E; [|discriminate]. injection Hd as <-.
        destruct Hok as [Hs Hok]. simpl.
        specialize (IH fl' sh r (S ki) seen (pre ++ [length l]) HK' H Hok).
        rewrite <- !app_assoc in IH. rewrite shape_from_dict_eq in *. cbn [app foldM].
        rewrite <- (Hp Hs). rewrite dict_step_mid. rewrite (Hp Hs). cbn [app] in IH.
        rewrite (norm_ints_length _ _ _ E). apply IH.
        intros _. rewrite app_length. simpl. rewrite Hp; auto; lia.
    + assert (Hok' : nx_ok (seen || is_scalar k) ks fl') by (destruct k; auto; discriminate).
      assert (E2 : nx_cs (d :: r) (false :: fl') = d :: nx_cs r fl')
        by (pose proof (sel_key_not_new _ _ _ Hd); destruct d; auto; congruence).
      assert (E3 : nx_mks (k :: ks) (false :: fl') = (if is_scalar k then MS else MK) :: nx_mks ks fl')
        by (destruct k; auto; discriminate).
      assert (E4 : nx_bd ki (k :: ks) (false :: fl') = nx_bd (S ki) ks fl') by (destruct k; auto; discriminate).
      rewrite E2, E3, E4. apply sel_key_kind in Hd as [(E5 & i & ->)|(E5 & l & ->)]; rewrite E5 in *; simpl.
      * eapply IH; eauto. rewrite orb_true_r. discriminate.
      * rewrite orb_false_r in Hok'.
        specialize (IH fl' sh' r (S ki) seen (pre ++ [length l]) HK' H Hok').
        rewrite <- !app_assoc in IH. apply IH. intros E'. rewrite app_length. simpl. rewrite Hp; auto; lia.
Qed.

Lemma nx_bd_ge ks : forall fl ki, Forall (fun p => ki <= fst p) (nx_bd ki ks fl)
                                  /\ NoDup (map fst (nx_bd ki ks fl)).
Proof.
  assert (W : forall ki (d : list (nat * nat)), Forall (fun p => S ki <= fst p) d -> Forall (fun p => ki <= fst p) d).
  { intros ki d H. eapply Forall_impl; [|apply H]. simpl; intros; lia. }
  assert (C : forall ki n (d : list (nat * nat)), Forall (fun p => S ki <= fst p) d -> NoDup (map fst d) ->
              Forall (fun p => ki <= fst p) ((ki, n) :: d) /\ NoDup (map fst ((ki, n) :: d))).
  { intros ki n d H H2. split; [constructor; simpl; auto|]. simpl. constructor; auto.
    intros Hi. apply in_map_iff in Hi as (p & E & Hp). rewrite Forall_forall in H. apply H in Hp. lia. }
  induction ks as [|k ks IH]; intros fl ki.
  - simpl. split; constructor.
  - destruct (IH fl (S ki)) as [A1 A2].
    destruct k; simpl; auto; destruct fl as [|[] fl]; simpl;
      try (split; solve [constructor]); try (destruct (IH fl (S ki)) as [B1 B2]; auto; fail).
    + destruct (IH fl (S ki)) as [B1 B2].
      destruct (slice_idx s 1) as [a|e]; [destruct (length a =? 1)|]; cbn [app]; auto.
    + destruct (IH fl (S ki)) as [B1 B2]. apply C; auto.
Qed.

(** ** Index maps *)

Lemma sel_laymk_full mks csh o : nK mks = length csh -> inb (laymk 1 mks csh) o ->
  sel_map (laymk DNew mks (full_sels csh)) o = dropN mks o.
Proof.
  revert csh o; induction mks as [|[] mks IH]; intros csh o HK H; simpl in *.
  - auto.
  - apply inb_cons_inv in H as (i & o' & -> & Hi & H). simpl. auto.
  - destruct csh as [|n csh]; [discriminate|]. simpl in *.
    apply inb_cons_inv in H as (i & o' & -> & Hi & H). simpl. rewrite seq_nth by auto.
    f_equal; auto.
  - auto.
Qed.

Lemma sel_shape_laymk mks csh : nK mks = length csh ->
  sel_shape (laymk DNew mks (full_sels csh)) = laymk 1 mks csh.
Proof.
  revert csh; induction mks as [|[] mks IH]; intros csh HK; simpl in *; auto.
  - f_equal; auto.
  - destruct csh as [|n csh]; [discriminate|]. simpl in *. rewrite seq_length. f_equal; auto.
Qed.

Lemma nx_index ks : forall fl sh s o,
  nK (mkf fl) = length sh -> sel_keys ks (lay1 fl sh) = Some s -> inb (sel_shape s) o ->
  sel_map (laymk DNew (mkf fl) (full_sels sh)) (sel_map s o) = sel_map (nx_cs s fl) (dropN (nx_mks ks fl) o)
  /\ inb (sel_shape (nx_cs s fl)) (dropN (nx_mks ks fl) o).
Proof.
  induction ks as [|k ks IH]; intros fl sh s o HK H Ho.
  - apply sel_lay in H as (-> & -> & ->); auto. simpl in *. apply inb_nil in Ho; subst. split; auto.
    apply inb_nil; auto.
  - apply sel_lay in H; auto.
    destruct H as [(-> & r & -> & H)|[(Hn & fl' & d & r & -> & -> & Hd & H & HK')|
                  (Hn & fl' & n & sh' & d & r & -> & -> & -> & Hd & H & HK')]].
    + simpl in *. apply inb_cons_inv in Ho as (i & o' & -> & Hi & Ho). simpl. eapply IH; eauto.
    + assert (E2 : nx_cs (d :: r) (true :: fl') = nx_cs r fl')
        by (pose proof (sel_key_not_new _ _ _ Hd); destruct d; auto; congruence).
      assert (E3 : nx_mks (k :: ks) (true :: fl') = (if is_scalar k then [] else [MN]) ++ nx_mks ks fl')
        by (destruct k; auto; discriminate).
      rewrite E2, E3. simpl. apply sel_key_kind in Hd as [(E5 & i & ->)|(E5 & l & ->)]; rewrite E5; simpl in *.
      * eapply IH; eauto.
      * apply inb_cons_inv in Ho as (i & o' & -> & Hi & Ho). simpl. eapply IH; eauto.
    + assert (E2 : nx_cs (d :: r) (false :: fl') = d :: nx_cs r fl')
        by (pose proof (sel_key_not_new _ _ _ Hd); destruct d; auto; congruence).
      assert (E3 : nx_mks (k :: ks) (false :: fl') = (if is_scalar k then MS else MK) :: nx_mks ks fl')
        by (destruct k; auto; discriminate).
      rewrite E2, E3. pose proof (sel_key_valid _ _ _ Hd) as Hv.
      apply sel_key_kind in Hd as [(E5 & i & ->)|(E5 & l & ->)]; rewrite E5; simpl in *.
      * rewrite seq_nth by auto. edestruct IH as [A B]; eauto. split; auto. f_equal; auto.
      * apply inb_cons_inv in Ho as (i & o' & -> & Hi & Ho). simpl.
        assert (Hlt : nth i l 0 < n) by (apply (nth_Forall (fun j => j < n)); auto).
        rewrite seq_nth by auto. edestruct IH as [A B]; eauto. split; auto.
        -- f_equal; auto.
        -- apply inb_cons; auto.
Qed.
