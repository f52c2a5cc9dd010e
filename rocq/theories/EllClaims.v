(** EllClaims: several Ellipsis keys in one tuple.  Nothing here models /repo. *)
From Verif Require Import Base PySlice Keys NDArray Spec Lib KeyLemmas.

(** Every Ellipsis is one full slice, except that with [j] others before it: that
    one is [fill]. *)
Definition one_ell (k : key) : key := if is_ell k then KFull else k.
Fixpoint ell_at (j : nat) (fill keys : list key) : list key :=
  match keys with
  | [] => []
  | k :: r => if is_ell k
              then match j with 0 => fill ++ map one_ell r | S j' => KFull :: ell_at j' fill r end
              else k :: ell_at j fill r
  end.
(** The keys without the first Ellipsis. *)
Fixpoint drop_ell (keys : list key) : list key :=
  match keys with [] => [] | k :: r => if is_ell k then r else k :: drop_ell r end.
Definition ells (keys : list key) : nat := count_if is_ell keys.
Definition addressed (keys : list key) : nat := count_if (fun k => negb (is_new k)) keys.

Lemma no_ells keys : ells keys = 0 -> map one_ell keys = keys.
Proof.
  unfold ells. induction keys as [|k r IH]; auto. rewrite count_if_cons. cbn [map]. unfold one_ell at 1. destruct (is_ell k); simpl; intros H; [discriminate|]. rewrite IH; auto.
Qed.
Lemma ell_at_app j fill l r : ells l <= j -> ell_at j fill (l ++ r) = map one_ell l ++ ell_at (j - ells l) fill r.
Proof.
  revert j. unfold ells, count_if. induction l as [|k l IH]; intros j H; cbn [app map]; [cbn; rewrite Nat.sub_0_r; auto|].
  cbn [ell_at filter] in *. change (one_ell k) with (if is_ell k then KFull else k). destruct (is_ell k); cbn [length] in *.
  - destruct j as [|j]; [lia|]. rewrite IH by lia. auto.
  - rewrite IH by lia. auto.
Qed.
Lemma ell_at_left j fill l r : j < ells l -> ell_at j fill (l ++ r) = ell_at j fill l ++ map one_ell r.
Proof.
  revert j. unfold ells, count_if. induction l as [|k l IH]; intros j H; cbn [app] in *; [cbn in H; lia|].
  cbn [ell_at filter] in *. destruct (is_ell k); cbn [length] in *.
  - destruct j as [|j]; [rewrite map_app, <- app_assoc; auto|]. rewrite IH by lia. auto.
  - rewrite IH by lia. auto.
Qed.
Lemma repeat_snoc {A} (x : A) n : repeat x n ++ [x] = x :: repeat x n.
Proof. induction n; simpl; auto. rewrite IHn. auto. Qed.

(** What the loop of [_full_keys] makes of the remaining keys, [pad] being put
    between the two lists it builds. *)
Lemma fk_loop_ells n : forall fuel keys lh rh left, length keys <= fuel ->
  let '(lh', rh') := fk_loop fuel keys lh rh left in
  lh' ++ repeat KFull n ++ rev rh' =
  lh ++ (if ells keys =? 0 then (if left then keys ++ repeat KFull n else repeat KFull n ++ keys)
         else ell_at ((if left then ells keys else ells keys - 1) / 2) (repeat KFull (S n)) keys) ++ rev rh.
Proof.
  induction fuel as [|f IH]; intros keys lh rh left HL.
  - destruct keys; [|simpl in HL; lia]. cbn. destruct left; rewrite ?app_nil_r; auto.
  - destruct left; cbn [fk_loop].
    + destruct keys as [|k ks]; [cbn; auto|]. cbn [length] in HL. unfold ells in *. rewrite count_if_cons. destruct (is_ell k) eqn:Ek.
      * specialize (IH ks (lh ++ [KFull]) rh false ltac:(lia)). destruct (fk_loop f ks (lh ++ [KFull]) rh false) as [lh' rh'].
        rewrite IH. rewrite <- app_assoc. cbn [app]. f_equal. cbn [ell_at]. rewrite Ek. change (1 + count_if is_ell ks =? 0) with false. cbn iota.
        destruct (Nat.eqb_spec (count_if is_ell ks) 0) as [E|E].
        -- rewrite E. change ((1 + 0) / 2) with 0. cbn iota. rewrite (no_ells ks E). cbn [repeat app]. auto.
        -- replace ((1 + count_if is_ell ks) / 2) with (S ((count_if is_ell ks - 1) / 2)); auto.
           replace (1 + count_if is_ell ks) with ((count_if is_ell ks - 1) + 1 * 2) by lia. rewrite Nat.div_add by lia. lia.
      * specialize (IH ks (lh ++ [k]) rh true ltac:(lia)). destruct (fk_loop f ks (lh ++ [k]) rh true) as [lh' rh'].
        rewrite IH. rewrite <- app_assoc. cbn [app]. f_equal. cbn [Nat.add ell_at]. rewrite Ek. destruct (count_if is_ell ks =? 0); auto.
    + assert (HK : keys = [] \/ exists ks k, keys = ks ++ [k]).
      { destruct keys; auto. right. destruct (exists_last (l := k :: keys)) as (ks & x & E); [discriminate|]. eauto. }
      destruct HK as [->|(ks & k & ->)]; [cbn; rewrite ?app_nil_r; auto|].
      assert (Hm : forall A (x y : A), match ks ++ [k] with [] => x | _ => y end = y) by (intros; destruct ks; auto). rewrite Hm. clear Hm.
      rewrite last_last, removelast_last. rewrite app_length in HL. cbn [length] in HL. unfold ells in *. rewrite count_if_app, count_if_cons. change (count_if is_ell []) with 0.
      destruct (is_ell k) eqn:Ek.
      * specialize (IH ks lh (rh ++ [KFull]) true ltac:(lia)). destruct (fk_loop f ks lh (rh ++ [KFull]) true) as [lh' rh'].
        rewrite IH. rewrite rev_app_distr. cbn [rev app]. f_equal. replace (count_if is_ell ks + (1 + 0) =? 0) with false by (symmetry; apply Nat.eqb_neq; lia).
        replace (count_if is_ell ks + (1 + 0) - 1) with (count_if is_ell ks) by lia.
        destruct (Nat.eqb_spec (count_if is_ell ks) 0) as [E|E].
        -- rewrite E. change (0 / 2) with 0. rewrite ell_at_app by (unfold ells; lia). rewrite (no_ells ks E). unfold ells. rewrite E. cbn [Nat.sub ell_at]. rewrite Ek.
           cbn [map]. rewrite app_nil_r. rewrite <- !app_assoc. f_equal. change (repeat KFull (S n)) with (KFull :: repeat KFull n). rewrite <- (repeat_snoc KFull n), <- app_assoc. auto.
        -- rewrite ell_at_left by (unfold ells; apply Nat.div_lt; lia). rewrite <- app_assoc. f_equal. cbn [map app]. unfold one_ell. rewrite Ek. auto.
      * specialize (IH ks lh (rh ++ [k]) false ltac:(lia)). destruct (fk_loop f ks lh (rh ++ [k]) false) as [lh' rh'].
        rewrite IH. rewrite rev_app_distr. cbn [rev app]. f_equal. rewrite !Nat.add_0_r.
        destruct (Nat.eqb_spec (count_if is_ell ks) 0) as [E|E].
        -- rewrite <- !app_assoc. auto.
        -- rewrite ell_at_left by (unfold ells; apply Nat.div_lt_upper_bound; lia). cbn [map]. unfold one_ell. rewrite Ek. rewrite <- app_assoc. auto.
Qed.

Lemma pop_drop keys : pop_first_ell keys = drop_ell keys.
Proof. induction keys as [|k r IH]; cbn [pop_first_ell drop_ell]; [|destruct (is_ell k)]; congruence. Qed.
Lemma drop_counts keys : existsb is_ell keys = true -> ells keys = S (ells (drop_ell keys)) /\ addressed keys = S (addressed (drop_ell keys)).
Proof.
  unfold ells, addressed. induction keys as [|k r IH]; cbn [existsb drop_ell]; [discriminate|]. rewrite !count_if_cons. destruct (is_ell k) eqn:E; cbn [orb].
  - intros _. destruct k; try discriminate. cbn. auto.
  - intros H. destruct (IH H) as [H1 H2]. rewrite !count_if_cons, E, H1, H2. destruct (is_new k); simpl; lia.
Qed.
Lemma ells_pos keys : 1 <= ells keys <-> existsb is_ell keys = true.
Proof.
  unfold ells. induction keys as [|k r IH]; cbn [existsb]; [cbn; split; [lia|discriminate]|]. rewrite count_if_cons. destruct (is_ell k); cbn; [split; auto; lia|]. exact IH.
Qed.
Lemma ell_at_one j keys : ells keys <> 0 -> j < ells keys -> ell_at j (repeat KFull 1) keys = map one_ell keys.
Proof.
  unfold ells. revert j. induction keys as [|k r IH]; intros j; [cbn; lia|]. rewrite count_if_cons. cbn [ell_at map]. change (one_ell k) with (if is_ell k then KFull else k). destruct (is_ell k) eqn:E; intros H1 H2.
  - destruct j as [|j]; [auto|]. f_equal. apply IH; lia.
  - f_equal. apply IH; lia.
Qed.

Lemma full_keys_ells keys ndim : 1 <= ells keys ->
  full_keys keys ndim =
  if addressed keys <=? ndim then Ok (ell_at (ells keys / 2) (repeat KFull (S (ndim - addressed keys))) keys)
  else if addressed keys =? S ndim then Ok (map one_ell (drop_ell keys))
  else Err IndexError.
Proof.
  intros H1. pose proof (proj1 (ells_pos keys) H1) as HE. destruct (drop_counts keys HE) as [D1 D2].
  unfold full_keys. fold (addressed keys). rewrite HE. rewrite andb_true_r. rewrite pop_drop.
  destruct (Nat.leb_spec (addressed keys) ndim) as [L|L].
  - replace (ndim <=? addressed keys - 1) with false by (symmetry; apply Nat.leb_gt; lia). replace (ndim <? addressed keys) with false by (symmetry; apply Nat.ltb_ge; lia).
    pose proof (fk_loop_ells (ndim - addressed keys) (length keys) keys [] [] true (le_n _)) as H. destruct (fk_loop _ _ _ _ _) as [lh rh]. cbn [app rev] in H.
    replace (ells keys =? 0) with false in H by (symmetry; apply Nat.eqb_neq; lia). rewrite app_nil_r in H. f_equal. exact H.
  - replace (ndim <=? addressed keys - 1) with true by (symmetry; apply Nat.leb_le; lia).
    destruct (Nat.eqb_spec (addressed keys) (S ndim)) as [E|E].
    + rewrite E. cbn [Nat.sub]. rewrite Nat.sub_0_r, Nat.ltb_irrefl, Nat.sub_diag.
      pose proof (fk_loop_ells 0 (length (drop_ell keys)) (drop_ell keys) [] [] true (le_n _)) as H. destruct (fk_loop _ _ _ _ _) as [lh rh]. cbn [app rev] in H.
      cbn [repeat app] in *. f_equal. rewrite H, app_nil_r. destruct (Nat.eqb_spec (ells (drop_ell keys)) 0) as [E0|E0].
      * rewrite app_nil_r. symmetry. apply no_ells; auto.
      * apply (ell_at_one _ _ E0). apply Nat.div_lt; lia.
    + replace (ndim <? addressed keys - 1) with true by (symmetry; apply Nat.ltb_lt; lia). auto.
Qed.
