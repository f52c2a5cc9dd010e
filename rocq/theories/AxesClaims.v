(** AxesClaims: the axes of a transposition (lemmas). *)
From Verif Require Import Base PySlice Keys NDArray Arrays Chunks Handlers Realise Spec Supported Lib SelLemmas GetBase GetTrans HandlerLemmas Realisable IndexClaims ClassClaims Small.
From Coq Require Import Permutation ZifyBool ZifyNat.

Lemma map_get_some k ax d : forall found v, map_get k (combine ax (seq d (length ax))) found = Some v ->
  found = Some v \/ (d <= v < d + length ax /\ nth (v - d) ax 0%Z = k).
Proof.
  revert d. induction ax as [|a ax IH]; intros d found v H; cbn [combine length seq map_get] in H; auto.
  apply IH in H as [H|[H1 H2]].
  - destruct (Z.eqb_spec a k); auto. injection H as <-. right. cbn [length]. split; [lia|]. rewrite Nat.sub_diag. auto.
  - right. cbn [length]. split; [lia|]. replace (v - d) with (S (v - S d)) by lia. auto.
Qed.
Lemma map_get_none k ax d : forall found, map_get k (combine ax (seq d (length ax))) found = None <-> found = None /\ ~ In k ax.
Proof.
  revert d. induction ax as [|a ax IH]; intros d found; cbn [combine length seq map_get]; [simpl; tauto|]. rewrite IH. cbn [In].
  destruct (Z.eqb_spec a k); split; intros [H1 H2]; try discriminate; split; tauto.
Qed.
Lemma foldM_key_err {A S} (f : S -> A -> res S) l : (forall s x e, In x l -> f s x = Err e -> e = KeyErr) ->
  (exists x, In x l /\ forall s, exists e, f s x = Err e) -> forall s, foldM f s l = Err KeyErr.
Proof.
  induction l as [|y l IH]; intros H (x & Hx & Hf) s; [destruct Hx|]. cbn [foldM]. destruct (f s y) as [s'|e] eqn:E.
  - destruct Hx as [->|Hx]; [destruct (Hf s); congruence|]. apply IH; [|eauto]. intros s0 x0 e Hi. apply H. simpl; auto.
  - f_equal. apply (H s y e); simpl; auto.
Qed.
Definition is_axes (n : nat) (axes : list Z) : Prop := Permutation axes (map Z.of_nat (seq 0 n)).
Lemma not_axes n axes : length axes = n -> ~ is_axes n axes -> exists k, k < n /\ ~ In (Z.of_nat k) axes.
Proof.
  intros HL HN. destruct (existsb (fun k => negb (existsb (Z.eqb (Z.of_nat k)) axes)) (seq 0 n)) eqn:E.
  - apply existsb_exists in E as (k & Hk & E). apply in_seq in Hk. exists k. split; [lia|]. intros Hi. apply negb_true_iff in E.
    assert (existsb (Z.eqb (Z.of_nat k)) axes = true) by (apply existsb_exists; exists (Z.of_nat k); split; auto; apply Z.eqb_refl). congruence.
  - exfalso. apply HN. unfold is_axes. symmetry. apply NoDup_Permutation_bis.
    + apply NoDup_map_inj; [intros; lia|apply seq_NoDup].
    + rewrite map_length, seq_length. lia.
    + intros z Hz. apply in_map_iff in Hz as (k & <- & Hk). rewrite <- not_true_iff_false in E.
      destruct (existsb (Z.eqb (Z.of_nat k)) axes) eqn:E'.
      * apply existsb_exists in E' as (z & Hz & Ez). apply Z.eqb_eq in Ez. subst; auto.
      * exfalso. apply E. apply existsb_exists. exists k. split; auto. rewrite E'. auto.
Qed.
Lemma axes_bound n axes j : is_axes n axes -> j < length axes -> (0 <= nth j axes 0 < Z.of_nat n)%Z.
Proof.
  intros H Hj. assert (Hi : In (nth j axes 0%Z) (map Z.of_nat (seq 0 n))) by (eapply Permutation_in; [exact H|apply nth_In; auto]).
  apply in_map_iff in Hi as (k & <- & Hk). apply in_seq in Hk. lia.
Qed.
Lemma axes_NoDup n axes : is_axes n axes -> NoDup axes /\ length axes = n.
Proof.
  intros H. split.
  - eapply Permutation_NoDup; [symmetry; exact H|]. apply NoDup_map_inj; [intros; lia|apply seq_NoDup].
  - rewrite (Permutation_length H), map_length, seq_length. auto.
Qed.

Lemma mapping_ok {A} (dflt : A) axes (target : list A) : is_axes (length target) axes ->
  apply_mapping (length target) axes target = Ok (map (fun ax => Some (nth (Z.to_nat ax) target dflt)) axes).
Proof.
  intros HA. destruct (axes_NoDup _ _ HA) as [HN HL]. unfold apply_mapping. rewrite Nat.eqb_refl. cbn [negb]. set (n := length target) in *.
  assert (G : forall k i r, i + k = n -> length r = n ->
     (forall j, j < n -> nth j r None = if (nth j axes 0 <? Z.of_nat i)%Z then Some (nth (Z.to_nat (nth j axes 0%Z)) target dflt) else None) ->
     foldM (fun result ax => match map_get (Z.of_nat (fst ax)) (forward_map axes) None with
                          | None => Err KeyErr
                          | Some d => Ok (set_nth d (Some (snd ax)) result)
                          end) r (combine (seq i k) (skipn i target)) = Ok (map (fun ax => Some (nth (Z.to_nat ax) target dflt)) axes)).
  { induction k as [|k IH]; intros i r Hi Hr Hinv.
    - cbn [seq combine foldM]. f_equal. apply (nth_error_ext_nth None); [rewrite map_length; lia|]. intros j Hj.
      rewrite Hinv by lia. pose proof (axes_bound _ _ j HA ltac:(lia)). replace (nth j axes 0 <? Z.of_nat i)%Z with true by lia.
      rewrite (nth_map _ _ _ None 0%Z) by lia. auto.
    - assert (ES : skipn i target = nth i target dflt :: skipn (S i) target).
      { clear -Hi. unfold n in Hi. assert (Hl : i < length target) by lia. clear n k Hi. revert i Hl. induction target as [|x l IH]; intros [|i] Hl; simpl in *; try lia; auto. apply IH. lia. }
      rewrite ES. cbn [seq combine foldM fst snd]. destruct (map_get (Z.of_nat i) (forward_map axes) None) as [d|] eqn:E.
      + unfold forward_map in E. apply map_get_some in E as [E|[E1 E2]]; [discriminate|]. rewrite Nat.sub_0_r in E2.
        apply IH; [lia|rewrite set_nth_length; auto|]. intros j Hj. destruct (Nat.eq_dec j d) as [->|Hne].
        * rewrite nth_set_nth_eq by lia. rewrite E2. replace (Z.of_nat i <? Z.of_nat (S i))%Z with true by lia. rewrite Nat2Z.id. auto.
        * rewrite nth_set_nth_neq by auto. rewrite Hinv by auto.
          assert (Hd : nth j axes 0%Z <> Z.of_nat i) by (intros Eq; apply Hne; apply (proj1 (NoDup_nth axes 0%Z) HN); try lia; congruence).
          destruct (Z.ltb_spec (nth j axes 0%Z) (Z.of_nat i)), (Z.ltb_spec (nth j axes 0%Z) (Z.of_nat (S i))); auto; lia.
      + exfalso. unfold forward_map in E. apply map_get_none in E as [_ E]. apply E. eapply Permutation_in; [symmetry; exact HA|].
        apply in_map, in_seq. lia. }
  apply (G n 0); auto; [apply repeat_length|]. intros j Hj. rewrite nth_repeat. pose proof (axes_bound _ _ j HA ltac:(lia)).
  replace (nth j axes 0 <? Z.of_nat 0)%Z with false by lia. auto.
Qed.
Lemma mapping_bad {A} axes (target : list A) : length axes = length target -> ~ is_axes (length target) axes ->
  apply_mapping (length target) axes target = Err KeyErr.
Proof.
  intros HL HN. unfold apply_mapping. rewrite Nat.eqb_refl. cbn [negb]. destruct (not_axes _ _ HL HN) as (k & Hk & Hnk). apply foldM_key_err.
  - intros s x e _. destruct (map_get _ _ _); [discriminate|congruence].
  - destruct (nth_error target k) as [x|] eqn:E; [|apply nth_error_None in E; lia]. exists (k, x). split.
    + assert (G : forall i (l : list A) k x, nth_error l k = Some x -> In (i + k, x) (combine (seq i (length l)) l)).
      { clear. intros i l. revert i. induction l as [|y l IH]; intros i [|k] x E; cbn in E; try discriminate.
        - injection E as ->. rewrite Nat.add_0_r. simpl; auto.
        - cbn [length seq combine]. right. replace (i + S k) with (S i + k) by lia. auto. }
      exact (G 0 target k x E).
    + intros s. cbn [fst]. exists KeyErr. replace (map_get _ _ _) with (@None nat); auto. symmetry. unfold forward_map. apply map_get_none. auto.
Qed.
