(** ThreadTree: the graph of expressions that share no array object. *)
From Verif Require Import Base Lib PySlice Keys NDArray Arrays Chunks Handlers Realise GetBase Kahn Threads ThreadSpec ThreadBuild ThreadSem.

Section Tree.
Context {V : Type} (O : numops V).
Notation barr := (@barr V).
Notation entry := (@entry V).

(** The entries of one expression, from number [base] on; the last is the
    expression itself. *)
Fixpoint tree (base : nat) (a : barr) : list entry :=
  match a with
  | AAgg g c axis d => let t := tree base c in t ++ [EAgg g (base + pred (length t)) axis d]
  | AEl1 o c d => let t := tree base c in t ++ [EEl1 o (base + pred (length t)) d]
  | AEl2 o c1 c2 d =>
      let t1 := tree base c1 in
      let t2 := tree (base + length t1) c2 in
      (t1 ++ t2) ++ [EEl2 o (base + pred (length t1)) (base + length t1 + pred (length t2)) d]
  | _ => [EArr a]
  end.
(** The entries of a list of expressions, and the numbers of the expressions. *)
Fixpoint forest (base : nat) (l : list barr) : list entry * list nat :=
  match l with
  | [] => ([], [])
  | a :: r => let t := tree base a in
              let f := forest (base + length t) r in
              (t ++ fst f, (base + pred (length t)) :: snd f)
  end.

Definition good_part (base : nat) (d : list entry) : Prop :=
  (forall i e s, nth_error d i = Some e -> In s (entry_srcs e) -> base <= s < base + i) /\
  (forall i a, nth_error d i = Some (EArr a) -> produces a) /\
  NoDup (flat_map entry_srcs d).

Lemma part_srcs base d s : good_part base d -> In s (flat_map entry_srcs d) -> base <= s < base + pred (length d).
Proof.
  intros (H & _) Hs. apply in_flat_map in Hs as (e & He & Hs). apply In_nth_error in He as [i Hi]. pose proof (H i e s Hi Hs).
  assert (i < length d) by (apply nth_error_Some; congruence). lia.
Qed.
Lemma part_app base d1 d2 : good_part base d1 -> good_part (base + length d1) d2 -> good_part base (d1 ++ d2).
Proof.
  intros H1 H2. pose proof (fun x => part_srcs base d1 x H1) as P1. pose proof (fun x => part_srcs (base + length d1) d2 x H2) as P2.
  destruct H1 as (A1 & B1 & C1), H2 as (A2 & B2 & C2). split; [|split].
  - intros i e s Hi Hs. destruct (Nat.lt_ge_cases i (length d1)) as [Hl|Hl].
    + rewrite nth_error_app1 in Hi by auto. eapply A1; eauto.
    + rewrite nth_error_app2 in Hi by auto. specialize (A2 _ _ _ Hi Hs). lia.
  - intros i a Hi. destruct (Nat.lt_ge_cases i (length d1)) as [Hl|Hl].
    + rewrite nth_error_app1 in Hi by auto. eapply B1; eauto.
    + rewrite nth_error_app2 in Hi by auto. eapply B2; eauto.
  - rewrite flat_map_app. apply NoDup_app_iff'. split; auto. split; auto. intros x Hx1 Hx2.
    specialize (P1 x Hx1). specialize (P2 x Hx2). lia.
Qed.
Lemma part_snoc base d e : good_part base d -> (forall a, e <> EArr a) -> NoDup (entry_srcs e) ->
  (forall s, In s (entry_srcs e) -> base <= s < base + length d /\ ~ In s (flat_map entry_srcs d)) -> good_part base (d ++ [e]).
Proof.
  intros (A1 & B1 & C1) He HN Hs. split; [|split].
  - intros i e' s Hi Hin. destruct (Nat.lt_ge_cases i (length d)) as [Hl|Hl].
    + rewrite nth_error_app1 in Hi by auto. eapply A1; eauto.
    + rewrite nth_error_app2 in Hi by auto. destruct (i - length d) as [|k] eqn:Ek; [|destruct k; discriminate]. injection Hi as <-.
      destruct (Hs s Hin). lia.
  - intros i a Hi. destruct (Nat.lt_ge_cases i (length d)) as [Hl|Hl].
    + rewrite nth_error_app1 in Hi by auto. eapply B1; eauto.
    + rewrite nth_error_app2 in Hi by auto. destruct (i - length d) as [|k]; [|destruct k; discriminate]. injection Hi as Hi. exfalso. eapply He; eauto.
  - rewrite flat_map_app. cbn [flat_map]. rewrite app_nil_r. apply NoDup_app_iff'. split; auto. split; auto. intros x H1 H2. destruct (Hs x H2). auto.
Qed.
Lemma tree_length base a : 1 <= length (tree base a).
Proof. destruct a; cbn [tree]; try (simpl; lia); cbv zeta; rewrite !app_length; simpl; lia. Qed.
Lemma tree_part : forall a base, good_part base (tree base a).
Proof.
  assert (Hleaf : forall a base, produces a -> good_part base [EArr a]).
  { intros a base Ha. split; [|split]; [intros [|[|]] e s Hi Hs; try discriminate; injection Hi as <-; destruct Hs|intros [|[|]] b Hb; try discriminate; injection Hb as <-; auto|constructor]. }
  induction a using barr_ind2; intros base; cbn [tree]; try (apply Hleaf; exact I); cbv zeta.
  - pose proof (tree_length base a) as HL. apply part_snoc; auto; [discriminate|repeat constructor; auto|]. intros s [<-|[]]. split; [lia|].
    intros Hin. apply (part_srcs base _ _ (IHa base)) in Hin. lia.
  - pose proof (tree_length base a) as HL. apply part_snoc; auto; [discriminate|repeat constructor; auto|]. intros s [<-|[]]. split; [lia|].
    intros Hin. apply (part_srcs base _ _ (IHa base)) in Hin. lia.
  - pose proof (tree_length base a1) as HL1. set (b2 := base + length (tree base a1)). pose proof (tree_length b2 a2) as HL2. apply part_snoc; auto; [apply part_app; auto|discriminate| |].
    + constructor; [|repeat constructor; auto]. intros [E|[]]. unfold b2 in *. lia.
    + intros s Hs. rewrite app_length, flat_map_app, in_app_iff. split; [unfold b2 in *; destruct Hs as [<-|[<-|[]]]; lia|].
      intros [Hin|Hin]; [apply (part_srcs base _ _ (IHa1 base)) in Hin|apply (part_srcs b2 _ _ (IHa2 b2)) in Hin]; unfold b2 in *; destruct Hs as [<-|[<-|[]]]; lia.
Qed.
Lemma expr_last P (e : entry) : expr O (P ++ [e]) (length P) = entry_expr O (exprs O P) e.
Proof. unfold expr. rewrite exprs_snoc, app_nth2, exprs_length, Nat.sub_diag by (rewrite exprs_length; lia). auto. Qed.
Lemma expr_pre P (e : entry) i : i < length P -> nth i (exprs O P) (no_array O) = expr O P i.
Proof. auto. Qed.
Lemma tree_expr : forall a P, expr O (P ++ tree (length P) a) (length P + pred (length (tree (length P) a))) = a.
Proof.
  assert (Hleaf : forall a P, expr O (P ++ [EArr a]) (length P + pred (length [EArr a])) = a).
  { intros a P. simpl. rewrite Nat.add_0_r. apply expr_last. }
  induction a using barr_ind2; intros P; cbn [tree]; try apply Hleaf; cbv zeta.
  - pose proof (tree_length (length P) a) as HL. rewrite app_assoc, app_length. cbn [length]. replace (length P + pred (length (tree (length P) a) + 1)) with (length (P ++ tree (length P) a)) by (rewrite app_length; lia).
    rewrite expr_last. cbn [entry_expr]. f_equal. apply (IHa P).
  - pose proof (tree_length (length P) a) as HL. rewrite app_assoc, app_length. cbn [length]. replace (length P + pred (length (tree (length P) a) + 1)) with (length (P ++ tree (length P) a)) by (rewrite app_length; lia).
    rewrite expr_last. cbn [entry_expr]. f_equal. apply (IHa P).
  - pose proof (tree_length (length P) a1) as HL1. set (t1 := tree (length P) a1) in *. pose proof (tree_length (length P + length t1) a2) as HL2.
    set (t2 := tree (length P + length t1) a2) in *. rewrite app_assoc. 
    replace (length P + pred (length ((t1 ++ t2) ++ [EEl2 o (length P + pred (length t1)) (length P + length t1 + pred (length t2)) d]))) with (length (P ++ t1 ++ t2)) by (rewrite !app_length; cbn [length]; lia).
    rewrite expr_last. cbn [entry_expr]. f_equal.
    + change (expr O (P ++ t1 ++ t2) (length P + pred (length t1)) = a1). rewrite app_assoc, expr_app by (rewrite app_length; lia). apply (IHa1 P).
    + change (expr O (P ++ t1 ++ t2) (length P + length t1 + pred (length t2)) = a2). rewrite app_assoc. specialize (IHa2 (P ++ t1)). rewrite app_length in IHa2. exact IHa2.
Qed.

Lemma forest_ok l : forall P, let f := forest (length P) l in
  good_part (length P) (fst f) /\ NoDup (flat_map entry_srcs (fst f) ++ snd f) /\
  (forall r, In r (snd f) -> length P <= r < length P + length (fst f)) /\
  map (expr O (P ++ fst f)) (snd f) = l.
Proof.
  induction l as [|a l IH]; intros P; cbn [forest]; cbv zeta.
  - cbn [fst snd flat_map app map]. split; [split; [|split]|split; [|split]]; auto; try (intros [|i]; discriminate); try constructor; try contradiction.
  - pose proof (tree_length (length P) a) as HL. pose proof (tree_part a (length P)) as HT. set (t := tree (length P) a) in *. specialize (IH (P ++ t)). rewrite app_length in IH. cbv zeta in IH.
    destruct IH as (G & ND & Hr & He). set (f := forest (length P + length t) l) in *. cbn [fst snd]. split; [apply part_app; auto|]. split.
    + rewrite flat_map_app, <- app_assoc. apply NoDup_app_iff'. split; [apply HT|]. split.
      * apply NoDup_app_iff' in ND as (N1 & N2 & N3). apply NoDup_app_iff'. split; auto. split.
        -- constructor; auto. intros Hin. apply Hr in Hin. lia.
        -- intros x Hx [<-|Hx']; [|eauto]. apply (part_srcs _ _ _ G) in Hx. lia.
      * intros x Hx Hy. apply (part_srcs _ _ _ HT) in Hx. apply in_app_iff in Hy as [Hy|[<-|Hy]]; [apply (part_srcs _ _ _ G) in Hy| |apply Hr in Hy]; lia.
    + split.
      * intros r [<-|Hin]; rewrite app_length; [lia|]. apply Hr in Hin. lia.
      * cbn [map]. rewrite app_assoc. f_equal; [|exact He]. rewrite expr_app by (rewrite app_length; lia). apply tree_expr.
Qed.
(** The graph of a list of expressions. *)
Lemma forest_graph l : let dag := fst (forest 0 l) in let roots := snd (forest 0 l) in
  dag_ok dag roots /\ unshared dag roots /\ map (expr O dag) roots = l.
Proof.
  cbv zeta. destruct (forest_ok l []) as (G & ND & Hr & He). cbn [length app] in *. split; [|split; auto].
  destruct G as (A & B & _). split; [|split]; auto.
  - intros i e s Hi Hs. specialize (A i e s Hi Hs). lia.
  - intros r Hin. apply Hr in Hin. lia.
Qed.
End Tree.
