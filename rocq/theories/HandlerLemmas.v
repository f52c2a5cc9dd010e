(** HandlerLemmas: what each aggregation handler computes from the pieces of a
    column, for any value type with the listed laws. *)
From Verif Require Import Base PySlice Keys NDArray Arrays Handlers Spec Lib.

(** The laws of exact arithmetic the non-statistical aggregations rest on.  They
    hold of integers, of integers modulo 2^w and of real numbers. *)
Record laws {V} (O : numops V) : Prop := mkLaws {
  l_assoc : forall a b c, vadd O (vadd O a b) c = vadd O a (vadd O b c);
  l_sum : forall l, vsum O l = fold_left (vadd O) l (v0 O);
  l_0l : forall a, vadd O (v0 O) a = a;
  l_0r : forall a, vadd O a (v0 O) = a;
  l_ofn : forall a b, vofn O (a + b) = vadd O (vofn O a) (vofn O b);
  l_min : forall a b c, vmin O (vmin O a b) c = vmin O a (vmin O b c);
  l_max : forall a b c, vmax O (vmax O a b) c = vmax O a (vmax O b c)
}.

(** What minimum and maximum alone rest on.  Floating-point numbers have it too,
    although their additions do not associate. *)
Record orders {V} (O : numops V) : Prop := mkOrders {
  o_min : forall a b c, vmin O (vmin O a b) c = vmin O a (vmin O b c);
  o_max : forall a b c, vmax O (vmax O a b) c = vmax O a (vmax O b c)
}.
Lemma laws_orders {V} (O : numops V) : laws O -> orders O.
Proof. intros L. constructor; apply L. Qed.

(** In which sizes of pieces a column must arrive for a handler to be right:
    minimum and maximum keep only the last piece; the plain deviation restarts
    after a first piece of one observation. *)
Definition pieces_fine (m : bool) {V} (g : @agg V) (lens : list nat) : Prop :=
  match g with
  | GCount | GSum | GMean _ => True
  | GMin | GMax => exists n, lens = [n] /\ 1 <= n
  | GStd _ | GVar _ =>
      m = true \/ exists n1 rest, lens = n1 :: rest /\ 1 <= n1 /\ Forall (fun n => 1 <= n) rest
                                  /\ (rest = [] \/ 2 <= n1)
  end.

Section HandlerLemmas.
Context {V : Type} (O : numops V).
Notation cell := (option V).

(** [HG g n]: side condition on the aggregation for columns of length [n]. *)
Definition handler_right (m : bool) (g : agg) (HG : nat -> Prop) : Prop :=
  forall pieces : list (list cell), HG (length (concat pieces)) ->
    pieces_fine m g (map (@length cell) pieces) ->
    run_handler (handler_of O m g) (length (concat pieces)) pieces = agg_spec O m g (concat pieces).

Lemma somes_obs (l : list cell) : somes l = obs l.
Proof. induction l as [|[v|] l IH]; simpl; auto. f_equal. auto. Qed.
Lemma obs_app (l r : list cell) : obs (l ++ r) = obs l ++ obs r.
Proof. induction l as [|[v|] l IH]; simpl; auto. f_equal. auto. Qed.
Lemma obs_length (l : list cell) : length (obs l) <= length l.
Proof. induction l as [|[v|] l IH]; simpl; lia. Qed.

Lemma fold_pieces {S} (f : S -> list cell -> S) (P : S -> list cell -> Prop) :
  (forall st l x, P st l -> P (f st x) (l ++ x)) ->
  forall pieces st l, P st l -> P (fold_left f pieces st) (l ++ concat pieces).
Proof.
  intros H. induction pieces as [|x pieces IH]; intros st l HP; simpl.
  - rewrite app_nil_r. auto.
  - rewrite app_assoc. apply IH. apply H. auto.
Qed.

Lemma right_count m : handler_right m GCount (fun _ => True).
Proof.
  intros pieces _ _. destruct m; unfold run_handler; simpl.
  - f_equal. f_equal.
    apply (fold_pieces (fun st l => st + length (somes l)) (fun st l => st = length (obs l))) with (l := []); auto.
    intros st l x ->. rewrite obs_app, app_length, somes_obs. auto.
  - f_equal. f_equal. rewrite map_length.
    apply (fold_pieces (fun st (l : list cell) => st + length l) (fun st l => st = length l)) with (l := []); auto.
    intros st l x ->. rewrite app_length. auto.
Qed.

Section WithOrders.
Hypothesis R : orders O.

Lemma best_fold (f : V -> V -> V) : (forall a b c, f (f a b) c = f a (f b c)) ->
  forall l x, best f (x :: l) = Some (fold_left f l x).
Proof.
  intros A. induction l as [|y l IH]; intros x; auto.
  change (best f (x :: y :: l)) with (match best f (y :: l) with None => Some x | Some z => Some (f x z) end).
  rewrite IH. simpl. f_equal. clear IH. revert x y. induction l as [|z l IH]; intros x y; simpl; auto.
  rewrite A. apply IH.
Qed.
Lemma vmin_list_best l : vmin_list O l = best (vmin O) l.
Proof. destruct l as [|x l]; auto. rewrite best_fold by apply R. auto. Qed.
Lemma vmax_list_best l : vmax_list O l = best (vmax O) l.
Proof. destruct l as [|x l]; auto. rewrite best_fold by apply R. auto. Qed.


Lemma right_min m : handler_right m GMin (fun _ => True).
Proof.
  intros pieces _ (n & E & Hn). destruct pieces as [|p [|q r]]; try discriminate. simpl concat. rewrite app_nil_r.
  destruct m; unfold run_handler; simpl.
  - rewrite somes_obs. apply vmin_list_best.
  - apply vmin_list_best.
Qed.
Lemma right_max m : handler_right m GMax (fun _ => True).
Proof.
  intros pieces _ (n & E & Hn). destruct pieces as [|p [|q r]]; try discriminate. simpl concat. rewrite app_nil_r.
  destruct m; unfold run_handler; simpl.
  - rewrite somes_obs. apply vmax_list_best.
  - apply vmax_list_best.
Qed.

End WithOrders.

Section WithLaws.
Hypothesis L : laws O.

Lemma fold_left_vadd l a : fold_left (vadd O) l a = vadd O a (total O l).
Proof.
  revert a; induction l as [|x l IH]; intros a; simpl; [symmetry; apply L|].
  rewrite IH. apply L.
Qed.
Lemma vsum_total l : vsum O l = total O l.
Proof. rewrite (l_sum O L), fold_left_vadd. apply L. Qed.
Lemma total_app l r : total O (l ++ r) = vadd O (total O l) (total O r).
Proof. induction l as [|x l IH]; simpl; [symmetry; apply L|]. rewrite IH. symmetry. apply L. Qed.
Lemma total_val0 (l : list cell) : total O (map (val0 O) l) = total O (obs l).
Proof. induction l as [|[v|] l IH]; simpl; auto; rewrite IH; auto. apply L. Qed.

Lemma all_masked (l : list cell) : forallb (fun c => negb (is_some c)) l = (length (obs l) =? 0).
Proof. induction l as [|[v|] l IH]; simpl; auto. Qed.

Lemma right_sum m : handler_right m GSum (fun _ => True).
Proof.
  intros pieces _ _. destruct m; unfold run_handler; simpl.
  - destruct (fold_pieces (fun st l => (vadd O (fst st) (vsum O (map (val0 O) l)),
                  snd st && forallb (fun c => negb (is_some c)) l))
       (fun st l => fst st = total O (obs l) /\ snd st = (length (obs l) =? 0))) with
       (pieces := pieces) (st := (v0 O, true)) (l := @nil cell) as [H1 H2]; auto.
    + intros st l x [H1 H2]. cbn [fst snd]. rewrite H1, H2, vsum_total, total_val0, obs_app, total_app, all_masked. split; auto.
      rewrite app_length. destruct (length (obs l)); auto.
    + simpl in H1, H2. rewrite H1, H2. auto.
  - f_equal. apply (fold_pieces (fun st l => vadd O st (vsum O (map (val0 O) l)))
       (fun st l => st = total O (map (plain_val O) l))) with (l := []); auto.
    intros st l x ->. rewrite map_app, total_app, vsum_total. auto.
Qed.

Lemma right_mean m t : handler_right m (GMean t) (fun _ => True).
Proof.
  intros pieces _ _. destruct m; unfold run_handler; cbn [handler_of h_mean_m h_mean hfin hboot hstep agg_spec].
  - set (f := fun (st : nat * nat * V) (l : list cell) => let '(c, mc, t0) := st in
               (c + length (somes l), mc + (length l - length (somes l)), vadd O t0 (vsum O (map (val0 O) l)))).
    pose proof (fold_pieces f (fun st l => st = (length (obs l), length l - length (obs l), total O (obs l)))) as H.
    specialize (H ltac:(intros st l x ->; unfold f; rewrite somes_obs, vsum_total, total_val0, obs_app, total_app, !app_length;
       pose proof (obs_length l); pose proof (obs_length x); f_equal; f_equal; lia) pieces (0, 0, v0 O) [] eq_refl).
    simpl app in H. match goal with |- context [fold_left ?g pieces ?s] => change (fold_left g pieces s) with (fold_left f pieces (0, 0, v0 O)) end.
    rewrite H. unfold frac_masked, mean_of.
    pose proof (obs_length (concat pieces)). rewrite <- (l_ofn O L).
    replace (length (concat pieces) - length (obs (concat pieces)) + length (obs (concat pieces)))
      with (length (concat pieces)) by lia.
    destruct (length (obs (concat pieces)) =? 0); auto.
  - f_equal. unfold mean_of. rewrite map_length. f_equal.
    apply (fold_pieces (fun st l => vadd O st (vsum O (map (val0 O) l)))
       (fun st l => st = total O (map (plain_val O) l))) with (l := []); auto.
    intros st l x ->. rewrite map_app, total_app, vsum_total. auto.
Qed.

(** The aggregations that need no statistics. *)
Definition basic_agg (g : @agg V) : Prop := match g with GStd _ | GVar _ => False | _ => True end.
Lemma right_basic m g : handler_right m g (fun _ => basic_agg g).
Proof.
  intros pieces HG HP. destruct g; try contradiction.
  - apply right_count; auto. - apply right_min; auto. apply laws_orders; auto. - apply right_max; auto. apply laws_orders; auto.
  - apply right_sum; auto. - apply right_mean; auto.
Qed.

End WithLaws.
End HandlerLemmas.
