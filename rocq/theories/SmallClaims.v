(** SmallClaims: proofs about the small user-level functions of Small.v, fill
    values and constructor checks. *)
From Verif Require Import Base PySlice Keys NDArray Arrays Spec Lib GetBase Small.
From Coq Require Import QArith ZifyBool ZifyNat Permutation.
Local Open Scope nat_scope.

(** ** Axis *)
Section Axis.
Context {V : Type} (O : numops V).
Notation barr := (@barr V).

Lemma norm_one nd i : normalise_axis (AxInt i) nd
  = match norm_int i nd with Some j => Ok (Some [j]) | None => Err ValueError end.
Proof.
  unfold normalise_axis, norm_int. cbn [bind map forallb].
  destruct (Z.leb_spec 0 i), (Z.ltb_spec i 0); try lia.
  - destruct (Z.ltb_spec i (Z.of_nat nd)), (Z.leb_spec (- Z.of_nat nd) i), (Z.leb_spec 0 i); cbn [andb]; try lia; auto.
  - destruct (Z.ltb_spec i (Z.of_nat nd)), (Z.leb_spec (- Z.of_nat nd) i), (Z.leb_spec 0 (Z.of_nat nd + i)), (Z.ltb_spec (Z.of_nat nd + i) (Z.of_nat nd));
      cbn [andb]; try lia; auto. do 3 f_equal. rewrite Z.add_comm. auto.
Qed.
Lemma norm_seq_one nd i : normalise_axis (AxSeq [Some i]) nd = normalise_axis (AxInt i) nd.
Proof. auto. Qed.

(** All integers of the list, each normalised; [None] if one is out of range. *)
Lemma norm_all nd (l : list Z) :
  (let l' := map (fun i => if (0 <=? i)%Z then i else (Z.of_nat nd + i)%Z) l in
   if forallb (fun i => (0 <=? i)%Z && (i <? Z.of_nat nd)%Z) l'
   then Ok (Some (map Z.to_nat l')) else Err ValueError)
  = match norm_ints l nd with Some r => Ok (Some r) | None => Err ValueError end.
Proof.
  induction l as [|i l IH]; auto. cbn [norm_ints map forallb]. pose proof (norm_one nd i) as H. unfold normalise_axis in H.
  cbn [bind map forallb] in H. rewrite andb_true_r in H. cbn zeta in *.
  destruct ((0 <=? (if (0 <=? i)%Z then i else Z.of_nat nd + i))%Z && ((if (0 <=? i)%Z then i else Z.of_nat nd + i) <? Z.of_nat nd)%Z);
    destruct (norm_int i nd) as [j|]; try discriminate; auto.
  injection H as <-. cbn [andb].
  destruct (forallb _ _); destruct (norm_ints l nd) as [r|]; try discriminate; auto. injection IH as <-. auto.
Qed.
Lemma somes_ints l z : Forall2 (fun x i => x = Some i) l z ->
  forallb (fun x : option Z => match x with Some _ => true | None => false end) l = true
  /\ flat_map (fun x : option Z => match x with Some i => [i] | None => [] end) l = z.
Proof. induction 1 as [|x i l z H1 H2 IH]; cbn; auto. subst. cbn. destruct IH. subst; auto. Qed.
Lemma norm_seq nd l : normalise_axis (AxSeq (map Some l)) nd
  = match norm_ints l nd with Some r => Ok (Some r) | None => Err ValueError end.
Proof.
  unfold normalise_axis. destruct (somes_ints (map Some l) l) as [E1 E2].
  { induction l; cbn; constructor; auto. }
  rewrite E1, E2. cbn [bind]. apply norm_all.
Qed.

Lemma aggregate_accepts g (a b : barr) ax :
  aggregate O g a ax = Ok b <->
  exists i j, (ax = AxInt i \/ ax = AxSeq [Some i]) /\ norm_int i (ndim a) = Some j
    /\ b = AAgg g a j (agg_dtype O g (dtype a)).
Proof.
  split.
  - unfold aggregate. intros H. destruct ax as [|i|l|].
    + cbn in H. destruct g; discriminate.
    + rewrite norm_one in H. destruct (norm_int i (ndim a)) as [j|] eqn:E; cbn [bind] in H; [|discriminate].
      injection H as <-. exists i, j. auto.
    + destruct (forallb (fun x : option Z => match x with Some _ => true | None => false end) l) eqn:F.
      2:{ unfold normalise_axis in H. rewrite F in H. discriminate. }
      assert (E : exists z, l = map Some z).
      { clear - F. induction l as [|[i|] l IH]; [exists []; auto|cbn in F|discriminate]. destruct (IH F) as (z & ->). exists (i :: z). auto. }
      destruct E as (z & ->). rewrite norm_seq in H. destruct z as [|i [|i2 z]].
      * cbn in H. destruct g; discriminate.
      * cbn [norm_ints] in H. destruct (norm_int i (ndim a)) as [j|] eqn:E; cbn [bind] in H; [|discriminate].
        injection H as <-. exists i, j. auto.
      * cbn [norm_ints] in H. destruct (norm_int i (ndim a)), (norm_int i2 (ndim a)), (norm_ints z (ndim a)); cbn [bind] in H; try discriminate; destruct g; discriminate.
    + discriminate.
  - intros (i & j & Hax & E & ->). unfold aggregate.
    assert (N : normalise_axis ax (ndim a) = Ok (Some [j])).
    { destruct Hax as [->| ->]; [|rewrite norm_seq_one]; rewrite norm_one, E; auto. }
    rewrite N. auto.
Qed.
Definition axis_error (g : @agg V) : err := match g with GMin | GMax | GSum => AssertErr | _ => AxisSupportErr end.
Lemma aggregate_refuses g (a : barr) :
  aggregate O g a AxNone = Err (axis_error g)
  /\ aggregate O g a AxOther = Err TypeError
  /\ (forall l, In None l -> aggregate O g a (AxSeq l) = Err TypeError)
  /\ (forall i, norm_int i (ndim a) = None -> aggregate O g a (AxInt i) = Err ValueError)
  /\ (forall l, (exists i, In i l /\ norm_int i (ndim a) = None) -> aggregate O g a (AxSeq (map Some l)) = Err ValueError)
  /\ (forall l, (forall i, In i l -> norm_int i (ndim a) <> None) -> length l <> 1 ->
        aggregate O g a (AxSeq (map Some l)) = Err (axis_error g)).
Proof.
  unfold aggregate. split; [destruct g; auto|]. split; [auto|]. split; [|split; [|split]].
  - intros l H. unfold normalise_axis. replace (forallb _ l) with false; auto. symmetry. apply not_true_iff_false. intros F.
    rewrite forallb_forall in F. specialize (F None H). discriminate.
  - intros i H. rewrite norm_one, H. auto.
  - intros l (i & H1 & H2). rewrite norm_seq. replace (norm_ints l (ndim a)) with (@None (list nat)); auto.
    symmetry. clear - H1 H2. induction l as [|x l IH]; [destruct H1|]. cbn. destruct H1 as [->|H1]; [rewrite H2; auto|].
    rewrite IH by auto. destruct (norm_int x (ndim a)); auto.
  - intros l H HL. rewrite norm_seq.
    assert (E : exists r, norm_ints l (ndim a) = Some r /\ length r = length l).
    { clear HL. induction l as [|x l IH]; [exists []; auto|]. destruct IH as (r & E & L); [intros; apply H; right; auto|].
      specialize (H x (or_introl eq_refl)). destruct (norm_int x (ndim a)) as [j|] eqn:Ej; [|congruence].
      exists (j :: r). cbn. rewrite Ej, E, L. auto. }
    destruct E as (r & -> & L). cbn [bind]. destruct r as [|x [|y r]]; destruct g; auto; cbn in L; lia.
Qed.
End Axis.

(** ** Fill values *)
Section Fill.
Context {V : Type} (O : numops V).
Notation barr := (@barr V).

Lemma fill_loop_none l : fold_left (fun acc f => match acc with Some v => if veqb O f v then Some v else None | None => None end) l None = None.
Proof. induction l; cbn; auto. Qed.
Lemma fill_loop_spec first l : fill_loop O first l = if forallb (fun f => veqb O f first) l then Some first else None.
Proof.
  unfold fill_loop. induction l as [|f l IH]; cbn [fold_left forallb]; auto.
  destruct (veqb O f first); cbn [andb]; auto. apply fill_loop_none.
Qed.

Variable (Hrefl : forall x, veqb O x x = true) (Hsym : forall x y, veqb O x y = true -> veqb O y x = true)
  (Htrans : forall x y z, veqb O x y = true -> veqb O y z = true -> veqb O x z = true).

(** [fill] is what a container of parts with fill values [l] should report. *)
Lemma common_fill_ok d first others :
  ((forall x y, In x (first :: others) -> In y (first :: others) -> veqb O x y = true) ->
   forall x, In x (first :: others) -> veqb O (common_fill O d first others) x = true)
  /\ ((exists x y, In x (first :: others) /\ In y (first :: others) /\ veqb O x y = false) ->
      common_fill O d first others = vdfill O d).
Proof.
  unfold common_fill. rewrite fill_loop_spec. split.
  - intros H x Hx. replace (forallb _ _) with true.
    + apply H; auto. left; auto.
    + symmetry. apply forallb_forall. intros y Hy. apply H; [right|left]; auto.
  - intros (x & y & Hx & Hy & E). destruct (forallb _ _) eqn:F; auto. rewrite forallb_forall in F. exfalso.
    assert (F' : forall z, In z (first :: others) -> veqb O z first = true) by (intros z [<-|Hz]; auto).
    rewrite (Htrans x first y) in E; auto. discriminate.
Qed.
Lemma stack_fill ssh (items : list barr) st : mk_stack ssh items = Ok st ->
  ((forall x y, In x items -> In y items -> veqb O (fillv O x) (fillv O y) = true) ->
   forall x, In x items -> veqb O (fillv O st) (fillv O x) = true)
  /\ ((exists x y, In x items /\ In y items /\ veqb O (fillv O x) (fillv O y) = false) ->
      fillv O st = vdfill O (dtype st)).
Proof.
  intros E. unfold mk_stack in E. destruct items as [|it items]; [discriminate|].
  destruct (forallb _ _); [|discriminate]. injection E as <-. cbn [fillv dtype].
  assert (D : common_fill O (dtype it) (fillv O it) (map (fillv O) (it :: items)) = common_fill O (dtype it) (fillv O it) (map (fillv O) items)).
  { unfold common_fill, fill_loop. cbn [map fold_left]. rewrite Hrefl. auto. }
  rewrite D. destruct (common_fill_ok (dtype it) (fillv O it) (map (fillv O) items)) as [H1 H2].
  change (fillv O it :: map (fillv O) items) with (map (fillv O) (it :: items)) in *. split.
  - intros H x Hx. apply H1; [|apply in_map; auto]. intros x' y' Hx' Hy'. apply in_map_iff in Hx' as (u & <- & Hu), Hy' as (v & <- & Hv). auto.
  - intros (x & y & Hx & Hy & E). apply H2. exists (fillv O x), (fillv O y). auto using in_map.
Qed.
Lemma mosaic_fill (tiles : list barr) axis b : mk_mosaic tiles axis = Ok b ->
  ((forall x y, In x tiles -> In y tiles -> veqb O (fillv O x) (fillv O y) = true) ->
   forall x, In x tiles -> veqb O (fillv O b) (fillv O x) = true)
  /\ ((exists x y, In x tiles /\ In y tiles /\ veqb O (fillv O x) (fillv O y) = false) ->
      fillv O b = vdfill O (dtype b)).
Proof.
  intros E. unfold mk_mosaic in E. destruct tiles as [|it tiles]; [discriminate|].
  destruct (negb _); [discriminate|]. destruct (mapM _ _); cbn [bind] in E; [|discriminate]. injection E as <-. cbn [fillv dtype].
  destruct (common_fill_ok (dtype it) (fillv O it) (map (fillv O) tiles)) as [H1 H2].
  change (fillv O it :: map (fillv O) tiles) with (map (fillv O) (it :: tiles)) in *. split.
  - intros H x Hx. apply H1; [|apply in_map; auto]. intros x' y' Hx' Hy'. apply in_map_iff in Hx' as (u & <- & Hu), Hy' as (v & <- & Hv). auto.
  - intros (x & y & Hx & Hy & E). apply H2. exists (fillv O x), (fillv O y). auto using in_map.
Qed.
End Fill.

(** ** Constructor checks *)
Section Checks.
Context {V : Type}.
Notation barr := (@barr V).

Lemma stack_checks ssh (items : list barr) : items <> [] ->
  ((forall x y, In x items -> In y items -> shape x = shape y /\ dtype x = dtype y) ->
   mk_stack ssh items = Ok (AStack ssh items))
  /\ (~ (forall x y, In x items -> In y items -> shape x = shape y /\ dtype x = dtype y) ->
      mk_stack ssh items = Err ValueError).
Proof.
  intros Hne. destruct items as [|it items]; [congruence|]. unfold mk_stack.
  destruct (forallb _ _) eqn:F.
  - split; auto. intros H. exfalso. apply H. rewrite forallb_forall in F.
    assert (F' : forall x, In x (it :: items) -> shape x = shape it /\ dtype x = dtype it).
    { intros x Hx. apply F in Hx. apply andb_true_iff in Hx as [A B]. apply shape_eqb_eq in A. apply Nat.eqb_eq in B. auto. }
    intros x y Hx Hy. destruct (F' x Hx), (F' y Hy). split; congruence.
  - split; auto. intros H. exfalso. apply not_true_iff_false in F. apply F. apply forallb_forall. intros x Hx.
    destruct (H x it Hx (or_introl eq_refl)) as [A B]. rewrite A, B, Nat.eqb_refl. rewrite (proj2 (shape_eqb_eq _ _) eq_refl). auto.
Qed.

Definition tile_fits (axis : nat) (t x : barr) : Prop :=
  axis < ndim x /\ remove_at axis (shape x) = remove_at axis (shape t) /\ dtype x = dtype t.
Lemma mosaic_checks (tiles : list barr) axis t0 : hd_error tiles = Some t0 ->
  (mk_mosaic tiles axis = Ok (AMosaic tiles (Z.to_nat axis)) <->
   (0 <= axis < Z.of_nat (ndim t0))%Z /\ Forall (tile_fits (Z.to_nat axis) t0) tiles)
  /\ ((forall x, In x tiles -> Z.to_nat axis < ndim x) ->
      ~ ((0 <= axis < Z.of_nat (ndim t0))%Z /\ Forall (tile_fits (Z.to_nat axis) t0) tiles) ->
      mk_mosaic tiles axis = Err ValueError).
Proof.
  intros E. destruct tiles as [|t ts]; [discriminate|]. injection E as ->. unfold mk_mosaic. split.
  - split.
    + intros H. destruct (Z.leb_spec 0 axis), (Z.ltb_spec axis (Z.of_nat (ndim t0))); cbn [negb andb] in H; try discriminate.
      destruct (mapM _ ts) as [r|e] eqn:M; [|discriminate]. split; [lia|]. constructor; [unfold tile_fits; split; [lia|auto]|].
      apply mapM_ok in M. clear - M. induction M as [|x y l l' H1 H2 IH]; constructor; auto. unfold tile_fits.
      destruct (Nat.leb_spec (ndim x) (Z.to_nat axis)); [discriminate|]. split; [lia|].
      destruct (shape_eqb _ _) eqn:S; [|discriminate]. apply shape_eqb_eq in S. destruct (Nat.eqb_spec (dtype x) (dtype t0)); [|discriminate]. auto.
    + intros [Ha HF]. destruct (Z.leb_spec 0 axis), (Z.ltb_spec axis (Z.of_nat (ndim t0))); cbn [negb andb]; try lia.
      inversion HF as [|x l _ H2]; subst.
      assert (M : exists r, mapM (fun x : barr => if ndim x <=? Z.to_nat axis then Err IndexError
        else if negb (shape_eqb (remove_at (Z.to_nat axis) (shape x)) (remove_at (Z.to_nat axis) (shape t0))) then Err ValueError
        else if negb (dtype x =? dtype t0) then Err ValueError else Ok tt) ts = Ok r).
      { clear - H2. induction H2 as [|x l (A & B & C) _ (r & IH)]; [exists []; auto|]. exists (tt :: r). cbn [mapM].
        destruct (Nat.leb_spec (ndim x) (Z.to_nat axis)); [lia|]. rewrite B, C, Nat.eqb_refl, (proj2 (shape_eqb_eq _ _) eq_refl).
        cbn [negb]. rewrite IH. auto. }
      destruct M as (r & ->). auto.
  - intros Hn H. destruct (Z.leb_spec 0 axis), (Z.ltb_spec axis (Z.of_nat (ndim t0))); cbn [negb andb]; auto.
    cbn [bind].
    assert (HF : ~ Forall (tile_fits (Z.to_nat axis) t0) ts).
    { intros HF. apply H. split; [lia|]. constructor; auto. unfold tile_fits. split; [lia|auto]. }
    clear H. assert (Hn' : forall x, In x ts -> Z.to_nat axis < ndim x) by (intros; apply Hn; right; auto). clear Hn.
    match goal with |- bind ?e _ = _ => assert (X : e = Err ValueError) end.
    { induction ts as [|x ts IH]; [exfalso; apply HF; constructor|]. cbn [mapM].
      pose proof (Hn' x (or_introl eq_refl)). destruct (Nat.leb_spec (ndim x) (Z.to_nat axis)); [lia|].
      destruct (shape_eqb _ _) eqn:S; cbn [negb]; auto. apply shape_eqb_eq in S.
      destruct (Nat.eqb_spec (dtype x) (dtype t0)) as [D|D]; cbn [negb]; auto.
      rewrite IH; auto; [|intros; apply Hn'; right; auto]. intros HF'. apply HF. constructor; auto. unfold tile_fits; auto. }
    rewrite X. auto.
Qed.
End Checks.

(** ** Sizes *)
Lemma wrap_mod w z : (0 < w)%Z -> (wrap w z mod 2 ^ w = z mod 2 ^ w)%Z.
Proof.
  intros H. unfold wrap. rewrite Zminus_mod_idemp_l. f_equal. lia.
Qed.
Lemma wrap_id w z : (0 < w)%Z -> (- 2 ^ (w - 1) <= z < 2 ^ (w - 1))%Z -> wrap w z = z.
Proof.
  intros H R. unfold wrap. assert (E : (2 ^ w = 2 * 2 ^ (w - 1))%Z).
  { rewrite <- Z.pow_succ_r by lia. f_equal. lia. }
  rewrite Z.mod_small by lia. lia.
Qed.
Lemma wrap_eq w x y : (0 < w)%Z -> (x mod 2 ^ w = y mod 2 ^ w)%Z -> wrap w x = wrap w y.
Proof.
  intros H E. unfold wrap. f_equal. rewrite <- (Zplus_mod_idemp_l x), <- (Zplus_mod_idemp_l y), E. auto.
Qed.
Lemma nbytes_wraps {V} itemsize (a : @barr V) : nbytes itemsize a = wrap 64 (Z.of_nat (prodn (shape a)) * itemsize (dtype a)).
Proof.
  unfold nbytes.
  assert (E : forall l p q, (p mod 2 ^ 64 = q mod 2 ^ 64)%Z ->
     (fold_left (fun p n => wrap 64 (p * Z.of_nat n)) l p mod 2 ^ 64 = (q * Z.of_nat (prodn l)) mod 2 ^ 64)%Z).
  { induction l as [|n l IH]; intros p q E; cbn [fold_left].
    - change (Z.of_nat (prodn [])) with 1%Z. rewrite Z.mul_1_r. auto.
    - rewrite (IH _ (q * Z.of_nat n)%Z).
      + cbn [prodn fold_right]. f_equal. fold (prodn l). lia.
      + rewrite wrap_mod by lia. rewrite <- (Zmult_mod_idemp_l p), E, Zmult_mod_idemp_l. auto. }
  specialize (E (shape a) 1%Z 1%Z eq_refl).
  apply wrap_eq; [lia|]. rewrite <- Zmult_mod_idemp_l, E, Zmult_mod_idemp_l. f_equal. lia.
Qed.
Lemma size_unit n : (0 <= n)%Z ->
  let u := fst (size_of n) in
  u <= 4 /\ (u = 0 \/ (2 ^ (10 * Z.of_nat u) <= n)%Z)
  /\ (forall u', u < u' <= 4 -> (n < 2 ^ (10 * Z.of_nat u'))%Z)
  /\ (snd (size_of n) == inject_Z n / inject_Z (2 ^ (10 * Z.of_nat u)))%Q.
Proof.
  intros Hn. unfold size_of.
  change (Z.shiftl 1 10) with (2 ^ 10)%Z. change (Z.shiftl 1 20) with (2 ^ 20)%Z.
  change (Z.shiftl 1 30) with (2 ^ 30)%Z. change (Z.shiftl 1 40) with (2 ^ 40)%Z.
  assert (C : forall u', u' <= 4 -> u' = 0 \/ u' = 1 \/ u' = 2 \/ u' = 3 \/ u' = 4) by lia.
  destruct (Z.ltb_spec n (2 ^ 10)); [|destruct (Z.ltb_spec n (2 ^ 20)); [|destruct (Z.ltb_spec n (2 ^ 30)); [|destruct (Z.ltb_spec n (2 ^ 40))]]];
    cbn [fst snd]; (split; [lia|]); (split; [first [left; reflexivity|right; cbn; cbn in *; lia]|]); (split; [intros u' Hu'; destruct (C u') as [->|[->|[->|[->| ->]]]]; try lia; cbn; cbn in *; lia|]); try reflexivity.
  change (inject_Z (2 ^ (10 * Z.of_nat 0))) with 1%Q. field.
Qed.

(** ** Integer accumulators *)
Definition zsum (l : list Z) : Z := fold_right Z.add 0%Z l.
Lemma sum_chunk_mod l : forall s, (fold_left (fun s x => wrap 64 (s + x)) l s mod 2 ^ 64 = (s + zsum l) mod 2 ^ 64)%Z.
Proof.
  induction l as [|x l IH]; intros s; cbn [fold_left zsum fold_right]. { f_equal. lia. }
  rewrite IH. rewrite <- Zplus_mod_idemp_l, wrap_mod, Zplus_mod_idemp_l by lia. f_equal. fold (zsum l). lia.
Qed.
Lemma mod_down a b w : (0 < w <= 64)%Z -> (a mod 2 ^ 64 = b mod 2 ^ 64)%Z -> (a mod 2 ^ w = b mod 2 ^ w)%Z.
Proof.
  intros H E. assert (D : (2 ^ 64 = 2 ^ w * 2 ^ (64 - w))%Z) by (rewrite <- Z.pow_add_r by lia; f_equal; lia).
  rewrite (Z.div_mod a (2 ^ 64)), (Z.div_mod b (2 ^ 64)), E by lia. rewrite D.
  rewrite <- !Z.mul_assoc, !(Z.mul_comm (2 ^ w)), !(Z.add_comm (_ * 2 ^ w)), !Z_mod_plus_full. auto.
Qed.
Lemma zsum_app l1 l2 : zsum (l1 ++ l2) = (zsum l1 + zsum l2)%Z.
Proof. induction l1; cbn; [auto|unfold zsum in *; lia]. Qed.
Lemma add_mod_eq a a' b b' m : (a mod m = a' mod m -> b mod m = b' mod m -> (a + b) mod m = (a' + b') mod m)%Z.
Proof. intros H1 H2. rewrite Zplus_mod, H1, H2, <- Zplus_mod. auto. Qed.
(** A running total in [w] bits of terms that agree with [f] modulo 2^64. *)
Lemma total_wraps {A} w (g f : A -> Z) pieces : (0 < w <= 64)%Z -> (forall x, g x mod 2 ^ 64 = f x mod 2 ^ 64)%Z ->
  fold_left (fun t x => wrap w (t + wrap 64 (g x)))%Z pieces 0%Z = wrap w (zsum (map f pieces)).
Proof.
  intros Hw Hg. assert (E : forall ps t, (fold_left (fun t x => wrap w (t + wrap 64 (g x))) ps (wrap w t) = wrap w (t + zsum (map f ps)))%Z).
  { induction ps as [|x ps IH]; intros t; cbn [fold_left map zsum fold_right]; [f_equal; lia|]. rewrite IH. apply wrap_eq; [lia|].
    fold (zsum (map f ps)). rewrite Z.add_assoc. apply add_mod_eq; auto. apply add_mod_eq; [apply wrap_mod; lia|].
    apply mod_down; auto. rewrite wrap_mod by lia. apply Hg. }
  specialize (E pieces 0%Z). rewrite (wrap_id w 0) in E by lia. exact E.
Qed.
Lemma zsum_concat {A} (h : A -> list Z) ps : zsum (map (fun l => zsum (h l)) ps) = zsum (concat (map h ps)).
Proof. induction ps as [|l ps IH]; cbn [map concat]; auto. rewrite zsum_app, <- IH. auto. Qed.
(** The sum is the mathematical sum wrapped once, however it is chunked. *)
Lemma int_sum_wraps w pieces : (0 < w <= 64)%Z -> int_sum w pieces = wrap w (zsum (concat pieces)).
Proof.
  intros Hw. unfold int_sum. rewrite (total_wraps w (fun l => fold_left (fun s x => wrap 64 (s + x))%Z l 0%Z) zsum) by (auto; intros l; rewrite sum_chunk_mod; auto).
  f_equal. pose proof (zsum_concat (fun l => l) pieces) as E. rewrite map_id in E. exact E.
Qed.
Lemma wrap_range w z : (0 < w)%Z -> (- 2 ^ (w - 1) <= wrap w z < 2 ^ (w - 1))%Z.
Proof.
  intros H. unfold wrap. assert (E : (2 ^ w = 2 * 2 ^ (w - 1))%Z). { rewrite <- Z.pow_succ_r by lia. f_equal. lia. }
  pose proof (Z.mod_pos_bound (z + 2 ^ (w - 1)) (2 ^ w) ltac:(apply Z.pow_pos_nonneg; lia)). lia.
Qed.
Lemma wrap_right w z : (0 < w)%Z -> wrap w z = z <-> (- 2 ^ (w - 1) <= z < 2 ^ (w - 1))%Z.
Proof. intros H. split; [intros <-; apply wrap_range; auto|apply wrap_id; auto]. Qed.
Lemma int_sum_exact w pieces : (0 < w <= 64)%Z ->
  (- 2 ^ (w - 1) <= zsum (concat pieces) < 2 ^ (w - 1))%Z ->
  int_sum w pieces = zsum (concat pieces).
Proof. intros Hw R. rewrite int_sum_wraps by auto. apply wrap_id; auto. lia. Qed.
Lemma int_mean_wraps w pieces : (0 < w <= 64)%Z ->
  int_mean w pieces = (inject_Z (wrap w (zsum (concat pieces))) / inject_Z (Z.of_nat (length (concat pieces))))%Q.
Proof. intros Hw. unfold int_mean. pose proof (int_sum_wraps w pieces Hw) as E. unfold int_sum in E. rewrite E. auto. Qed.
(** Masked columns: the observed values of all the pieces. *)
Definition seen_values (l : list (option Z)) : list Z := flat_map (fun c => match c with Some x => [x] | None => [] end) l.
Lemma seen_app l l' : seen_values (l ++ l') = seen_values l ++ seen_values l'.
Proof. unfold seen_values. rewrite flat_map_app. auto. Qed.
Lemma seen_concat ps : seen_values (concat ps) = concat (map seen_values ps).
Proof. induction ps as [|l ps IH]; cbn [concat map]; auto. rewrite seen_app, IH. auto. Qed.
Lemma seen_le l : length (seen_values l) <= length l.
Proof. induction l as [|[x|] l IH]; auto; cbn [seen_values flat_map app length]; fold (seen_values l); lia. Qed.
Lemma zsum_lengths {A} (ps : list (list A)) : zsum (map (fun l => Z.of_nat (length l)) ps) = Z.of_nat (length (concat ps)).
Proof. induction ps as [|l ps IH]; cbn [map concat zsum fold_right]; auto. fold (zsum (map (fun l => Z.of_nat (length l)) ps)). rewrite IH, app_length. lia. Qed.
Lemma int_mean_masked_wraps w mdtol pieces : (0 < w <= 64)%Z ->
  let l := concat pieces in let xs := seen_values l in
  let n := wrap w (Z.of_nat (length xs)) in let k := wrap w (Z.of_nat (length l - length xs)) in let d := wrap w (Z.of_nat (length l)) in
  int_mean_masked w mdtol pieces =
    if (n =? 0)%Z then None
    else if negb (Qle_bool 1 mdtol) && (if (d =? 0)%Z then (0 <? k)%Z else negb (Qle_bool (inject_Z k / inject_Z d) mdtol)) then None
    else Some (inject_Z (wrap w (zsum xs)) / inject_Z n)%Q.
Proof.
  intros Hw l xs n k d. unfold int_mean_masked. cbv zeta.
  rewrite (total_wraps w (fun l => Z.of_nat (length (seen_values l))) (fun l => Z.of_nat (length (seen_values l)))) by auto.
  rewrite (total_wraps w (fun l => Z.of_nat (length l - length (seen_values l))) (fun l => Z.of_nat (length l - length (seen_values l)))) by auto.
  rewrite (total_wraps w (fun l => fold_left (fun s x => wrap 64 (s + x))%Z (seen_values l) 0%Z) (fun l => zsum (seen_values l)))
    by (auto; intros; rewrite sum_chunk_mod; auto).
  rewrite zsum_concat, <- seen_concat. fold l xs.
  assert (E1 : zsum (map (fun l => Z.of_nat (length (seen_values l))) pieces) = Z.of_nat (length xs)).
  { unfold xs, l. rewrite seen_concat. rewrite <- zsum_lengths, map_map. auto. }
  assert (E2 : zsum (map (fun l => Z.of_nat (length l - length (seen_values l))) pieces) = Z.of_nat (length l - length xs)).
  { assert (H : (zsum (map (fun l => Z.of_nat (length l - length (seen_values l))) pieces) + zsum (map (fun l => Z.of_nat (length (seen_values l))) pieces) = Z.of_nat (length l))%Z).
    { unfold l. rewrite <- zsum_lengths. clear. induction pieces as [|p ps IH]; cbn [map zsum fold_right]; auto. unfold zsum in *. pose proof (seen_le p). lia. }
    rewrite E1 in H. pose proof (seen_le l) as HL. fold xs in HL. lia. }
  rewrite E1, E2. fold n k.
  replace (wrap w (k + n)) with d; [reflexivity|]. unfold d, k, n. apply wrap_eq; [lia|].
  symmetry. rewrite (add_mod_eq _ (Z.of_nat (length l - length xs)) _ (Z.of_nat (length xs))) by (apply wrap_mod; lia).
  f_equal. pose proof (seen_le l) as HL. fold xs in HL. lia.
Qed.
Lemma int_mean_exact w pieces : (0 < w <= 64)%Z ->
  (- 2 ^ (w - 1) <= zsum (concat pieces) < 2 ^ (w - 1))%Z ->
  int_mean w pieces = (inject_Z (zsum (concat pieces)) / inject_Z (Z.of_nat (length (concat pieces))))%Q.
Proof. intros H R. unfold int_mean. pose proof (int_sum_exact w pieces H R) as E. unfold int_sum in E. rewrite E. auto. Qed.
