(** ReadLemmas: the elements an array consists of, and what its blocks take. *)
From Verif Require Import Base PySlice Keys NDArray Arrays Chunks Handlers Realise Spec Supported Lib SelLemmas KeyLemmas NewAxLemmas GetBase GetSimple GetBcast GetTrans GetStack GetMosaic GetItem ChunkLemmas AssignLemmas HandlerLemmas Realisable NumpyApply StreamLemmas RealiseOK ChunkClaims BoundClaims Steady Reads ReadSpec.
From Coq Require Import ZifyBool ZifyNat Permutation.

(** ** Elements *)
Lemma elements_eq {W} (a b : nd W) : nd_eq a b -> elements a = elements b.
Proof.
  intros [E H]. unfold elements. rewrite <- E. apply map_ext_in. intros o Ho. apply H. apply ndindex_In. auto.
Qed.
Lemma elements_map {W X} (f : W -> X) (a : nd W) : elements (nd_map f a) = map f (elements a).
Proof. unfold elements. cbn [nd_map nshape nget]. rewrite map_map. auto. Qed.
Lemma elements_bij {W} (a b : nd W) (f : list nat -> list nat) :
  (forall o, inb (nshape b) o -> inb (nshape a) (f o)) ->
  (forall o o', inb (nshape b) o -> inb (nshape b) o' -> f o = f o' -> o = o') ->
  prodn (nshape a) = prodn (nshape b) ->
  (forall o, inb (nshape b) o -> nget b o = nget a (f o)) -> Permutation (elements b) (elements a).
Proof.
  intros H1 H2 H3 H4. unfold elements.
  rewrite (map_ext_in (nget b) (fun o => nget a (f o))) by (intros o Ho; apply H4; apply ndindex_In; auto).
  rewrite <- (map_map f (nget a)). apply Permutation_map. apply NoDup_Permutation_bis.
  - apply NoDup_map_in; [apply NoDup_ndindex|]. intros x y Hx Hy. apply H2; apply ndindex_In; auto.
  - rewrite map_length, !ndindex_length. lia.
  - intros o Ho. apply in_map_iff in Ho as (x & <- & Hx). apply ndindex_In. apply H1. apply ndindex_In. auto.
Qed.

(** New axes. *)
Definition thin (d : dsel) : Prop := match d with DNew => True | DLs l => l = seq 0 (length l) | DPt _ => False end.
Definition widths (s : list dsel) : list nat := flat_map (fun d => match d with DLs l => [length l] | _ => [] end) s.
Lemma thin_index s : Forall thin s -> map (sel_map s) (ndindex (sel_shape s)) = ndindex (widths s).
Proof.
  induction 1 as [|d s Hd H IH]; [reflexivity|]. destruct d as [i|l|]; [contradiction| |].
  - change (widths (DLs l :: s)) with (length l :: widths s). cbn [sel_shape ndindex]. rewrite flat_map_concat_map, concat_map, map_map, flat_map_concat_map. f_equal.
    apply map_ext_in. intros i Hi. apply in_seq in Hi. rewrite <- IH, !map_map. apply map_ext. intros o. cbn [sel_map]. f_equal.
    simpl in Hd. rewrite Hd. apply seq_nth. lia.
  - change (widths (DNew :: s)) with (widths s). cbn [sel_shape ndindex seq flat_map]. rewrite app_nil_r, map_map. rewrite <- IH. apply map_ext. auto.
Qed.
Lemma widths_new n s : widths (repeat DNew n ++ s) = widths s.
Proof. induction n; auto. Qed.
Lemma thin_layout sh : forall na, Forall thin (newax_layout DNew (full_sels sh) na).
Proof.
  assert (HS : forall n, thin (DLs (seq 0 n))) by (intros n; unfold thin; rewrite seq_length; auto).
  assert (HR : forall n, Forall thin (repeat DNew n)) by (intros n; induction n; constructor; auto; exact I).
  induction sh as [|n sh IH]; intros [|x na]; cbn [newax_layout full_sels map].
  - constructor.
  - rewrite app_nil_r. auto.
  - apply Forall_forall. intros d Hd. change (In d (full_sels (n :: sh))) in Hd. apply in_map_iff in Hd as (y & <- & _). apply HS.
  - apply Forall_app; split; [auto|]. constructor; [auto|]. apply IH.
Qed.
Lemma widths_full sh : widths (full_sels sh) = sh.
Proof. induction sh; simpl; auto. rewrite seq_length. f_equal. auto. Qed.
Lemma widths_layout sh : forall na, length na = S (length sh) -> widths (newax_layout DNew (full_sels sh) na) = sh.
Proof.
  induction sh as [|n sh IH]; intros [|x na] H; cbn [length] in H; try discriminate; cbn [newax_layout full_sels map]; rewrite widths_new.
  - reflexivity.
  - transitivity (length (seq 0 n) :: widths (newax_layout DNew (full_sels sh) na)); [reflexivity|]. rewrite seq_length. f_equal. apply IH. lia.
Qed.
Lemma elements_newax {W} (a : nd W) na : length na = S (length (nshape a)) -> elements (nd_sel a (newax_layout DNew (full_sels (nshape a)) na)) = elements a.
Proof.
  intros H. unfold elements. cbn [nd_sel nshape nget]. rewrite <- (map_map (sel_map _) (nget a)). rewrite thin_index by apply thin_layout. rewrite widths_layout; auto.
Qed.

(** Transpositions. *)
Lemma prodn_perm l l' : Permutation l l' -> prodn l = prodn l'.
Proof. induction 1; auto; [change (x * prodn l = x * prodn l'); lia|change (y * (x * prodn l) = x * (y * prodn l)); lia|lia]. Qed.
Lemma elements_trans {W} (a : nd (option W)) axes : perm axes (length (nshape a)) -> Permutation (elements (nd_transpose axes a)) (elements a).
Proof.
  intros HP. apply (elements_bij _ _ (fun o => map (fun ax => match index_of ax axes with Some d => nth d o 0 | None => 0 end) (seq 0 (length axes)))).
  - intros o Ho. cbn [nd_transpose nshape] in Ho. apply transpose_inb; auto.
  - intros o o' Ho Ho' E. cbn [nd_transpose nshape] in Ho, Ho'. apply inb_length in Ho, Ho'. rewrite map_length in Ho, Ho'.
    apply (nth_ext _ _ 0 0); [lia|]. intros j Hj. destruct HP as (HL & HN & HF).
    assert (Hx : nth j axes 0 < length axes) by (rewrite Forall_forall in HF; rewrite HL; apply HF; apply nth_In; lia).
    apply (f_equal (fun l => nth (nth j axes 0) l 0)) in E. rewrite !(nth_map_seq (fun ax => match index_of ax axes with Some d => nth d _ 0 | None => 0 end)) in E by auto.
    rewrite !index_of_nth in E by (auto; lia). exact E.
  - cbn [nd_transpose nshape]. rewrite (prodn_perm (map (fun ax => nth ax (nshape a) 0) axes) (map (fun ax => nth ax (nshape a) 0) (seq 0 (length (nshape a))))).
    + f_equal. apply (nth_ext _ _ 0 0); [rewrite map_length, seq_length; auto|]. intros i Hi.
      rewrite (nth_map_seq (fun ax => nth ax (nshape a) 0)) by auto. auto.
    + apply Permutation_map. apply perm_Permutation. auto.
  - intros o _. reflexivity.
Qed.

(** Stacks. *)
Lemma ndindex_app ssh sh : ndindex (ssh ++ sh) = flat_map (fun i => map (app i) (ndindex sh)) (ndindex ssh).
Proof.
  induction ssh as [|n ssh IH]; cbn [app ndindex]. { cbn [flat_map]. rewrite app_nil_r. symmetry. apply map_id. }
  rewrite IH. generalize (seq 0 n) as l. induction l as [|i l IHl]; [reflexivity|]. cbn [flat_map]. rewrite IHl, flat_map_app. f_equal.
  clear. generalize (ndindex ssh) as L. induction L as [|x L IH]; [reflexivity|]. cbn [flat_map map]. rewrite map_app, IH. f_equal. rewrite map_map. reflexivity.
Qed.
Lemma nth_list_eq {A} (l : list A) d : map (fun p => nth p l d) (seq 0 (length l)) = l.
Proof.
  apply (nth_ext _ _ d d); [rewrite map_length, seq_length; auto|]. intros i Hi. rewrite map_length, seq_length in Hi.
  rewrite (nth_indep _ d (nth 0 l d)) by (rewrite map_length, seq_length; auto). rewrite (map_nth (fun p => nth p l d)). rewrite seq_nth by auto. auto.
Qed.
Lemma ravel_list ssh : map (ravel ssh) (ndindex ssh) = seq 0 (prodn ssh).
Proof.
  apply (nth_ext _ _ 0 0); [rewrite map_length, ndindex_length, seq_length; auto|]. intros i Hi. rewrite map_length, ndindex_length in Hi.
  rewrite (nth_map _ _ _ _ []) by (rewrite ndindex_length; auto). rewrite ravel_ndindex by auto. rewrite seq_nth by auto. auto.
Qed.
Lemma elements_stack {W} ssh (items : list (nd (option W))) sh : length items = prodn ssh -> items <> [] -> Forall (fun it => nshape it = sh) items ->
  elements (nd_stack ssh items) = flat_map elements items.
Proof.
  intros HL Hne HF. unfold elements at 1. cbn [nd_stack nshape nget].
  replace (match items with [] => [] | it :: _ => nshape it end) with sh by (destruct items; [congruence|inversion HF; auto]).
  set (d := mkND [] (fun _ => None)). rewrite ndindex_app. rewrite flat_map_concat_map, concat_map, map_map.
  rewrite (map_ext_in _ (fun i => elements (nth (ravel ssh i) items d))).
  - rewrite <- (map_map (ravel ssh) (fun p => elements (nth p items d))). rewrite ravel_list, <- HL, <- (map_map (fun p => nth p items d) elements), nth_list_eq.
    symmetry. apply flat_map_concat_map.
  - intros i Hi. apply ndindex_In in Hi. pose proof (inb_length _ _ Hi) as Hil. rewrite map_map. unfold elements.
    assert (Hr : ravel ssh i < length items). { rewrite HL. apply ravel_lt. auto. }
    assert (Hs : nshape (nth (ravel ssh i) items d) = sh) by (rewrite Forall_forall in HF; apply HF; apply nth_In; auto).
    rewrite Hs. apply map_ext. intros o. rewrite firstn_app, skipn_app, <- Hil, Nat.sub_diag, firstn_all, skipn_all. cbn [firstn skipn app]. rewrite app_nil_r. auto.
Qed.

(** Mosaics. *)
Lemma flat_map_app_perm {A B} (f g : A -> list B) l : Permutation (flat_map (fun x => f x ++ g x) l) (flat_map f l ++ flat_map g l).
Proof.
  induction l as [|x l IH]; [constructor|]. cbn [flat_map]. rewrite IH. rewrite <- !app_assoc. apply Permutation_app_head. rewrite !app_assoc. apply Permutation_app_tail. apply Permutation_app_comm.
Qed.
Lemma flat_map_perm {A B} (f g : A -> list B) l : (forall x, In x l -> Permutation (f x) (g x)) -> Permutation (flat_map f l) (flat_map g l).
Proof. induction l as [|x l IH]; intros H; [constructor|]. cbn [flat_map]. apply Permutation_app; [apply H; simpl; auto|apply IH; intros; apply H; simpl; auto]. Qed.
Definition push (axis n : nat) (o : list nat) : list nat := set_nth axis (nth axis o 0 + n) o.
Lemma ndindex_split sh : forall axis n k, axis < length sh ->
  Permutation (ndindex (set_nth axis (n + k) sh)) (ndindex (set_nth axis n sh) ++ map (push axis n) (ndindex (set_nth axis k sh))).
Proof.
  induction sh as [|d sh IH]; intros [|axis] n k H; cbn [length] in H; try lia; cbn [set_nth ndindex].
  - rewrite seq_app. rewrite flat_map_app. apply Permutation_app_head.
    replace (seq (0 + n) k) with (map (fun i => i + n) (seq 0 k)).
    + rewrite !flat_map_concat_map, concat_map, !map_map. apply Permutation_refl'. f_equal. apply map_ext. intros i. rewrite map_map. apply map_ext. intros o. reflexivity.
    + clear. generalize 0 as s. induction k as [|k IH]; intros s; cbn [seq map]; auto. f_equal. apply (IH (S s)).
  - transitivity (flat_map (fun i => map (cons i) (ndindex (set_nth axis n sh)) ++ map (cons i) (map (push axis n) (ndindex (set_nth axis k sh)))) (seq 0 d)).
    + apply flat_map_perm. intros i _. rewrite <- map_app. apply Permutation_map. apply IH. lia.
    + rewrite flat_map_app_perm. apply Permutation_app_head. rewrite !flat_map_concat_map, concat_map, !map_map. apply Permutation_refl'. f_equal. apply map_ext. intros i.
      rewrite !map_map. apply map_ext. intros o. reflexivity.
Qed.
Lemma elements_concat {W} axis (sh : list nat) (ts : list (nd (option W))) : axis < length sh ->
  Forall (fun t => nshape t = set_nth axis (nth axis (nshape t) 0) sh) ts ->
  Permutation (map (concat_get ts axis) (ndindex (set_nth axis (fold_right Nat.add 0 (map (fun t => nth axis (nshape t) 0) ts)) sh))) (flat_map elements ts).
Proof.
  intros Hax. induction 1 as [|t ts Ht H IH]; cbn [map fold_right flat_map].
  - replace (ndindex (set_nth axis 0 sh)) with (@nil (list nat)); [constructor|]. symmetry. apply length_zero_iff_nil. rewrite ndindex_length.
    clear - Hax. revert axis Hax. induction sh as [|d sh IH]; intros [|axis] H; cbn [length] in H; try lia; cbn [set_nth]; auto. change (d * prodn (set_nth axis 0 sh) = 0). rewrite IH by lia. lia.
  - set (n := nth axis (nshape t) 0) in *. set (k := fold_right Nat.add 0 _) in *.
    rewrite (Permutation_map _ (ndindex_split sh axis n k Hax)). rewrite map_app. apply Permutation_app.
    + unfold elements. rewrite Ht. apply Permutation_refl'. apply map_ext_in. intros o Ho. apply ndindex_In in Ho. cbn [concat_get]. fold n.
      assert (E : nth axis o 0 < n). { pose proof (inb_nth (set_nth axis n sh) o axis Ho) as HX. rewrite set_nth_length, nth_set_nth_eq in HX by auto. auto. }
      apply Nat.ltb_lt in E. rewrite E. auto.
    + rewrite map_map. etransitivity; [|exact IH]. apply Permutation_refl'. apply map_ext_in. intros o Ho. apply ndindex_In in Ho. cbn [concat_get]. fold n.
      pose proof (inb_length _ _ Ho) as HLo. rewrite set_nth_length in HLo. unfold push. rewrite nth_set_nth_eq by lia.
      replace (nth axis o 0 + n <? n) with false by lia. rewrite set_nth_set_nth. replace (nth axis o 0 + n - n) with (nth axis o 0) by lia. rewrite set_nth_same. auto.
Qed.

Section Parts.
Context {V : Type} (O : numops V).
Notation cell := (option V).
Notation barr := (@barr V).

(** Arithmetic that neither converts nor masks. *)
Definition raw : numops V :=
  mkOps V (v0 O) (vadd O) (vsum O) (vsub O) (vmul O) (vdiv O) (vofn O) (vsqrt O) (vmin O) (vmax O)
        (fun _ _ => false) (vltb O) (fun _ v => v) (vdfill O) (dt_float O) (dt_int O).

(** Put together from adapters without computing or broadcasting anything. *)
Fixpoint solid (a : barr) : Prop :=
  match a with
  | AAdapt _ _ _ => True
  | ANewAx c _ | AAsTy c _ | AMaskV c _ | ATrans c _ => solid c
  | AStack _ items => fold_right (fun it P => solid it /\ P) True items
  | AMosaic tiles _ => fold_right (fun t P => solid t /\ P) True tiles
  | _ => False
  end.
(** Adapters that take exactly what they keep. *)
Fixpoint thrifty (a : barr) : Prop :=
  match a with
  | AAdapt o _ ks => o = true \/ (count_if is_tup ks <= 1 /\ numpy_ok ks)
  | ANewAx c _ | AAsTy c _ | AMaskV c _ | ATrans c _ => thrifty c
  | AStack _ items => fold_right (fun it P => thrifty it /\ P) True items
  | AMosaic tiles _ => fold_right (fun t P => thrifty t /\ P) True tiles
  | _ => False
  end.

Lemma thrifty_solid (a : barr) : thrifty a -> solid a.
Proof.
  induction a as [sh v d|o c ks|a na IH|a dict lead IH|a d IH|a v IH|a axes IH|ssh items IH|tiles axis IH
    |g a axis d IH|o a d IH|o a b d IH1 IH2] using barr_ind2; cbn [thrifty solid]; auto; rewrite !fold_right_and_Forall; rewrite !Forall_forall in *; auto.
Qed.
Lemma layout_solid (a : barr) : forall ints n, layout ints n a -> solid a.
Proof.
  induction a as [sh v d|o c ks|a na IH|a dict lead IH|a d IH|a v IH|a axes IH|ssh items IH|tiles axis IH
    |g a axis d IH|o a d IH|o a b d IH1 IH2] using barr_ind2; intros ints n; cbn [layout solid]; eauto; rewrite !fold_right_and_Forall; rewrite !Forall_forall in *; eauto.
  intros [_ H]. eauto.
Qed.

(** An array consists of the elements of what it stands for. *)
Lemma parts_den (a : barr) : wf a -> solid a -> Permutation (parts a) (elements (den raw true a)).
Proof.
  induction a as [sh v d|o c ks|a na IH|a dict lead IH|a d IH|a v IH|a axes IH|ssh items IH|tiles axis IH
    |g a axis d IH|o a d IH|o a b d IH1 IH2] using barr_ind2; intros Hw Hs; cbn [solid] in Hs; try contradiction; cbn [parts].
  - cbn [den]. rewrite elements_map. rewrite (map_ext _ (fun c : cell => c)); [rewrite map_id; auto|]. intros [x|]; reflexivity.
  - destruct Hw as [Hw HL]. rewrite (IH Hw Hs). cbn [den]. rewrite elements_newax; auto. rewrite (den_shape raw true a Hw). exact HL.
  - rewrite (IH Hw Hs). cbn [den]. rewrite elements_map. rewrite (map_ext _ (fun c : cell => c)); [rewrite map_id; auto|]. intros [x|]; reflexivity.
  - rewrite (IH Hw Hs). cbn [den]. rewrite elements_map. rewrite (map_ext _ (fun c : cell => c)); [rewrite map_id; auto|]. intros [x|]; reflexivity.
  - destruct Hw as (Hw & HP). rewrite (IH Hw Hs). cbn [den]. symmetry. apply elements_trans. rewrite (den_shape raw true a Hw). exact HP.
  - destruct Hw as (Hne & HL & Hwi & Hsame). cbn [den]. rewrite fold_right_and_Forall in Hwi, Hs. rewrite Forall_forall in *.
    rewrite (elements_stack ssh _ (shape (hd (AConst [] (v0 O) 0) items))).
    + rewrite flat_map_concat_map, (flat_map_concat_map elements), map_map, <- !flat_map_concat_map. apply flat_map_perm. intros it Hit. apply IH; auto. apply Hwi; auto.
    + rewrite map_length. auto.
    + destruct items; [congruence|discriminate].
    + apply Forall_forall. intros x Hx. apply in_map_iff in Hx as (it & <- & Hit). rewrite den_shape by (apply Hwi; auto). rewrite (proj1 (Hsame it Hit)). destruct items; [contradiction|reflexivity].
  - destruct Hw as (Hne & Hwt & Hsame). rewrite fold_right_and_Forall in Hwt, Hs. rewrite Forall_forall in *.
    transitivity (flat_map elements (map (den raw true) tiles)).
    { rewrite flat_map_concat_map, (flat_map_concat_map elements), map_map, <- !flat_map_concat_map. apply flat_map_perm. intros t Ht. apply IH; auto. apply Hwt; auto. }
    destruct tiles as [|u us] eqn:E; [congruence|]. rewrite <- E in *. assert (Hu : In u tiles) by (rewrite E; simpl; auto).
    destruct (Hsame u Hu) as (Hax & _). symmetry. cbn [den]. unfold elements at 1, nd_concat. cbn [nshape nget].
    replace (match map (den raw true) tiles with [] => [] | t :: _ => set_nth axis (fold_right Nat.add 0 (map (fun t0 => nth axis (nshape t0) 0) (map (den raw true) tiles))) (nshape t) end)
      with (set_nth axis (fold_right Nat.add 0 (map (fun t0 => nth axis (nshape t0) 0) (map (den raw true) tiles))) (shape u)).
    2:{ rewrite <- (den_shape raw true u) by (apply Hwt; auto). rewrite E at 2. reflexivity. }
    apply elements_concat; [exact Hax|]. apply Forall_forall. intros x Hx. apply in_map_iff in Hx as (t & <- & Ht).
    rewrite den_shape by (apply Hwt; auto). destruct (Hsame t Ht) as (H1 & H2 & _). replace (hd t tiles) with u in H2 by (rewrite E; reflexivity). apply set_nth_remove; auto.
Qed.

(** What thrifty adapters take is what the array consists of. *)
Lemma tuple_keys_count ks : length (tuple_keys ks) = count_if is_tup ks.
Proof. change (tuple_keys ks) with (tup_from 0 ks). rewrite tup_from_length. reflexivity. Qed.
Lemma mapM_all {A B} (f : A -> res B) (g : A -> B) l : (forall x, In x l -> f x = Ok (g x)) -> mapM f l = Ok (map g l).
Proof. induction l as [|x l IH]; intros H; [reflexivity|]. cbn [mapM map]. rewrite H by (simpl; auto). rewrite IH by (intros; apply H; simpl; auto). reflexivity. Qed.
Lemma reads_parts (a : barr) : wf a -> thrifty a -> reads a = Ok (parts a).
Proof.
  induction a as [sh v d|o c ks|a na IH|a dict lead IH|a d IH|a v IH|a axes IH|ssh items IH|tiles axis IH
    |g a axis d IH|o a d IH|o a b d IH1 IH2] using barr_ind2; intros Hw Hs; cbn [thrifty] in Hs; try contradiction; cbn [reads parts]; try (apply IH; auto; apply Hw; fail).
  - destruct Hw as [HS HV]. unfold valid_keys in HV. unfold oindex. cbn [nshape]. destruct (oselect ks (c_shape c)) as [s|] eqn:Es; [|congruence].
    assert (H : exists r, delivered o (mkND (c_shape c) (c_cell c)) ks = Ok r /\ nd_eq r (nd_sel (mkND (c_shape c) (c_cell c)) s)).
    { destruct o; [apply apply_ortho_ok; auto|]. destruct Hs as [Hs|[H1 H2]]; [discriminate|].
      destruct (apply_numpy_ok (mkND (c_shape c) (c_cell c)) ks s HS Es H2) as (r & E & Hr). exists r. split; auto.
      unfold apply_numpy in E. cbv zeta in E. unfold delivered. rewrite tuple_keys_count in *. replace (1 <? count_if is_tup ks) with false in * by lia. exact E. }
    destruct H as (r & -> & Hr). cbn [bind]. rewrite (elements_eq _ _ Hr). reflexivity.
  - destruct Hw as (_ & _ & Hwi & _). rewrite fold_right_and_Forall in Hwi, Hs. rewrite Forall_forall in *.
    rewrite (mapM_all reads parts) by (intros it Hit; apply IH; auto; apply Hwi; auto). cbn [bind]. rewrite flat_map_concat_map. reflexivity.
  - destruct Hw as (_ & Hwt & _). rewrite fold_right_and_Forall in Hwt, Hs. rewrite Forall_forall in *.
    rewrite (mapM_all reads parts) by (intros it Hit; apply IH; auto; apply Hwt; auto). cbn [bind]. rewrite flat_map_concat_map. reflexivity.
Qed.
End Parts.
