(** What a NewAxesArray does with every valid key tuple (C07), including the keys
    for which it is not what NumPy does. *)
From Verif Require Import Base PySlice Keys NDArray Arrays Spec Supported Lib SelLemmas KeyLemmas NewAxLemmas GetBase GetSimple GetBcast GetItem BuiltClaims Sound Samples PropRefuted PropAdapter PropMosaic PropBcast PropStretch StreamLemmas.

(** [fl] tells which of the dimensions are new axes.  A new axis is given a key that
    is neither an integer, a slice nor a tuple. *)
Fixpoint new_odd (ks : list key) (fl : list bool) : bool :=
  match ks with
  | [] => false
  | KNew :: ks => new_odd ks fl
  | k :: ks => match fl with
               | [] => false
               | f :: fl => match f, k with true, (KInt _ | KSlice _ | KTuple _) | false, _ => false | _, _ => true end || new_odd ks fl
               end
  end.
(** The length a new axis has after this key, if the code sees a need to change it:
    a slice that does not keep the one position, or any tuple. *)
Definition resize (k : key) : option nat :=
  match k with
  | KSlice s => match slice_idx s 1 with Ok l => if length l =? 1 then None else Some (length l) | Err _ => None end
  | KTuple l => Some (length l)
  | _ => None
  end.
(** The keys with [slice(None)] for every such key on a new axis. *)
Fixpoint unresized (ks : list key) (fl : list bool) : list key :=
  match ks with
  | [] => []
  | KNew :: ks => KNew :: unresized ks fl
  | k :: ks => match fl with
               | [] => k :: ks
               | f :: fl => (if f then match resize k with Some _ => KFull | None => k end else k) :: unresized ks fl
               end
  end.
(** The new lengths, each under the number of its key in the tuple, from [ki]. *)
Fixpoint resizes (ki : nat) (ks : list key) (fl : list bool) : list (nat * nat) :=
  match ks with
  | [] => []
  | KNew :: ks => resizes (S ki) ks fl
  | k :: ks => match fl with
               | [] => []
               | f :: fl => (if f then match resize k with Some n => [(ki, n)] | None => [] end else []) ++ resizes (S ki) ks fl
               end
  end.
(** The dimensions in [dict] given these lengths, and read at 0. *)
Definition stretched {A} (dict : list (nat * nat)) (x : nd A) : nd A :=
  mkND (map (fun ax => match dict_find ax dict with Some n => n | None => nth ax (nshape x) 0 end) (seq 0 (length (nshape x))))
       (fun idx => nget x (map (fun ax => match dict_find ax dict with Some _ => 0 | None => nth ax idx 0 end) (seq 0 (length idx)))).

Lemma resizes_nx ks : forall ki fl, resizes ki ks fl = nx_bd ki ks fl.
Proof.
  induction ks as [|k ks IH]; intros ki fl; auto. cbn [resizes nx_bd]. destruct k; auto; destruct fl as [|[] fl]; auto; cbn [app resize]; try (rewrite IH; auto; fail).
  destruct (slice_idx s 1); [destruct (_ =? _)|]; rewrite IH; auto.
Qed.
Lemma resizes_ge ks : forall ki fl, Forall (fun p => ki <= fst p) (resizes ki ks fl) /\ NoDup (map fst (resizes ki ks fl)).
Proof. intros. rewrite resizes_nx. apply nx_bd_ge. Qed.

Lemma tuple_one l q : norm_ints l 1 = Some q -> existsb (fun i : Z => negb ((-1 <=? i) && (i <? 1))%Z) l = false.
Proof.
  intros E. apply existsb_false_Forall. apply norm_ints_Forall2 in E. induction E as [|i j l q Hij E IH]; constructor; auto.
  unfold norm_int in Hij. simpl in Hij. destruct ((-1 <=? i) && (i <? 1))%Z; auto. discriminate.
Qed.
Lemma odd_new_loop ks : forall fl sh s ki na comb ck eaa bd bd2,
  nK (mkf fl) = length sh -> sel_keys ks (laymk 1 (mkf fl) sh) = Some s ->
  if new_odd ks fl then newax_loop ks ki na comb fl ck eaa bd = Err NotImplementedErr
  else exists na' comb' ck', newax_loop ks ki na comb fl ck eaa bd = Ok (na', comb', ck', bd ++ resizes ki ks fl)
       /\ newax_loop (unresized ks fl) ki na comb fl ck eaa bd2 = Ok (na', comb', ck', bd2).
Proof.
  induction ks as [|k ks IH]; intros fl sh s ki na comb ck eaa bd bd2 HK H.
  - cbn. do 3 eexists. rewrite app_nil_r. split; reflexivity.
  - apply sel_lay in H; auto.
    destruct H as [(-> & r & -> & H)|[(Hn & fl' & d & r & -> & -> & Hd & H & HK')|
                  (Hn & fl' & n & sh' & d & r & -> & -> & -> & Hd & H & HK')]].
    + cbn [new_odd newax_loop resizes unresized]. eapply IH; eauto.
    + destruct k; try discriminate Hn; cbn [new_odd newax_loop resizes unresized resize orb app]; auto.
      * simpl in Hd. destruct (norm_int i 1) as [j|] eqn:E; [|discriminate].
        assert (B : ((-1 <=? i) && (i <? 1))%Z = true).
        { unfold norm_int in E. simpl in E. destruct ((-1 <=? i) && (i <? 1))%Z; congruence. }
        rewrite B. eapply IH; eauto.
      * simpl in Hd. destruct (slice_idx s 1) as [l|] eqn:E; [|discriminate]. cbn [bind].
        destruct (length l =? 1) eqn:E1; cbn [app newax_loop].
        -- rewrite E. cbn [bind]. rewrite E1. eapply IH; eauto.
        -- change (slice_idx full_slice 1) with (Ok [0]). cbn [bind length Nat.eqb].
           specialize (IH fl' sh r (S ki) na comb ck eaa (bd ++ [(ki, length l)]) bd2 HK' H). rewrite <- app_assoc in IH. exact IH.
      * simpl in Hd. destruct (norm_ints l 1) as [q|] eqn:E; [|discriminate]. rewrite (tuple_one _ _ E).
        change (slice_idx full_slice 1) with (Ok [0]). cbn [bind length Nat.eqb app].
        specialize (IH fl' sh r (S ki) na comb ck eaa (bd ++ [(ki, length l)]) bd2 HK' H). rewrite <- app_assoc in IH. exact IH.
    + specialize (IH fl' sh' r (S ki) na (if is_scalar k then eaa :: comb else comb) (ck ++ [k]) (S eaa) bd bd2 HK' H).
      destruct k; try discriminate Hn; exact IH.
Qed.
Lemma unresized_ck ks : forall fl sh s, nK (mkf fl) = length sh -> sel_keys ks (laymk 1 (mkf fl) sh) = Some s ->
  nx_ck (unresized ks fl) fl = nx_ck ks fl /\ (new_odd ks fl = false -> forall seen, nx_ok seen (unresized ks fl) fl)
  /\ exists s', sel_keys (unresized ks fl) (laymk 1 (mkf fl) sh) = Some s'.
Proof.
  induction ks as [|k ks IH]; intros fl sh s HK H.
  - split; auto. split; [constructor|]. eauto.
  - apply sel_lay in H; auto.
    destruct H as [(-> & r & -> & H)|[(Hn & fl' & d & r & -> & -> & Hd & H & HK')|
                  (Hn & fl' & n & sh' & d & r & -> & -> & -> & Hd & H & HK')]].
    + destruct (IH _ _ _ HK H) as (A & B & s' & C). cbn [unresized nx_ck nx_ok new_odd]. split; auto. split; auto.
      exists (DNew :: s'). cbn [sel_keys]. rewrite C. auto.
    + destruct (IH _ _ _ HK' H) as (A & B & s' & C).
      assert (E1 : exists k', unresized (k :: ks) (true :: fl') = k' :: unresized ks fl' /\ is_new k' = false /\ (exists d', sel_key k' 1 = Some d')
        /\ (new_odd (k :: ks) (true :: fl') = false -> new_odd ks fl' = false /\
             match k' with KInt _ => True | KSlice s => exists p, slice_idx s 1 = Ok [p] | _ => False end)).
      { destruct k; try discriminate Hn; cbn [unresized resize new_odd orb]; try (eexists; split; [reflexivity|]; split; [reflexivity|]; split; [eauto|]; intros; try discriminate; auto; fail).
        - simpl in Hd. destruct (slice_idx s 1) as [l|] eqn:E; [|discriminate]. destruct (length l =? 1) eqn:E1.
          + eexists; split; [reflexivity|]. split; auto. split; [cbn [sel_key]; rewrite E; eauto|]. intros Ho; split; auto.
            rewrite E. apply Nat.eqb_eq in E1. destruct l as [|p [|? ?]]; try discriminate. eauto.
          + eexists; split; [reflexivity|]. split; auto. split; [cbn; eauto|]. intros Ho; split; auto. exists 0%Z. reflexivity.
        - eexists; split; [reflexivity|]. split; auto. split; [cbn; eauto|]. intros Ho; split; auto. exists 0%Z. reflexivity. }
      destruct E1 as (k' & -> & N & (d' & D) & Q).
      assert (X : nx_ck (k :: ks) (true :: fl') = nx_ck ks fl') by (destruct k; auto; discriminate).
      assert (Y : nx_ck (k' :: unresized ks fl') (true :: fl') = nx_ck (unresized ks fl') fl') by (destruct k'; auto; discriminate).
      rewrite X, Y. split; auto. split.
      * intros Ho seen. destruct (Q Ho) as [Q1 Q2]. destruct k'; try contradiction; cbn [nx_ok]; auto.
      * exists (d' :: s'). cbn [mkf map laymk]. rewrite sel_keys_cons_eq by auto. rewrite D. unfold mkf in C. rewrite C. auto.
    + destruct (IH _ _ _ HK' H) as (A & B & s' & C).
      assert (U : unresized (k :: ks) (false :: fl') = k :: unresized ks fl') by (destruct k; auto; discriminate).
      rewrite U. split; [destruct k; try discriminate Hn; cbn [nx_ck]; rewrite A; auto|]. split.
      * intros Ho seen. assert (Ho' : new_odd ks fl' = false) by (destruct k; try discriminate Hn; exact Ho).
        destruct k; try discriminate Hn; cbn [nx_ok]; auto.
      * exists (d :: s'). cbn [mkf map laymk]. rewrite sel_keys_cons_eq by auto. rewrite Hd. unfold mkf in C. rewrite C. auto.
Qed.

Section Newax.
Context {V : Type} (O : numops V).
Implicit Types c : @barr V.

(** C07: every valid key tuple for an array with new axes, newaxis keys included.
    - an array, list or mask on a new axis: NotImplementedError;
    - otherwise the keys that change the length of a new axis are applied last,
      after the others ([unresized]), by stretching the dimensions of that result
      that bear the numbers of the keys in the tuple ([resizes]): the result, or
      ValueError when one of these dimensions does not exist or has not length 1.
    So integers are counted as if each were a dimension of the result: right when no integer comes before such a key, otherwise an error or
    the wrong dimension stretched.  [safe]: the source's own indexing is right. *)
Theorem C07_outcome c na ks : let a := ANewAx c na in
  wf a -> existsb is_ell ks = false -> n_real ks = ndim a -> valid_keys ks (shape a) ->
  let fl := newax_layout true (repeat false (ndim c)) na in
  safe c (nx_ck ks fl) ->
  let late := resizes 0 ks fl in
  if new_odd ks fl then getitem a ks = Err NotImplementedErr
  else match getitem a (unresized ks fl) with
       | Err e => getitem a ks = Err e
       | Ok _ =>
           let first m := oindex (den O m a) (unresized ks fl) in
           (Forall (fun p => fst p < length (nshape (first false)) /\ nth (fst p) (nshape (first false)) 0 = 1) late
            /\ exists b, getitem a ks = Ok b /\ wf b /\ forall m, nd_eq (den O m b) (stretched late (first m)))
           \/ (~ Forall (fun p => fst p < length (nshape (first false)) /\ nth (fst p) (nshape (first false)) 0 = 1) late
               /\ getitem a ks = Err ValueError)
       end.
Proof.
  intros a Hw He Hr HV fl Hs late. pose proof Hw as [Hwc HL].
  assert (Hsh : shape a = laymk 1 (mkf fl) (shape c)).
  { unfold a, fl. cbn [shape]. apply (layout_flags 1 (shape c) na). unfold ndim in HL; lia. }
  assert (HK : nK (mkf fl) = length (shape c)) by (apply (nK_flags (ndim c) na); unfold ndim in HL |- *; lia).
  assert (Hnd : ndim a = ndim c + fold_right Nat.add 0 na).
  { unfold ndim at 1. rewrite Hsh, (laymk_length 1 fl (shape c)) by auto. apply (flags_length (ndim c) na). unfold ndim in HL |- *; lia. }
  assert (Hex : np_expand ks (ndim a) = Ok ks) by (apply np_expand_id; split; auto).
  unfold valid_keys, oselect in HV. fold (ndim a) in HV. rewrite Hex in HV. destruct (sel_keys ks (shape a)) as [s|] eqn:Es; [|congruence]. clear HV.
  rewrite Hsh in Es. destruct (unresized_ck ks fl (shape c) s HK Es) as (U1 & U2 & s' & U3). pose proof (sel_keys_fullk _ _ _ U3) as UF.
  rewrite <- Hsh in UF, U3. fold (ndim a) in UF.
  pose proof (odd_new_loop ks fl (shape c) s 0 na [] [] 0 [] [] HK Es) as Q.
  unfold a. cbn [getitem]. unfold newax_getitem. rewrite <- Hnd, !full_keys_id by (auto; split; auto). cbn [bind]. fold fl.
  destruct (new_odd ks fl) eqn:Eo; [rewrite Q; reflexivity|]. destruct Q as (na' & comb & ck & Q1 & Q2). rewrite Q1, Q2. cbn [bind app]. fold late.
  destruct (getitem c ck) as [sub|e] eqn:Ec; [|reflexivity]. cbn [bind]. destruct (mk_newax sub (combine_axes na' comb)) as [r|e] eqn:Er; [|reflexivity]. cbn [bind].
  assert (Eg : getitem a (unresized ks fl) = Ok r).
  { unfold a. cbn [getitem]. unfold newax_getitem. rewrite <- Hnd, full_keys_id by auto. cbn [bind]. fold fl. rewrite Q2. cbn [bind]. rewrite Ec. cbn [bind]. rewrite Er. reflexivity. }
  assert (Hx : np_expand (unresized ks fl) (ndim a) = Ok (unresized ks fl)) by (apply np_expand_id; auto).
  assert (Hsf : safe a (unresized ks fl)).
  { unfold a. cbn [safe]. fold fl. rewrite U1. split; auto. clear - U2. specialize (U2 eq_refl false). revert U2. generalize (unresized ks fl) false. generalize fl. clear.
    intros fl l. revert fl. induction l as [|k l IH]; intros fl b H; auto. destruct k; destruct fl as [|[] fl]; cbn [nx_ok nx_safe] in *; auto; try contradiction; destruct H; auto. }
  destruct (sound_all O a (unresized ks fl) (unresized ks fl) s' Hw Hx U3) as (r' & Er' & G). { split; eauto. }
  assert (r' = r) by congruence. subst r'. pose proof (g_wf _ _ _ _ G) as Wr.
  assert (Hden : forall m, nd_eq (den O m r) (oindex (den O m a) (unresized ks fl))).
  { intros m. unfold oindex. rewrite den_shape by auto. unfold oselect. fold (ndim a). rewrite Hx, U3. apply G. }
  assert (Hrs : forall m, nshape (oindex (den O m a) (unresized ks fl)) = shape r).
  { intros m. destruct (Hden m) as [X _]. rewrite <- X. apply den_shape; auto. }
  cbv zeta. fold a. rewrite (Hrs false).
  assert (Hund : under r = r /\ put_before r = [] /\ forall ax, given r ax = None).
  { unfold mk_newax in Er. destruct (_ =? _); [|discriminate]. injection Er as <-. auto. }
  destruct Hund as (D1 & D2 & D3). destruct (resizes_ge ks 0 fl) as [_ HN]. fold late in HN.
  assert (Em : match late with [] => Ok r | _ => mk_bcast r late [] end = mk_bcast r late [] \/ late = []) by (destruct late; auto).
  destruct Em as [Em|Em].
  - rewrite Em. destruct (C08_accepts r late [] Wr HN) as [A1 A2]. rewrite D1 in A1. destruct A2 as [[b Eb]|Eb].
    + left. rewrite Eb. split; [apply A1; eauto|]. exists b. split; auto. destruct (C08_again O r late [] b Wr HN Eb) as [B1 B2]. split; auto.
      intros m. destruct (B2 m) as (sh' & S1 & S2 & S3 & S4). rewrite D1, D2 in *. cbn [app length plus] in *.
      assert (Esh : nshape (den O m b) = nshape (stretched late (oindex (den O m a) (unresized ks fl)))).
      { rewrite S1. unfold stretched. cbn [nshape]. rewrite Hrs. apply (nth_error_ext_nth 0); [rewrite map_length, seq_length; auto|].
        intros i Hi. rewrite S3 by lia. rewrite (nth_map_seq (fun ax => match dict_find ax late with Some n => n | None => nth ax (shape r) 0 end)) by (unfold ndim in S2; lia). rewrite D3. auto. }
      split; auto. intros idx Hin. pose proof (inb_length _ _ Hin) as HLi. rewrite S1, S2 in HLi.
      specialize (S4 [] idx eq_refl HLi Hin). cbn [app] in S4. rewrite S4. unfold stretched. cbn [nget].
      rewrite (map_ext (fun ax => match dict_find ax late with Some _ => 0 | None => match given r ax with Some _ => 0 | None => nth ax idx 0 end end) (fun ax => match dict_find ax late with Some _ => 0 | None => nth ax idx 0 end)) by (intros ax; rewrite D3; auto).
      apply Hden. rewrite den_shape by auto. apply inb_ext; [rewrite map_length, seq_length; auto|].
      intros i Hi. rewrite (nth_map_seq (fun ax => match dict_find ax late with Some _ => 0 | None => nth ax idx 0 end)) by (unfold ndim in HLi; lia).
      destruct (proj1 A1 ltac:(eauto)) as [F _].
      destruct (dict_find i late) as [n|] eqn:Ef.
      * apply dict_find_In in Ef. rewrite Forall_forall in F. apply F in Ef as [_ Ef]. cbn [fst] in Ef. lia.
      * pose proof (inb_nth _ _ i Hin ltac:(rewrite S1, S2; auto)) as Hb. rewrite S1, S3, Ef, D3 in Hb by auto. auto.
    + right. rewrite Eb. split; auto. intros F. destruct (proj2 A1) as [b Eb']; [split; auto|congruence].
  - left. rewrite Em. split; [constructor|]. exists r. split; auto. split; auto. intros m. eapply nd_eq_trans; [apply Hden|].
    unfold stretched. cbn [dict_find find]. split; cbn [nshape nget].
    + symmetry. apply map_nth_seq.
    + intros idx _. rewrite map_nth_seq. auto.
Qed.
End Newax.
Print Assumptions C07_outcome.

(** Shape (2, 1, 1) with the middle dimension new: an index array there; a tuple
    after a slice; a slice that empties it, with a newaxis before; after an integer
    the tuple meant for the new axis stretches the last dimension, silently; and
    after two integers the dimension does not exist. *)
Definition layered : @barr Z := ANewAx (arr [2;1]) [0;1;0].
Example C07_outcome_case :
  let keys := [[KFull; KArr [0]%Z; KFull]; [S3 1 2 1; KTuple [0;-1]%Z; KFull]; [KFull; KNew; S3 0 0 1; KFull];
               [KInt 1; KTuple [0;0;0]%Z; KFull]; [KInt 1; KInt 0; KFull; KNew]; [KInt 0; S3 1 1 1; KInt 0]] in
  wf layered
  /\ Forall (fun ks => existsb is_ell ks = false /\ n_real ks = ndim layered /\ valid_keys ks (shape layered)
       /\ safe (arr [2;1]) (nx_ck ks (newax_layout true (repeat false 2) [0;1;0]))) keys
  /\ map (before true layered) keys
     = [Err NotImplementedErr; Ok ([1;2;1], [Some 1; Some 1]%Z); Ok ([2;1;0;1], []);
        Ok ([1;3], [Some 1; Some 1; Some 1]%Z); Ok ([1;1], [Some 1]%Z); Err ValueError]
  /\ map (after true layered) [[KInt 1; KTuple [0;0;0]%Z; KFull]; [KInt 0; S3 1 1 1; KInt 0]]
     = [Ok ([3;1], [Some 1; Some 1; Some 1]%Z); Ok ([0], [])].
Proof.
  cbv zeta. split; [repeat split; try constructor; valid|]. split.
  - repeat (constructor; [repeat split; try (repeat constructor; fail); valid|]). constructor.
  - vm_compute. split; reflexivity.
Qed.
