(** Property C72: an operation that NumPy does not define for the operands' dtypes is
    refused when it is built, and never afterwards. *)
From Verif Require Import Base PySlice Keys NDArray Arrays Chunks Handlers Realise Spec Lib GetBase Small Samples Built BuiltClaims PropBuilt Probe.

Section C72.
Context {V : Type} (O : numops V).
Variable dom1 : @op1 V -> nat -> bool.
Variable dom2 : @op2 V -> nat -> nat -> bool.
Variable dompy : @op2 V -> nat -> bool -> bool.
Notation barr := (@barr V).
Notation defined := (defined dom1 dom2).
Notation made := (made O dom1 dom2 dompy).

(** The invariant: operations report NumPy's dtype and are defined. *)
Fixpoint inv (a : barr) : Prop :=
  match a with
  | AConst _ _ _ | AAdapt _ _ _ => True
  | ANewAx a _ | ABcast a _ _ | AMaskV a _ | ATrans a _ | AAsTy a _ | AAgg _ a _ _ => inv a
  | AStack _ items => fold_right (fun it P => inv it /\ P) True items /\ (forall x y, In x items -> In y items -> dtype x = dtype y)
  | AMosaic tiles _ => fold_right (fun t P => inv t /\ P) True tiles /\ (forall x y, In x tiles -> In y tiles -> dtype x = dtype y)
  | AEl1 o a d => inv a /\ d = o1_dt o (dtype a) /\ dom1 o (dtype a) = true
  | AEl2 o a b d => inv a /\ inv b /\ d = o2_dt o (dtype a) (dtype b) /\ dom2 o (dtype a) (dtype b) = true
  end.
Lemma inv_all (l : list barr) : fold_right (fun it P => inv it /\ P) True l <-> forall x, In x l -> inv x.
Proof.
  induction l as [|x l IH]; cbn; [tauto|]. rewrite IH. split.
  - intros [H1 H2] y [<-|Hy]; auto.
  - intros H. split; intros; apply H; auto.
Qed.
Lemma inv_defined a : inv a -> defined a = true.
Proof.
  induction a as [sh v d|o c ks|a na IH|a dict lead IH|a d IH|a v IH|a axes IH|ssh items IH|tiles axis IH|g a axis d IH|o a d IH|o a b' d IH1 IH2] using barr_ind2;
    cbn [inv Probe.defined]; auto.
  - intros [H _]. rewrite inv_all in H. rewrite Forall_forall in IH. apply forallb_forall. auto.
  - intros [H _]. rewrite inv_all in H. rewrite Forall_forall in IH. apply forallb_forall. auto.
  - intros (H & _ & ->). rewrite IH; auto.
  - intros (H1 & H2 & _ & ->). rewrite IH1, IH2; auto.
Qed.
Lemma bcast_inv a dict lead (b : barr) : mk_bcast a dict lead = Ok b -> inv a -> inv b /\ dtype b = dtype a.
Proof.
  unfold mk_bcast. destruct a; cbn [fst snd]; intros E H; apply bind_ok in E as (_ & _ & E); destruct (existsb _ _); try discriminate;
    injection E as <-; split; auto.
Qed.
Lemma broadcast_one_inv a full off (b : barr) : broadcast_one a full off = Ok b -> inv a -> inv b /\ dtype b = dtype a.
Proof.
  unfold broadcast_one. intros E H. destruct (firstn off full), (bdict _ _); try (injection E as <-; auto; fail); eapply bcast_inv; eauto.
Qed.
Lemma broadcast_inv a b (c d : barr) : broadcast_arrays a b = Ok (c, d) -> inv a -> inv b -> (inv c /\ dtype c = dtype a) /\ (inv d /\ dtype d = dtype b).
Proof.
  unfold broadcast_arrays. intros E Ha Hb. apply bind_ok in E as (full & _ & E). apply bind_ok in E as (a' & E1 & E). apply bind_ok in E as (b' & E2 & E).
  injection E as <- <-. split; eapply broadcast_one_inv; eauto.
Qed.
Lemma getitem_inv (a : barr) : forall keys b, inv a -> getitem a keys = Ok b -> inv b /\ dtype b = dtype a.
Proof.
  induction a as [sh v d|o c ks|a na IH|a dict lead IH|a d IH|a v IH|a axes IH|ssh items IH|tiles axis IH|g a axis d IH|o a d IH|o a b' d IH1 IH2]
    using barr_ind2; intros keys b Hd E; cbn [getitem] in E.
  - apply bind_ok in E as (sh' & _ & E). injection E as <-. split; auto.
  - assert (G : forall ks' c', (k <- remap_keys (c_shape c) ks ks' ;; mk_adapter o c k) = Ok c' -> inv c' /\ dtype c' = c_dtype c).
    { intros ks' c' E'. apply bind_ok in E' as (k & _ & E'). unfold mk_adapter in E'. destruct (_ <? _); [discriminate|].
      apply bind_ok in E' as (_ & _ & E'). injection E' as <-. cbn; auto. }
    apply base_getitem_inv in E as [(k & _ & _ & E)|(_ & k & c' & _ & E & na' & [->|(bd & ->)])]; destruct (G _ _ E); cbn [inv dtype]; auto.
  - apply newax_getitem_inv in E as (k & c' & E & na' & [->|(bd & ->)]); cbn [inv dtype]; apply IH in E; auto.
  - match type of E with base_getitem ?f _ _ = _ => assert (G : forall k c', f k = Ok c' -> inv c' /\ dtype c' = dtype a) end.
    { intros k c' E'. apply bind_ok in E' as (l' & _ & E'). apply bind_ok in E' as (r & _ & E'). apply bind_ok in E' as (bb & _ & E').
      apply bind_ok in E' as (sub & Es & E'). assert (S : inv sub /\ dtype sub = dtype a).
      { destruct bb; [injection Es as <-; auto|]. eapply IH; eauto. }
      destruct (bcast_inv _ _ _ _ E' (proj1 S)) as [H1 H2]. split; auto. rewrite H2. apply S. }
    apply base_getitem_inv in E as [(k & _ & _ & E)|(_ & k & c' & _ & E & na' & [->|(bd & ->)])]; destruct (G _ _ E); cbn [inv dtype]; auto.
  - apply bind_ok in E as (c' & E1 & E). injection E as <-. cbn [inv dtype]. split; auto. eapply IH; eauto.
  - apply bind_ok in E as (c' & E1 & E). injection E as <-. cbn [inv dtype]. eapply IH; eauto.
  - match type of E with base_getitem ?f _ _ = _ => assert (G : forall k c', f k = Ok c' -> inv c' /\ dtype c' = dtype a) end.
    { intros k c' E'. cbv zeta in E'. apply bind_ok in E' as (x & Ex & E'). apply trans_inv in E' as (ax & ->). cbn [inv dtype]. eapply IH; eauto. }
    apply base_getitem_inv in E as [(k & _ & _ & E)|(_ & k & c' & _ & E & na' & [->|(bd & ->)])]; destruct (G _ _ E); cbn [inv dtype]; auto.
  - destruct Hd as [Hd HA]. rewrite inv_all in Hd. rewrite Forall_forall in IH.
    match type of E with base_getitem ?f _ _ = _ => assert (G : forall k c', f k = Ok c' -> inv c' /\ dtype c' = dtype (AStack ssh items)) end.
    { intros k c' E'. eapply stack_get in E' as [(it & Hi & Ei)|(ssh' & its & Es & Hx)]; [| |reflexivity].
      - destruct (IH it Hi _ _ (Hd it Hi) Ei) as [H1 H2]. split; auto. rewrite H2. symmetry. apply stack_dtype; auto.
      - apply stack_inv in Es as (-> & Hne & HA'). destruct its as [|x its]; [congruence|]. split.
        + split; auto. apply inv_all. intros y Hy. destruct (Hx y Hy) as (it & Hi & Ei). eapply IH; eauto.
        + destruct (Hx x (or_introl eq_refl)) as (it & Hi & Ei). destruct (IH it Hi _ _ (Hd it Hi) Ei) as [_ H2].
          rewrite (stack_dtype _ _ x HA') by (left; auto). rewrite H2. symmetry. apply stack_dtype; auto. }
    apply base_getitem_inv in E as [(k & _ & _ & E)|(_ & k & c' & _ & E & na' & [->|(bd & ->)])]; destruct (G _ _ E); cbn [inv]; auto.
  - destruct Hd as [Hd HA]. rewrite inv_all in Hd. rewrite Forall_forall in IH.
    match type of E with base_getitem ?f _ _ = _ => assert (G : forall k c', existsb is_new k = false -> f k = Ok c' -> inv c' /\ dtype c' = dtype (AMosaic tiles axis)) end.
    { intros k c' Hk E'. eapply mosaic_get in E' as [(it & k' & Hi & _ & Ei)|(ax & its & Es & Hx)]; auto.
      - destruct (IH it Hi _ _ (Hd it Hi) Ei) as [H1 H2]. split; auto. rewrite H2. symmetry. apply mosaic_dtype; auto.
      - apply mosaic_inv in Es as (-> & Hne & HA'). destruct its as [|x its]; [congruence|]. split.
        + split; auto. apply inv_all. intros y Hy. destruct (Hx y Hy) as (it & k' & Hi & _ & Ei). eapply IH; eauto.
        + destruct (Hx x (or_introl eq_refl)) as (it & k' & Hi & _ & Ei). destruct (IH it Hi _ _ (Hd it Hi) Ei) as [_ H2].
          rewrite (mosaic_dtype _ _ x HA') by (left; auto). rewrite H2. symmetry. apply mosaic_dtype; auto. }
    apply base_getitem_inv in E as [(k & _ & N & E)|(_ & k & c' & N & E & na' & [->|(bd & ->)])]; destruct (G _ _ N E); cbn [inv]; auto.
  - match type of E with base_getitem ?f _ _ = _ => assert (G : forall k c', f k = Ok c' -> inv c' /\ dtype c' = d) end.
    { intros k c' E'. cbv zeta in E'. apply bind_ok in E' as (x & Ex & E'). injection E' as <-. cbn [inv dtype]. split; auto. eapply IH; eauto. }
    apply base_getitem_inv in E as [(k & _ & _ & E)|(_ & k & c' & _ & E & na' & [->|(bd & ->)])]; destruct (G _ _ E); cbn [inv dtype]; auto.
  - match type of E with base_getitem ?f _ _ = _ => assert (G : forall k c', f k = Ok c' -> inv c' /\ dtype c' = d) end.
    { intros k c' E'. apply bind_ok in E' as (x & Ex & E'). injection E' as <-. destruct Hd as (Hd & -> & HD). destruct (IH _ _ Hd Ex) as [H1 H2].
      cbn [mk_el1 inv dtype]. rewrite H2. auto. }
    apply base_getitem_inv in E as [(k & _ & _ & E)|(_ & k & c' & _ & E & na' & [->|(bd & ->)])]; destruct (G _ _ E); cbn [inv dtype]; auto.
  - match type of E with base_getitem ?f _ _ = _ => assert (G : forall k c', f k = Ok c' -> inv c' /\ dtype c' = d) end.
    { intros k c' E'. apply bind_ok in E' as (x & Ex & E'). apply bind_ok in E' as (y & Ey & E'). destruct Hd as (Hd1 & Hd2 & -> & HD).
      destruct (IH1 _ _ Hd1 Ex) as [H1 H2]. destruct (IH2 _ _ Hd2 Ey) as [H3 H4]. unfold mk_el2 in E'. apply bind_ok in E' as ([x' y'] & Eb & E').
      injection E' as <-. destruct (broadcast_inv _ _ _ _ Eb H1 H3) as [[F1 F2] [F3 F4]]. cbn [inv dtype]. rewrite F2, F4, H2, H4. auto. }
    apply base_getitem_inv in E as [(k & _ & _ & E)|(_ & k & c' & _ & E & na' & [->|(bd & ->)])]; destruct (G _ _ E); cbn [inv dtype]; auto.
Qed.
Lemma el2_inv o a b py c : inv a -> inv b -> like_array dom2 dompy py o (dtype a) (dtype b) -> probe_el2 dom2 dompy o a b py = Ok c -> inv c.
Proof.
  intros Ha Hb HL E. unfold probe_el2 in E. apply bind_ok in E as (e & E & E'). destruct (match py with Some _ => _ | None => _ end) eqn:EP; [|discriminate]. injection E' as <-.
  unfold mk_el2 in E. apply bind_ok in E as ([a' b'] & Eb & E). injection E as <-. destruct (broadcast_inv _ _ _ _ Eb Ha Hb) as [[F1 F2] [F3 F4]].
  cbn [inv]. split; auto. split; auto. rewrite F2, F4. destruct py as [isf|]; [destruct HL as [-> HL]; rewrite <- HL; auto|auto].
Qed.
Lemma made_inv a : made a -> inv a.
Proof.
  induction 1 as [sh v d|o c ks a E|a na b H IH E|a dict lead b H IH E|a b c d H1 IH1 H2 IH2 E|a b c d H1 IH1 H2 IH2 E|a d H IH|a v H IH
    |a axes b H IH E|ssh items b H IH E|tiles axis b H IH E|g a ax b H IH E|o a b H IH E|o a b py c H1 IH1 H2 IH2 HP E|a keys b H IH E].
  - exact I.
  - unfold mk_adapter in E. destruct (_ <? _); [discriminate|]. apply bind_ok in E as (_ & _ & E). injection E as <-. exact I.
  - unfold mk_newax in E. destruct (_ =? _); [|discriminate]. injection E as <-. exact IH.
  - apply (bcast_inv _ _ _ _ E IH).
  - apply (broadcast_inv _ _ _ _ E IH1 IH2).
  - apply (broadcast_inv _ _ _ _ E IH1 IH2).
  - unfold astype. destruct a; exact IH.
  - exact IH.
  - apply trans_inv in E as (ax & ->). exact IH.
  - apply stack_inv in E as (-> & _ & HA). split; auto. apply inv_all. auto.
  - apply mosaic_inv in E as (-> & _ & HA). split; auto. apply inv_all. auto.
  - unfold aggregate in E. apply bind_ok in E as (axs & _ & E). destruct axs as [[|j [|? ?]]|]; try discriminate. injection E as <-. exact IH.
  - unfold probe_el1 in E. destruct (dom1 o (dtype a)) eqn:ED; [|discriminate]. injection E as <-. cbn. auto.
  - exact (el2_inv o a b py c IH1 IH2 HP E).
  - unfold probe_getitem in E. apply bind_ok in E as (b' & E & E'). destruct (Probe.defined _ _ _); [|discriminate]. injection E' as <-. eapply getitem_inv; eauto.
Qed.

(** Building an operation raises TypeError exactly when NumPy does not define it for
    the operands' dtypes (given that the shapes broadcast). *)
Theorem C72_refused o1 o2 (a b : barr) :
  (probe_el1 dom1 o1 a = Err TypeError <-> dom1 o1 (dtype a) = false)
  /\ (forall e, mk_el2 o2 a b None = Ok e -> (probe_el2 dom2 dompy o2 a b None = Err TypeError <-> dom2 o2 (dtype a) (dtype b) = false)
        /\ (probe_el2 dom2 dompy o2 a b None = Ok e <-> dom2 o2 (dtype a) (dtype b) = true)).
Proof.
  unfold probe_el1, probe_el2. split.
  - destruct (dom1 o1 (dtype a)); split; congruence.
  - intros e ->. cbn [bind]. destruct (dom2 o2 (dtype a) (dtype b)); split; split; congruence.
Qed.
(** Afterwards nothing raises it: indexing with any keys does what it does for
    operations that are defined for every dtype, and so does evaluating. *)
Theorem C72_index_partial a keys : made a -> probe_getitem dom1 dom2 a keys = getitem a keys.
Proof.
  intros H. unfold probe_getitem. destruct (getitem a keys) as [b|e] eqn:E; auto. cbn [bind].
  rewrite (inv_defined b); auto. eapply getitem_inv; eauto. apply made_inv. auto.
Qed.
Theorem C72_evaluate_partial maxc garbage fuel m a : made a -> probe_realise O dom1 dom2 maxc garbage fuel m a = realise O maxc garbage fuel m a.
Proof. intros H. unfold probe_realise. rewrite inv_defined; auto. apply made_inv. auto. Qed.

(** With a Python number: the operation is built if NumPy defines it for the number,
    and can be evaluated exactly if NumPy defines it for an array that holds it. *)
Theorem C72_python_number o a b py e : made a -> made b -> mk_el2 o a b (Some py) = Ok e ->
  (probe_el2 dom2 dompy o a b (Some py) = Ok e <-> dompy o (dtype a) py = true)
  /\ forall maxc garbage fuel m, (dom2 o (dtype a) (dtype b) = true -> probe_realise O dom1 dom2 maxc garbage fuel m e = realise O maxc garbage fuel m e)
     /\ (dom2 o (dtype a) (dtype b) = false -> probe_realise O dom1 dom2 maxc garbage fuel m e = Err TypeError).
Proof.
  intros Ha Hb E. unfold probe_el2. rewrite E. cbn [bind]. split; [destruct (dompy o (dtype a) py); split; congruence|]. intros maxc garbage fuel m.
  unfold mk_el2 in E. apply bind_ok in E as ([a' b'] & Eb & E). injection E as <-. destruct (broadcast_inv _ _ _ _ Eb (made_inv a Ha) (made_inv b Hb)) as [[F1 F2] [F3 F4]].
  unfold probe_realise. cbn [Probe.defined]. rewrite (inv_defined a'), (inv_defined b') by auto. rewrite F2, F4. split; intros ->; reflexivity.
Qed.
End C72.
Print Assumptions C72_refused. Print Assumptions C72_index_partial. Print Assumptions C72_evaluate_partial. Print Assumptions C72_python_number.

(** ** Where it fails
    [biggus.bitwise_and(a, 1)] of unsigned 64-bit integers (dtype 3): NumPy defines
    the operation for integers (dtypes 2 and 3) but promotes unsigned with signed
    64-bit integers to floating point, for which it does not; the Python number 1 it
    takes for an unsigned one.  The operation is built; evaluating it, or indexing it,
    raises TypeError. *)
Definition band : @op2 Z := mkOp2 Z.land (Some (fun a b => match a, b with Some x, Some y => Some (Z.land x y) | _, _ => None end)) (fun d d' => if d =? d' then d else 4) (fun d _ => d).
Definition int_dom (_ : @op2 Z) (d d' : nat) : bool := (d =? d') && ((d =? 2) || (d =? 3)).
Definition int_dompy (_ : @op2 Z) (d : nat) (is_float : bool) : bool := ((d =? 2) || (d =? 3)) && negb is_float.
Definition unsigned (sh : list nat) : @barr Z := AAdapt false (mkC sh (fun i => Some (Z.of_nat (ravel sh i))) None 3) [].
Definition all1 (_ : @op1 Z) (_ : nat) : bool := true.
Lemma unsigned_made sh : made z_ops all1 int_dom int_dompy (unsigned sh).
Proof. apply (M_adapter z_ops all1 int_dom int_dompy false (mkC sh (fun i => Some (Z.of_nat (ravel sh i))) None 3) []). unfold mk_adapter. destruct (c_shape _); reflexivity. Qed.
Theorem C72_python_refuted : exists (a b : @barr Z) e, made z_ops all1 int_dom int_dompy a /\ made z_ops all1 int_dom int_dompy b
  /\ probe_el2 int_dom int_dompy band a b (Some false) = Ok e
  /\ (forall maxc garbage fuel m, probe_realise z_ops all1 int_dom maxc garbage fuel m e = Err TypeError)
  /\ probe_getitem all1 int_dom e [KInt 0] = Err TypeError /\ exists x, getitem e [KInt 0] = Ok x.
Proof.
  exists (unsigned [3]), (AConst [] 1%Z 2). eexists. split; [apply unsigned_made|]. split; [constructor|]. split; [reflexivity|].
  split; [intros; reflexivity|]. split; [reflexivity|]. eexists. vm_compute. reflexivity.
Qed.
Print Assumptions C72_python_refuted.
(** ** The hypotheses are met
    The same operation on two unsigned arrays, one of them reversed, indexed. *)
Definition masks : res (@barr Z) :=
  a <- probe_el2 int_dom int_dompy band (unsigned [2; 3]) (unsigned [3]) None ;; probe_getitem all1 int_dom a [KInt 1; KSlice (mkS None None (Some (-1)%Z))].
Example C72_case : match masks with Ok b => made z_ops all1 int_dom int_dompy b /\ shape b = [3] | Err _ => False end
  /\ probe_el2 int_dom int_dompy band (unsigned [2; 3]) (AConst [] 1%Z 2) None = Err TypeError.
Proof.
  split; [|reflexivity]. destruct masks as [b|e] eqn:E; [|vm_compute in E; discriminate]. split.
  - unfold masks in E. apply bind_ok in E as (a & E1 & E). eapply M_index; [|exact E].
    apply (M_binary z_ops all1 int_dom int_dompy band (unsigned [2; 3]) (unsigned [3]) None a); [apply unsigned_made|apply unsigned_made|exact I|exact E1].
  - assert (H : match masks with Ok b => shape b | Err _ => [] end = [3]) by (vm_compute; reflexivity). rewrite E in H. exact H.
Qed.
