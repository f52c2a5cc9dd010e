(** Property C70: the top-level elementwise functions of the module are the NumPy
    functions of the same name, element by element, in both forms. *)
From Verif Require Import Base PySlice Keys NDArray Arrays Chunks Handlers Realise Spec Supported Lib SelLemmas GetSimple BroadcastClaims RealOps Realisable RealOK RealiseOK Samples BuiltClaims PropSources Small Ufuncs.
From Coq Require Import String.
Local Open Scope string_scope.
Local Open Scope list_scope.
Local Open Scope nat_scope.

(** What NumPy documents: the functions of one and of two arrays with one result
    among those the module wraps, [sub] standing for np.subtract. *)
Definition takes_one : list string :=
  ["negative"; "absolute"; "rint"; "sign"; "conj"; "exp"; "exp2"; "log"; "log2"; "log10"; "expm1"; "sqrt"; "square"; "reciprocal";
   "sin"; "cos"; "tan"; "arcsin"; "arccos"; "arctan"; "sinh"; "cosh"; "tanh"; "arcsinh"; "arccosh"; "arctanh"; "deg2rad"; "rad2deg";
   "invert"; "logical_not"; "isreal"; "iscomplex"; "isinf"; "isnan"; "signbit"; "floor"; "ceil"; "trunc"].
Definition takes_two : list string :=
  ["add"; "sub"; "subtract"; "multiply"; "floor_divide"; "true_divide"; "divide"; "power"; "arctan2"; "hypot";
   "bitwise_and"; "bitwise_or"; "bitwise_xor"; "left_shift"; "right_shift"; "greater"; "greater_equal"; "less"; "less_equal";
   "not_equal"; "equal"; "logical_and"; "logical_or"; "logical_xor"; "maximum"; "minimum"; "fmax"; "fmin";
   "copysign"; "nextafter"; "ldexp"; "fmod"].
Definition numpy_name (n : string) : string := if String.eqb n "sub" then "subtract" else n.
(** The functions wrapped without looking for a masked equivalent. *)
Definition never_masked_form (n : string) : bool :=
  existsb (String.eqb n) ["isreal"; "iscomplex"; "isinf"; "isnan"; "signbit"; "copysign"; "nextafter"; "ldexp"; "fmod"].

Section C70.
Context {V : Type} (O : numops V).
Variable maxc : nat.
Variable garbage : list nat -> option V.
Variable fuel : nat.
Variable np : string -> option (@npfun V).     (* the numpy module *)
Variable ma : string -> option (@mafun V).     (* the numpy.ma module *)
Implicit Types a b : @barr V.

(** NumPy has these functions, all ufuncs but isreal and iscomplex. *)
Definition np_function (k : nat) (n : string) (f : npfun) : Prop :=
  np (numpy_name n) = Some f /\ f_nin f = k /\ f_nout f = 1 /\ f_ufunc f = negb (existsb (String.eqb n) ["isreal"; "iscomplex"]).
Definition standard : Prop :=
  (forall n, In n takes_one -> exists f, np_function 1 n f) /\ (forall n, In n takes_two -> exists f, np_function 2 n f).

(** The table, checked. *)
Definition mem (n : string) (l : list string) : bool := existsb (String.eqb n) l.
Definition renamed : list string := ["conj"; "sub"; "divide"].
Definition entry_ok (d : string * how) : bool :=
  let '(n, h) := d in
  match h with
  | ByUfunc t nm => String.eqb t (numpy_name n) && xorb (mem n takes_one) (mem n takes_two) && negb (never_masked_form n) && negb (mem n ["isreal"; "iscomplex"])
                    && match nm with Some x => mem n renamed && String.eqb x n | None => negb (mem n renamed) end
  | Unary t => String.eqb t n && mem n takes_one && negb (mem n takes_two) && never_masked_form n && negb (String.eqb n "sub") && negb (mem n renamed)
  | Dual t => String.eqb t n && mem n takes_two && negb (mem n takes_one) && never_masked_form n && negb (String.eqb n "sub") && negb (mem n renamed)
  end.
Lemma table_ok : forallb entry_ok definitions = true.
Proof. vm_compute. reflexivity. Qed.
Lemma table_all : forallb (fun n => mem n (map fst definitions)) (takes_one ++ takes_two) = true.
Proof. vm_compute. reflexivity. Qed.
Lemma mem_In n l : mem n l = true <-> In n l.
Proof.
  unfold mem. rewrite existsb_exists. split.
  - intros (x & Hx & E). apply String.eqb_eq in E. congruence.
  - intros H. exists n. split; auto. apply String.eqb_refl.
Qed.

Fixpoint nodupb (l : list string) : bool := match l with [] => true | x :: l => negb (mem x l) && nodupb l end.
Lemma nodupb_ok l : nodupb l = true -> NoDup l.
Proof.
  induction l as [|x l IH]; cbn [nodupb]; intros H; constructor; apply andb_prop in H as [H1 H2]; auto.
  intros Hx. apply mem_In in Hx. rewrite Hx in H1. discriminate.
Qed.

(** The function made for [n]. *)
Definition made_for (n : string) (w : wrapped) : Prop :=
  (In n takes_one /\ exists f, np_function 1 n f /\ w = W1 f (if never_masked_form n then None else ma (f_name f)))
  \/ (In n takes_two /\ exists f, np_function 2 n f /\ w = W2 f (if never_masked_form n then None else ma (f_name f))).
Lemma define_ok n h : standard -> In (n, h) definitions ->
  exists nm w, define np ma h = Ok (nm, w) /\ made_for n w /\ ((exists f, np (numpy_name n) = Some f /\ f_name f = n) \/ In n renamed -> nm = n).
Proof.
  intros [S1 S2] Hd. pose proof (proj1 (forallb_forall _ _) table_ok _ Hd) as E. unfold entry_ok in E. destruct h as [t nm|t|t]; cbn [define].
  - apply andb_prop in E as [E Enm]. apply andb_prop in E as [E E4]. apply andb_prop in E as [E E3]. apply andb_prop in E as [E1 E2].
    apply String.eqb_eq in E1. subst t. apply negb_true_iff in E3, E4.
    assert (HN : forall f, ((exists f, np (numpy_name n) = Some f /\ f_name f = n) \/ In n renamed) -> np (numpy_name n) = Some f -> match nm with Some x => x | None => f_name f end = n).
    { intros f H Hf. destruct nm as [x|]; [apply andb_prop in Enm as [_ Ex]; apply String.eqb_eq in Ex; auto|]. apply negb_true_iff in Enm.
      destruct H as [(g & Eg & <-)|H]; [congruence|]. apply mem_In in H. congruence. }
    destruct (mem n takes_one) eqn:M1; cbn [xorb] in E2.
    + apply mem_In in M1. destruct (S1 n M1) as (f & F1 & F2 & F3 & F4). unfold mem in E4. rewrite E4 in F4. cbn [negb] in F4.
      rewrite F1. unfold ufunc_wrapper. rewrite F4, F2, F3. cbn [negb Nat.eqb andb]. eexists _, _. split; [reflexivity|]. split; [|intros H; refine (HN f _ F1); rewrite F1; exact H].
      left. split; auto. exists f. split; [unfold np_function; rewrite E4; auto|]. rewrite E3. auto.
    + assert (E2' : mem n takes_two = true) by (destruct (mem n takes_two); auto). apply mem_In in E2'. destruct (S2 n E2') as (f & F1 & F2 & F3 & F4). unfold mem in E4. rewrite E4 in F4. cbn [negb] in F4.
      rewrite F1. unfold ufunc_wrapper. rewrite F4, F2, F3. cbn [negb Nat.eqb andb]. eexists _, _. split; [reflexivity|]. split; [|intros H; refine (HN f _ F1); rewrite F1; exact H].
      right. split; auto. exists f. split; [unfold np_function; rewrite E4; auto|]. rewrite E3. auto.
  - repeat (apply andb_prop in E as [E ?]). apply String.eqb_eq in E. subst t. apply mem_In in H3.
    repeat match goal with H : negb _ = true |- _ => apply negb_true_iff in H end.
    destruct (S1 n H3) as (f & F). pose proof F as (F1 & F2 & F3 & F4). pose proof F1 as F1'. unfold numpy_name in F1. rewrite H0 in F1. rewrite F1. eexists _, _. split; [reflexivity|]. split.
    + left. split; auto. exists f. split; auto. rewrite H1. auto.
    + cbn [unary_fn_wrapper fst]. intros [(g & Eg & <-)|Hn]; [congruence|]. apply mem_In in Hn. congruence.
  - repeat (apply andb_prop in E as [E ?]). apply String.eqb_eq in E. subst t. apply mem_In in H3.
    repeat match goal with H : negb _ = true |- _ => apply negb_true_iff in H end.
    destruct (S2 n H3) as (f & F). pose proof F as (F1 & F2 & F3 & F4). pose proof F1 as F1'. unfold numpy_name in F1. rewrite H0 in F1. rewrite F1. eexists _, _. split; [reflexivity|]. split.
    + right. split; auto. exists f. split; auto. rewrite H1. auto.
    + cbn [dual_input_fn_wrapper fst]. intros [(g & Eg & <-)|Hn]; [congruence|]. apply mem_In in Hn. congruence.
Qed.

Lemma mapM_each_ok {A B} (f : A -> res B) l : (forall x, In x l -> exists y, f x = Ok y) ->
  exists ys, mapM f l = Ok ys /\ forall x, In x l -> exists y, f x = Ok y /\ In y ys.
Proof.
  induction l as [|x l IH]; intros H; [exists []; split; [reflexivity|intros ? []]|].
  destruct (H x (or_introl eq_refl)) as (y & Ey). destruct IH as (ys & E & Hy); [intros z Hz; apply H; right; auto|].
  exists (y :: ys). cbn [mapM]. rewrite Ey. cbn [bind]. rewrite E. split; auto. intros z [<-|Hz]; [exists y; split; auto; left; auto|].
  destruct (Hy z Hz) as (u & Eu & Hu). exists u. split; auto. right. auto.
Qed.
(** The import succeeds; every documented name is bound, once, and exported under
    that name when NumPy's function has it as its name or one is given. *)
Theorem C70_import : standard -> exists l, import_all np ma = Ok l
  /\ NoDup (map fst l) /\ (forall n, In n (map fst l) <-> In n takes_one \/ In n takes_two)
  /\ forall n nm w, In (n, (nm, w)) l -> made_for n w /\ ((exists f, np (numpy_name n) = Some f /\ f_name f = n) \/ In n renamed -> nm = n).
Proof.
  intros HS. destruct (mapM_each_ok (fun d => w <- define np ma (snd d) ;; Ok (fst d, w)) definitions) as (l & El & Hl).
  { intros [n h] Hd. destruct (define_ok n h HS Hd) as (nm & w & E & _). cbn [fst snd]. rewrite E. eexists. reflexivity. }
  exists l. split; auto.
  assert (EF : Forall2 (fun d x => (w <- define np ma (snd d) ;; Ok (fst d, w)) = Ok x) definitions l) by (apply mapM_ok; auto).
  assert (EN : map fst l = map fst definitions).
  { clear - EF. induction EF as [|d x ds l E EF IH]; auto. cbn [map]. rewrite IH. f_equal. apply bind_ok in E as (w & _ & E). injection E as <-. auto. }
  split; [|split].
  - rewrite EN. apply nodupb_ok. vm_compute. reflexivity.
  - rewrite EN. intros n. rewrite <- in_app_iff. split; intros Hn.
    + apply in_map_iff in Hn as ([n' h] & <- & Hd). destruct (define_ok n' h HS Hd) as (nm & w & _ & [[H _]|[H _]] & _); cbn [fst]; apply in_app_iff; auto.
    + apply mem_In. exact (proj1 (forallb_forall _ _) table_all n Hn).
  - intros n nm w Hi. assert (Hd : exists h, In (n, h) definitions /\ define np ma h = Ok (nm, w)).
    { clear - EF Hi. induction EF as [|[n' h] x ds l E EF IH]; [destruct Hi|]. destruct Hi as [->|Hi].
      - cbn [fst snd] in E. apply bind_ok in E as (w' & E1 & E2). injection E2 as <- ->. exists h. split; auto. left; auto.
      - destruct (IH Hi) as (h' & H1 & H2). exists h'. split; auto. right; auto. }
    destruct Hd as (h & Hd & E). destruct (define_ok n h HS Hd) as (nm' & w' & E' & H1 & H2). assert (nm' = nm /\ w' = w) as [-> ->] by (rewrite E in E'; split; congruence). auto.
Qed.

(** What the module calls [n] after the import. *)
Definition bound (n : string) (w : wrapped) : Prop := exists l nm, import_all np ma = Ok l /\ In (n, (nm, w)) l.
Lemma bound_made n : standard -> In n takes_one \/ In n takes_two -> exists w, bound n w /\ made_for n w.
Proof.
  intros HS Hn. destruct (C70_import HS) as (l & El & _ & H1 & H2). apply H1 in Hn. apply in_map_iff in Hn as ([n' [nm w]] & E & Hi). cbn [fst] in E. subst n'.
  exists w. split; [exists l, nm; auto|]. exact (proj1 (H2 n nm w Hi)).
Qed.
Lemma disjoint n : In n takes_one -> In n takes_two -> False.
Proof.
  intros H1 H2. assert (E : forallb (fun n => negb (mem n takes_two)) takes_one = true) by (vm_compute; reflexivity).
  apply (proj1 (forallb_forall _ _)) with (x := n) in E; auto. apply mem_In in H2. rewrite H2 in E. discriminate.
Qed.

(** The masked equivalent a function has: np.ma's function named as NumPy's, unless
    it is one of those wrapped without. *)
Definition masked_form (n : string) (f : @npfun V) : option mafun := if never_masked_form n then None else ma (f_name f).

(** A function of one array. *)
Theorem C70_unary n : standard -> In n takes_one -> exists f w, np_function 1 n f /\ bound n w
  /\ (forall a, exists e, call w [PArr a] = Ok e /\ shape e = shape a /\ dtype e = f_dt1 f (dtype a)
        /\ (forall x, ndarrays O maxc garbage fuel false [a] = Ok [x] ->
             realise O maxc garbage (S fuel) false e = Ok (mkND (nshape x) (fun i => match nget x i with Some v => Some (f_1 f v) | None => None end)))
        /\ (forall g x, masked_form n f = Some (M1 g) -> ndarrays O maxc garbage fuel true [a] = Ok [x] ->
             realise O maxc garbage (S fuel) true e = Ok (mkND (nshape x) (fun i => g (nget x i))))
        /\ (masked_form n f = None -> realise O maxc garbage (S fuel) true e = Err TypeError))
  /\ (forall args, List.length args <> 1 \/ In POther args -> call w args = Err TypeError).
Proof.
  intros HS Hn. destruct (bound_made n HS (or_introl Hn)) as (w & Hb & [(_ & f & Hf & ->)|[H _]]); [|destruct (disjoint n Hn H)].
  exists f. eexists. split; [exact Hf|]. split; [exact Hb|]. destruct Hf as (F1 & F2 & F3 & F4). fold (masked_form n f). split.
  - intros a. cbn [call ensure_array bind]. rewrite F2, F3. cbn [Nat.eqb negb]. rewrite andb_false_r. eexists. split; [reflexivity|].
    split; [reflexivity|]. split; [reflexivity|]. split; [|split].
    + intros x Hx. unfold mk_el1. rewrite (C27_root1 O maxc garbage fuel false _ a _ x); auto. intros H; discriminate.
    + intros g x Hg Hx. unfold mk_el1. rewrite (C27_root1 O maxc garbage fuel true _ a _ x); auto.
      * unfold as_op1. rewrite Hg. reflexivity.
      * intros _. unfold as_op1. rewrite Hg. discriminate.
    + intros Hg. unfold mk_el1. apply C27_refused1. unfold as_op1. rewrite Hg. auto.
  - intros [|x [|y args]] H; auto. destruct H as [H|[->|[]]]; [cbn in H; lia|reflexivity].
Qed.

(** A function of two arrays of one shape; of two shapes that broadcast together
    see C09. *)
Theorem C70_binary n : standard -> In n takes_two -> exists f w, np_function 2 n f /\ bound n w
  /\ (forall a b, shape a = shape b -> exists e, call w [PArr a; PArr b] = Ok e /\ shape e = shape a /\ dtype e = f_dt2 f (dtype a) (dtype b)
        /\ (forall x y, ndarrays O maxc garbage fuel false [a] = Ok [x] -> ndarrays O maxc garbage fuel false [b] = Ok [y] -> nshape x = nshape y ->
             exists r, realise O maxc garbage (S fuel) false e = Ok r /\ nshape r = nshape x
             /\ forall i, inb (nshape x) i -> nget r i = match nget x i, nget y i with Some u, Some v => Some (f_2 f u v) | _, _ => None end)
        /\ (forall g x y, masked_form n f = Some (M2 g) -> ndarrays O maxc garbage fuel true [a] = Ok [x] -> ndarrays O maxc garbage fuel true [b] = Ok [y] -> nshape x = nshape y ->
             exists r, realise O maxc garbage (S fuel) true e = Ok r /\ nshape r = nshape x
             /\ forall i, inb (nshape x) i -> nget r i = g (nget x i) (nget y i))
        /\ (masked_form n f = None -> realise O maxc garbage (S fuel) true e = Err TypeError))
  /\ (forall a b, np_bshape (shape a) (shape b) = None -> call w [PArr a; PArr b] = Err ValueError)
  /\ (forall args, List.length args <> 2 \/ In POther args -> call w args = Err TypeError).
Proof.
  intros HS Hn. destruct (bound_made n HS (or_intror Hn)) as (w & Hb & [[H _]|(_ & f & Hf & ->)]); [destruct (disjoint n H Hn)|].
  exists f. eexists. split; [exact Hf|]. split; [exact Hb|]. destruct Hf as (F1 & F2 & F3 & F4). fold (masked_form n f). split; [|split].
  - intros a b Hs. cbn [call ensure_array bind]. rewrite F2, F3. cbn [Nat.eqb negb]. rewrite andb_false_r. unfold elementwise2, mk_el2. cbn [ensure_array bind py_of].
    rewrite broadcast_same by auto. cbn [bind]. eexists. split; [reflexivity|].
    split; [reflexivity|]. split; [reflexivity|]. split; [|split].
    + intros x y Hx Hy Sxy. refine (C27_root2 O maxc garbage fuel false _ a b _ x y _ Hx Hy Sxy). intros H; discriminate.
    + intros g x y Hg Hx Hy Sxy. destruct (C27_root2 O maxc garbage fuel true (as_op2 f (masked_form n f)) a b (o2_dt (as_op2 f (masked_form n f)) (dtype a) (dtype b)) x y) as (r & R1 & R2 & R3); auto.
      * intros _. unfold as_op2. rewrite Hg. discriminate.
      * exists r. split; [exact R1|]. split; auto. intros i Hi. rewrite (R3 i Hi). unfold as_op2. rewrite Hg. reflexivity.
    + intros Hg. apply C27_refused2. unfold as_op2. rewrite Hg. auto.
  - intros a b E. cbn [call ensure_array bind]. rewrite F2, F3. cbn [Nat.eqb negb]. rewrite andb_false_r. unfold elementwise2, mk_el2. cbn [ensure_array bind py_of].
    rewrite broadcast_arrays_refused by auto. reflexivity.
  - intros [|x [|y [|z args]]] H; auto. destruct H as [H|H]; [cbn in H; lia|]. cbn [call].
    destruct x as [a|v d py|]; [| |reflexivity]; (destruct H as [H|[H|[]]]; [discriminate|subst y]); cbn [ensure_array bind]; rewrite F2, F3; cbn [Nat.eqb negb]; rewrite andb_false_r; reflexivity.
Qed.

(** The wrapper itself refuses what is no ufunc with TypeError, and a ufunc of other
    numbers of arguments and results with ValueError; otherwise it takes as many
    arguments as the ufunc. *)
Theorem C70_wrapper (f : @npfun V) name :
  (f_ufunc f = false -> ufunc_wrapper ma f name = Err TypeError)
  /\ (f_ufunc f = true -> ~ ((f_nin f = 1 \/ f_nin f = 2) /\ f_nout f = 1) -> ufunc_wrapper ma f name = Err ValueError)
  /\ (f_ufunc f = true -> (f_nin f = 1 \/ f_nin f = 2) -> f_nout f = 1 ->
      exists w, ufunc_wrapper ma f name = Ok (match name with Some s => s | None => f_name f end, w)
      /\ (forall a, (exists e, call w [PArr a] = Ok e) <-> f_nin f = 1) /\ (forall a, (exists e, call w [PArr a; PArr a] = Ok e) <-> f_nin f = 2)
      /\ forall args e, call w args = Ok e -> List.length args = f_nin f).
Proof.
  unfold ufunc_wrapper. split; [intros ->; reflexivity|]. split.
  - intros -> H. cbn [negb]. destruct ((f_nin f =? 2) && (f_nout f =? 1)) eqn:E; [apply andb_prop in E as [E1 E2]; apply Nat.eqb_eq in E1, E2; tauto|].
    destruct ((f_nin f =? 1) && (f_nout f =? 1)) eqn:E'; [apply andb_prop in E' as [E1 E2]; apply Nat.eqb_eq in E1, E2; tauto|]. reflexivity.
  - intros -> [E|E] E1; rewrite E, E1; cbn [negb Nat.eqb andb]; eexists; (split; [reflexivity|]); split; [| |split| ]; try split; try (intros a; split).
    all: try (intros _; cbn [call ensure_array bind]; rewrite E, E1; cbn [Nat.eqb negb]; rewrite andb_false_r; unfold elementwise2, mk_el2; cbn [ensure_array bind py_of]; rewrite ?broadcast_same by auto; eexists; reflexivity).
    all: try (intros (e & He); cbn [call] in He; congruence). all: try (intros H; cbn in H; congruence). all: try (intros _; reflexivity).
    all: intros args e H; destruct args as [|x [|y [|z args]]]; cbn in H |- *; congruence.
Qed.

(** The claim "masked_array() applies np.ma's function wherever it has one of that
    name" fails for fmod, which np.ma has: the module wraps it as if it had not, and
    masked_array() raises TypeError whatever the arrays. *)
Theorem C70_masked_refuted g : standard -> ma "fmod" = Some (M2 g) -> (forall f, np "fmod" = Some f -> f_name f = "fmod") ->
  exists f w, np "fmod" = Some f /\ bound "fmod" w /\ ma (f_name f) = Some (M2 g)
  /\ forall a b, shape a = shape b -> exists e, call w [PArr a; PArr b] = Ok e /\ realise O maxc garbage (S fuel) true e = Err TypeError.
Proof.
  intros HS Hg Hn. destruct (C70_binary "fmod" HS) as (f & w & Hf & Hb & H1 & _ & _); [apply mem_In; vm_compute; reflexivity|].
  exists f, w. split; [apply Hf|]. split; auto. split; [rewrite (Hn f); [auto|apply Hf]|]. intros a b Hs.
  destruct (H1 a b Hs) as (e & E1 & _ & _ & _ & _ & E2). exists e. split; auto.
Qed.
End C70.
Print Assumptions C70_import. Print Assumptions C70_unary. Print Assumptions C70_binary. Print Assumptions C70_wrapper.
Print Assumptions C70_masked_refuted.

(** ** The hypotheses are met
    A numpy of integers: [conj] is called conjugate and [divide] true_divide, as in
    some releases. *)
Definition z_name (n : string) : string := if String.eqb n "conj" then "conjugate" else if String.eqb n "divide" then "true_divide" else n.
Definition z1 (n : string) : Z -> Z := if String.eqb n "negative" then Z.opp else if String.eqb n "square" then fun x => (x * x)%Z else if String.eqb n "sign" then Z.sgn else fun x => x.
Definition z2 (n : string) : Z -> Z -> Z :=
  if String.eqb n "add" then Z.add else if String.eqb n "subtract" then Z.sub else if String.eqb n "maximum" then Z.max else if String.eqb n "fmod" then Z.rem else Z.mul.
Definition z_np (n : string) : option (@npfun Z) :=
  let f k := Some (mkF (z_name n) (negb (mem n ["isreal"; "iscomplex"])) k 1 (z1 n) (z2 n) (fun d => d) Nat.max (fun d _ => d)) in
  if mem n takes_one then f 1 else if mem n takes_two && negb (String.eqb n "sub") then f 2 else None.
Definition z_ma (n : string) : option (@mafun Z) :=
  if mem n ["negative"; "sign"] then Some (M1 (map_cell (z1 n)))
  else if mem n ["add"; "subtract"; "maximum"; "fmod"] then Some (M2 (fun a b => match a, b with Some x, Some y => Some (z2 n x y) | _, _ => None end)) else None.
Lemma z_standard : standard z_np.
Proof.
  split; intros n Hn.
  - assert (E : forallb (fun n => match z_np (numpy_name n) with Some f => (f_nin f =? 1) && (f_nout f =? 1) && Bool.eqb (f_ufunc f) (negb (existsb (String.eqb n) ["isreal"; "iscomplex"])) | None => false end) takes_one = true) by (vm_compute; reflexivity).
    apply (proj1 (forallb_forall _ _)) with (x := n) in E; auto. destruct (z_np (numpy_name n)) as [f|] eqn:Ef; [|discriminate]. apply andb_prop in E as [E E3]. apply andb_prop in E as [E1 E2].
    exists f. split; auto. split; [apply Nat.eqb_eq; auto|]. split; [apply Nat.eqb_eq; auto|]. apply eqb_prop in E3. auto.
  - assert (E : forallb (fun n => match z_np (numpy_name n) with Some f => (f_nin f =? 2) && (f_nout f =? 1) && Bool.eqb (f_ufunc f) (negb (existsb (String.eqb n) ["isreal"; "iscomplex"])) | None => false end) takes_two = true) by (vm_compute; reflexivity).
    apply (proj1 (forallb_forall _ _)) with (x := n) in E; auto. destruct (z_np (numpy_name n)) as [f|] eqn:Ef; [|discriminate]. apply andb_prop in E as [E E3]. apply andb_prop in E as [E1 E2].
    exists f. split; auto. split; [apply Nat.eqb_eq; auto|]. split; [apply Nat.eqb_eq; auto|]. apply eqb_prop in E3. auto.
Qed.
(** [sub] of two arrays with masked elements, read in pieces of 7. *)
Example C70_sub_case : In "sub" takes_two /\ standard z_np
  /\ match import_all z_np z_ma with
     | Ok l => match find (fun t => String.eqb (fst t) "sub") l with
               | Some (_, (nm, w)) => nm = "sub" /\ match call w [PArr (marr [3; 4]); PArr (arr [3; 4])] with
                   | Ok e => flat (realise z_ops 7 (fun _ => None) 3 true e) = flat (Ok (mkND [3; 4] (fun i => if match nget (den z_ops true (marr [3; 4])) i with Some _ => true | None => false end then Some 0%Z else None)))
                   | Err _ => False end
               | None => False end
     | Err _ => False end.
Proof. split; [apply mem_In; vm_compute; reflexivity|]. split; [exact z_standard|]. vm_compute. auto. Qed.
