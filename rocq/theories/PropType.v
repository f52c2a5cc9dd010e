(** Property C71: the arrays returned have the dtype the lazy array reports. *)
From Verif Require Import Base PySlice Keys NDArray Arrays Chunks Handlers Realise Spec Lib GetBase Small Samples Built BuiltClaims PropBuilt ResultType.

Section C71.
Context {V : Type} (O : numops V).
Variable f8 maxc : nat.
Variable garbage : list nat -> option V.
Variable fuel : nat.
Implicit Types a b c : @barr V.
Notation result_dt := (result_dt O f8 maxc garbage (S fuel)).
Notation reads m a := (realise O maxc garbage (S fuel) m a).

(** The array whose values [a] only rearranges or masks further. *)
Fixpoint inner a : @barr V :=
  match a with ANewAx c _ | ABcast c _ _ | ATrans c _ | AMaskV c _ => inner c | _ => a end.
(** [a] holds a single element, and it is masked. *)
Definition one_masked a : Prop := exists d, reads true a = Ok d /\ nshape d = [] /\ nget d [] = None.
(** [a] is an operation, and reports the dtype NumPy gives for its operands. *)
Definition honest a : Prop :=
  match a with AEl1 o x d => d = o1_dt o (dtype x) | AEl2 o x y d => d = o2_dt o (dtype x) (dtype y) | _ => True end.
(** Its masked element makes NumPy return np.ma.masked. *)
Definition degenerate (m : bool) a : Prop :=
  match a with AAdapt _ _ _ => one_masked a | AEl1 _ _ _ | AEl2 _ _ _ _ => m = true /\ one_masked a | _ => False end.

Lemma lone_masked_iff a : lone_masked (reads true a) = true <-> one_masked a.
Proof.
  unfold lone_masked, one_masked. destruct (reads true a) as [d|e] eqn:E; [|split; [discriminate|intros (x & H & _); discriminate]].
  split.
  - intros H. destruct (nshape d) eqn:Es; [|discriminate]. destruct (nget d []) eqn:Eg; [discriminate|]. exists d. auto.
  - intros (x & H & H1 & H2). injection H as <-. rewrite H1, H2. auto.
Qed.
Lemma degenerate_dec m a : {degenerate m a} + {~ degenerate m a}.
Proof.
  assert (D : {one_masked a} + {~ one_masked a}).
  { destruct (lone_masked (reads true a)) eqn:E; [left; apply lone_masked_iff; auto|right; intros H; apply lone_masked_iff in H; congruence]. }
  destruct a; cbn [degenerate]; auto; destruct m; destruct D as [D|D]; auto; right; intros H; first [destruct H; congruence | tauto].
Defined.
Lemma result_inner m a : result_dt m a = result_dt m (inner a) /\ dtype a = dtype (inner a).
Proof. induction a using barr_ind2; cbn [inner]; auto. Qed.
Lemma inner_result m a : result_dt m (inner a) = if degenerate_dec m (inner a) then f8 else
  match inner a with AEl1 o x _ => o1_dt o (dtype x) | AEl2 o x y _ => o2_dt o (dtype x) (dtype y) | b => dtype b end.
Proof.
  assert (E : forall b, lone_masked (reads true b) = if (lone_masked (reads true b)) then true else false) by (intros b; destruct (lone_masked _); auto).
  destruct (degenerate_dec m (inner a)) as [D|D].
  - destruct (inner a) eqn:Ei; cbn [degenerate] in D; try tauto.
    + apply lone_masked_iff in D. change (realise O maxc garbage (S fuel) true (AAdapt ortho c ks)) with (realise_adapter O true ortho c ks) in D. cbn [ResultType.result_dt]. rewrite D. auto.
    + destruct D as [-> D]. apply lone_masked_iff in D. cbn [ResultType.result_dt andb]. rewrite D. auto.
    + destruct D as [-> D]. apply lone_masked_iff in D. cbn [ResultType.result_dt andb]. rewrite D. auto.
  - assert (NI : inner (inner a) = inner a) by (clear; induction a using barr_ind2; cbn [inner]; auto).
    destruct (inner a) eqn:Ei; cbn [degenerate] in D; cbn [ResultType.result_dt]; auto; try (exfalso; clear - Ei; revert Ei; induction a using barr_ind2; cbn [inner]; congruence).
    + destruct (lone_masked (realise_adapter O true ortho c ks)) eqn:EL; auto. exfalso. apply D. apply lone_masked_iff. exact EL.
    + destruct m; auto. cbn [andb]. destruct (lone_masked _) eqn:EL; auto. exfalso. apply D. split; auto. apply lone_masked_iff. exact EL.
    + destruct m; auto. cbn [andb]. destruct (lone_masked _) eqn:EL; auto. exfalso. apply D. split; auto. apply lone_masked_iff. exact EL.
Qed.

(** In every case: ndarray() and masked_array() return the dtype reported exactly when
    the operation at the bottom reports the dtype NumPy gives, and np.ma.masked is of
    that dtype where it is what NumPy returns. *)
Theorem C71_exact m a : result_dt m a = dtype a <->
  (degenerate m (inner a) -> f8 = dtype a) /\ (~ degenerate m (inner a) -> honest (inner a)).
Proof.
  destruct (result_inner m a) as [-> ->]. rewrite inner_result. destruct (degenerate_dec m (inner a)) as [D|D]; [split; [intros H; split; auto; tauto|intros [H _]; auto]|].
  split.
  - intros H. split; [tauto|]. intros _. unfold honest. destruct (inner a); auto.
  - intros [_ H]. specialize (H D). unfold honest in H. destruct (inner a); auto.
Qed.

(** Every array a program can build without Python numbers that promote
    differently, evaluated in any way. *)
Lemma dts_inner a : dts a -> honest (inner a).
Proof. induction a using barr_ind2; cbn [inner dts honest]; try tauto. Qed.
Theorem C71_reported_partial m a : built O a -> ~ degenerate m (inner a) -> result_dt m a = dtype a /\ group_dt a = dtype a.
Proof.
  intros HB D. split; [|reflexivity]. apply C71_exact. split; [tauto|]. intros _. apply dts_inner, (built_dts O). auto.
Qed.
(** In particular when there is no masked element, or ndarray() is asked of an
    operation. *)
Theorem C71_unmasked_partial a d : built O a -> reads true (inner a) = Ok d -> (nshape d = [] -> nget d [] <> None) ->
  result_dt false a = dtype a /\ result_dt true a = dtype a.
Proof.
  intros HB Hd Hv. assert (N : ~ one_masked (inner a)) by (intros (x & Hx & H1 & H2); rewrite Hd in Hx; injection Hx as <-; exact (Hv H1 H2)).
  split; apply C71_reported_partial; auto; destruct (inner a); cbn [degenerate]; tauto.
Qed.

(** An operation with a Python number: ndarray() has the dtype reported exactly
    when NumPy promotes the number like an array that holds it, the results of
    biggus.ndarrays always have. *)
Theorem C71_python_number o a b py c : built O a -> built O b -> mk_el2 o a b (Some py) = Ok c ->
  group_dt c = o2_dtpy o (dtype a) py
  /\ (result_dt false c = dtype c <-> o2_dtpy o (dtype a) py = o2_dt o (dtype a) (dtype b)).
Proof.
  intros Ha Hb E. unfold mk_el2 in E. apply bind_ok in E as ([a' b'] & E & Ec). injection Ec as <-.
  destruct (broadcast_dts _ _ _ _ E (built_dts O a Ha) (built_dts O b Hb)) as [[_ D1] [_ D2]].
  unfold group_dt; cbn [dtype]. rewrite D1. split; [reflexivity|]. cbn [ResultType.result_dt andb dtype]. rewrite D1, D2. split; congruence.
Qed.
End C71.

(** ** Where it fails *)
(** [a + 1] of a 16-bit array (dtype 1) and a Python integer, which becomes a 64-bit
    constant (dtype 2): 16 bits are reported, and used by biggus.ndarrays; ndarray()
    returns 64. *)
Definition iadd : @op2 Z := mkOp2 Z.add (Some (fun a b => match a, b with Some x, Some y => Some (x + y)%Z | _, _ => None end)) Nat.max (fun d _ => d).
Definition short (sh : list nat) : @barr Z := AAdapt false (mkC sh (fun i => Some (Z.of_nat (ravel sh i))) None 1) [].
Theorem C71_python_refuted : exists (a b : @barr Z) c, built z_ops a /\ built z_ops b /\ mk_el2 iadd a b (Some false) = Ok c /\
  forall f8 maxc garbage fuel, dtype c = 1 /\ group_dt c = 1 /\ result_dt z_ops f8 maxc garbage fuel false c = 2.
Proof.
  exists (short [3]), (AConst [] 1%Z 2). eexists. split; [apply (B_adapter z_ops false (mkC [3] (fun i => Some (Z.of_nat (ravel [3] i))) None 1) []); reflexivity|].
  split; [constructor|]. split; [reflexivity|]. intros. split; [|split]; reflexivity.
Qed.
(** One masked element of an array of integers, [a[0]]: both forms are floating
    point, whatever the wrappers around it. *)
Theorem C71_masked_element_refuted : exists a b : @barr Z, built z_ops a /\ getitem a [KInt 0] = Ok b /\
  forall f8 maxc garbage fuel m, f8 <> dtype b -> result_dt z_ops f8 maxc garbage fuel m b <> dtype b
    /\ result_dt z_ops f8 maxc garbage fuel m (ANewAx b [1]) <> dtype (ANewAx b [1]).
Proof.
  exists (marr [4]). eexists. split; [apply arr_built|]. split; [vm_compute; reflexivity|]. intros f8 maxc garbage fuel m H.
  split; [exact H|exact H].
Qed.
(** So is masked_array() of the negative of that element, though the operation is
    on integers. *)
Theorem C71_masked_operation_refuted : exists b : @barr Z, getitem (marr [4]) [KInt 0] = Ok b /\ dtype (mk_el1 zneg1 b) = 0 /\ result_dt z_ops 9 7 (fun _ => None) 3 false (mk_el1 zneg1 b) = 0
  /\ result_dt z_ops 9 7 (fun _ => None) 3 true (mk_el1 zneg1 b) = 9.
Proof. eexists. split; [vm_compute; reflexivity|]. vm_compute. auto. Qed.
Print Assumptions C71_exact. Print Assumptions C71_reported_partial. Print Assumptions C71_unmasked_partial. Print Assumptions C71_python_number.
Print Assumptions C71_python_refuted. Print Assumptions C71_masked_element_refuted. Print Assumptions C71_masked_operation_refuted.

(** ** The hypotheses are met
    An operation on the sum of masked data, transposed and given a new axis. *)
Definition typed_case : res (@barr Z) :=
  a <- hist ;; t <- mk_trans a (Some [1; 0]) ;; getitem (masked_equal t 9%Z) [KNew; KSlice (mkS None None (Some (-1)%Z))].
Example C71_case : match typed_case with
  | Ok a => built z_ops a /\ ~ degenerate z_ops 7 (fun _ => None) 4 true (inner a) /\ match inner a with AEl2 _ _ _ _ => True | _ => False end
  | Err _ => False end.
Proof.
  destruct typed_case as [a|e] eqn:E; [|vm_compute in E; discriminate]. split; [|split].
  - unfold typed_case in E. apply bind_ok in E as (h & E1 & E). apply bind_ok in E as (t & E2 & E).
    eapply B_index; [|exact E]. apply B_masked_equal. eapply B_transpose; [|exact E2]. apply hist_built. exact E1.
  - assert (EE : match typed_case with Ok a => lone_masked (realise z_ops 7 (fun _ => None) 5 true (inner a)) | Err _ => true end = false) by (vm_compute; reflexivity).
    rewrite E in EE. intros D. assert (H : one_masked z_ops 7 (fun _ => None) 4 (inner a)) by (destruct (inner a); cbn [degenerate] in D; tauto).
    apply lone_masked_iff in H. congruence.
  - assert (EE : match typed_case with Ok a => match inner a with AEl2 _ _ _ _ => true | _ => false end | Err _ => false end = true) by (vm_compute; reflexivity).
    rewrite E in EE. destruct (inner a); auto; discriminate.
Qed.
