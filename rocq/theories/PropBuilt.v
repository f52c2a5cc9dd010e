(** Properties C44 and C54: dtype and fill value of indexing results.  [built]
    (Built.v) are the arrays a program can come to hold: any finite history of
    public constructors, functions and indexing.  The keys are arbitrary: only
    that indexing returned is assumed. *)
From Verif Require Import Base PySlice Keys NDArray Arrays Small Built BuiltClaims Samples.

(** C44: indexing keeps the dtype, whatever the keys, for every array built
    without an operation whose dtype was decided by a Python number ... *)
Theorem C44_any_index {V} (O : numops V) (a : @barr V) keys b : built O a -> getitem a keys = Ok b -> dtype b = dtype a.
Proof. intros H E. exact (proj2 (getitem_dts a keys b (built_dts O a H) E)). Qed.
(** ... and for an operation with a Python number it does exactly when NumPy's
    dtype for the number agrees with that for the array holding it. *)
Theorem C44_python_scalar {V} (O : numops V) o (a b : @barr V) is_float c keys e : built O a -> built O b ->
  mk_el2 o a b (Some is_float) = Ok c -> getitem c keys = Ok e ->
  (dtype e = dtype c <-> o2_dtpy o (dtype a) is_float = o2_dt o (dtype a) (dtype b)).
Proof.
  intros Ha Hb E G. destruct (scalar_dtype o a b is_float c keys e (built_dts O a Ha) (built_dts O b Hb) E G) as [-> ->]. split; congruence.
Qed.

(** A history: a stack of two masked 2x3 arrays, joined to itself, indexed by a
    negative step, a newaxis and a sequence, summed, and compared with a constant. *)
Definition hist : res (@barr Z) :=
  st <- mk_stack [2] [marr [2;3]; marr [2;3]] ;;
  mo <- mk_mosaic [st; st] 1 ;;
  ix <- getitem mo [KInt 1; KNew; KSlice (mkS None None (Some 2%Z)); KTuple [2;0]%Z] ;;
  su <- aggregate z_ops GSum ix (AxInt (-1)) ;;
  mk_el2 zadd2 su (AConst [] 7%Z 0) None.
Lemma arr_built sh : built z_ops (arr sh) /\ built z_ops (marr sh).
Proof. split; [apply (B_adapter z_ops false (numbered sh) [])|apply (B_adapter z_ops false (thirds sh) [])]; unfold mk_adapter; destruct (c_shape _); reflexivity. Qed.
Lemma hist_built a : hist = Ok a -> built z_ops a.
Proof.
  unfold hist. intros E. apply bind_ok in E as (st & E1 & E). apply bind_ok in E as (mo & E2 & E). apply bind_ok in E as (ix & E3 & E). apply bind_ok in E as (su & E4 & E).
  assert (B0 : built z_ops (marr [2;3])) by apply arr_built.
  assert (B1 : built z_ops st) by (eapply (B_stack z_ops [2]); [|exact E1]; intros x [<-|[<-|[]]]; exact B0).
  assert (B2 : built z_ops mo) by (eapply (B_mosaic z_ops [st; st]); [|exact E2]; intros x [<-|[<-|[]]]; exact B1).
  eapply (B_binary z_ops zadd2 su); [eapply B_aggregate; [|exact E4]; eapply B_index; [exact B2|exact E3]|apply B_const| |exact E]. exact I.
Qed.
Example C44_case : match hist with
  | Ok a => shape a = [1; 2] /\ match getitem a [KTuple [0;0]%Z; KInt 1] with Ok b => shape b = [2] /\ dtype b = dtype a | Err _ => False end
  | Err _ => False end.
Proof. vm_compute. auto. Qed.

Section Fill.
Context {V : Type} (O : numops V).
(** [veqb] decides agreement of fill values ("equal, or both NaN"). *)
Hypothesis (Hrefl : forall x, veqb O x x = true) (Hsym : forall x y, veqb O x y = true -> veqb O y x = true)
  (Htrans : forall x y z, veqb O x y = true -> veqb O y z = true -> veqb O x z = true).

(** C54: indexing without newaxis keeps the fill value when no stack or mosaic
    mixes fill values (and the result does not mix them either). *)
Theorem C54_keeps (a : @barr V) keys b : built O a -> one_fill O a -> ~ In KNew keys -> getitem a keys = Ok b ->
  veqb O (fillv O b) (fillv O a) = true /\ one_fill O b.
Proof.
  intros H1 H2 H3 H4. apply (getitem_fill O Hrefl Hsym Htrans a keys b (built_dts O a H1) H2); auto.
  destruct (existsb is_new keys) eqn:E; auto. exfalso. apply existsb_exists in E as (k & Hk & E). destruct k; try discriminate. auto.
Qed.
End Fill.
(** C54: an array that is not an adapter, stack or mosaic has the default fill
    value of its dtype, before and after indexing with any keys. *)
Theorem C54_computed {V} (O : numops V) (a : @barr V) keys b : built O a ->
  (match a with AAdapt _ _ _ | AStack _ _ | AMosaic _ _ => False | _ => True end) -> getitem a keys = Ok b ->
  fillv O a = vdfill O (dtype a) /\ fillv O b = fillv O a.
Proof.
  intros H1 H2 E. assert (N : ~ holds_fill a) by (destruct a; auto). split; [apply other_fill; auto|].
  rewrite (other_fill O _ N), (other_fill O _ (getitem_other a keys b N E)), (C44_any_index O a keys b H1 E). auto.
Qed.
(** C54: with a newaxis the result always has the default fill value. *)
Theorem C54_newaxis {V} (O : numops V) (a : @barr V) keys b : built O a -> In KNew keys -> getitem a keys = Ok b ->
  fillv O b = vdfill O (dtype a).
Proof.
  intros H1 H2 E. apply (newaxis_fill O a keys b (built_dts O a H1)); auto. apply existsb_exists. exists KNew. auto.
Qed.
Example C54_case : match mk_mosaic [marr [2;3]; marr [4;3]] 0 with
  | Ok m => built z_ops m /\ one_fill z_ops m /\ fillv z_ops m = (-1)%Z
            /\ match getitem m [KTuple [3;1;5]%Z; KInt 0] with Ok b => shape b = [3] /\ fillv z_ops b = (-1)%Z | Err _ => False end
  | Err _ => False end.
Proof.
  split; [|split; [|split; [reflexivity|vm_compute; auto]]].
  - eapply (B_mosaic z_ops [marr [2;3]; marr [4;3]] 0); [|reflexivity]. intros x [<-|[<-|[]]]; apply arr_built.
  - split; [cbn; auto|]. intros x y [<-|[<-|[]]] [<-|[<-|[]]]; reflexivity.
Qed.

(** C54 fails: a stack with mixed fill values reports the default, and a part of
    it without the odd one out reports another; a newaxis loses the fill value of
    an adapter. *)
Theorem C54_mixed_refuted : exists (a : @barr Z) keys b, built z_ops a /\ ~ In KNew keys /\ getitem a keys = Ok b
  /\ fillv z_ops a = 999999%Z /\ fillv z_ops b = (-1)%Z.
Proof.
  exists (AStack [3] [marr [2]; marr [2]; arr [2]]), [KSlice (mkS None (Some 2%Z) None)].
  eexists. split; [|split; [intros [H|[]]; discriminate|split; [vm_compute; reflexivity|split; reflexivity]]].
  eapply (B_stack z_ops [3] [marr [2]; marr [2]; arr [2]]); [|reflexivity]. intros x [<-|[<-|[<-|[]]]]; apply arr_built.
Qed.
Theorem C54_newaxis_refuted : exists (a : @barr Z) b, built z_ops a /\ getitem a [KNew] = Ok b
  /\ fillv z_ops a = (-1)%Z /\ fillv z_ops b = 999999%Z.
Proof.
  exists (marr [2]). eexists. split; [apply arr_built|]. split; [vm_compute; reflexivity|split; reflexivity].
Qed.

Print Assumptions C44_any_index.
Print Assumptions C44_python_scalar.
Print Assumptions C54_keeps.
Print Assumptions C54_computed.
Print Assumptions C54_newaxis.
Print Assumptions C54_mixed_refuted.
Print Assumptions C54_newaxis_refuted.
