(** Property C59: a program of biggus calls computes what the same program computes
    with NumPy.

    [program O a M] (Programs.v): some sequence of public biggus calls, of any
    length and nesting, returned the array [a]; the same calls in NumPy give
    [M false] from filled sources and [M true] from masked sources. *)
From Verif Require Import Base PySlice Keys NDArray Arrays Chunks Handlers Realise Spec Supported Lib SelLemmas HandlerLemmas RealOps Realisable RealiseOK IndexClaims ClassClaims BroadcastClaims GetBase GetItem Samples Small Built Steady SteadyReal PropSteady Kahn Threads ThreadSpec ThreadTree PropThreads Programs ProgramClaims.
From Coq Require Import Reals.

Section C59.
Context {V : Type} (O : numops V).
Implicit Types a b : @barr V.

(** The array's shape is the NumPy result's, both forms agree on it, and the array
    is well formed: the hypothesis [wf] of the other theorems holds of every array
    a program can build. *)
Theorem C59_shape_partial a M : program O a M -> wf a /\ dt_stable a /\ forall m, shape a = nshape (M m).
Proof. intros H. pose proof (program_good O a M H) as G. split; [apply G|]. split; [apply G|]. intros m. symmetry. exact (good_shape O a M m G). Qed.

(** Realising the array gives the NumPy result.  Missing: the calls the side
    conditions of [program] leave out, and arrays outside [realisable] (sources
    read transposed, operands cut differently, an axis cut for min, max, std, var;
    C04, C22, C23, C27). *)
Theorem C59_values_partial maxc garbage m fuel a M : program O a M -> realisable maxc m (exact O) fuel a ->
  exists d, realise O maxc garbage fuel m a = Ok d /\ nd_eq d (M m).
Proof.
  intros H HR. pose proof (program_good O a M H) as (G1 & G2 & G3).
  destruct (realise_ok O maxc garbage m (exact O) (exact_right O m) fuel a G1 HR) as (d & E & D). exists d. split; auto.
  eapply nd_eq_trans; [exact D|]. auto.
Qed.
(** Two programs with the same NumPy meaning realise to the same data. *)
Theorem C59_same_partial maxc garbage m fuel maxc' garbage' fuel' a b M N : program O a M -> program O b N -> nd_eq (M m) (N m) ->
  realisable maxc m (exact O) fuel a -> realisable maxc' m (exact O) fuel' b ->
  exists d e, realise O maxc garbage fuel m a = Ok d /\ realise O maxc' garbage' fuel' m b = Ok e /\ nd_eq d e.
Proof.
  intros Ha Hb E Ra Rb. destruct (C59_values_partial maxc garbage m fuel a M Ha Ra) as (d & D1 & D2).
  destruct (C59_values_partial maxc' garbage' m fuel' b N Hb Rb) as (e & E1 & E2). exists d, e. split; auto. split; auto.
  eapply nd_eq_trans; [exact D2|]. eapply nd_eq_trans; [exact E|]. apply nd_eq_sym. auto.
Qed.
End C59.
(** No condition on chunks or arithmetic at all: programs without aggregations and
    elementwise operations, over OrthoArrayAdapter sources (and constants), in
    masked form. *)
Fixpoint structural {V} (a : @barr V) : Prop :=
  match a with
  | AConst _ _ _ => True
  | AAdapt ortho _ _ => ortho = true
  | ANewAx c _ | ABcast c _ _ | AAsTy c _ | AMaskV c _ | ATrans c _ => structural c
  | AStack _ items => fold_right (fun it P => structural it /\ P) True items
  | AMosaic tiles _ => fold_right (fun t P => structural t /\ P) True tiles
  | AAgg _ _ _ _ | AEl1 _ _ _ | AEl2 _ _ _ _ => False
  end.
Theorem C59_structural_partial {V} (O : numops V) maxc garbage fuel (a : @barr V) M : program O a M -> structural a ->
  exists d, realise O maxc garbage (S fuel) true a = Ok d /\ nd_eq d (M true).
Proof.
  intros H HS. apply C59_values_partial; auto. clear H. revert HS.
  induction a as [sh v d|o c ks|a na IH|a dict lead IH|a d IH|a v IH|a axes IH|ssh items IH|tiles axis IH|g a axis d IH|o a d IH|o a b d IH1 IH2] using barr_ind2;
    intros HS; cbn [structural] in HS; try (exact (IH HS)); try contradiction; try exact I.
  - split; auto.
  - cbn [realisable]. revert HS. induction IH as [|x l Hx Hl IHl]; cbn [fold_right]; auto. intros [H1 H2]. split; [exact (Hx H1)|exact (IHl H2)].
  - cbn [realisable]. revert HS. induction IH as [|x l Hx Hl IHl]; cbn [fold_right]; auto. intros [H1 H2]. split; [exact (Hx H1)|exact (IHl H2)].
Qed.
(** Evaluated by the threads: for every schedule the evaluation of several
    programs' arrays together ends, joins, and returns what NumPy returns. *)
Theorem C59_threads_partial {V} (O : numops V) maxc garbage m fuel (l : list (@barr V)) Ms :
  Forall2 (program O) l Ms -> Forall (streamable maxc m (exact O) (realisable maxc m (exact O) fuel)) l ->
  let dag := fst (forest 0 l) in let roots := snd (forest 0 l) in
  exists net, network O maxc garbage (realise O maxc garbage fuel m) m dag roots = Ok net /\
    (exists s, reached net dag roots s /\ over net s) /\
    forall s, reached net dag roots s -> over net s -> joined dag roots s /\
      exists ds, returned O garbage dag roots s = Ok ds /\ Forall2 (fun d (M : bool -> nd (option V)) => nd_eq d (M m)) ds Ms.
Proof.
  intros HP HS dag roots.
  assert (HL : Forall (fun a => wf a /\ streamable maxc m (exact O) (realisable maxc m (exact O) fuel) a) l).
  { clear -HP HS. induction HP; constructor; inversion HS; subst; auto. split; auto. apply (C59_shape_partial O x y); auto. }
  destruct (C28_values_partial O maxc garbage fuel m (exact O) l (exact_right O m) HL) as (net & E & S & H). exists net. split; auto. split; auto.
  intros s Hs Ho. destruct (H s Hs Ho) as (HJ & ds & Ed & HD). split; auto. exists ds. split; auto.
  clear -HP HD. revert Ms HP. induction HD; intros Ms HP; inversion HP; subst; constructor; auto.
  eapply nd_eq_trans; [exact H|]. apply (program_good O x y0); auto.
Qed.
(** With real numbers, standard deviations and variances included. *)
Theorem C59_values_reals_partial cast dfill dtf dti maxc garbage m fuel a M :
  let O := real_ops cast dfill dtf dti in
  program O a M -> realisable maxc m (ddof_ok m) fuel a ->
  exists d, realise O maxc garbage fuel m a = Ok d /\ nd_eq d (M m).
Proof.
  intros O H HR. pose proof (program_good O a M H) as (G1 & G2 & G3).
  destruct (realise_ok O maxc garbage m (ddof_ok m) (right_real cast dfill dtf dti m) fuel a G1 HR) as (d & E & D). exists d. split; auto.
  eapply nd_eq_trans; [exact D|]. auto.
Qed.

(** Left out: casting a cast.  The first cast is forgotten; with a cast that
    truncates, NumPy's result differs.  Here casting to dtype 1 halves. *)
Definition half_ops : numops Z := mkOps Z 0%Z (vadd z_ops) (vsum z_ops) (vsub z_ops) (vmul z_ops) (vdiv z_ops) (vofn z_ops) (vsqrt z_ops) (vmin z_ops) (vmax z_ops)
  (veqb z_ops) (vltb z_ops) (fun d x => if d =? 1 then (x / 2)%Z else x) (vdfill z_ops) (dt_float z_ops) (dt_int z_ops).
Theorem C59_astype_refuted : exists a (c : @concrete Z) d, mk_adapter false c [] = Ok a
  /\ realise half_ops 100 (fun _ => None) 3 true (astype (astype a 1) 0) = Ok d
  /\ ~ nd_eq d (nd_map (map_cell (vcast half_ops 0)) (nd_map (map_cell (vcast half_ops 1)) (mkND (c_shape c) (c_cell c)))).
Proof.
  exists (arr [4]), (numbered [4]). eexists. split; [reflexivity|]. split; [reflexivity|]. intros [_ H]. specialize (H [3]).
  assert (Hi : inb [4] [3]) by (constructor; [lia|constructor]). specialize (H Hi). vm_compute in H. discriminate.
Qed.

(** A program: [x[::2]] joined to a constant row, minus the masked column
    [y[:, newaxis]], summed over axis -2.  The [M] is the NumPy program. *)
Definition evens : list key := [KSlice (mkS None None (Some 2%Z))].
Definition tall : @barr Z := AMosaic [AAdapt false (numbered [4;3]) [KSlice (mkS None None (Some 2%Z)); KFull]; AConst [1;3] 7%Z 0] 0.
Definition column_of : @barr Z := ANewAx (AAdapt false (thirds [3]) [KFull]) [0;1].
Definition final : @barr Z := AAgg GSum (AEl2 zadd2 tall (ABcast column_of [(1,3)] []) 0) 0 0.
Example C59_case : exists M, program z_ops final M /\ realisable 100 true (exact z_ops) 3 final
  /\ flat (Ok (M true)) = Ok ([3], [Some 16; Some 17; Some 18]%Z)
  /\ flat (realise z_ops 100 (fun _ => None) 3 true final) = Ok ([3], [Some 16; Some 17; Some 18]%Z).
Proof.
  pose proof (P_source z_ops false (numbered [4;3]) (arr [4;3]) eq_refl) as X.
  eassert (X2 : program z_ops (AAdapt false (numbered [4;3]) [KSlice (mkS None None (Some 2%Z)); KFull]) _).
  { eapply (P_index z_ops _ _ evens _ X); [vm_compute; discriminate| |reflexivity]. intros ks E. constructor. }
  pose proof (P_source z_ops false (thirds [3]) (marr [3]) eq_refl) as Y.
  eassert (Y2 : program z_ops column_of _).
  { eapply (P_index z_ops _ _ [KFull; KNew] _ Y); [vm_compute; discriminate| |reflexivity]. intros ks E. constructor. }
  eassert (T : program z_ops tall _).
  { eapply (P_mosaic z_ops [(_, _); (_, _)] 0%Z tall); [intros p [<-|[<-|[]]]; cbn [fst snd]; [exact X2|apply (P_const z_ops [1;3] 7%Z 0)]|reflexivity]. }
  eassert (B : program z_ops (AEl2 zadd2 tall (ABcast column_of [(1,3)] []) 0) _).
  { eapply (P_binary z_ops zadd2 _ _ _ _ None [3;3] _ T Y2); [reflexivity| | |exact I|reflexivity];
      (split; [left; intros a0 d0 l0 E; discriminate|constructor]). }
  eexists. split; [eapply (P_aggregate z_ops GSum _ _ (-2) 0 (AxInt (-2)) _ B); [reflexivity|left; reflexivity|reflexivity]|].
  split; [|split; vm_compute; reflexivity].
  apply (steady_realisable z_ops 100 true (exact z_ops) false 3 final false); [exact (proj1 (C59_shape_partial _ _ _ (P_aggregate z_ops GSum _ _ (-2) 0 (AxInt (-2)) _ B eq_refl (or_introl eq_refl) eq_refl)))|].
  unfold final, tall, column_of. sts.
Qed.
Print Assumptions C59_shape_partial.
Print Assumptions C59_values_partial.
Print Assumptions C59_same_partial.
Print Assumptions C59_structural_partial.
Print Assumptions C59_threads_partial.
Print Assumptions C59_values_reals_partial.
Print Assumptions C59_astype_refuted.
