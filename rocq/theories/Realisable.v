(** Realisable: the adapters and expressions whose realisation is claimed to be
    right.  Nothing here models /repo.  Each restriction corresponds to a defect
    shown by a theorem [*_refuted]. *)
From Verif Require Import Base PySlice Keys NDArray Arrays Spec Supported.

Definition is_tup (k : key) : bool := match k with KTuple _ => true | _ => false end.
Definition one_seq (ks : list key) : Prop :=
  count_if is_seq ks = 0 \/ (count_if is_seq ks = 1 /\ one_block ks = true).

(** Keys stored by a NumpyArrayAdapter: with two or more tuples, no tuple is
    empty and at most one boolean mask remains, next to the integers; otherwise
    at most one sequence key, next to the integers. *)
Definition numpy_ok (ks : list key) : Prop :=
  if 2 <=? count_if is_tup ks
  then (forall l, In (KTuple l) ks -> l <> [])
       /\ one_seq (map (fun k => if is_tup k then KFull else k) ks)
  else one_seq ks.

(** ** Expressions *)
From Verif Require Import Chunks ChunkLemmas HandlerLemmas.

Section Realisable.
Context {V : Type}.
Notation barr := (@barr V).
Variable maxc : nat.     (* MAX_CHUNK_SIZE *)
Variable m : bool.       (* masked_array() rather than ndarray() *)
(** Side condition of an aggregation for columns of a given length, see
    HandlerLemmas.v ([basic_agg]) and RealOps.v ([ddof_ok]). *)
Variable HG : @agg V -> nat -> Prop.

(** The chunk boundaries in which the engine streams an expression: those of the
    first leaf, without the dimensions aggregated away. *)
Fixpoint cuts (a : barr) : list (list key) :=
  match a with
  | AAgg _ c axis _ => remove_at axis (cuts c)
  | AEl1 _ c _ => cuts c
  | AEl2 _ c _ _ => cuts c
  | a => all_slices maxc true (shape a)
  end.

(** The pieces in which the aggregated axis reaches the aggregation. *)
Definition axis_pieces (c : barr) (axis : nat) : list nat :=
  map (fun k => length (kpos k (nth axis (shape c) 0))) (nth axis (cuts c) []).

Definition has_op1 (o : @op1 V) : Prop := m = true -> o1_ma o <> None.
Definition has_op2 (o : @op2 V) : Prop := m = true -> o2_ma o <> None.

Section Streamable.
  (** [R]: which arrays can be realised. *)
  Variable R : barr -> Prop.
  (** The engine can stream [a]: every chunk of every leaf is supported and can
      be realised, aggregations get their axis in acceptable pieces, operands of
      elementwise operations are cut alike. *)
  Fixpoint streamable (a : barr) : Prop :=
    match a with
    | AAgg g c axis _ => streamable c /\ HG g (nth axis (shape c) 0) /\ pieces_fine m g (axis_pieces c axis)
    | AEl1 o c _ => has_op1 o /\ streamable c
    | AEl2 o c1 c2 _ => has_op2 o /\ streamable c1 /\ streamable c2 /\ cuts c1 = cuts c2
    | a => forall k, Forall2 (@In key) k (all_slices maxc true (shape a)) ->
                     okk a k /\ (forall b, getitem a k = Ok b -> R b)
    end.
End Streamable.

(** [ndarray()] / [masked_array()] of [a] is claimed to be right.  The first
    argument bounds the nesting of engine evaluations. *)
Fixpoint realisable (fuel : nat) (a : barr) {struct fuel} : Prop :=
  match fuel with
  | 0 => False
  | S f =>
    (fix go (a : barr) : Prop :=
       match a with
       | AConst _ _ _ => True
       | AAdapt ortho c ks =>
           (ortho = true \/ numpy_ok ks)
           /\ (m = true \/ shape (AAdapt ortho c ks) <> [] \/ forall i, c_cell c i <> None)
       | ANewAx c _ | ABcast c _ _ | AAsTy c _ | AMaskV c _ | ATrans c _ => go c
       | AStack _ items => fold_right (fun it P => go it /\ P) True items
       | AMosaic tiles _ => fold_right (fun t P => go t /\ P) True tiles
       | AAgg _ _ _ _ => streamable (realisable f) a
       | AEl1 o c _ => has_op1 o /\ streamable (realisable f) c
       | AEl2 o c1 c2 _ => has_op2 o /\ streamable (realisable f) c1 /\ streamable (realisable f) c2
       end) a
  end.

End Realisable.
