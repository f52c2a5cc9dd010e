(** MaskSpec: when the two forms of an array, [ndarray()] and [masked_array()],
    should agree.  Nothing here models /repo. *)
From Verif Require Import Base PySlice Keys NDArray Arrays Spec.

Section MaskSpec.
Context {V : Type} (O : numops V).
Notation cell := (option V).
Notation barr := (@barr V).

(** ** Data without masked elements *)

(** The numpy.ma form of an operation gives unmasked results on unmasked data, the
    same as the NumPy form.  (Not so for np.ma.divide, which masks a division by
    zero.) *)
Definition keeps1 (o : @op1 V) : Prop := exists f, o1_ma o = Some f /\ forall x, f (Some x) = Some (o1_np o x).
Definition keeps2 (o : @op2 V) : Prop := exists f, o2_ma o = Some f /\ forall x y, f (Some x) (Some y) = Some (o2_np o x y).
(** The masked aggregate of n unmasked values exists and is their plain aggregate. *)
Definition keeps_agg (g : @agg V) (n : nat) : Prop :=
  forall xs, length xs = n -> exists v, agg_spec O true g (map Some xs) = Some v /\ agg_spec O false g (map Some xs) = Some v.

(** Every source is free of masked elements and no operation masks any. *)
Fixpoint never_masked (a : barr) : Prop :=
  match a with
  | AConst _ _ _ => True
  | AAdapt _ c _ => forall i, inb (c_shape c) i -> c_cell c i <> None
  | ANewAx c _ | ABcast c _ _ | AAsTy c _ | ATrans c _ => never_masked c
  | AMaskV c v => never_masked c /\ forall i x, inb (shape c) i -> nget (den O false c) i = Some x -> veqb O x v = false
  | AStack _ items => fold_right (fun it P => never_masked it /\ P) True items
  | AMosaic tiles _ => fold_right (fun t P => never_masked t /\ P) True tiles
  | AAgg g c axis _ => never_masked c /\ keeps_agg g (nth axis (shape c) 0)
  | AEl1 o c _ => never_masked c /\ keeps1 o
  | AEl2 o c1 c2 _ => never_masked c1 /\ never_masked c2 /\ keeps2 o
  end.

(** ** Data with masked elements *)

(** [numpy.ma.filled(x, f)] *)
Definition filled (f : V) (x : nd cell) : nd cell :=
  nd_map (fun c => Some (match c with Some v => v | None => f end)) x.
(** Only rearranged source data (no casts, no masking, no computation), every
    source having the fill value [f]. *)
Fixpoint rearranged (f : V) (a : barr) : Prop :=
  match a with
  | AConst _ _ _ => True
  | AAdapt _ c _ => (match c_fill c with Some v => v | None => vdfill O (c_dtype c) end) = f
  | ANewAx c _ | ABcast c _ _ | ATrans c _ => rearranged f c
  | AStack _ items => fold_right (fun it P => rearranged f it /\ P) True items
  | AMosaic tiles _ => fold_right (fun t P => rearranged f t /\ P) True tiles
  | AAsTy _ _ | AMaskV _ _ | AAgg _ _ _ _ | AEl1 _ _ _ | AEl2 _ _ _ _ => False
  end.
End MaskSpec.
