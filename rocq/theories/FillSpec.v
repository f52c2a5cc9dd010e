(** FillSpec: when the masked form of an array, filled with the fill value the
    result carries, should be its plain form.  Nothing here models /repo. *)
From Verif Require Import Base PySlice Keys NDArray Arrays Spec MaskSpec ResultFill.

Section FillSpec.
Context {V : Type} (O : numops V).
Notation barr := (@barr V).

(** No element is masked. *)
Definition nothing_masked (a : barr) : Prop := forall i, inb (shape a) i -> nget (den O true a) i <> None.

(** At no point does a masked element meet a fill value other than its own:
    - a broadcast, whose result has the default fill value of the dtype, is of
      data with that fill value;
    - an unset fill value is not changed by a cast;
    - masking by value masks elements equal to the new fill value only, and there
      were no others, or they had the same fill value;
    - the parts of stacks and mosaics have the fill value of the whole;
    - computed arrays have no masked elements. *)
Fixpoint faithful (a : barr) : Prop :=
  match a with
  | AConst _ _ _ | AAdapt _ _ _ => True
  | ANewAx c _ | ATrans c _ => faithful c
  | ABcast c _ _ => faithful c /\ (nothing_masked a \/ result_fill O c = vdfill O (dtype c))
  | AAsTy c d => faithful c /\ (nothing_masked a \/ rfill O c <> None \/ vcast O d (vdfill O (dtype c)) = vdfill O d)
  | AMaskV c v => faithful c /\ (nothing_masked c \/ result_fill O c = vcast O (dtype c) v)
      /\ forall i x, inb (shape c) i -> nget (den O true c) i = Some x -> veqb O x v = true -> x = vcast O (dtype c) v
  | AStack _ items => fold_right (fun it P => (faithful it /\ (nothing_masked it \/ result_fill O it = fillv O a)) /\ P) True items
  | AMosaic tiles _ => fold_right (fun t P => (faithful t /\ (nothing_masked t \/ result_fill O t = fillv O a)) /\ P) True tiles
  | AAgg _ _ _ _ | AEl1 _ _ _ | AEl2 _ _ _ _ => never_masked O a
  end.
End FillSpec.
