(** Samples: integer arithmetic as an instance of the model's parameter, and
    small arrays used to show that the theorems' hypotheses are met. *)
From Verif Require Import Base PySlice Keys NDArray Arrays Chunks Handlers Realise Spec Supported HandlerLemmas Realisable.

(** Integers: division and square root round down; casts change nothing; dtype
    labels 0 (integer) and 1 (float). *)
Definition z_ops : numops Z :=
  mkOps Z 0%Z Z.add (fun l => fold_left Z.add l 0%Z) Z.sub Z.mul Z.div Z.of_nat Z.sqrt Z.min Z.max Z.eqb Z.ltb
        (fun _ v => v) (fun _ => 999999%Z) (fun _ => 1) 0.
Lemma z_laws : laws z_ops.
Proof. constructor; simpl; intros; try reflexivity; lia. Qed.

(** A fresh NumpyArrayAdapter over an unmasked array whose content is its C-order
    number. *)
Definition numbered (sh : list nat) : concrete :=
  mkC sh (fun idx => Some (Z.of_nat (ravel sh idx))) None 0.
Definition arr (sh : list nat) : @barr Z := AAdapt false (numbered sh) [].
Definition oarr (sh : list nat) : @barr Z := AAdapt true (numbered sh) [].
(** The same with every multiple of three masked and fill value -1. *)
Definition thirds (sh : list nat) : concrete :=
  mkC sh (fun idx => if (Z.of_nat (ravel sh idx) mod 3 =? 0)%Z then None
                       else Some (Z.of_nat (ravel sh idx))) (Some (-1)%Z) 0.
Definition marr (sh : list nat) : @barr Z := AAdapt false (thirds sh) [].

(** [slice(a, b, c)] *)
Definition S3 (a b c : Z) : key := KSlice (mkS (Some a) (Some b) (Some c)).

(** The content of a realised array, in C order. *)
Definition flat {W} (r : res (nd W)) : res (list nat * list W) :=
  d <- r ;; Ok (nshape d, map (nget d) (ndindex (nshape d))).

Definition zadd2 : @op2 Z :=
  mkOp2 Z.add (Some (fun a b => match a, b with Some x, Some y => Some (x + y)%Z | _, _ => None end))
        (fun a _ => a) (fun a _ => a).
Definition zneg1 : @op1 Z := mkOp1 Z.opp (Some (fun a => match a with Some x => Some (- x)%Z | None => None end)) (fun a => a).
