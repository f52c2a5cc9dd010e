(** Property C53: deep copies.

    A program holds variables that refer to array objects (Objects.v): it builds
    arrays from arrays, stacks (also several stacks on one object array), assigns
    to items of stacks and changes concrete source arrays ([oop]).
    [content n h x] is the array [x] stands for in the memory [h]; it is None when
    the objects are nested deeper than [n] (or in a circle). *)
From Verif Require Import Base PySlice Keys NDArray Arrays Objects ObjClaims Samples.

(** What a program has made from nothing: memory and variables. *)
Definition run {V} (ops : list (oop V)) : oheap V * list (ref V) := fold_left orun1 ops ([], []).

(** C53: an array can be copied to any depth of nesting that Python can follow;
    the copy stands for the same array, and so do all existing objects. *)
Theorem C53_copy {V} n (h : oheap V) r a : content n h r = Some a ->
  exists h' r', deepcopy n h r = Ok (h', r') /\ content n h' r' = Some a
  /\ forall m x b, content m h x = Some b -> content m h' x = Some b.
Proof.
  intros E. destruct (deepcopy_total n h r a E) as (h' & r' & Eq). exists h', r'. split; auto.
  destruct (deepcopy_spec _ _ _ _ _ Eq) as (He & HS & _). split; [apply HS; auto|]. intros m x b Ex. eapply content_mono; eauto.
Qed.

(** C53: after that, two programs, one with the existing variables and one with
    the copy, may go on in any interleaving; no operation of one changes an array
    of the other.  In particular assignments to (nested, shared) stacks and
    changes to source arrays on one side do not show on the other. *)
Theorem C53_isolated {V} (before : list (oop V)) n k r h' r' (ops : list (bool * oop V)) side o :
  let '(h, xs) := run before in
  nth_error xs k = Some r -> deepcopy n h r = Ok (h', r') ->
  let '(h1, xs1, ys1) := fold_left run2 ops (h', xs, [r']) in
  let '(h2, xs2, ys2) := run2 (h1, xs1, ys1) (side, o) in
  forall z m, In z (if side : bool then ys1 else xs1) -> content m h2 z = content m h1 z.
Proof.
  destruct (run before) as [h xs] eqn:ER. intros Ek Ec.
  assert (HM : in_memory h xs).
  { pose proof (run_in_memory before ([], [])) as HM. unfold run in ER. rewrite ER in HM. apply HM. intros x l []. }
  pose proof (run2_seps ops _ (copy_sep n h xs r h' r' HM Ec)) as HS.
  destruct (fold_left run2 ops (h', xs, [r'])) as [[h1 xs1] ys1]. destruct HS as (A & B & C).
  destruct side; cbn [run2 fst snd]; intros z m Hz.
  - destruct (program_step h1 xs1 ys1 o A B C) as (_ & _ & _ & D). auto.
  - destruct (program_step h1 ys1 xs1 o B A (apart_sym _ _ _ C)) as (_ & _ & _ & D). auto.
Qed.

(** C53: the copy has the structure of the original: there is a renaming [phi] of
    the stacks and sources involved, one to one, such that the copy of each is of
    the same shape and refers to the copies of what the original refers to.  So
    a stack that occurs twice is one stack, occurring twice, in the copy. *)
Theorem C53_sharing {V} n (h : oheap V) r a h' r' : content n h r = Some a -> deepcopy n h r = Ok (h', r') ->
  exists phi, r' = rename phi r
  /\ (forall l, reach h r l -> match nth_error h l with
       | Some (CStk ssh il) => exists its il', nth_error h il = Some (CItems its) /\ nth_error h' (phi l) = Some (CStk ssh il')
                               /\ nth_error h' il' = Some (CItems (map (rename phi) its))
       | Some (CData c) => nth_error h' (phi l) = Some (CData c)
       | Some (CItems _) => True
       | None => False
       end)
  /\ (forall l1 l2, reach h r l1 -> reach h r l2 -> (forall its, nth_error h l1 <> Some (CItems its)) ->
        (forall its, nth_error h l2 <> Some (CItems its)) -> phi l1 = phi l2 -> l1 = l2).
Proof.
  intros Ea E. destruct (deepcopy_shape n h r a h' r' Ea E) as (phi & A & B & C). exists phi. split; auto. split; auto.
  intros l1 l2 H1 H2 N1 N2 EP. apply C; auto; intros [its Hi]; [apply (N1 its)|apply (N2 its)]; auto.
Qed.

(** Without a copy, two stacks made from one object array are changed together
    (variables 3 and 4, and the stack 5 which holds 3); the copy of 5 is not. *)
Definition hist : list (oop Z) :=
  [OSource false (numbered [2]); OSource true (numbered [2]); OSource false (thirds [2]); OStack [2] [0; 1]; OShare 3; OStack [2] [3; 3]].
Definition values (s : oheap Z * list (ref Z)) : list (option barr) := map (content 9 (fst s)) (snd s).
Definition a0 := AAdapt false (numbered [2]) []. Definition a1 := AAdapt true (numbered [2]) []. Definition a2 := AAdapt false (thirds [2]) [].
Example C53_case :
  let '(h, xs) := run hist in
  nth 5 (values (run hist)) None = Some (AStack [2] [AStack [2] [a0; a1]; AStack [2] [a0; a1]])
  /\ match deepcopy 9 h (nth 5 xs (RStk 0)) with
     | Err _ => False
     | Ok (h', r') =>
         let s' := orun1 (h', xs) (OSet 4 1 2) in
         map (content 9 (fst s')) [nth 3 xs (RStk 0); nth 4 xs (RStk 0); nth 5 xs (RStk 0); r']
         = [Some (AStack [2] [a0; a2]); Some (AStack [2] [a0; a2]); Some (AStack [2] [AStack [2] [a0; a2]; AStack [2] [a0; a2]]);
            Some (AStack [2] [AStack [2] [a0; a1]; AStack [2] [a0; a1]])]
     end.
Proof. vm_compute. split; reflexivity. Qed.

Print Assumptions C53_copy.
Print Assumptions C53_isolated.
Print Assumptions C53_sharing.
