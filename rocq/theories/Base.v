(** Base: Python exceptions as values, and small list helpers.
    Models no particular line of /repo: it is the vocabulary of the model. *)
From Coq Require Export List Arith ZArith Lia Bool.
Export ListNotations.

(** Python exception classes raised by /repo/biggus/_init.py (and by NumPy on
    its behalf).  [Unmodelled] marks a NumPy corner the model does not follow;
    [OutOfFuel] is the exhaustion of a recursion bound of the model. *)
Inductive err :=
  IndexError | TypeError | ValueError | NotImplementedErr | AssertErr
| AxisSupportErr | KeyErr | AttrErr | RuntimeErr | EvalError
| Unmodelled | OutOfFuel.

Inductive res (A : Type) := Ok (a : A) | Err (e : err).
Arguments Ok {A} a.
Arguments Err {A} e.

Definition bind {A B} (x : res A) (f : A -> res B) : res B :=
  match x with Ok a => f a | Err e => Err e end.

Notation "x <- e ;; f" := (bind e (fun x => f))
  (at level 61, e at next level, right associativity).

(** Left-to-right traversal with early exit: a Python loop whose body may raise. *)
Section MapM.
  Context {A B : Type} (f : A -> res B).
  Fixpoint mapM (l : list A) : res (list B) :=
    match l with
    | [] => Ok []
    | x :: xs => match f x with
                 | Ok y => match mapM xs with Ok ys => Ok (y :: ys) | Err e => Err e end
                 | Err e => Err e
                 end
    end.
End MapM.

(** [for x in l: acc = f(acc, x)] where the body may raise. *)
Fixpoint foldM {A S} (f : S -> A -> res S) (s : S) (l : list A) : res S :=
  match l with
  | [] => Ok s
  | x :: xs => match f s x with Ok s' => foldM f s' xs | Err e => Err e end
  end.

Definition is_ok {A} (r : res A) : bool := match r with Ok _ => true | Err _ => false end.

(** [l.insert(i, x)], [del l[i]], [l[i] = x] on Python lists. *)
Definition insert_at {A} (i : nat) (x : A) (l : list A) : list A :=
  firstn i l ++ x :: skipn i l.
Definition remove_at {A} (i : nat) (l : list A) : list A :=
  firstn i l ++ skipn (S i) l.
Arguments insert_at : simpl never.
Arguments remove_at : simpl never.
Fixpoint set_nth {A} (i : nat) (x : A) (l : list A) : list A :=
  match l, i with
  | [], _ => []
  | _ :: l', O => x :: l'
  | y :: l', S i' => y :: set_nth i' x l'
  end.

(** [l.index(x)] for naturals. *)
Fixpoint index_of (x : nat) (l : list nat) : option nat :=
  match l with
  | [] => None
  | y :: l' => if x =? y then Some 0
               else match index_of x l' with Some i => Some (S i) | None => None end
  end.

(** np.product(shape). *)
Definition prodn (l : list nat) : nat := fold_right Nat.mul 1 l.

Fixpoint list_eqb {A} (eqb : A -> A -> bool) (l1 l2 : list A) : bool :=
  match l1, l2 with
  | [], [] => true
  | x :: l1', y :: l2' => eqb x y && list_eqb eqb l1' l2'
  | _, _ => false
  end.
Definition shape_eqb := list_eqb Nat.eqb.

Definition opt_eqb {A} (eqb : A -> A -> bool) (a b : option A) : bool :=
  match a, b with
  | None, None => true
  | Some x, Some y => eqb x y
  | _, _ => false
  end.
