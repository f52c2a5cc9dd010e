(** Iter: iterating over an array.

    [Array] (449-665) has [__getitem__] but neither [__iter__] nor [__len__], so
    [for row in a], [list(a)], [zip(a, b)] and [x, y = a] use Python's sequence
    protocol: a[0], a[1], a[2], ... are asked for until one raises IndexError, which
    ends the iteration; any other exception is passed on. *)
From Verif Require Import Base PySlice Keys NDArray Arrays.

Section Iter.
Context {V : Type}.

(** The iteration from position [i] on, by an observer who waits for at most [fuel]
    calls of [__getitem__] (508-520): [None] when it is still going on.  StopIteration,
    which also ends Python's protocol, is raised nowhere in biggus. *)
Fixpoint iter_from (fuel i : nat) (a : @barr V) : option (res (list barr)) :=
  match fuel with
  | 0 => None
  | S f => match getitem a [KInt (Z.of_nat i)] with
           | Ok b => match iter_from f (S i) a with
                     | Some (Ok l) => Some (Ok (b :: l))
                     | r => r
                     end
           | Err IndexError => Some (Ok [])
           | Err e => Some (Err e)
           end
  end.

(** [list(a)] *)
Definition iterate (fuel : nat) (a : barr) : option (res (list barr)) := iter_from fuel 0 a.
End Iter.
