(** ThreadSpec: the conditions on expression graphs under which the threaded
    engine is proved correct. *)
From Verif Require Import Base Lib PySlice Keys NDArray Arrays Chunks Handlers Realise Kahn Threads.

Section Spec.
Context {V : Type} (O : numops V).
Notation barr := (@barr V).
Notation entry := (@entry V).

(** Arrays without a streams handler. *)
Definition produces (a : barr) : Prop := match a with AAgg _ _ _ _ | AEl1 _ _ _ | AEl2 _ _ _ _ => False | _ => True end.
(** An expression graph: operands come first, leaves are producers. *)
Definition dag_ok (dag : list entry) (roots : list nat) : Prop :=
  (forall i e s, nth_error dag i = Some e -> In s (entry_srcs e) -> s < i) /\
  (forall i a, nth_error dag i = Some (EArr a) -> produces a) /\
  (forall r, In r roots -> r < length dag).
(** The iteration orders in which an entry is asked for: the requested arrays in
    the identity order, the operands of an entry in the order it needs. *)
Inductive wants (dag : list entry) (roots : list nat) : nat -> list nat -> Prop :=
| wants_root r : In r roots -> wants dag roots r (seq 0 (ndim (expr O dag r)))
| wants_src i o e s : wants dag roots i o -> nth_error dag i = Some e -> In s (entry_srcs e) -> wants dag roots s (src_order e o).
(** Every array object is asked for in one order only. *)
Definition consistent (dag : list entry) (roots : list nat) : Prop :=
  forall i o o', wants dag roots i o -> wants dag roots i o' -> o = o'.
(** No array object is used twice. *)
Definition unshared (dag : list entry) (roots : list nat) : Prop := NoDup (flat_map entry_srcs dag ++ roots).

(** ** The chunks a stream consists of, by their keys *)
Variable maxc : nat.
(** Runs of equal keys, by the last key of each. *)
Fixpoint key_runs (cur : list key) (ks : list (list key)) : list (list key) :=
  match ks with
  | [] => [cur]
  | k :: ks' => if keys_eqb k cur then key_runs k ks' else cur :: key_runs k ks'
  end.
Definition agg_keys (axis : nat) (ks : list (list key)) : list (list key) :=
  match map (remove_at axis) ks with [] => [[]] | k :: ks' => key_runs k ks' end.
Fixpoint stream_keys (a : barr) (order : list nat) : list (list key) :=
  match a with
  | AAgg _ c axis _ => agg_keys axis (stream_keys c (input_order axis order))
  | AEl1 _ c _ => stream_keys c order
  | AEl2 _ c1 _ _ => stream_keys c1 order
  | _ => chunk_index_gen maxc (shape a) order
  end.
(** The places where an array object is used: as an operand (of which entry, in
    which position), or as one of the requested arrays. *)
Inductive place := Operand (k p : nat) | Request (j : nat).
Definition used (dag : list entry) (roots : list nat) (i : nat) (u : place) : Prop :=
  match u with
  | Operand k p => exists e, nth_error dag k = Some e /\ nth_error (entry_srcs e) p = Some i
  | Request j => nth_error roots j = Some i
  end.
(** Every array object used in two places comes in at most [n] chunks. *)
Definition shared_few (n : nat) (dag : list entry) (roots : list nat) : Prop :=
  forall i o u u', wants dag roots i o -> used dag roots i u -> used dag roots i u' -> u <> u' ->
    length (stream_keys (expr O dag i) o) <= n.
(** The operands of every binary operation are divided into equally many chunks. *)
Definition balanced (dag : list entry) (roots : list nat) : Prop :=
  forall i o f s1 s2 d, wants dag roots i o -> nth_error dag i = Some (EEl2 f s1 s2 d) ->
    length (stream_keys (expr O dag s1) o) = length (stream_keys (expr O dag s2) o).

(** The operands of every binary operation are divided at the same places. *)
Definition aligned (dag : list entry) (roots : list nat) : Prop :=
  forall i o f s1 s2 d, wants dag roots i o -> nth_error dag i = Some (EEl2 f s1 s2 d) ->
    stream_keys (expr O dag s1) o = stream_keys (expr O dag s2) o.

(** ** The pace of a stream: for each of its chunks, and for its end, after how
    many chunks of the producer it is sent *)
Fixpoint change_ticks (cur : list key) (ks : list (list key)) (ts : list nat) : list nat :=
  match ks, ts with
  | k :: ks', t :: ts' => if keys_eqb k cur then change_ticks k ks' ts' else t :: change_ticks k ks' ts'
  | _, _ => []
  end.
(** An aggregation sends a chunk when the output key changes, the last one at the
    end of its input, and then its own end. *)
Definition agg_ticks (axis : nat) (ks : list (list key)) (ts : list nat) : list nat :=
  let t := nth (length ks) ts 0 in
  match map (remove_at axis) ks with [] => [] | k :: ks' => change_ticks k ks' (tl ts) end ++ [t; 1 + t].
Fixpoint ticks (a : barr) (order : list nat) : list nat :=
  match a with
  | AAgg _ c axis _ => agg_ticks axis (stream_keys c (input_order axis order)) (ticks c (input_order axis order))
  | AEl1 _ c _ => ticks c order
  | AEl2 _ c1 _ _ => ticks c1 order
  | _ => seq 0 (1 + length (chunk_index_gen maxc (shape a) order))
  end.
(** The operands of every binary operation are streams of the same pace. *)
Definition paced (dag : list entry) (roots : list nat) : Prop :=
  forall i o f s1 s2 d, wants dag roots i o -> nth_error dag i = Some (EEl2 f s1 s2 d) ->
    ticks (expr O dag s1) o = ticks (expr O dag s2) o.
End Spec.

(** ** Executions *)
Section Exec.
Context {V : Type}.
Notation chunk := (list key * nd (option V))%type.
Notation state := (gstate (msg chunk) (loc chunk)).
(** [s] is reached from the start by some schedule of the threads. *)
Definition reached (net : list (node chunk)) (dag : list (@entry V)) (roots : list nat) (s : state) : Prop :=
  exists n, steps (net_next net) bounded n (net0 net (queues dag roots)) s.
(** No thread can take another step: all are finished or wait for each other. *)
Definition over (net : list (node chunk)) (s : state) : Prop := final (net_next net) bounded s.
(** A thread has finished (normally or not). *)
Definition finished (l : loc chunk) : Prop := match l with LHalt _ _ _ => True | _ => False end.
End Exec.
