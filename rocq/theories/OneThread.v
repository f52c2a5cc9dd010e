(** OneThread: the evaluation of an expression graph by a single thread, node by
    node, each Array object once: the sequential meaning of
    AllThreadedEngine (biggus/_init.py:337-446), without threads or queues.  A
    node's output is all the chunks it sends and whether it ends normally
    (QUEUE_FINISHED) or with an abort (QUEUE_ABORT). *)
From Verif Require Import Base PySlice Keys NDArray Arrays Chunks Handlers Realise Kahn Threads.

Section OneThread.
Context {V : Type} (O : numops V).
Notation cell := (option V).
Notation barr := (@barr V).
Notation chunk := (list key * nd cell)%type.
Notation entry := (@entry V).
Variable maxc : nat.
Variable garbage : list nat -> cell.
Variable rz : barr -> res (nd cell).
Variable m : bool.

Definition feed := (list chunk * bool)%type.
Definition before (cs : list chunk) (f : feed) : feed := (cs ++ fst f, snd f).
Definition broken : feed := ([], false).

(** 175-204 a producer: chunk after chunk, until one cannot be computed *)
Fixpoint drawn (a : barr) (ks : list (list key)) : feed :=
  match ks with
  | [] => ([], true)
  | k :: ks' => match b <- getitem a k ;; rz b with
                | Ok d => before [(k, d)] (drawn a ks')
                | Err _ => broken
                end
  end.
(** 2226-2306 an aggregation: a chunk is sent when the output key changes, the
    last one at a normal end of the input *)
Fixpoint aggregated (h : handler V) (axis n : nat) (cur : option (list key * nd (hst h))) (cs : list chunk) (ok : bool) : feed :=
  match cs with
  | [] => match ok, cur with
          | true, Some (k, st) => ([agg_finalise h n k st], true)
          | _, _ => broken
          end
  | c :: cs' => match agg_step h axis n cur c with
                | Ok (cur', o) => before (match o with Some x => [x] | None => [] end) (aggregated h axis n cur' cs' ok)
                | Err _ => broken
                end
  end.
(** 2919-2933 a binary operation pairs the chunks one by one, up to the first end
    of an operand; what the other one still has is not looked at *)
Fixpoint paired_up (f : cell -> cell -> cell) (xs : list chunk) (okx : bool) (ys : list chunk) (oky : bool) : feed :=
  match xs, ys with
  | x :: xs', y :: ys' => match np_op2 f (snd x) (snd y) with
                          | Ok d => before [(fst x, d)] (paired_up f xs' okx ys' oky)
                          | Err _ => broken
                          end
  | [], [] => ([], okx && oky)
  | [], _ :: _ => ([], okx)
  | _ :: _, [] => ([], oky)
  end.
(** The output of an entry asked for in [order], given those of its sources. *)
Definition entry_feed (dag : list entry) (e : entry) (order : list nat) (fs : list feed) : feed :=
  match e, fs with
  | EArr a, _ => drawn a (chunk_index_gen maxc (shape a) order)
  | EAgg g s axis _, [x] => aggregated (handler_of O m g) axis (nth axis (shape (expr O dag s)) 0) None (fst x) (snd x)
  | EEl1 o _ _, [x] => match op1_fun m o with
                       | Ok f => (map (fun c => (fst c, nd_map f (snd c))) (fst x), snd x)
                       | Err _ => broken
                       end
  | EEl2 o _ _ _, [x; y] => match op2_fun m o with
                            | Ok f => paired_up f (fst x) (snd x) (fst y) (snd y)
                            | Err _ => broken
                            end
  | _, _ => broken
  end.

(** 369-385 the depth-first walk over the graph; [memo] holds the outputs of the
    entries met so far, whatever the order they were then asked for. *)
Fixpoint walk (fuel : nat) (dag : list entry) (i : nat) (order : list nat) (memo : list (option feed)) : list (option feed) :=
  match fuel with
  | 0 => memo
  | S f =>
      match nth i memo None, nth_error dag i with
      | None, Some e =>
          let memo' := fold_left (fun memo s => walk f dag s (src_order e order) memo) (entry_srcs e) memo in
          set_nth i (Some (entry_feed dag e order (map (fun s => match nth s memo' None with Some x => x | None => broken end) (entry_srcs e)))) memo'
      | _, _ => memo
      end
  end.
Definition walk_all (dag : list entry) (roots : list nat) (memo : list (option feed)) : list (option feed) :=
  fold_left (fun memo r => walk (S r) dag r (seq 0 (ndim (expr O dag r))) memo) roots memo.
(** 302-334, 413-424: the chunks of a requested array stored one after the other;
    any failure on the way is reported as Exception. *)
Definition kept (sh : list nat) (x : feed) : res (nd cell) :=
  match np_setitems (mkND sh garbage) (fst x), snd x with Ok d, true => Ok d | _, _ => Err EvalError end.
(** What [ndarrays]/[masked_arrays] of the entries [roots] return. *)
Definition one_thread (dag : list entry) (roots : list nat) : res (list (nd cell)) :=
  let memo := walk_all dag roots (repeat None (length dag)) in
  mapM (fun r => match nth r memo None with Some x => kept (shape (expr O dag r)) x | None => Err EvalError end) roots.
End OneThread.
Arguments feed : clear implicits.
