(** Threads: the threaded engine of biggus/_init.py:89-446, one thread per node of
    the expression graph, bounded queues between them, any interleaving
    (semantics of Kahn.v). *)
From Verif Require Import Base PySlice Keys NDArray Arrays Chunks Handlers Realise Kahn.

(** ** Nodes *)
Section Net.
Context {C : Type}.

(** 92-93: what travels on a queue: a Chunk, QUEUE_FINISHED or QUEUE_ABORT. *)
Inductive msg := MChunk (c : C) | MDone | MAbort.
Definition is_done (m : msg) : bool := match m with MDone => true | _ => false end.
Definition is_abort (m : msg) : bool := match m with MAbort => true | _ => false end.
Definition chunk_of (m : msg) : list C := match m with MChunk c => [c] | _ => [] end.

(** A ProducerNode (138-204) with the chunks it computes (or the exception it
    meets), or a ConsumerNode (207-278) whose [process_chunks] and [finalise] are
    functions of the chunks received so far (oldest first, one list per round).
    [outs], [ins]: the registered queues, in order. *)
Inductive node :=
| NProd (items : list (res C)) (outs : list nat)
| NCons (emit fin : list (list C) -> res (option C)) (ins outs : list nat).
Definition outs_of (n : node) : list nat := match n with NProd _ o | NCons _ _ _ o => o end.
Definition ins_of (n : node) : list nat := match n with NProd _ _ => [] | NCons _ _ i _ => i end.

(** Where a thread is: about to compute its next chunk; reading its inputs (the
    rounds before, the messages of this round so far); putting a message on its
    [j]th output queue, to go on as [k]; finished ([ok = false]: it raised or was
    aborted), having received the rounds [hist] and last the messages [got]. *)
Inductive loc :=
| LProd (items : list (res C))
| LGet (hist : list (list C)) (got : list msg)
| LPut (m : msg) (j : nat) (k : loc)
| LHalt (ok : bool) (hist : list (list C)) (got : list msg).

(** 112-120 [output]: a chunk that is None is ignored. *)
Definition emitting (o : option C) (k : loc) : loc :=
  match o with Some c => LPut (MChunk c) 0 k | None => k end.
(** 101-104 [abort] after an exception or on QUEUE_ABORT (200-201, 266-268, 274-276) *)
Definition aborting (hist : list (list C)) (got : list msg) : loc := LPut MAbort 0 (LHalt false hist got).
(** 263-278: one message from every input has been read. *)
Definition round (emit fin : list (list C) -> res (option C)) (hist : list (list C)) (got : list msg) : loc :=
  if existsb is_abort got then aborting hist got
  else if existsb is_done got then
    match fin hist with
    | Ok o => emitting o (LPut MDone 0 (LHalt true hist got))
    | Err _ => aborting hist got
    end
  else
    let hist' := hist ++ [flat_map chunk_of got] in
    match emit hist' with
    | Ok o => emitting o (LGet hist' [])
    | Err _ => aborting hist' []
    end.

(** 175-204 [ProducerNode.run], 253-278 [ConsumerNode.run] *)
Definition node_next (n : node) (l : loc) : act msg loc :=
  match l with
  | LHalt _ _ _ => AHalt
  | LPut m j k => match nth_error (outs_of n) j with
                  | Some q => APut q m (LPut m (S j) k)
                  | None => ATau k
                  end
  | LProd items => match items with
                   | [] => ATau (LPut MDone 0 (LHalt true [] []))
                   | Ok c :: r => ATau (LPut (MChunk c) 0 (LProd r))
                   | Err _ :: _ => ATau (aborting [] [])
                   end
  | LGet hist got => match n with
                     | NCons emit fin ins _ =>
                         match nth_error ins (length got) with
                         | Some q => AGet q (fun m => LGet hist (got ++ [m]))
                         | None => ATau (round emit fin hist got)
                         end
                     | NProd _ _ => AHalt
                     end
  end.
Definition net_next (net : list node) (i : nat) (l : loc) : act msg loc :=
  match nth_error net i with Some n => node_next n l | None => AHalt end.
Definition loc0 (n : node) : loc :=
  match n with NProd items _ => LProd items | NCons _ _ _ _ => LGet [] [] end.
(** Every thread at its start, [nq] empty queues. *)
Definition net0 (net : list node) (nq : nat) : gstate msg loc := (map loc0 net, repeat [] nq).
End Net.
Arguments msg : clear implicits.
Arguments node : clear implicits.
Arguments loc : clear implicits.

(** 230: [queue.Queue(maxsize=3)] *)
Definition bounded (n : nat) : bool := n <? 3.

(** ** The expression graph *)
Section Graph.
Context {V : Type} (O : numops V).
Notation cell := (option V).
Notation barr := (@barr V).
Notation chunk := (list key * nd cell)%type.
Variable maxc : nat.
Variable garbage : list nat -> cell.
Variable rz : barr -> res (nd cell).
Variable m : bool.

(** The Array objects of an expression, numbered so that operands come first; an
    object that occurs in several places is listed once. *)
Inductive entry :=
| EArr (a : barr)
| EAgg (g : @agg V) (src axis d : nat)
| EEl1 (o : @op1 V) (src d : nat)
| EEl2 (o : @op2 V) (s1 s2 d : nat).
Definition entry_srcs (e : entry) : list nat :=
  match e with
  | EArr _ => [] | EAgg _ s _ _ => [s] | EEl1 _ s _ => [s] | EEl2 _ s1 s2 _ => [s1; s2]
  end.
Definition no_array : barr := AConst [] (v0 O) 0.
(** The array an entry stands for, given those of the entries before. *)
Definition entry_expr (xs : list barr) (e : entry) : barr :=
  match e with
  | EArr a => a
  | EAgg g s axis d => AAgg g (nth s xs no_array) axis d
  | EEl1 o s d => AEl1 o (nth s xs no_array) d
  | EEl2 o s1 s2 d => AEl2 o (nth s1 xs no_array) (nth s2 xs no_array) d
  end.
Definition exprs (dag : list entry) : list barr :=
  fold_left (fun xs e => xs ++ [entry_expr xs e]) dag [].
Definition expr (dag : list entry) (i : nat) : barr := nth i (exprs dag) no_array.

(** What [_make_node] has built so far: the iteration order of every node in the
    cache ([None]: not in the cache), and the queues registered, in order, each
    with the node that writes to it.  Input [p] of node [i] is queue [2 i + p]. *)
Definition builder := (list (option (list nat)) * list (nat * nat))%type.
Definition src_order (e : entry) (order : list nat) : list nat :=
  match e with EAgg _ _ axis _ => input_order axis order | _ => order end.
Definition in_edges (i : nat) (srcs : list nat) : list (nat * nat) :=
  combine srcs (map (fun p => 2 * i + p) (seq 0 (length srcs))).
(** 369-385 [_make_node]: the cache is keyed by the array object alone. *)
Fixpoint make_node (fuel : nat) (dag : list entry) (i : nat) (order : list nat) (st : builder) : builder :=
  match fuel with
  | 0 => st
  | S f =>
      match nth i (fst st) None, nth_error dag i with
      | None, Some e =>
          let st' := fold_left (fun st s => make_node f dag s (src_order e order) st) (entry_srcs e) st in
          (set_nth i (Some order) (fst st'), snd st' ++ in_edges i (entry_srcs e))
      | _, _ => st
      end
  end.
(** 403-412: the loop over the requested arrays; the result node of the [j]th is
    number [length dag + j]. *)
Fixpoint make_all (dag : list entry) (roots : list nat) (j : nat) (st : builder) : builder :=
  match roots with
  | [] => st
  | r :: rs =>
      let st' := make_node (S r) dag r (seq 0 (ndim (expr dag r))) st in
      make_all dag rs (S j) (fst st', snd st' ++ [(r, 2 * (length dag + j))])
  end.
Definition build (dag : list entry) (roots : list nat) : builder :=
  make_all dag roots 0 (repeat None (length dag), []).

(** 2275-2293 one call of [_AggregationStreamsHandler.process_chunks] *)
Section AggNode.
  Context (h : handler V) (axis n : nat).
  Definition agg_state := option (list key * nd (hst h)).
  Definition agg_step (cur : agg_state) (ch : chunk) : res (agg_state * option chunk) :=
    let k' := remove_at axis (fst ch) in
    let same := match cur with Some (k0, _) => keys_eqb k' k0 | None => false end in
    let st0 := match cur with
               | Some (_, st) => if same then st else agg_boot h axis (snd ch)
               | None => agg_boot h axis (snd ch)
               end in
    st1 <- agg_process h axis st0 (snd ch) ;;
    Ok (Some (k', st1),
        match cur with
        | Some (k0, st) => if same then None else Some (agg_finalise h n k0 st)
        | None => None
        end).
  Fixpoint agg_run (cur : agg_state) (last : option chunk) (cs : list chunk) : res (agg_state * option chunk) :=
    match cs with
    | [] => Ok (cur, last)
    | ch :: cs' => r <- agg_step cur ch ;; agg_run (fst r) (snd r) cs'
    end.
  Definition agg_emit (hist : list (list chunk)) : res (option chunk) :=
    r <- agg_run None None (concat hist) ;; Ok (snd r).
  Definition agg_fin (hist : list (list chunk)) : res (option chunk) :=
    r <- agg_run None None (concat hist) ;;
    match fst r with
    | Some (k, st) => Ok (Some (agg_finalise h n k st))
    | None => Err AttrErr
    end.
End AggNode.

(** 2929-2933 [_ElementwiseStreamsHandler.process_chunks]; [finalise] returns None. *)
Definition el1_emit (f : cell -> cell) (hist : list (list chunk)) : res (option chunk) :=
  match last hist [] with
  | [x] => Ok (Some (fst x, nd_map f (snd x)))
  | _ => Err ValueError
  end.
Definition el2_emit (f : cell -> cell -> cell) (hist : list (list chunk)) : res (option chunk) :=
  match last hist [] with
  | [x; y] => d <- np_op2 f (snd x) (snd y) ;; Ok (Some (fst x, d))
  | _ => Err ValueError
  end.
Definition no_fin (_ : list (list chunk)) : res (option chunk) := Ok None.
(** 321-334 [NdarrayNode.process_chunks]: the memory after the chunks so far. *)
Definition stored (sh : list nat) (hist : list (list chunk)) : res (nd cell) :=
  np_setitems (mkND sh garbage) (concat hist).
Definition sink_emit (sh : list nat) (hist : list (list chunk)) : res (option chunk) :=
  _ <- stored sh hist ;; Ok None.

(** The queues node [i] writes to. *)
Definition outs (edges : list (nat * nat)) (i : nat) : list nat :=
  map snd (filter (fun e => fst e =? i) edges).

(** The node made for entry [i] ([streams_handler] raises TypeError when there is
    no masked equivalent, 3038-3049).  Entries that are not in the cache stand for
    no node; they are given an idle one. *)
Definition entry_node (dag : list entry) (st : builder) (i : nat) (e : entry) : res (node chunk) :=
  match nth i (fst st) None with
  | None => Ok (NProd [] [])
  | Some order =>
      match e with
      | EArr a => Ok (NProd (map (fun k => b <- getitem a k ;; d <- rz b ;; Ok (k, d))
                                 (chunk_index_gen maxc (shape a) order)) (outs (snd st) i))
      | EAgg g s axis _ =>
          let h := handler_of O m g in
          let n := nth axis (shape (expr dag s)) 0 in
          Ok (NCons (agg_emit h axis n) (agg_fin h axis n) [2 * i] (outs (snd st) i))
      | EEl1 o _ _ => f <- op1_fun m o ;; Ok (NCons (el1_emit f) no_fin [2 * i] (outs (snd st) i))
      | EEl2 o _ _ _ => f <- op2_fun m o ;; Ok (NCons (el2_emit f) no_fin [2 * i; 2 * i + 1] (outs (snd st) i))
      end
  end.
Definition sink_node (dag : list entry) (j r : nat) : node chunk :=
  NCons (sink_emit (shape (expr dag r))) no_fin [2 * (length dag + j)] [].

(** 387-417: all nodes of an evaluation. *)
Definition network (dag : list entry) (roots : list nat) : res (list (node chunk)) :=
  let st := build dag roots in
  ns <- mapM (fun ie => entry_node dag st (fst ie) (snd ie)) (combine (seq 0 (length dag)) dag) ;;
  Ok (ns ++ map (fun jr => sink_node dag (fst jr) (snd jr)) (combine (seq 0 (length roots)) roots)).
Definition queues (dag : list entry) (roots : list nat) : nat := 2 * (length dag + length roots).

(** 418-424: the state of the [j]th result thread; joining waits for all to have
    finished. *)
Definition sink_state (dag : list entry) (s : gstate (msg chunk) (loc chunk)) (j : nat) : option (loc chunk) :=
  nth_error (fst s) (length dag + j).
(** [evaluate] has returned: every result thread is finished ([joined]); it
    returns the stored arrays or raises if one of them was aborted. *)
Definition joined (dag : list entry) (roots : list nat) (s : gstate (msg chunk) (loc chunk)) : Prop :=
  forall j, j < length roots -> exists ok hist got, sink_state dag s j = Some (LHalt ok hist got).
Definition returned (dag : list entry) (roots : list nat) (s : gstate (msg chunk) (loc chunk)) : res (list (nd cell)) :=
  mapM (fun jr => match sink_state dag s (fst jr) with
                  | Some (LHalt true hist _) => stored (shape (expr dag (snd jr))) hist
                  | _ => Err EvalError
                  end) (combine (seq 0 (length roots)) roots).
End Graph.

(** 426-440 [_groups] (one group of all arrays) and [_evaluate]: the results of
    every group are stored at the indices of its arrays. *)
Definition groups (n : nat) : list (list nat) := [seq 0 n].
Definition compile {R : Type} (n : nat) (results : list (list nat * list R)) : list (option R) :=
  fold_left (fun all g => fold_left (fun all ir => set_nth (fst ir) (Some (snd ir)) all) (combine (fst g) (snd g)) all)
            results (repeat None n).
