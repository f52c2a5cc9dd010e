(** MemThreads: the threaded engine (Threads.v) on shared memory (Memory.v).  What
    travels on the queues are NumPy arrays, not copies of them: one object is put
    on every registered queue (112-120), handlers keep running totals of their own
    and update them in place, result nodes fill a result array.  Simplified: a
    thread's computation between two queue operations is one step. *)
From Verif Require Import Base PySlice Keys NDArray Arrays Chunks Handlers Realise Memory Kahn Threads.

Section MemThreads.
Context {V : Type} (O : numops V).
Notation cell := (option V).
Notation barr := (@barr V).
Notation heap := (@heap V).
Variable garbage : list nat -> cell.
Variable place : @concrete V -> nat.
Variable copies : bool -> @concrete V -> bool.
Variable maxc fuel : nat.
Variable m : bool.

(** What a node keeps between two chunks: nothing; an aggregation handler's current
    keys, output shape and totals (2210-2293); the result array (302-319). *)
Inductive mstate :=
| SNone
| SAgg (h : @mhandler V) (cur : option (list key * list nat * mst h))
| SSink (l : nat).

(** As [Threads.node], with computations on memory. *)
Inductive mnode :=
| MProd (items : list (@M V mchunk)) (outs : list nat)
| MCons (emit : mstate -> list mchunk -> @M V (mstate * option mchunk)) (fin : mstate -> @M V (option mchunk)) (st : mstate) (ins outs : list nat).
Definition mouts_of (n : mnode) : list nat := match n with MProd _ o => o | MCons _ _ _ _ o => o end.
(** As [Threads.loc]. *)
Inductive mloc :=
| KProd (items : list (@M V mchunk))
| KGet (st : mstate) (got : list (msg mchunk))
| KPut (x : msg mchunk) (j : nat) (k : mloc)
| KHalt (ok : bool) (st : mstate).
(** 112-120, 101-104, 263-278, as in Threads.v *)
Definition memitting (o : option mchunk) (k : mloc) : mloc := match o with Some c => KPut (MChunk c) 0 k | None => k end.
Definition maborting (st : mstate) : mloc := KPut MAbort 0 (KHalt false st).
Definition mround (emit : mstate -> list mchunk -> @M V (mstate * option mchunk)) (fin : mstate -> @M V (option mchunk))
                  (st : mstate) (got : list (msg mchunk)) (H : heap) : mloc * heap :=
  if existsb is_abort got then (maborting st, H)
  else if existsb is_done got then
    match fin st H with
    | (Ok o, H') => (memitting o (KPut MDone 0 (KHalt true st)), H')
    | (Err _, H') => (maborting st, H')
    end
  else
    match emit st (flat_map chunk_of got) H with
    | (Ok (st', o), H') => (memitting o (KGet st' []), H')
    | (Err _, H') => (maborting st, H')
    end.
(** 175-204, 253-278: the next action, and the memory after it *)
Definition mnode_next (H : heap) (n : mnode) (l : mloc) : act (msg mchunk) mloc * heap :=
  match l with
  | KHalt _ _ => (AHalt, H)
  | KPut x j k => match nth_error (mouts_of n) j with
                  | Some q => (APut q x (KPut x (S j) k), H)
                  | None => (ATau k, H)
                  end
  | KProd [] => (ATau (KPut MDone 0 (KHalt true SNone)), H)
  | KProd (item :: r) => match item H with
                         | (Ok c, H') => (ATau (KPut (MChunk c) 0 (KProd r)), H')
                         | (Err _, H') => (ATau (maborting SNone), H')
                         end
  | KGet st got => match n with
                   | MCons emit fin _ ins _ =>
                       match nth_error ins (length got) with
                       | Some q => (AGet q (fun x => KGet st (got ++ [x])), H)
                       | None => let r := mround emit fin st got H in (ATau (fst r), snd r)
                       end
                   | MProd _ _ => (AHalt, H)
                   end
  end.
Definition mnext (net : list mnode) (H : heap) (i : nat) (l : mloc) : act (msg mchunk) mloc * heap :=
  match nth_error net i with Some n => mnode_next H n l | None => (AHalt, H) end.

(** The threads, the queues, and the memory they share; thread [i] takes a step. *)
Definition mgstate := (gstate (msg mchunk) mloc * heap)%type.
Definition mfire (net : list mnode) (i : nat) (s : mgstate) : option mgstate :=
  match fire (fun i l => fst (mnext net (snd s) i l)) bounded i (fst s) with
  | Some s' => Some (s', match nth_error (fst (fst s)) i with Some l => snd (mnext net (snd s) i l) | None => snd s end)
  | None => None
  end.
Inductive msteps (net : list mnode) : nat -> mgstate -> mgstate -> Prop :=
| msteps_0 s : msteps net 0 s s
| msteps_S n i s s1 s2 : mfire net i s = Some s1 -> msteps net n s1 s2 -> msteps net (S n) s s2.
Definition mloc0 (n : mnode) : mloc := match n with MProd items _ => KProd items | MCons _ _ st _ _ => KGet st [] end.

(** ** The nodes *)

(** 2275-2293 [process_chunks] of an aggregation *)
Definition magg_emit (axis n : nat) (st : mstate) (cs : list mchunk) : @M V (mstate * option mchunk) :=
  match st, cs with
  | SAgg h cur, [(k, d)] =>
      let k' := remove_at axis k in
      let osh := remove_at axis (nshape (vix d)) in
      let same := match cur with Some (k0, _, _) => keys_eqb k' k0 | None => false end in
      bindM (match cur with
             | Some (k0, sh, st) => if same then ret None else bindM (mfin h sh n st) (fun v => ret (Some (k0, v)))
             | None => ret None
             end) (fun out =>
      bindM (match cur with
             | Some (_, sh, st) => if same then ret (sh, st) else bindM (mboot h osh) (fun st => ret (osh, st))
             | None => bindM (mboot h osh) (fun st => ret (osh, st))
             end) (fun st0 =>
      let '(sh, st) := st0 in
      if negb (shape_eqb sh osh) then lift (Err Unmodelled)
      else if mbad h (nth axis (nshape (vix d)) 0) (prodn sh =? 0) then lift (Err EvalError)
      else bindM (mstep h axis st d) (fun st1 => ret (SAgg h (Some (k', sh, st1)), out))))
  | _, _ => lift (Err ValueError)
  end.
Definition magg_fin (n : nat) (st : mstate) : @M V (option mchunk) :=
  match st with
  | SAgg h (Some (k, sh, st)) => bindM (mfin h sh n st) (fun v => ret (Some (k, v)))
  | _ => lift (Err AttrErr)
  end.
(** 2929-2933 *)
Definition mel1_emit (f : cell -> cell) (st : mstate) (cs : list mchunk) : @M V (mstate * option mchunk) :=
  match cs with
  | [x] => bindM (look_at (fun h => h)) (fun h => bindM (fresh (nd_map f (read O h (snd x)))) (fun v => ret (st, Some (fst x, v))))
  | _ => lift (Err ValueError)
  end.
Definition mel2_emit (f : cell -> cell -> cell) (st : mstate) (cs : list mchunk) : @M V (mstate * option mchunk) :=
  match cs with
  | [x; y] => bindM (look_at (fun h => h)) (fun h => bindM (lift (np_op2 f (read O h (snd x)) (read O h (snd y)))) (fun d =>
              bindM (fresh d) (fun v => ret (st, Some (fst x, v)))))
  | _ => lift (Err ValueError)
  end.
Definition mno_fin (_ : mstate) : @M V (option mchunk) := ret None.
(** 321-334 *)
Definition msink_emit (sh : list nat) (st : mstate) (cs : list mchunk) : @M V (mstate * option mchunk) :=
  match st, cs with
  | SSink l, [x] => bindM (write O l sh (fst x) (snd x)) (fun _ => ret (st, None))
  | _, _ => lift (Err ValueError)
  end.

(** As [Threads.entry_node]. *)
Definition mentry_node (dag : list (@entry V)) (st : builder) (i : nat) (e : @entry V) : res mnode :=
  match nth i (fst st) None with
  | None => Ok (MProd [] [])
  | Some order =>
      match e with
      | EArr a => Ok (MProd (map (fun k => bindM (lift (getitem a k)) (fun b => bindM (mrealise O garbage place copies maxc fuel m b) (fun v => ret (k, v))))
                                 (chunk_index_gen maxc (shape a) order)) (outs (snd st) i))
      | EAgg g s axis _ =>
          let n := nth axis (shape (expr O dag s)) 0 in
          Ok (MCons (magg_emit axis n) (magg_fin n) (SAgg (mhandler_of O m g) None) [2 * i] (outs (snd st) i))
      | EEl1 o _ _ => f <- op1_fun m o ;; Ok (MCons (mel1_emit f) mno_fin SNone [2 * i] (outs (snd st) i))
      | EEl2 o _ _ _ => f <- op2_fun m o ;; Ok (MCons (mel2_emit f) mno_fin SNone [2 * i; 2 * i + 1] (outs (snd st) i))
      end
  end.
(** 387-417; the result arrays (302-307) are the locations from [l0] on. *)
Definition msink_node (dag : list (@entry V)) (l0 j r : nat) : mnode :=
  MCons (msink_emit (shape (expr O dag r))) mno_fin (SSink (l0 + j)) [2 * (length dag + j)] [].
Definition mnetwork (dag : list (@entry V)) (roots : list nat) (l0 : nat) : res (list mnode) :=
  let st := build O dag roots in
  ns <- mapM (fun ie => mentry_node dag st (fst ie) (snd ie)) (combine (seq 0 (length dag)) dag) ;;
  Ok (ns ++ map (fun jr => msink_node dag l0 (fst jr) (snd jr)) (combine (seq 0 (length roots)) roots)).
Definition mnet0 (net : list mnode) (dag : list (@entry V)) (roots : list nat) (H : heap) : mgstate :=
  ((map mloc0 net, repeat [] (queues dag roots)), H ++ repeat (fun j => MV (garbage j)) (length roots)).

(** 418-424: [evaluate] has returned; the arrays it returns. *)
Definition msink_state (dag : list (@entry V)) (s : mgstate) (j : nat) : option mloc := nth_error (fst (fst s)) (length dag + j).
Definition mjoined (dag : list (@entry V)) (roots : list nat) (s : mgstate) : Prop :=
  forall j, j < length roots -> exists ok st, msink_state dag s j = Some (KHalt ok st).
Definition mreturned (dag : list (@entry V)) (roots : list nat) (s : mgstate) : res (list view) :=
  mapM (fun jr => match msink_state dag s (fst jr) with
                  | Some (KHalt true (SSink l)) => Ok (whole l (shape (expr O dag (snd jr))))
                  | _ => Err EvalError
                  end) (combine (seq 0 (length roots)) roots).
End MemThreads.
