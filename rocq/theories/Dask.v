(** Dask: model of /repo/biggus/experimental/dask_engine.py, the engine that turns
    an expression into a graph of tasks. *)
From Verif Require Import Base PySlice Keys NDArray Arrays Chunks Handlers Realise KeyGrouper Kahn Threads.

(** [slice] objects of a chunk key; normalize_slice needs their attributes. *)
Definition slice_of (k : key) : res pslice := match k with KSlice s => Ok s | _ => Err AttrErr end.
(** 72-79 [_unique_everseen] *)
Fixpoint unique_from (seen : list nat) (l : list nat) : list nat :=
  match l with
  | [] => []
  | x :: l' => if existsb (Nat.eqb x) seen then unique_from seen l' else x :: unique_from (x :: seen) l'
  end.
Definition unique (l : list nat) : list nat := unique_from [] l.
(** 225-231 [normalize_keys]; [zip] stops at the shorter one *)
Definition normalize_keys (ks : ktuple) (sh : list nat) : ktuple :=
  map (fun p => normalize_slice (fst p) (snd p)) (combine ks sh).
(** 95-99 [_groups_of_size(all_chunks, 2)], None filling the last group *)
Fixpoint pairs {A} (l : list A) : list (A * option A) :=
  match l with
  | [] => []
  | [x] => [(x, None)]
  | x :: y :: l' => (x, Some y) :: pairs l'
  end.

Section Dask.
Context {V : Type} (O : numops V).
Notation cell := (option V).
Notation barr := (@barr V).
Notation entry := (@entry V).
Notation chunk := (list key * nd cell)%type.
Variable maxc : nat.
Variable limit : nat.                  (* key_grouper.py:115, 9999 in the code *)
Variable garbage : list nat -> cell.
Variable rz : barr -> res (nd cell).   (* ndarray() / masked_array() of one chunk *)
Variable m : bool.

(** The tasks of a graph; a task is known by its position (the code makes its
    names unique with uuid4), which it may mention as a dependency.
    - [TLeaf keys b]: (biggus_chunk, chunk_key, array[chunk_key], masked), 343
    - [TProc keys sub deps]: (produce_chunks, t_keys, ids...), 276
    - [TGather sh deps]: (gather, ids...), 384 *)
Inductive dtask :=
| TLeaf (keys : list key) (b : barr)
| TProc (keys : list key) (sub : barr) (deps : list nat)
| TGather (sh : list nat) (deps : list nat).
Definition deps_of (t : dtask) : list nat :=
  match t with TLeaf _ _ => [] | TProc _ _ d | TGather _ d => d end.

(** The nodes of one array: for each of its chunks the id of its task and the
    task's keys ([task[1]]). *)
Definition dnodes := list (nat * list key).
(** The graph so far and the node cache, one place per array object (the name of
    an array, lines 85-91, holds [id(array)]). *)
Definition dstate := (list dtask * list (option dnodes))%type.

(** 325-349: the tasks of an array without streams handler *)
Definition leaf_nodes (a : barr) (order : list nat) (st : dstate) : res (dnodes * dstate) :=
  foldM (fun acc k => b <- getitem a k ;;
                      Ok (fst acc ++ [(length (fst (snd acc)), k)],
                          (fst (snd acc) ++ [TLeaf k b], snd (snd acc))))
        ([], st) (chunk_index_gen maxc (shape a) (rev order)).

(** 174-186 [input_keys_transform] with the array's own handler *)
Definition out_keys (e : entry) (k : list key) : list key :=
  match e with EAgg _ _ axis _ => remove_at axis k | _ => k end.
(** 3038-3049: [streams_handler] raises TypeError without a masked equivalent *)
Definition has_handler (e : entry) : res unit :=
  match e with
  | EEl1 o _ _ => _ <- op1_fun m o ;; Ok tt
  | EEl2 o _ _ _ => _ <- op2_fun m o ;; Ok tt
  | _ => Ok tt
  end.
(** 202-209: the keys of a source's chunks as seen by this array, with their ids *)
Definition source_keys (e : entry) (ns : dnodes) : res (list (ktuple * nat)) :=
  mapM (fun n => t <- mapM slice_of (out_keys e (snd n)) ;; Ok (t, fst n)) ns.
(** 223-250: the dependencies of a group on one source.  Chunks that do not have
    the keys of the group need to be combined, which raises AttributeError (the
    code calls [uuid.uuid()]). *)
Definition group_deps (a : barr) (tk : ktuple) (p : list ktuple * list (ktuple * nat)) : res (list nat) :=
  let deps := unique (flat_map (fun ks => map snd (filter (fun x => ktuple_eqb ks (fst x)) (snd p))) (fst p)) in
  if forallb (fun ks => ktuple_eqb tk (normalize_keys ks (shape a))) (fst p) then Ok deps
  else _ <- getitem a (map KSlice tk) ;; Err AttrErr.
(** 213-283: one task per group *)
Definition group_nodes (a : barr) (srcs : list (list (ktuple * nat))) (gs : list kgroup) (st : dstate)
  : res (dnodes * dstate) :=
  foldM (fun acc g =>
           deps <- mapM (group_deps a (fst g)) (combine (snd g) srcs) ;;
           sub <- getitem a (map KSlice (fst g)) ;;
           Ok (fst acc ++ [(length (fst (snd acc)), map KSlice (fst g))],
               (fst (snd acc) ++ [TProc (map KSlice (fst g)) sub (concat deps)], snd (snd acc))))
        ([], st) gs.

(** 310-351 [_make_nodes] and 160-284 [_make_stream_handler_nodes] *)
Fixpoint make_nodes (fuel : nat) (dag : list entry) (i : nat) (order : list nat) (st : dstate)
  : res (dnodes * dstate) :=
  match fuel with
  | 0 => Err OutOfFuel
  | S f =>
      match nth i (snd st) None with
      | Some ns => Ok (ns, st)
      | None =>
          let a := expr O dag i in
          match nth_error dag i with
          | None => Err IndexError
          | Some (EArr _) =>
              r <- leaf_nodes a order st ;;
              Ok (fst r, (fst (snd r), set_nth i (Some (fst r)) (snd (snd r))))
          | Some e =>
              _ <- has_handler e ;;
              rs <- foldM (fun acc s => r <- make_nodes f dag s (src_order e order) (snd acc) ;;
                                        ks <- source_keys e (fst r) ;;
                                        Ok (fst acc ++ [ks], snd r))
                          ([], st) (entry_srcs e) ;;
              gs <- group_keys limit (shape a) (map (map fst) (fst rs)) ;;
              r <- group_nodes a (fst rs) gs (snd rs) ;;
              Ok (fst r, (fst (snd r), set_nth i (Some (fst r)) (snd (snd r))))
          end
      end
  end.

(** 375-388 [dask]: the nodes of every requested array and one gathering task per
    array object, with the ids of the results (403-425). *)
Fixpoint make_roots (dag : list entry) (roots : list nat) (gathers : list (nat * nat)) (st : dstate)
  : res (list nat * dstate) :=
  match roots with
  | [] => Ok ([], st)
  | r :: rs =>
      let a := expr O dag r in
      ns <- make_nodes (S r) dag r (seq 0 (ndim a)) st ;;
      let st1 := snd ns in
      match dict_find r gathers with
      | Some id => x <- make_roots dag rs gathers st1 ;; Ok (id :: fst x, snd x)
      | None =>
          let id := length (fst st1) in
          x <- make_roots dag rs ((r, id) :: gathers)
                          (fst st1 ++ [TGather (shape a) (map fst (fst ns))], snd st1) ;;
          Ok (id :: fst x, snd x)
      end
  end.
Definition dask_graph (dag : list entry) (roots : list nat) : res (list nat * list dtask) :=
  x <- make_roots dag roots [] ([], repeat None (length dag)) ;; Ok (fst x, fst (snd x)).

(** ** Running the tasks *)
Inductive dval := VChunk (c : chunk) | VArr (d : nd cell).
Definition as_chunk (v : dval) : res chunk := match v with VChunk c => Ok c | VArr _ => Err TypeError end.
Definition last_of {A} (l : list A) : res A := match rev l with [] => Err RuntimeErr | x :: _ => Ok x end.
(** 141-158 [produce_chunks] with the handler of [sub]; [process_chunks] of the
    aggregation is 2275-2293, of elementwise operations 2929-2933 *)
Definition produce_chunks (sub : barr) (cs : list chunk) : res chunk :=
  match sub with
  | AAgg g c axis _ =>
      let h := handler_of O m g in
      let n := nth axis (shape c) 0 in
      r <- agg_run h axis n None None cs ;;
      match fst r with
      | Some (k, st) => Ok (agg_finalise h n k st)
      | None => Err AttrErr
      end
  | AEl1 o _ _ => f <- op1_fun m o ;; last_of (map (fun x => (fst x, nd_map f (snd x))) cs)
  | AEl2 o _ _ _ =>
      f <- op2_fun m o ;;
      l <- mapM (fun xy => match snd xy with
                           | Some y => d <- np_op2 f (snd (fst xy)) (snd y) ;; Ok (fst (fst xy), d)
                           | None => Err AttrErr
                           end) (pairs cs) ;;
      last_of l
  | _ => Err Unmodelled
  end.
(** 286-308 [lazy_chunk_creator], [produce_chunks], 353-373 [collect] *)
Definition run_task (t : dtask) (vs : list dval) : res dval :=
  match t with
  | TLeaf k b => d <- rz b ;; Ok (VChunk (k, d))
  | TProc _ sub _ => cs <- mapM as_chunk vs ;; c <- produce_chunks sub cs ;; Ok (VChunk c)
  | TGather sh _ => cs <- mapM as_chunk vs ;; d <- np_setitems (mkND sh garbage) cs ;; Ok (VArr d)
  end.

(** Which tasks have run, with their values. *)
Definition dmem := list (option dval).
Fixpoint all_some {A} (l : list (option A)) : option (list A) :=
  match l with
  | [] => Some []
  | Some x :: l' => match all_some l' with Some r => Some (x :: r) | None => None end
  | None :: _ => None
  end.
(** The values a task needs, when they are all there. *)
Definition inputs (s : dmem) (t : dtask) : option (list dval) := all_some (map (fun d => nth d s None) (deps_of t)).
(** Task [i] can run now and gives [r]. *)
Definition ready (g : list dtask) (s : dmem) (i : nat) (r : res dval) : Prop :=
  exists t vs, nth_error g i = Some t /\ nth i s None = None /\ inputs s t = Some vs /\ run_task t vs = r.
(** The memories a dask getter can reach: any task whose dependencies are there may
    be next (425 [dask_getter]). *)
Inductive dask_runs (g : list dtask) : dmem -> Prop :=
| runs_start : dask_runs g (repeat None (length g))
| runs_step s i v : dask_runs g s -> ready g s i (Ok v) -> dask_runs g (set_nth i (Some v) s).
End Dask.
Arguments dtask : clear implicits.
Arguments dval : clear implicits.
