(** FootSpec: what the threads and queues of an evaluation hold at one moment. *)
From Verif Require Import Base NDArray Keys Arrays Realise Kahn Threads ThreadSpec Compose ChunkLemmas.

Section FootSpec.
Context {V : Type}.
Notation chunk := (list key * nd (option V))%type.
Notation state := (gstate (msg chunk) (loc chunk)).

(** The number of elements of a chunk. *)
Definition size (c : chunk) : nat := prodn (nshape (snd c)).

(** The chunks among some messages. *)
Definition chunks (ms : list (msg chunk)) : list chunk := flat_map chunk_of ms.

(** The chunks a thread refers to through its local variables (175-204, 253-278): a
    producer, the chunk it computed last; any thread, the chunk it is putting on
    its queues; a consumer, the chunks it has just taken from its queues and, until
    it has taken one from each, those of the round before. *)
Fixpoint held (n : node chunk) (l : loc chunk) : list chunk :=
  match l with
  | LProd rest =>
      match n with
      | NProd items _ => match last (firstn (length items - length rest) items) (Err EvalError) with Ok c => [c] | Err _ => [] end
      | NCons _ _ _ _ => []
      end
  | LGet hist got => last hist [] ++ chunks got
  | LPut m _ k => chunk_of m ++ held n k
  | LHalt _ _ got => chunks got
  end.

(** The chunks a consumer has processed so far, one list per round. *)
Fixpoint taken (l : loc chunk) : list (list chunk) :=
  match l with LProd _ => [] | LGet hist _ | LHalt _ hist _ => hist | LPut _ _ k => taken k end.

(** All chunks in memory: those in the queues and those the threads refer to. *)
Definition in_flight (net : list (node chunk)) (s : state) : list chunk :=
  flat_map chunks (snd s) ++ flat_map (fun nl => held (fst nl) (snd nl)) (combine net (fst s)).

(** The elements of a chunk an array is asked for have the shape asked for: [a] may
    fail on a block, but does not answer with another shape. *)
Definition honest (rz : @barr V -> res (nd (option V))) (a : @barr V) : Prop :=
  forall ks b d, block ks (shape a) -> getitem a ks = Ok b -> rz b = Ok d ->
    nshape d = map (fun kn => length (kpos (fst kn) (snd kn))) (combine ks (shape a)).

(** The arrays of an expression: every source is honest and has no dimension of
    length zero, the operands of a binary operation have one shape (biggus
    broadcasts them before), axes exist. *)
Definition sized (O : numops V) (rz : @barr V -> res (nd (option V))) (dag : list (@entry V)) : Prop :=
  forall i e, nth_error dag i = Some e ->
    match e with
    | EArr a => Forall (fun n => 1 <= n) (shape a) /\ honest rz a
    | EAgg _ s axis _ => axis < ndim (expr O dag s)
    | EEl1 _ _ _ => True
    | EEl2 _ s1 s2 _ => shape (expr O dag s1) = shape (expr O dag s2)
    end.
End FootSpec.
