(** ReadSpec: which elements of its sources an array consists of, and which blocks
    the threads of an evaluation have asked a source for.  Nothing here models
    /repo, except [asked], which reads the state of Threads.v. *)
From Verif Require Import Base PySlice Keys NDArray Arrays Spec Supported Kahn Threads Reads.

Section Spec.
Context {V : Type}.
Notation cell := (option V).
Notation barr := (@barr V).

(** The elements of the wrapped arrays that [a] consists of. *)
Fixpoint parts (a : barr) : list cell :=
  match a with
  | AAdapt _ c ks => elements (oindex (mkND (c_shape c) (c_cell c)) ks)
  | ANewAx c _ | ABcast c _ _ | AAsTy c _ | AMaskV c _ | ATrans c _ => parts c
  | AStack _ items => flat_map parts items
  | AMosaic tiles _ => flat_map parts tiles
  | _ => []
  end.

(** Arrays put together from adapters without zero-length dimensions by adding
    axes, transposing, changing dtype, masking, stacking and concatenating; [n]
    counts the mosaics above, [ints] tells whether blocks are asked for with integers
    among the keys, as [save] does.  NumpyArrayAdapters must be as constructed (not
    indexed before), and below at most one mosaic ([ints]: below none, or of at
    most two dimensions); an OrthoArrayAdapter may have any keys. *)
Fixpoint layout (ints : bool) (n : nat) (a : barr) : Prop :=
  match a with
  | AAdapt o c ks =>
      Forall (fun d => 1 <= d) (shape a) /\ Forall (fun k => match k with KMask _ => False | _ => True end) ks
      /\ (o = true \/ (ks = [] /\ n <= 1 /\ (ints = false \/ n = 0 \/ length (c_shape c) <= 2)))
  | ANewAx c _ | AAsTy c _ | AMaskV c _ | ATrans c _ => layout ints n c
  | AStack ssh items => (n = 0 \/ length ssh <= 1) /\ fold_right (fun it P => layout ints n it /\ P) True items
  | AMosaic tiles axis => fold_right (fun t P => layout ints (S n) t /\ P) True tiles
  | _ => False
  end.

(** What all blocks [ks] of [a] together take from the sources. *)
Definition taken_by (a : barr) (ks : list (list key)) : res (list cell) :=
  ls <- mapM (fun k => b <- getitem a k ;; reads b) ks ;; Ok (concat ls).

Notation chunk := (list key * nd cell)%type.
(** The blocks a source thread has computed so far: chunks carry their key. *)
Fixpoint done_keys (items : list (res chunk)) : list (list key) :=
  match items with Ok c :: r => fst c :: done_keys r | _ => [] end.
Fixpoint asked (n : node chunk) (l : loc chunk) : list (list key) :=
  match n with
  | NCons _ _ _ _ => []
  | NProd items _ =>
      match l with
      | LProd rest => done_keys (firstn (length items - length rest) items)
      | LHalt _ _ _ => done_keys items
      | LPut _ _ k => asked n k
      | LGet _ _ => []
      end
  end.

(** The arrays of an expression fit: axes exist, the operands of a binary operation
    have one shape. *)
Definition typed (O : numops V) (dag : list (@entry V)) : Prop :=
  forall i e, nth_error dag i = Some e ->
    match e with
    | EAgg _ s axis _ => axis < ndim (expr O dag s)
    | EEl2 _ s1 s2 _ => shape (expr O dag s1) = shape (expr O dag s2)
    | _ => True
    end.
End Spec.
