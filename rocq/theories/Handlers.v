(** Handlers: the aggregation streams handlers.  Each handler of the code keeps
    arrays of running values, one per output element, and updates them from a
    chunk along the aggregated axis.  The model keeps the state of one output
    element and updates it with the chunk's values in that element's column, in
    axis order; values the code keeps once for all columns (the length counter
    [k] or [running_count] of unmasked handlers) are kept per element.
    Simplified: exact arithmetic of the parameter [V], no dtype of the
    accumulator (the wrap-around of integer accumulators is the subject of
    Small.int_mean and property C45). *)
From Verif Require Import Base PySlice Keys NDArray Arrays.

(** A handler for one output element: initial state ([bootstrap]), update with
    the values of one chunk ([process_data]), result ([finalise]) given the
    length of the aggregated axis of the source, and whether [process_data]
    raises, given the chunk's length along the axis and whether the output has no
    element. *)
Record handler (V : Type) := mkH {
  hst : Type; hboot : hst; hstep : hst -> list (option V) -> hst;
  hfin : nat -> hst -> option V; hbad : nat -> bool -> bool
}.
Arguments mkH {V}. Arguments hst {V}. Arguments hboot {V}. Arguments hstep {V}.
Arguments hfin {V}. Arguments hbad {V}.

Section Handlers.
Context {V : Type} (O : numops V).
Notation cell := (option V).

(** Value of a cell of an unmasked array (which has no masked cell); also
    [ma.filled(0)]. *)
Definition val0 (c : cell) : V := match c with Some v => v | None => v0 O end.
Definition is_some (c : cell) : bool := match c with Some _ => true | None => false end.
(** The unmasked values, in order. *)
Definition somes (l : list cell) : list V := flat_map (fun c => match c with Some v => [v] | None => [] end) l.

(** np.min / np.max of a non-empty list *)
Definition vmin_list (l : list V) : cell :=
  match l with [] => None | x :: l' => Some (fold_left (vmin O) l' x) end.
Definition vmax_list (l : list V) : cell :=
  match l with [] => None | x :: l' => Some (fold_left (vmax O) l' x) end.

Definition never (n : nat) (no_output : bool) := false.
(** np.min/np.max of a zero-length axis raises unless there is no output element *)
Definition no_ident (n : nat) (no_output : bool) := (n =? 0) && negb no_output.
(** [data[0]] on a zero-length axis *)
Definition no_first (n : nat) (no_output : bool) := n =? 0.

(** 2304-2315 [_CountStreamsHandler] *)
Definition h_count : handler V :=
  mkH nat 0 (fun st l => st + length l) (fun _ st => Some (vofn O st)) never.
(** 2318-2327 [_CountMaskedStreamsHandler] *)
Definition h_count_m : handler V :=
  mkH nat 0 (fun st l => st + length (somes l)) (fun _ st => Some (vofn O st)) never.

(** 2330-2343 [_MinStreamsHandler]: [self.result] is overwritten by each chunk;
    np.min raises on an empty axis. *)
Definition h_min : handler V :=
  mkH cell (Some (v0 O)) (fun _ l => vmin_list (map val0 l)) (fun _ st => st) no_ident.
(** 2346-2359 [_MinMaskedStreamsHandler]; the minimum of an all-masked column is
    masked *)
Definition h_min_m : handler V :=
  mkH cell (Some (v0 O)) (fun _ l => vmin_list (somes l)) (fun _ st => st) no_ident.
(** 2362-2375 [_MaxStreamsHandler] *)
Definition h_max : handler V :=
  mkH cell (Some (v0 O)) (fun _ l => vmax_list (map val0 l)) (fun _ st => st) no_ident.
(** 2378-2391 [_MaxMaskedStreamsHandler] *)
Definition h_max_m : handler V :=
  mkH cell (Some (v0 O)) (fun _ l => vmax_list (somes l)) (fun _ st => st) no_ident.

(** 2394-2408 [_SumStreamsHandler] *)
Definition h_sum : handler V :=
  mkH V (v0 O) (fun st l => vadd O st (vsum O (map val0 l))) (fun _ st => Some st) never.
(** 2411-2429 [_SumMaskedStreamsHandler]: running total and mask.  Simplified:
    the source chunk always carries a full mask array (the [nomask] corner is
    not modelled). *)
Definition h_sum_m : handler V :=
  mkH (V * bool) (v0 O, true)
      (fun st l => (vadd O (fst st) (vsum O (map val0 l)),
                    snd st && forallb (fun c => negb (is_some c)) l))
      (fun _ st => if snd st then None else Some (fst st)) never.

(** 2432-2453 [_MeanStreamsHandler]; divides by the source's axis length. *)
Definition h_mean : handler V :=
  mkH V (v0 O) (fun st l => vadd O st (vsum O (map val0 l)))
      (fun n st => Some (vdiv O st (vofn O n))) never.
(** 2456-2488 [_MeanMaskedStreamsHandler]: counts of unmasked and masked values
    and the total; masked if nothing was counted or if the masked fraction
    exceeds [mdtol] when [mdtol < 1]. *)
Definition h_mean_m (mdtol : V) : handler V :=
  mkH (nat * nat * V) (0, 0, v0 O)
      (fun st l => let '(c, mc, t) := st in
                   (c + length (somes l), mc + (length l - length (somes l)),
                    vadd O t (vsum O (map val0 l))))
      (fun _ st => let '(c, mc, t) := st in
                   if c =? 0 then None
                   else if vltb O mdtol (vofn O 1)
                           && vltb O mdtol (vdiv O (vofn O mc) (vadd O (vofn O mc) (vofn O c)))
                   then None else Some (vdiv O t (vofn O c))) never.

(** 2524-2536: one observation of Welford's update.  State: k, a(k), q(k). *)
Definition welford_step (st : nat * V * V) (x : V) : nat * V * V :=
  let '(k, a, q) := st in
  let k := S k in
  let temp := vdiv O (vsub O x a) (vofn O k) in
  let a := vadd O a temp in
  let temp := vmul O temp temp in
  let temp := vmul O temp (vofn O (k * (k - 1))) in
  (k, a, vadd O q temp).

(** 2517-2536 [_StdStreamsHandler.process_data]: while [k == 1] the chunk's first
    observation (re)starts the running mean. *)
Definition std_step (st : nat * V * V) (l : list cell) : nat * V * V :=
  let '(k, a, q) := st in
  match l with
  | x :: l' => if k =? 1 then fold_left welford_step (map val0 l') (k, val0 x, q)
               else fold_left welford_step (map val0 l) st
  | [] => st
  end.
(** 2499-2515: bootstrap and finalise; the zero-length axis raises at data[0] *)
Definition h_std (ddof : V) : handler V :=
  mkH (nat * V * V) (1, v0 O, v0 O) std_step
      (fun _ st => let '(k, a, q) := st in
                   Some (vsqrt O (vdiv O q (vsub O (vofn O k) ddof)))) no_first.
(** 2598-2602 [_VarStreamsHandler]: the square of the standard deviation *)
Definition sq (c : cell) : cell := match c with Some v => Some (vmul O v v) | None => None end.
Definition h_var (ddof : V) : handler V :=
  mkH (nat * V * V) (1, v0 O, v0 O) std_step
      (fun n st => sq (hfin (h_std ddof) n st)) no_first.

(** 2571-2595 [_StdMaskedStreamsHandler.process_data] for one observation.
    State: running_count, a, q. *)
Definition welford_m_step (st : nat * V * V) (x : cell) : nat * V * V :=
  let '(c, a, q) := st in
  let boot := negb (c =? 0) in
  let have := is_some x in
  let d := val0 x in
  let a := if boot then a else d in
  let c := if have then S c else c in
  if boot && have then
    let temp := vdiv O (vsub O d a) (vofn O c) in
    let a := vadd O a temp in
    let temp := vmul O temp temp in
    let temp := vmul O temp (vmul O (vofn O c) (vsub O (vofn O c) (vofn O 1))) in
    (c, a, vadd O q temp)
  else (c, a, q).
(** 2559-2569: finalise; ma division masks a zero denominator and ma.sqrt masks
    negative arguments *)
Definition h_std_m (ddof : V) : handler V :=
  mkH (nat * V * V) (0, v0 O, v0 O) (fun st l => fold_left welford_m_step l st)
      (fun _ st => let '(c, a, q) := st in
                   if c =? 0 then None else
                   let den := vsub O (vofn O c) ddof in
                   if veqb O den (v0 O) then None else
                   let r := vdiv O q den in
                   if vltb O r (v0 O) then None else Some (vsqrt O r)) never.
(** 2605-2609 [_VarMaskedStreamsHandler] *)
Definition h_var_m (ddof : V) : handler V :=
  mkH (nat * V * V) (0, v0 O, v0 O) (fun st l => fold_left welford_m_step l st)
      (fun n st => sq (hfin (h_std_m ddof) n st)) never.

(** 2670-2676 [_Aggregation.streams_handler] with the classes chosen at
    2720-2723, 2750-2753, 2780-2783, 2811-2813, 2849-2853, 2882-2885, 2914-2916 *)
Definition handler_of (masked : bool) (g : agg) : handler V :=
  match g, masked with
  | GCount, false => h_count | GCount, true => h_count_m
  | GMin, false => h_min | GMin, true => h_min_m
  | GMax, false => h_max | GMax, true => h_max_m
  | GSum, false => h_sum | GSum, true => h_sum_m
  | GMean _, false => h_mean | GMean t, true => h_mean_m t
  | GStd d, false => h_std d | GStd d, true => h_std_m d
  | GVar d, false => h_var d | GVar d, true => h_var_m d
  end.

(** The state of one output element after a sequence of chunks of its column. *)
Definition run_handler (h : handler V) (n : nat) (pieces : list (list cell)) : cell :=
  hfin h n (fold_left (hstep h) pieces (hboot h)).

End Handlers.
