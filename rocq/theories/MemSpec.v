(** MemSpec: what the claims about memory (PropMemory.v) say. *)
From Verif Require Import Base PySlice Keys NDArray Arrays Chunks Handlers Realise Memory.

Section MemSpec.
Context {V : Type} (O : numops V).
Notation cell := (option V).
Notation barr := (@barr V).
Notation heap := (@heap V).
Variable place : @concrete V -> nat.
Variable copies : bool -> @concrete V -> bool.

(** The sources an array is made from. *)
Fixpoint sources (a : barr) : list (@concrete V) :=
  match a with
  | AConst _ _ _ => []
  | AAdapt _ c _ => [c]
  | ANewAx a _ | ABcast a _ _ | AAsTy a _ | AMaskV a _ | ATrans a _ | AAgg _ a _ _ | AEl1 _ a _ => sources a
  | AStack _ l | AMosaic l _ => flat_map sources l
  | AEl2 _ a b _ => sources a ++ sources b
  end.
(** The memory of a source holds its values; sources whose [ndarray()] is not a
    copy have no masked cells. *)
Definition in_memory (H : heap) (c : @concrete V) : Prop :=
  place c < length H /\ (forall i, look H (place c) i = MV (c_cell c i)) /\ (copies false c = false -> forall i, c_cell c i <> None).
Definition sources_in (H : heap) (a : barr) : Prop := forall c, In c (sources a) -> in_memory H c.

(** An array in memory; what it reads; the memory after writing to it. *)
Definition exists_in (H : heap) (v : view) : Prop := vloc v < length H.
Definition same_values (d e : nd cell) : Prop := nshape d = nshape e /\ forall i, nget d i = nget e i.
(** [H2] comes from [H1] by writing to the array [v] only. *)
Definition written (v : view) (H1 H2 : heap) : Prop :=
  length H2 = length H1 /\ forall l, l <> vloc v -> look H2 l = look H1 l.

(** The source in whose memory the result of [ndarray()] ([m = false]) or
    [masked_array()] is, if any. *)
Fixpoint shared (m : bool) (a : barr) : option (@concrete V) :=
  match a with
  | AAdapt _ c ks =>
      if forallb is_basic ks && negb (copies m c) && (count_if is_scalar ks <? length (c_shape c)) then Some c else None
  | ANewAx a _ | ABcast a _ _ | ATrans a _ => shared m a
  | AMaskV a _ => if m then None else shared m a
  | _ => None
  end.

(** What a program does with arrays: [ndarray()]/[masked_array()],
    [ndarrays()]/[masked_arrays()], [save] into the array at a location, and writing
    to (the array at) a location itself. *)
Inductive act :=
| Realise (m : bool) (a : barr)
| RealiseAll (m : bool) (l : list barr)
| Save (m : bool) (a : barr) (t : nat) (sh : list nat)
| Write (t : nat) (b : @buffer V).
Definition used (x : act) : list barr :=
  match x with Realise _ a => [a] | RealiseAll _ l => l | Save _ a _ _ => [a] | Write _ _ => [] end.
Definition target (x : act) : option nat := match x with Save _ _ t _ => Some t | Write t _ => Some t | _ => None end.
(** The memory after an action, whether or not it raised. *)
Definition after (garbage : list nat -> cell) (maxc fuel : nat) (H : heap) (x : act) : heap :=
  match x with
  | Realise m a => snd (mrealise O garbage place copies maxc fuel m a H)
  | RealiseAll m l => snd (marrays O garbage place copies maxc fuel m l H)
  | Save m a t sh => snd (msave O garbage place copies maxc fuel m a t sh H)
  | Write t b => set_nth t b H
  end.
End MemSpec.
