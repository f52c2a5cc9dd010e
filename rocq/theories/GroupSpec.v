(** GroupSpec: what grouping a dimension should give.  Nothing here models /repo. *)
From Verif Require Import Base PySlice.

(** [ps] cuts the positions from [a] up to [n] into consecutive non-empty pieces
    [(start, stop)]; a piece may be listed several times in a row (chunks that
    differ in another dimension). *)
Fixpoint chain (a n : nat) (ps : list (nat * nat)) : Prop :=
  match ps with
  | [] => a = n
  | (x, y) :: ps' => x = a /\ x < y /\ (chain y n ps' \/ (hd_error ps' = Some (x, y) /\ chain a n ps'))
  end.

(** The slice [k] of a dimension of length [n] is the piece from [a] to [b],
    written with or without None, with positive or negative bounds. *)
Definition spans (n : nat) (k : pslice) (p : nat * nat) : Prop :=
  let '(a, b) := p in
  (s_start k = Some (Z.of_nat a) \/ (s_start k = None /\ a = 0)
   \/ (s_start k = Some (Z.of_nat a - Z.of_nat n)%Z /\ a < n))
  /\ (s_stop k = Some (Z.of_nat b) \/ (s_stop k = None /\ b = n)
      \/ (s_stop k = Some (Z.of_nat b - Z.of_nat n)%Z /\ b < n))
  /\ (s_step k = None \/ s_step k = Some 1%Z).

(** How a piece is written in the result: None for the ends of the dimension. *)
Definition low (a : nat) : option Z := if a =? 0 then None else Some (Z.of_nat a).
Definition high (n b : nat) : option Z := if b =? n then None else Some (Z.of_nat b).
Definition piece (n : nat) (p : nat * nat) : pslice := mkS (low (fst p)) (high n (snd p)) None.

(** The cut points common to all inputs, in order, with both ends. *)
Definition common (pss : list (list (nat * nat))) (c : nat) : bool :=
  forallb (fun ps => (c =? 0) || existsb (fun p => c =? snd p) ps) pss.
Definition common_cuts (n : nat) (pss : list (list (nat * nat))) : list nat := filter (common pss) (seq 0 (S n)).

(** The pieces of an input between [x] and [y]. *)
Definition inside (x y : nat) (ps : list (nat * nat)) : list (nat * nat) :=
  filter (fun p => (x <=? fst p) && (snd p <=? y)) ps.

(** One group for each two neighbouring common cut points, with the pieces of
    each input between them. *)
Definition expected (n : nat) (pss : list (list (nat * nat))) : list ((option Z * option Z) * list (list pslice)) :=
  map (fun xy => ((low (fst xy), high n (snd xy)), map (fun ps => map (piece n) (inside (fst xy) (snd xy) ps)) pss))
      (combine (common_cuts n pss) (tl (common_cuts n pss))).

(** The number of pieces of an input that end at [c] (several, when one is listed
    several times). *)
Definition ending (c : nat) (ps : list (nat * nat)) : nat := length (filter (fun p => snd p =? c) ps).
(** The passes grouping needs: one for each cut point common to all inputs; for
    every other, as many as the most repeated piece ending there. *)
Definition passes (n : nat) (pss : list (list (nat * nat))) : nat :=
  list_sum (map (fun c => if common pss c then 1 else list_max (map (ending c) pss)) (seq 1 n)).

(** ** Tuples of slices *)

(** Tuples with one item of each list, the last varying fastest. *)
Fixpoint prodl {A} (D : list (list A)) : list (list A) :=
  match D with [] => [[]] | l :: D' => flat_map (fun x => map (cons x) (prodl D')) l end.

(** [ps] cuts the positions from [a] up to [n] into consecutive non-empty pieces,
    each listed once. *)
Fixpoint consecutive (a n : nat) (ps : list (nat * nat)) : Prop :=
  match ps with
  | [] => a = n
  | (x, y) :: ps' => x = a /\ x < y /\ consecutive y n ps'
  end.

(** The tuple of slices [ks] is the box [t] of an array of shape [sh]. *)
Definition spans_box (sh : list nat) (ks : list pslice) (t : list (nat * nat)) : Prop :=
  length ks = length sh /\ forall d, d < length sh -> spans (nth d sh 0) (nth d ks full_slice) (nth d t (0, 0)).

(** [L] lists, in any order and each any (positive) number of times, the boxes of
    the grid with the pieces [nth d G []] in dimension [d]. *)
Definition grid (sh : list nat) (L : list (list pslice)) (G : list (list (nat * nat))) : Prop :=
  length G = length sh
  /\ (forall d, d < length sh -> nth d sh 0 <> 0 /\ consecutive 0 (nth d sh 0) (nth d G []))
  /\ (forall ks, In ks L -> exists t, In t (prodl G) /\ spans_box sh ks t)
  /\ (forall t, In t (prodl G) -> exists ks, In ks L /\ spans_box sh ks t).

(** The intervals between neighbouring common cut points of dimension [d]. *)
Definition intervals (n : nat) (pss : list (list (nat * nat))) : list (nat * nat) :=
  combine (common_cuts n pss) (tl (common_cuts n pss)).
Definition box_sides (sh : list nat) (Gs : list (list (list (nat * nat)))) (d : nat) : list (nat * nat) :=
  intervals (nth d sh 0) (map (fun G => nth d G []) Gs).

(** First position of a slice, and the position after its last. *)
Definition begin_of (n : nat) (k : pslice) : Z :=
  match s_start k with None => 0%Z | Some v => if (v <? 0)%Z then (Z.of_nat n + v)%Z else v end.
Definition end_of (n : nat) (k : pslice) : Z :=
  match s_stop k with None => Z.of_nat n | Some v => if (v <? 0)%Z then (Z.of_nat n + v)%Z else v end.
Definition lies (n : nat) (xy : nat * nat) (k : pslice) : bool :=
  (Z.of_nat (fst xy) <=? begin_of n k)%Z && (end_of n k <=? Z.of_nat (snd xy))%Z.
(** The box [ks] lies in the box [u]. *)
Definition lies_box (sh : list nat) (u : list (nat * nat)) (ks : list pslice) : bool :=
  forallb (fun d => lies (nth d sh 0) (nth d u (0, 0)) (nth d ks full_slice)) (seq 0 (length u)).

(** One group for each box bounded by neighbouring common cut points, row by row,
    with the tuples of each input that lie in it, as listed. *)
Definition expected_boxes (sh : list nat) (inputs : list (list (list pslice))) (Gs : list (list (list (nat * nat))))
  : list (list pslice * list (list (list pslice))) :=
  map (fun u => (map (fun d => piece (nth d sh 0) (nth d u (0, 0))) (seq 0 (length sh)),
                 map (filter (lies_box sh u)) inputs))
      (prodl (map (box_sides sh Gs) (seq 0 (length sh)))).
