(** KeyGrouper: model of /repo/biggus/experimental/key_grouper.py. *)
From Verif Require Import Base PySlice.

(** key_grouper.py:19-34 [normalize_slice]; [x or 0] is 0 for None and 0.
    Simplified: [dim_length] is never None. *)
Definition normalize_slice (s : pslice) (n : nat) : pslice :=
  let n := Z.of_nat n in
  let start := match s_start s with None => 0%Z | Some v => v end in
  let stop := match s_stop s with Some v => v | None => n end in
  let step := match s_step s with Some v => if (v =? 1)%Z then None else Some v | None => None end in
  let stop := if (stop <? 0)%Z then (n + stop)%Z else stop in
  let start := if (start <? 0)%Z then (n + start)%Z else start in
  mkS (if (start =? 0)%Z then None else Some start)
      (if (stop =? n)%Z then None else Some stop) step.

(** 48-50 [sort_slice]: the sort key (start or 0, stop or dim_length if None) *)
Definition sort_key (n : nat) (s : pslice) : Z * Z :=
  (match s_start s with None => 0%Z | Some v => v end,
   match s_stop s with Some v => v | None => Z.of_nat n end).
Definition key_leb (a b : Z * Z) : bool :=
  (fst a <? fst b)%Z || ((fst a =? fst b)%Z && (snd a <=? snd b)%Z).

(** 52-53 [sorted(keys, key=sort_slice)]: a stable sort *)
Fixpoint insert_by (n : nat) (s : pslice) (l : list pslice) : list pslice :=
  match l with
  | [] => [s]
  | t :: l' => if key_leb (sort_key n s) (sort_key n t) then s :: l else t :: insert_by n s l'
  end.
Definition sort_by (n : nat) (l : list pslice) : list pslice := fold_right (insert_by n) [] l.

(** 55-56 [all_equal]: every item equals the first *)
Definition all_equal (l : list Z) : bool :=
  match l with [] => true | x :: _ => forallb (fun y => (x =? y)%Z) l end.

(** 73 [keys[index].start or 0], 76 [keys[index].stop or dim_length] *)
Definition start0 (s : pslice) : Z := match s_start s with None => 0%Z | Some v => v end.
Definition stopn (n : nat) (s : pslice) : Z :=
  match s_stop s with None => Z.of_nat n | Some v => if (v =? 0)%Z then Z.of_nat n else v end.
(** [keys[index]] for an index that is never negative *)
Definition at_index {A} (f : pslice -> A) (p : list pslice * nat) : res A :=
  match nth_error (fst p) (snd p) with Some k => Ok (f k) | None => Err IndexError end.

(** 86-93: move the index forward while the next stop is the same *)
Fixpoint adjust (fuel n : nat) (keys : list pslice) (stop : Z) (index : nat) : nat :=
  match fuel with
  | 0 => index
  | S f => match nth_error keys (index + 1) with
           | None => index
           | Some k => if negb (stopn n k =? stop)%Z then index else adjust f n keys stop (index + 1)
           end
  end.

(** The key of a group, and the groups dictionary (insertion order, assignment to
    an existing key replaces its value). *)
Definition gkey := (option Z * option Z)%type.
Definition gkey_eqb (a b : gkey) : bool :=
  opt_eqb Z.eqb (fst a) (fst b) && opt_eqb Z.eqb (snd a) (snd b).
Definition groups := list (gkey * list (list pslice)).
Fixpoint put (k : gkey) (v : list (list pslice)) (g : groups) : groups :=
  match g with
  | [] => [(k, v)]
  | (k', v') :: g' => if gkey_eqb k k' then (k', v) :: g' else (k', v') :: put k v g'
  end.

(** [keys[start:stop+1]] *)
Definition cut_out {A} (keys : list A) (start stop : nat) : list A := firstn (stop + 1 - start) (skipn start keys).

(** 71-112: one pass through the body of the while loop.  State: start_index,
    current_index, groups. *)
Definition group_body (n : nat) (dim_keys : list (list pslice))
           (st : list nat * list nat * groups) : res (list nat * list nat * groups) :=
  let '(start_index, current_index, g) := st in
  starts <- mapM (at_index start0) (combine dim_keys start_index) ;;
  if negb (all_equal starts) then Err AssertErr else
  stops <- mapM (at_index (stopn n)) (combine dim_keys current_index) ;;
  if all_equal stops then
    let s0 := hd 0%Z starts in
    let t0 := hd 0%Z stops in
    let cur := map (fun p => adjust (length (fst p)) n (fst p) t0 (snd p)) (combine dim_keys current_index) in
    let key := ((if (s0 =? 0)%Z then None else Some s0), (if (t0 =? Z.of_nat n)%Z then None else Some t0)) in
    let g' := put key (map (fun p => cut_out (fst p) (fst (snd p)) (snd (snd p)))
                           (combine dim_keys (combine start_index cur))) g in
    Ok (map S cur, map S cur, g')
  else
    let m := fold_left Z.min (tl stops) (hd 0%Z stops) in
    Ok (start_index, map (fun p => if (fst p =? m)%Z then S (snd p) else snd p) (combine stops current_index), g).

Definition idx_eqb := list_eqb Nat.eqb.

(** 71-118: the while loop, at most [fuel] passes: the pass after that raises
    RuntimeError at its end, unless its body raises first. *)
Fixpoint group_loop (fuel n : nat) (dim_keys : list (list pslice))
         (st : list nat * list nat * groups) : res groups :=
  if idx_eqb (snd (fst st)) (map (@length pslice) dim_keys) then Ok (snd st) else
  st' <- group_body n dim_keys st ;;
  match fuel with
  | 0 => Err RuntimeErr
  | S f => group_loop f n dim_keys st'
  end.

(** 37-120 [dimension_group_to_lowest_common]; the limit is 9999 in the code
    (line 115). *)
Definition dimension_group (limit n : nat) (dim_keys : list (list pslice)) : res groups :=
  let keys := map (fun ks => sort_by n (map (fun k => normalize_slice k n) ks)) dim_keys in
  let zeros := repeat 0 (length dim_keys) in
  group_loop limit n keys (zeros, zeros, []).
Definition code_limit : nat := Z.to_nat 9999.

(** ** Tuples of slices: 123-182 [group_keys] *)
Definition ktuple := list pslice.
Definition ktuple_eqb : ktuple -> ktuple -> bool := list_eqb slice_eqb.
(** One entry of [grouped_inputs_keys]: the key of the group, and for each input
    the tuples in it.  Simplified: the key holds slices, so that a subgroup
    (None, None) is the same as the initial (None, None, None). *)
Definition kgroup := (ktuple * list (list ktuple))%type.
(** [keys[dim]] *)
Definition at_dim (d : nat) (ks : ktuple) : res pslice :=
  match nth_error ks d with Some s => Ok s | None => Err IndexError end.
(** 170-171 [norm_key in subgroup_input_key] *)
Definition in_subgroup (n d : nat) (sub : list pslice) (ks : ktuple) : bool :=
  existsb (slice_eqb (normalize_slice (nth d ks full_slice) n)) sub.
(** 158-177: the subgroups in order; the tuples of each are taken out of the lists
    of the group.  Simplified: taking out, for every tuple found, the first equal
    one leaves the others, in order. *)
Fixpoint split_group (n d : nat) (gk : ktuple) (inputs : list (list ktuple)) (subs : groups) : list kgroup :=
  match subs with
  | [] => []
  | (ab, sub) :: subs' =>
      let per_input := combine inputs sub in
      (set_nth d (mkS (fst ab) (snd ab) None) gk,
       map (fun p => filter (in_subgroup n d (snd p)) (fst p)) per_input)
      :: split_group n d gk (map (fun p => filter (fun ks => negb (in_subgroup n d (snd p) ks)) (fst p)) per_input) subs'
  end.
(** The dictionary: assignment and [pop] *)
Fixpoint kput (k : ktuple) (v : list (list ktuple)) (g : list kgroup) : list kgroup :=
  match g with
  | [] => [(k, v)]
  | (k', v') :: g' => if ktuple_eqb k k' then (k', v) :: g' else (k', v') :: kput k v g'
  end.
Definition kpop (k : ktuple) (g : list kgroup) : list kgroup := filter (fun e => negb (ktuple_eqb k (fst e))) g.
(** 145-180: one dimension, over a copy of the groups *)
Definition group_dim (limit d n : nat) (gs : list kgroup) : res (list kgroup) :=
  foldM (fun acc g =>
           dk <- mapM (mapM (at_dim d)) (snd g) ;;
           subs <- dimension_group limit n dk ;;
           if length subs =? 1 then Ok acc
           else Ok (fold_left (fun acc e => kput (fst e) (snd e) acc)
                              (split_group n d (fst g) (snd g) subs) (kpop (fst g) acc)))
        gs gs.
(** 139-182 *)
Definition group_keys (limit : nat) (sh : list nat) (inputs : list (list ktuple)) : res (list kgroup) :=
  match inputs with
  | (ks :: _) :: _ =>
      foldM (fun gs dn => group_dim limit (fst dn) (snd dn) gs) [(map (fun _ => full_slice) ks, inputs)]
            (combine (seq 0 (length sh)) sh)
  | _ => Err IndexError
  end.
