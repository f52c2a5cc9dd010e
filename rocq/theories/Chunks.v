(** Chunks: division of an index space into chunks. *)
From Verif Require Import Base PySlice Keys NDArray.

(** [slice(a, b)] *)
Definition sl (a b : nat) : key := KSlice (mkS (Some (Z.of_nat a)) (Some (Z.of_nat b)) None).

(** biggus/_init.py:2139-2155: the slices of one dimension of length [size] when
    one item of it holds [n_elems] elements. *)
Definition dim_slices (maxc : nat) (always : bool) (n_elems size : nat) : list key :=
  if size * n_elems <=? maxc then [KFull]
  else if maxc <? n_elems then
    (if always then map (fun i => sl i (i + 1)) (seq 0 size)
     else map (fun i => KInt (Z.of_nat i)) (seq 0 size))
  else
    let step := maxc / n_elems in
    map (fun i => sl (i * step) (Nat.min (i * step + step) size))
        (seq 0 ((size + step - 1) / step)).

(** biggus/_init.py:2120-2159 [_all_slices_inner], walking from the last
    dimension; also returns the running element count.  [maxc] is
    MAX_CHUNK_SIZE (line 2113), a parameter. *)
Fixpoint all_slices_aux (maxc : nat) (always : bool) (sh : list nat)
  : list (list key) * nat :=
  match sh with
  | [] => ([], 1)
  | n :: sh' => let '(r, ne) := all_slices_aux maxc always sh' in
                (dim_slices maxc always ne n :: r, ne * n)
  end.
Definition all_slices (maxc : nat) (always : bool) (sh : list nat) : list (list key) :=
  fst (all_slices_aux maxc always sh).

(** [tuple(cuts[i] for cuts, i in zip(all_cuts, cut_indices))] *)
Fixpoint pick {A} (d : A) (cuts : list (list A)) (idx : list nat) : list A :=
  match cuts, idx with
  | c :: cuts', i :: idx' => nth i c d :: pick d cuts' idx'
  | _, _ => []
  end.

(** biggus/_init.py:154-173 [ProducerNode.chunk_index_gen] *)
Definition inverse_order (order : list nat) : list nat :=
  map (fun i => match index_of i order with Some p => p | None => 0 end)
      (seq 0 (length order)).
Definition gen_keys (cuts : list (list key)) (order : list nat) : list (list key) :=
  let ordered := map (fun i => nth i cuts []) order in
  map (fun ci => let key := pick KBad ordered ci in
                 map (fun i => nth i key KBad) (inverse_order order))
      (ndindex (map (@length key) ordered)).
Definition chunk_index_gen (maxc : nat) (sh order : list nat) : list (list key) :=
  gen_keys (all_slices maxc true sh) order.

(** biggus/_init.py:2192-2194: the keys visited by [save], in order. *)
Definition save_keys (maxc : nat) (sh : list nat) : list (list key) :=
  let cuts := all_slices maxc false sh in
  map (pick KBad cuts) (ndindex (map (@length key) cuts)).
