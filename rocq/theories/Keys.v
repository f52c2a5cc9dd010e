(** Keys: indexing keys, [_full_keys] and [_sliced_shape]. *)
From Verif Require Import Base PySlice.

(** The kinds of key the code distinguishes (/repo/biggus/_init.py:49-50,
    814-835, 1355-1379, 3215-3229):
    - [KInt]: Python/NumPy integer ([_is_scalar])
    - [KSlice]: slice
    - [KTuple]: tuple of integers, [KArr]: 1-D integer ndarray, [KList]: list of
      integers (or other iterable that is neither tuple nor ndarray)
    - [KMask]: 1-D boolean ndarray
    - [KNew]: numpy.newaxis, [KEll]: Ellipsis, [KBad]: anything else, e.g. a string.
    Simplified: index arrays of rank other than 1 are not modelled. *)
Inductive key :=
| KInt (i : Z) | KSlice (s : pslice) | KTuple (l : list Z) | KArr (l : list Z)
| KList (l : list Z) | KMask (l : list bool) | KNew | KEll | KBad.

(** [slice(None)] as a key *)
Definition KFull : key := KSlice full_slice.

(** biggus/_init.py:49-50 [_is_scalar] *)
Definition is_scalar (k : key) : bool := match k with KInt _ => true | _ => false end.
(** [key is np.newaxis] *)
Definition is_new (k : key) : bool := match k with KNew => true | _ => false end.
(** [key is Ellipsis] *)
Definition is_ell (k : key) : bool := match k with KEll => true | _ => false end.

Definition count_if {A} (p : A -> bool) (l : list A) : nat := length (filter p l).

(** biggus/_init.py:3250-3258: [keys.pop(is_ellipsis.index(True))] *)
Fixpoint pop_first_ell (l : list key) : list key :=
  match l with
  | [] => []
  | k :: l' => if is_ell k then l' else k :: pop_first_ell l'
  end.

(** biggus/_init.py:3266-3281: the while loop that takes keys from the left and,
    after an Ellipsis, from the right (and back after another one). [rh] holds
    the last key first, as in the code.  Fuel = number of keys. *)
Fixpoint fk_loop (fuel : nat) (keys lh rh : list key) (from_left : bool)
  : list key * list key :=
  match fuel with
  | O => (lh, rh)
  | S f =>
    if from_left then
      match keys with
      | [] => (lh, rh)
      | k :: ks => if is_ell k then fk_loop f ks (lh ++ [KFull]) rh false
                   else fk_loop f ks (lh ++ [k]) rh true
      end
    else
      match keys with
      | [] => (lh, rh)
      | _ => let k := last keys KBad in
             let ks := removelast keys in
             if is_ell k then fk_loop f ks lh (rh ++ [KFull]) true
             else fk_loop f ks lh (rh ++ [k]) false
      end
  end.

(** biggus/_init.py:3235-3285 [_full_keys]; the argument is already the tuple
    of keys (lines 3245-3246 wrap a single key). *)
Definition full_keys (keys : list key) (ndim : nat) : res (list key) :=
  let n := count_if (fun k => negb (is_new k)) keys in
  let pop := (ndim <=? n - 1) && existsb is_ell keys in
  let keys' := if pop then pop_first_ell keys else keys in
  let n' := if pop then n - 1 else n in
  if ndim <? n' then Err IndexError else
  let '(lh, rh) := fk_loop (length keys') keys' [] [] true in
  Ok (lh ++ repeat KFull (ndim - n') ++ rev rh).

(** biggus/_init.py:3214-3229: the loop of [_sliced_shape]; [sh] is the part of
    the shape from [shape_dim + 1] on. *)
Fixpoint sliced_loop (sh : list nat) (keys : list key) : res (list nat) :=
  match keys with
  | [] => Ok []
  | KNew :: ks => r <- sliced_loop sh ks ;; Ok (1 :: r)
  | k :: ks =>
    match sh with
    | [] => Err IndexError
    | n :: sh' =>
      match k with
      | KInt _ => sliced_loop sh' ks
      | KSlice s => l <- slice_idx s n ;; r <- sliced_loop sh' ks ;; Ok (length l :: r)
      | KMask m => r <- sliced_loop sh' ks ;; Ok (count_if (fun b => b) m :: r)
      | KTuple l | KArr l => r <- sliced_loop sh' ks ;; Ok (length l :: r)
      | _ => Err ValueError
      end
    end
  end.

(** biggus/_init.py:3198-3232 [_sliced_shape] *)
Definition sliced_shape (sh : list nat) (keys : list key) : res (list nat) :=
  ks <- full_keys keys (length sh) ;; sliced_loop sh ks.
