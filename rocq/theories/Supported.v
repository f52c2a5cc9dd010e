(** Supported: the key tuples for which indexing is claimed to behave.  Nothing
    here models /repo.  Each exclusion below corresponds to a defect or an
    explicit refusal of the code, shown by a theorem [*_refuted], so the
    positive theorems are as wide as the model allows. *)
From Verif Require Import Base PySlice Keys NDArray Arrays Spec.

Definition is_list (k : key) : bool := match k with KList _ => true | _ => false end.
(** A sequence key (a dimension is kept and addressed by a list). *)
Definition is_seq (k : key) : bool :=
  match k with KTuple _ | KArr _ | KMask _ => true | _ => false end.
Definition drop_new (ks : list key) : list key := filter (fun k => negb (is_new k)) ks.

(** Do the sequence keys and integers form one block? *)
Fixpoint drop_while {A} (p : A -> bool) (l : list A) : list A :=
  match l with [] => [] | x :: l' => if p x then drop_while p l' else l end.
Definition is_point (k : key) : bool := is_scalar k || is_seq k.
Definition one_block (ks : list key) : bool :=
  negb (existsb is_point (drop_while is_point (drop_while (fun k => negb (is_point k)) ks))).

Section Supported.
Context {V : Type}.
Notation barr := (@barr V).

(** The array never turns into a broadcast with leading dimensions. *)
Fixpoint nolead (a : barr) : Prop :=
  match a with
  | ABcast _ _ lead => lead = []
  | AStack _ items => fold_right (fun it P => nolead it /\ P) True items
  | AMosaic tiles _ => fold_right (fun t P => nolead t /\ P) True tiles
  | _ => True
  end.

(** Keys that address the array under new axes; [fl] says which dimensions of
    the result are new axes. *)
Fixpoint nx_ck (ks : list key) (fl : list bool) : list key :=
  match ks with
  | [] => []
  | KNew :: ks' => nx_ck ks' fl
  | k :: ks' => match fl with
                | [] => []
                | true :: fl' => nx_ck ks' fl'
                | false :: fl' => k :: nx_ck ks' fl'
                end
  end.
(** On a new axis: an integer, a slice or a tuple; a key that changes the length
    of the axis must not follow an integer key ([seen]). *)
Fixpoint nx_ok (seen : bool) (ks : list key) (fl : list bool) : Prop :=
  match ks with
  | [] => True
  | KNew :: ks' => nx_ok seen ks' fl
  | k :: ks' =>
      match fl with
      | [] => True
      | true :: fl' =>
          match k with
          | KInt _ => nx_ok true ks' fl'
          | KSlice s => (seen = false \/ (exists p, slice_idx s 1 = Ok [p])) /\ nx_ok seen ks' fl'
          | KTuple _ => seen = false /\ nx_ok seen ks' fl'
          | _ => False
          end
      | false :: fl' => nx_ok (seen || is_scalar k) ks' fl'
      end
  end.

(** Keys for the source of a broadcast: a stretched dimension takes a slice or
    an integer. *)
Fixpoint bc_ok (dict : list (nat * nat)) (ks : list key) (ax : nat) : Prop :=
  match ks with
  | [] => True
  | k :: ks' => match dict_find ax dict, k with
                | None, KArr l => length l <= 1
                | None, KMask l => length l <= 1
                | None, _ => True
                | Some _, (KInt _ | KSlice _) => True
                | Some _, _ => False
                end /\ bc_ok dict ks' (S ax)
  end.
Fixpoint bc_ck (dict : list (nat * nat)) (ks : list key) (ax : nat) : list key :=
  match ks with
  | [] => []
  | k :: ks' => match dict_find ax dict, k with
                | None, _ => k
                | Some _, KInt _ => KInt 0
                | Some _, _ => KFull
                end :: bc_ck dict ks' (S ax)
  end.

(** The selection is not empty. *)
Definition some_sel (ks : list key) (sh : list nat) : Prop :=
  forall s, sel_keys ks sh = Some s -> Forall (fun n => 1 <= n) (sel_shape s).

(** Strictly increasing positions. *)
Fixpoint incb (l : list Z) : bool :=
  match l with
  | x :: ((y :: _) as r) => (x <? y)%Z && incb r
  | _ => true
  end.

(** The keys a mosaic may hand to a tile of length [n] on the mosaic axis: one
    position as a slice of length one, or several positions as an index array,
    strictly increasing when the user's positions are ([inc]). *)
Definition tile_form (inc : bool) (n : nat) (k : key) : Prop :=
  match k with
  | KArr l => 2 <= length l /\ Forall (fun i => 0 <= i < Z.of_nat n)%Z l /\ (inc = true -> incb l = true)
  | KSlice s => exists i, (0 <= i < Z.of_nat n)%Z /\ s = mkS (Some i) (Some (i + 1)%Z) (Some 1%Z)
  | _ => False
  end.

(** [okk a ks]: [ks] (one key per dimension, newaxis keys interspersed) is
    supported by [a]. *)
Fixpoint okk (a : barr) (ks : list key) : Prop :=
  match a with
  | AConst _ _ _ => existsb is_list ks = false
  | AAdapt _ _ src => Forall (fun k => match k with KMask _ => False | _ => True end) src
  | ANewAx c na =>
      let fl := newax_layout true (repeat false (ndim c)) na in
      nx_ok false ks fl /\ okk c (nx_ck ks fl)
  | ABcast c dict lead =>
      let lk := firstn (length lead) (drop_new ks) in
      let ck := skipn (length lead) (drop_new ks) in
      existsb is_list lk = false /\ some_sel lk lead /\ bc_ok dict ck 0 /\ nolead c
      /\ okk c (bc_ck dict ck 0)
  | AAsTy c _ | AMaskV c _ => okk c ks
  | ATrans c axes => okk c (apply_inverse KBad axes (drop_new ks))
  | AStack ssh items =>
      let sk := firstn (length ssh) (drop_new ks) in
      let ik := skipn (length ssh) (drop_new ks) in
      existsb is_list sk = false /\ some_sel sk ssh
      /\ (count_if is_seq sk = 0 \/ count_if is_seq sk = 1 /\ one_block sk = true)
      /\ fold_right (fun it P => okk it ik /\ P) True items
  | AMosaic tiles axis =>
      let rk := drop_new ks in
      let k := nth axis rk KBad in
      let n := fold_right Nat.add 0 (map (fun t => nth axis (shape t) 0) tiles) in
      (forallb key_full_b (skipn axis rk) = true
       /\ fold_right (fun t P => okk t rk /\ P) True tiles)
      \/
      (forallb key_full_b (skipn axis rk) = false /\
       match k with
       | KInt i => (0 <= i)%Z
                   /\ fold_right (fun t P => (forall j, (0 <= j < Z.of_nat (nth axis (shape t) 0%nat))%Z ->
                                               okk t (set_nth axis (KInt j) rk)) /\ P) True tiles
       | KSlice s => (exists l, slice_idx s n = Ok l /\ l <> [])
                     /\ match s_step s with Some st => (0 < st)%Z | None => True end
                     /\ fold_right (fun t P => (forall k',
                                       tile_form true (nth axis (shape t) 0) k' ->
                                       okk t (set_nth axis k' rk)) /\ P) True tiles
       | KTuple l | KArr l | KList l =>
           l <> [] /\ Forall (fun i => 0 <= i)%Z l
           /\ fold_right (fun t P => (forall k', tile_form (incb l) (nth axis (shape t) 0) k' ->
                                       okk t (set_nth axis k' rk)) /\ P) True tiles
       | _ => False
       end)
  | AAgg _ c axis _ => okk c (insert_at axis KFull (drop_new ks))
  | AEl1 _ c _ => okk c (drop_new ks)
  | AEl2 _ c1 c2 _ => okk c1 (drop_new ks) /\ okk c2 (drop_new ks)
  end.

(** Keys as the user writes them. *)
Definition supported (a : barr) (keys : list key) : Prop :=
  forall ks, np_expand keys (ndim a) = Ok ks -> okk a ks.

(** ** Keys for which a returned result is right, though the call may raise *)

(** On a new axis: a key that changes the length does not follow an integer key. *)
Fixpoint nx_safe (seen : bool) (ks : list key) (fl : list bool) : Prop :=
  match ks with
  | [] => True
  | KNew :: ks' => nx_safe seen ks' fl
  | k :: ks' =>
      match fl with
      | [] => True
      | true :: fl' =>
          match k with
          | KInt _ => nx_safe true ks' fl'
          | KSlice s => (seen = false \/ (exists p, slice_idx s 1 = Ok [p])) /\ nx_safe seen ks' fl'
          | KTuple _ => seen = false /\ nx_safe seen ks' fl'
          | _ => True
          end
      | false :: fl' => nx_safe (seen || is_scalar k) ks' fl'
      end
  end.

(** [safe a ks] excludes only: a boolean mask stored in an adapter, the case of
    [nx_safe], a broadcast of something with broadcast leading dimensions, on the
    stack dimensions a single sequence that does not form one block with the
    integers, and on a mosaic axis negative positions and negative steps. *)
Fixpoint safe (a : barr) (ks : list key) : Prop :=
  match a with
  | AConst _ _ _ => True
  | AAdapt _ _ src => Forall (fun k => match k with KMask _ => False | _ => True end) src
  | ANewAx c na =>
      let fl := newax_layout true (repeat false (ndim c)) na in
      nx_safe false ks fl /\ safe c (nx_ck ks fl)
  | ABcast c dict lead => nolead c /\ safe c (bc_ck dict (skipn (length lead) (drop_new ks)) 0)
  | AAsTy c _ | AMaskV c _ => safe c ks
  | ATrans c axes => safe c (apply_inverse KBad axes (drop_new ks))
  | AStack ssh items =>
      let sk := firstn (length ssh) (drop_new ks) in
      let ik := skipn (length ssh) (drop_new ks) in
      (count_if is_seq sk = 1 -> one_block sk = true)
      /\ fold_right (fun it P => safe it ik /\ P) True items
  | AMosaic tiles axis =>
      let rk := drop_new ks in
      (forallb key_full_b (skipn axis rk) = true
       /\ fold_right (fun t P => safe t rk /\ P) True tiles)
      \/
      (forallb key_full_b (skipn axis rk) = false /\
       match nth axis rk KBad with
       | KInt i => (0 <= i)%Z
                   /\ fold_right (fun t P => (forall j, (0 <= j < Z.of_nat (nth axis (shape t) 0%nat))%Z ->
                                               safe t (set_nth axis (KInt j) rk)) /\ P) True tiles
       | KSlice s => match s_step s with Some st => (0 <= st)%Z | None => True end
                     /\ fold_right (fun t P => (forall k', tile_form true (nth axis (shape t) 0) k' ->
                                       safe t (set_nth axis k' rk)) /\ P) True tiles
       | KTuple l | KArr l | KList l =>
           Forall (fun i => 0 <= i)%Z l
           /\ fold_right (fun t P => (forall k', tile_form (incb l) (nth axis (shape t) 0) k' ->
                                       safe t (set_nth axis k' rk)) /\ P) True tiles
       | _ => True
       end)
  | AAgg _ c axis _ => safe c (insert_at axis KFull (drop_new ks))
  | AEl1 _ c _ => safe c (drop_new ks)
  | AEl2 _ c1 c2 _ => safe c1 (drop_new ks) /\ safe c2 (drop_new ks)
  end.
(** Keys as the user writes them. *)
Definition safe_keys (a : barr) (keys : list key) : Prop :=
  forall ks, np_expand keys (ndim a) = Ok ks -> safe a ks.

End Supported.
