(** Objects: array objects with identity, as far as a program can change them:
    the object arrays behind ArrayStacks (item assignment) and the concrete
    sources of adapters; and the deep copy of an array
    (/repo/biggus/_init.py:1764-1785). *)
From Verif Require Import Base PySlice Keys NDArray Arrays.

Section Objects.
Context {V : Type}.
Notation barr := (@barr V).
Notation concrete := (@concrete V).

(** A reference to an array object: an ArrayStack (the location of the object), an
    adapter (1314-1325: the location of its concrete array, and its keys), or an
    object of another class, which is never changed after construction: what it
    makes of the arrays it holds ([f]: its class and other attributes). *)
Inductive ref :=
| RStk (l : nat)
| RSrc (ortho : bool) (l : nat) (ks : list key)
| RNode (f : list barr -> barr) (parts : list ref).
(** What is stored at a location: an ArrayStack (1719-1762: the shape and the
    location of its object array [_stack]), an object array (its items in C
    order), or a concrete array. *)
Inductive ocell :=
| CStk (ssh : list nat) (il : nat)
| CItems (items : list ref)
| CData (c : concrete).
Definition oheap := list ocell.

(** The array a reference stands for at the moment, if the objects it holds are
    nested to a depth below [n]. *)
Fixpoint content (n : nat) (h : oheap) (r : ref) : option barr :=
  match n with
  | 0 => None
  | S n =>
      let all := fix all (l : list ref) : option (list barr) :=
        match l with
        | [] => Some []
        | r :: l => match content n h r, all l with Some a, Some b => Some (a :: b) | _, _ => None end
        end in
      match r with
      | RStk l => match nth_error h l with
                  | Some (CStk ssh il) => match nth_error h il with
                                          | Some (CItems its) => match all its with Some x => Some (AStack ssh x) | None => None end
                                          | _ => None
                                          end
                  | _ => None
                  end
      | RSrc o l ks => match nth_error h l with Some (CData c) => Some (AAdapt o c ks) | _ => None end
      | RNode f ps => match all ps with Some x => Some (f x) | None => None end
      end
  end.

(** ** copy.deepcopy
    [memo] maps the objects copied so far to their copies. *)
Definition memo := list (nat * nat).
Fixpoint memo_get (l : nat) (mm : memo) : option nat :=
  match mm with [] => None | (k, v) :: mm' => if k =? l then Some v else memo_get l mm' end.
Definition cstate := (oheap * memo)%type.
(** 1774-1775: [[deepcopy(array, memo=memo) for array in self._stack.flat]] *)
Fixpoint copy_all (f : cstate -> ref -> res (cstate * ref)) (st : cstate) (l : list ref) : res (cstate * list ref) :=
  match l with
  | [] => Ok (st, [])
  | r :: l' => q <- f st r ;; q' <- copy_all f (fst q) l' ;; Ok (fst q', snd q :: snd q')
  end.
(** Python's deepcopy returns the copy in [memo] if there is one; for an
    ArrayStack it calls 1764-1785: copies of the items in a new object array,
    which is put in [memo] (1777-1778), then a new ArrayStack with copies of the
    attributes (1782-1785), its [_stack] being the one in [memo].  A concrete
    array is copied with its data; objects of other classes are rebuilt with
    copies of their attributes.  [n] is the depth of recursion that Python allows.
    Simplified: copies of objects that cannot change are not looked up in [memo]. *)
Fixpoint dcopy (n : nat) (st : cstate) (r : ref) : res (cstate * ref) :=
  match n with
  | 0 => Err RuntimeErr
  | S n =>
      match r with
      | RStk l =>
          match memo_get l (snd st) with
          | Some l' => Ok (st, RStk l')
          | None =>
              match nth_error (fst st) l with
              | Some (CStk ssh il) =>
                  match nth_error (fst st) il with
                  | Some (CItems its) =>
                      q <- copy_all (dcopy n) st its ;;
                      let h := fst (fst q) in
                      let il' := length h in
                      let l' := S il' in
                      Ok ((h ++ [CItems (snd q); CStk ssh il'], (l, l') :: (il, il') :: snd (fst q)), RStk l')
                  | _ => Err AttrErr
                  end
              | _ => Err AttrErr
              end
          end
      | RSrc o l ks =>
          match memo_get l (snd st) with
          | Some l' => Ok (st, RSrc o l' ks)
          | None =>
              match nth_error (fst st) l with
              | Some (CData c) => Ok ((fst st ++ [CData c], (l, length (fst st)) :: snd st), RSrc o (length (fst st)) ks)
              | _ => Err AttrErr
              end
          end
      | RNode f ps => q <- copy_all (dcopy n) st ps ;; Ok (fst q, RNode f (snd q))
      end
  end.
Definition deepcopy (n : nat) (h : oheap) (r : ref) : res (oheap * ref) :=
  q <- dcopy n (h, []) r ;; Ok (fst (fst q), snd q).

(** ** What a program can do with arrays
    Its variables are [xs]; an operation that cannot be done changes nothing. *)
Inductive oop :=
| ONode (f : list barr -> barr) (ks : list nat)        (* another array from variables *)
| OSource (ortho : bool) (c : concrete)                (* an adapter of a new concrete array *)
| OStack (ssh : list nat) (ks : list nat)              (* ArrayStack of a list, 1730-1762 *)
| OShare (k : nat)                                     (* ArrayStack of the object array of another one *)
| OSet (k p j : nat)                                   (* variable k [index p] = variable j, 1817-1822 *)
| OPoke (k : nat) (c : concrete).                      (* the concrete array of variable k is changed *)
Fixpoint vars (xs : list ref) (ks : list nat) : option (list ref) :=
  match ks with
  | [] => Some []
  | k :: ks => match nth_error xs k, vars xs ks with Some x, Some l => Some (x :: l) | _, _ => None end
  end.
Definition pstate := (oheap * list ref)%type.
(** [OShare]: np.require (1731) does not copy an object array. *)
Definition orun1 (s : pstate) (o : oop) : pstate :=
  let '(h, xs) := s in
  match o with
  | ONode f ks => match vars xs ks with Some ps => (h, xs ++ [RNode f ps]) | None => s end
  | OSource o c => (h ++ [CData c], xs ++ [RSrc o (length h) []])
  | OStack ssh ks => match vars xs ks with
                     | Some ps => (h ++ [CItems ps; CStk ssh (length h)], xs ++ [RStk (S (length h))])
                     | None => s
                     end
  | OShare k => match nth_error xs k with
                | Some (RStk l) => match nth_error h l with
                                   | Some (CStk ssh il) => (h ++ [CStk ssh il], xs ++ [RStk (length h)])
                                   | _ => s
                                   end
                | _ => s
                end
  | OSet k p j => match nth_error xs k, nth_error xs j with
                  | Some (RStk l), Some y =>
                      match nth_error h l with
                      | Some (CStk ssh il) => match nth_error h il with
                                              | Some (CItems its) => (set_nth il (CItems (set_nth p y its)) h, xs)
                                              | _ => s
                                              end
                      | _ => s
                      end
                  | _, _ => s
                  end
  | OPoke k c => match nth_error xs k with
                 | Some (RSrc _ l _) => match nth_error h l with
                                        | Some (CData _) => (set_nth l (CData c) h, xs)
                                        | _ => s
                                        end
                 | _ => s
                 end
  end.
End Objects.
Arguments ref : clear implicits.
Arguments ocell : clear implicits.
Arguments oheap : clear implicits.
Arguments oop : clear implicits.
