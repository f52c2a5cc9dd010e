(** Text: the texts [str], [repr] and [size] return (biggus/_init.py:469-479,
    694-695, 1632-1633, 3309-3344). *)
From Verif Require Import Base NDArray Arrays Small.
From Coq Require Import String Ascii DecimalString.
Open Scope string_scope.

(** CPython: str(n) of an int; str.join *)
Definition dec (n : nat) : string := NilEmpty.string_of_uint (Nat.to_uint n).
Definition decz (z : Z) : string := if (z <? 0)%Z then "-" ++ dec (Z.to_nat (- z)) else dec (Z.to_nat z).
Fixpoint join (sep : string) (l : list string) : string :=
  match l with
  | [] => ""
  | [x] => x
  | x :: l' => x ++ sep ++ join sep l'
  end.
(** CPython: '{:.02f}'.format(n / 2**k): the hundredth nearest to the quotient, the
    even one of two equally near.  SIMPLIFICATION: the quotient is first rounded to
    a double, which is exact below 2^53; from there on it is not represented. *)
Definition hundredths (n b : Z) : Z :=
  let q := (100 * n / b)%Z in let r := (100 * n mod b)%Z in
  if (2 * r <? b)%Z then q else if (b <? 2 * r)%Z then (q + 1)%Z else if Z.even q then q else (q + 1)%Z.
Definition fixed2 (h : Z) : string :=
  decz (h / 100) ++ "." ++ decz (h / 10 mod 10) ++ decz (h mod 10).
(** 3331-3344 [size] *)
Definition size_text (nbytes : Z) : string :=
  if (nbytes <? Z.shiftl 1 10)%Z then decz nbytes ++ " B"
  else if (nbytes <? Z.shiftl 1 20)%Z then fixed2 (hundredths nbytes (Z.shiftl 1 10)) ++ " KiB"
  else if (nbytes <? Z.shiftl 1 30)%Z then fixed2 (hundredths nbytes (Z.shiftl 1 20)) ++ " MiB"
  else if (nbytes <? Z.shiftl 1 40)%Z then fixed2 (hundredths nbytes (Z.shiftl 1 30)) ++ " GiB"
  else fixed2 (hundredths nbytes (Z.shiftl 1 40)) ++ " TiB".

Section Text.
Context {V : Type}.
Variable dtype_text : nat -> string.        (* repr of a NumPy dtype *)
Variable itemsize : nat -> Z.
Variable axes_text : list nat -> string.    (* repr of the axes: a list, tuple or index array *)
Implicit Types a : @barr V.

(** 471, 478: ', '.join(str(items) for items in self.shape) *)
Definition shape_text (sh : list nat) : string := join ", " (map dec sh).
(** 469-473 [Array.__str__]; no class overrides it *)
Definition str_of a : string :=
  "<Array shape=(" ++ shape_text (shape a) ++ ") dtype=" ++ dtype_text (dtype a) ++ " size=" ++ size_text (nbytes itemsize a) ++ ">".
(** type(self).__name__: 1207, 1495, 1549, 1719, 1912, 2622, 2936.  The classes derived
    from ArrayContainer (729, 865, 1121, 1160, 1609) never use it. *)
Definition class_name a : string :=
  match a with
  | AConst _ _ _ => "ConstantArray"
  | AAdapt false _ _ => "NumpyArrayAdapter"
  | AAdapt true _ _ => "OrthoArrayAdapter"
  | ANewAx _ _ => "NewAxesArray"
  | ABcast _ _ _ => "BroadcastArray"
  | AAsTy _ _ => "AsDataTypeArray"
  | AMaskV _ _ => "MaskValueArray"
  | ATrans _ _ => "TransposedArray"
  | AStack _ _ => "ArrayStack"
  | AMosaic _ _ => "LinearMosaic"
  | AAgg _ _ _ _ => "_Aggregation"
  | AEl1 _ _ _ | AEl2 _ _ _ _ => "_Elementwise"
  end.
(** 475-479 [Array.__repr__] *)
Definition repr_plain a : string :=
  "<" ++ class_name a ++ " shape=(" ++ shape_text (shape a) ++ ") dtype=" ++ dtype_text (dtype a) ++ ">".
(** 694-695 [ArrayContainer.__repr__], inherited by NewAxesArray, BroadcastArray,
    AsDataTypeArray and MaskValueArray; 1632-1633 [TransposedArray.__repr__] *)
Fixpoint repr_of a : string :=
  match a with
  | ANewAx b _ | ABcast b _ _ | AAsTy b _ | AMaskV b _ => "ArrayContainer(" ++ repr_of b ++ ")"
  | ATrans b axes => "TransposedArray(" ++ repr_of b ++ ", " ++ axes_text axes ++ ")"
  | _ => repr_plain a
  end.
End Text.

(** ** Reading such texts *)
Definition digit (c : ascii) : option nat :=
  let n := nat_of_ascii c in (if (48 <=? n) && (n <=? 57) then Some (n - 48) else None)%nat.
(** A decimal number at the beginning of a text; the value and what follows it. *)
Fixpoint number (acc : nat) (s : string) : nat * string :=
  match s with
  | String c s' => match digit c with Some d => number (10 * acc + d)%nat s' | None => (acc, s) end
  | EmptyString => (acc, s)
  end.
(** Numbers, each followed by a separator, up to the closing bracket. *)
Fixpoint numbers (cur : option nat) (s : string) : option (list nat) :=
  match s with
  | EmptyString => None
  | String c s' =>
      match digit c with
      | Some d => numbers (Some (10 * match cur with Some n => n | None => 0 end + d)%nat) s'
      | None => if (c =? ",")%char then match cur with Some n => option_map (cons n) (numbers None s') | None => None end
                else if (c =? " ")%char then numbers cur s'
                else if (c =? ")")%char then Some (match cur with Some n => [n] | None => [] end)
                else None
      end
  end.
(** The numbers in the brackets after the first "shape=". *)
Fixpoint after (p s : string) : option string :=
  match p, s with
  | EmptyString, _ => Some s
  | String c p', String d s' => if (c =? d)%char then after p' s' else None
  | _, EmptyString => None
  end.
Fixpoint read_shape (s : string) : option (list nat) :=
  match after "shape=(" s, s with
  | Some rest, _ => numbers None rest
  | None, String _ s' => read_shape s'
  | None, EmptyString => None
  end.
(** The text between the first "dtype=" and the next " size=". *)
Fixpoint before (p s : string) : option string :=
  match after p s, s with
  | Some _, _ => Some EmptyString
  | None, String c s' => option_map (String c) (before p s')
  | None, EmptyString => None
  end.
Fixpoint read_dtype (s : string) : option string :=
  match after "dtype=" s, s with
  | Some rest, _ => before " size=" rest
  | None, String _ s' => read_dtype s'
  | None, EmptyString => None
  end.
(** A number with two decimals and a unit: the number in hundredths, and the unit. *)
Definition read_size (s : string) : option (nat * string) :=
  let '(w, r) := number 0 s in
  match r with
  | String "." (String c1 (String c2 (String " " unit))) =>
      match digit c1, digit c2 with Some t, Some o => Some ((100 * w + 10 * t + o)%nat, unit) | _, _ => None end
  | String " " unit => Some ((100 * w)%nat, unit)
  | _ => None
  end.
