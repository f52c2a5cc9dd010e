(** Ufuncs: the top-level elementwise functions (3052-3195) as wrappers of NumPy
    functions.  What the NumPy functions compute is a parameter. *)
From Verif Require Import Base PySlice Keys NDArray Arrays Small.
From Coq Require Import String.
Local Open Scope string_scope.
Local Open Scope list_scope.
Local Open Scope nat_scope.

Section Ufuncs.
Context {V : Type}.
Notation cell := (option V).
Notation barr := (@barr V).

(** A function of the numpy module: its __name__, whether it is a np.ufunc, nin and
    nout, its values on one or two arguments and its result dtypes as in [op1] and
    [op2] (Arrays.v). *)
Record npfun := mkF { f_name : string; f_ufunc : bool; f_nin : nat; f_nout : nat;
                      f_1 : V -> V; f_2 : V -> V -> V; f_dt1 : nat -> nat; f_dt2 : nat -> nat -> nat; f_dtpy : nat -> bool -> nat }.
(** A function of the numpy.ma module *)
Inductive mafun := M1 (f : cell -> cell) | M2 (f : cell -> cell -> cell).

(** The function made by a wrapper: its number of arguments, and the functions it
    hands to [_Elementwise]. *)
Inductive wrapped := W1 (f : npfun) (ma : option mafun) | W2 (f : npfun) (ma : option mafun).

(** 3052-3063 and 3066-3078: the name put into __all__ and the function.  The
    docstring is not modelled. *)
Definition unary_fn_wrapper (f : npfun) (ma : option mafun) (fn_name : option string) : string * wrapped :=
  (match fn_name with Some n => n | None => f_name f end, W1 f ma).
Definition dual_input_fn_wrapper (f : npfun) (ma : option mafun) (fn_name : option string) : string * wrapped :=
  (match fn_name with Some n => n | None => f_name f end, W2 f ma).
(** 3081-3102; [ma]: getattr(np.ma, ., None) *)
Definition ufunc_wrapper (ma : string -> option mafun) (f : npfun) (name : option string) : res (string * wrapped) :=
  if negb (f_ufunc f) then Err TypeError else
  let ma_ufunc := ma (f_name f) in
  if (f_nin f =? 2) && (f_nout f =? 1) then Ok (dual_input_fn_wrapper f ma_ufunc name)
  else if (f_nin f =? 1) && (f_nout f =? 1) then Ok (unary_fn_wrapper f ma_ufunc name)
  else Err ValueError.

(** The operations of the main model.  A masked equivalent that takes another number
    of arguments counts as none: calling it raises TypeError as well. *)
Definition as_op1 (f : npfun) (ma : option mafun) : op1 :=
  mkOp1 (f_1 f) (match ma with Some (M1 g) => Some g | _ => None end) (f_dt1 f).
Definition as_op2 (f : npfun) (ma : option mafun) : op2 :=
  mkOp2 (f_2 f) (match ma with Some (M2 g) => Some g | _ => None end) (f_dt2 f) (f_dtpy f).
(** Calling the function: Python's check of the number of arguments, then
    2945-2996.  None as second operand is taken for a missing one (2955); a ufunc of
    two arguments, as all of [definitions] that take two are, is then called with one
    or with None and raises TypeError (2960 or 2965): what [POther] gives here. *)
Definition call (w : wrapped) (args : list (@operand V)) : res barr :=
  match w, args with
  | W1 f ma, [x] =>
      a <- ensure_array x ;;
      if f_ufunc f && negb (f_nout f =? 1) then Err TypeError                       (* 2949-2953 *)
      else if f_ufunc f && negb (f_nin f =? 1) then Err TypeError                   (* 2958-2960 *)
      else Ok (mk_el1 (as_op1 f ma) a)
  | W2 f ma, [x; y] =>
      _ <- ensure_array x ;;
      if f_ufunc f && negb (f_nout f =? 1) then Err TypeError
      else if f_ufunc f && negb (f_nin f =? 2) then Err TypeError                   (* 2968-2970 *)
      else elementwise2 (as_op2 f ma) x y
  | _, _ => Err TypeError
  end.

(** 3105-3195: the functions of the module, in order: the name bound, and how. *)
Inductive how := ByUfunc (np_name : string) (name : option string) | Unary (np_name : string) | Dual (np_name : string).
Definition plain_ufunc (n : string) : string * how := (n, ByUfunc n None).
Definition definitions : list (string * how) :=
  map plain_ufunc ["negative"; "absolute"; "rint"; "sign"]                                             (* 3106-3109 *)
  ++ [("conj", ByUfunc "conj" (Some "conj"))]                                                          (* 3110 *)
  ++ map plain_ufunc ["exp"; "exp2"; "log"; "log2"; "log10"; "expm1"; "sqrt"; "square"; "reciprocal"]  (* 3111-3119 *)
  ++ [plain_ufunc "add"; ("sub", ByUfunc "subtract" (Some "sub"))]                                     (* 3123-3124 *)
  ++ map plain_ufunc ["subtract"; "multiply"; "floor_divide"; "true_divide"]                           (* 3125-3128 *)
  ++ [("divide", ByUfunc "divide" (Some "divide")); plain_ufunc "power"]                               (* 3129-3130 *)
  ++ map plain_ufunc ["sin"; "cos"; "tan"; "arcsin"; "arccos"; "arctan"; "sinh"; "cosh"; "tanh";
                      "arcsinh"; "arccosh"; "arctanh"; "deg2rad"; "rad2deg"]                           (* 3134-3147 *)
  ++ map plain_ufunc ["arctan2"; "hypot"]                                                              (* 3151-3152 *)
  ++ map plain_ufunc ["bitwise_and"; "bitwise_or"; "bitwise_xor"; "invert"; "left_shift"; "right_shift"]  (* 3156-3161 *)
  ++ map plain_ufunc ["greater"; "greater_equal"; "less"; "less_equal"; "not_equal"; "equal"; "logical_and";
                      "logical_or"; "logical_xor"; "logical_not"; "maximum"; "minimum"; "fmax"; "fmin"]   (* 3165-3178 *)
  ++ map (fun n => (n, Unary n)) ["isreal"; "iscomplex"; "isinf"; "isnan"; "signbit"]                  (* 3182-3186 *)
  ++ map (fun n => (n, Dual n)) ["copysign"; "nextafter"; "ldexp"; "fmod"]                             (* 3187-3192 *)
  ++ map plain_ufunc ["floor"; "ceil"; "trunc"].                                                       (* 3193-3195 *)

(** One definition; [np]: getattr(np, .).  The name exported and the function. *)
Definition define (np : string -> option npfun) (ma : string -> option mafun) (h : how) : res (string * wrapped) :=
  match h with
  | ByUfunc n name => match np n with Some f => ufunc_wrapper ma f name | None => Err AttrErr end
  | Unary n => match np n with Some f => Ok (unary_fn_wrapper f None None) | None => Err AttrErr end
  | Dual n => match np n with Some f => Ok (dual_input_fn_wrapper f None None) | None => Err AttrErr end
  end.
(** Importing the module: bound name, exported name, function. *)
Definition import_all (np : string -> option npfun) (ma : string -> option mafun) : res (list (string * (string * wrapped))) :=
  mapM (fun d => w <- define np ma (snd d) ;; Ok (fst d, w)) definitions.
End Ufuncs.
