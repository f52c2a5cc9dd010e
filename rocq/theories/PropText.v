(** C76: what printing an array tells (Text.v).  [read_shape] and [number] there are
    readers written independently of the printing code. *)
From Verif Require Import Base PySlice Keys NDArray Arrays Spec Supported Lib GetBase Small SmallClaims Samples Text.
From Coq Require Import String Ascii DecimalString DecimalNat DecimalFacts Decimal ZifyBool ZifyNat.
Open Scope string_scope.

(** ** Decimal numerals *)
Lemma app_assoc_s (a b c : string) : (a ++ b) ++ c = a ++ b ++ c.
Proof. induction a as [|x a IH]; cbn; congruence. Qed.
Definition stops (s : string) : Prop := match s with String c _ => digit c = None | EmptyString => True end.
Lemma number_uint u : forall acc s, stops s -> number acc (NilEmpty.string_of_uint u ++ s) = (Nat.of_uint_acc u acc, s).
Proof.
  induction u; intros acc s Hs; cbn [NilEmpty.string_of_uint append];
    [cbn [Nat.of_uint_acc]; destruct s as [|c s]; cbn [number]; [reflexivity|rewrite Hs; reflexivity]|..];
    cbn [number]; (change (digit _) with (Some 0%nat) || change (digit _) with (Some 1%nat) || change (digit _) with (Some 2%nat) || change (digit _) with (Some 3%nat)
      || change (digit _) with (Some 4%nat) || change (digit _) with (Some 5%nat) || change (digit _) with (Some 6%nat) || change (digit _) with (Some 7%nat) || change (digit _) with (Some 8%nat) || change (digit _) with (Some 9%nat));
    cbn match; rewrite IHu by assumption; cbn [Nat.of_uint_acc]; rewrite Nat.tail_mul_spec; do 2 f_equal; lia.
Qed.
Lemma to_uint_digits n : Nat.to_uint n <> Nil.
Proof.
  intros E. pose proof (Unsigned.of_to n) as H. rewrite E in H. cbn in H. subst n. discriminate.
Qed.
Lemma number_dec n s : stops s -> number 0 (dec n ++ s) = (n, s).
Proof. intros Hs. unfold dec. rewrite number_uint by assumption. f_equal. exact (Unsigned.of_to n). Qed.
Lemma numbers_uint u : forall acc s, numbers (Some acc) (NilEmpty.string_of_uint u ++ s) = numbers (Some (Nat.of_uint_acc u acc)) s.
Proof.
  induction u; intros acc s; cbn [NilEmpty.string_of_uint append]; [reflexivity|..];
    cbn [numbers]; (change (digit _) with (Some 0%nat) || change (digit _) with (Some 1%nat) || change (digit _) with (Some 2%nat) || change (digit _) with (Some 3%nat)
      || change (digit _) with (Some 4%nat) || change (digit _) with (Some 5%nat) || change (digit _) with (Some 6%nat) || change (digit _) with (Some 7%nat) || change (digit _) with (Some 8%nat) || change (digit _) with (Some 9%nat));
    cbn match; rewrite IHu; cbn [Nat.of_uint_acc]; rewrite Nat.tail_mul_spec; do 2 f_equal; f_equal; lia.
Qed.
Lemma numbers_dec n s : numbers None (dec n ++ s) = numbers (Some n) s.
Proof.
  unfold dec. transitivity (numbers (Some 0%nat) (NilEmpty.string_of_uint (Nat.to_uint n) ++ s)).
  - pose proof (to_uint_digits n). destruct (Nat.to_uint n); [contradiction|reflexivity..].
  - rewrite numbers_uint. do 2 f_equal. exact (Unsigned.of_to n).
Qed.
Lemma read_shape_text sh : forall rest, numbers None (shape_text sh ++ ")" ++ rest) = Some sh.
Proof.
  unfold shape_text. induction sh as [|n sh IH]; intros rest; [reflexivity|]. destruct sh as [|m sh].
  - cbn [map join]. rewrite numbers_dec. reflexivity.
  - cbn [map join] in *. rewrite !app_assoc_s. rewrite numbers_dec. cbn [append numbers]. change (digit ",") with (@None nat). change (digit " ") with (@None nat). cbn match.
    change (("," =? ",")%char) with true. change ((" " =? ",")%char) with false. change ((" " =? " ")%char) with true. cbn match.
    cbn [append] in IH. rewrite IH. reflexivity.
Qed.

(** The character does not occur in the text. *)
Fixpoint lacks (c : ascii) (s : string) : Prop := match s with EmptyString => True | String d s' => d <> c /\ lacks c s' end.
Lemma before_size d : forall rest, lacks "=" d -> before " size=" (d ++ " size=" ++ rest) = Some d.
Proof.
  induction d as [|c d IH]; intros rest H; [reflexivity|]. destruct H as [Hc H].
  assert (E : after " size=" (String c d ++ " size=" ++ rest) = None).
  { clear IH. destruct d as [|c1 [|c2 [|c3 [|c4 [|c5 d]]]]]; cbn [append after];
      repeat match goal with |- context[(?x =? ?y)%char] => first [change (x =? y)%char with true | change (x =? y)%char with false | destruct (Ascii.eqb_spec x y)]; cbn match end;
      try reflexivity.
    cbn [lacks] in H. exfalso. subst. destruct H as (_ & _ & _ & _ & H & _). congruence. }
  cbn [before append] in *. rewrite E. rewrite IH by assumption. reflexivity.
Qed.
Lemma read_dtype_skip s : forall rest, lacks "d" s -> read_dtype (s ++ rest) = read_dtype rest.
Proof.
  induction s as [|c s IH]; intros rest H; [reflexivity|]. destruct H as [Hc H]. cbn [append read_dtype after].
  destruct (Ascii.eqb_spec "d" c); [congruence|]. apply IH. exact H.
Qed.
Lemma lacks_app c s s' : lacks c s -> lacks c s' -> lacks c (s ++ s').
Proof. induction s as [|d s IH]; cbn; [auto|]. intros [H1 H2] H. auto. Qed.
Lemma shape_text_lacks sh : lacks "d" (shape_text sh).
Proof.
  assert (HU : forall u, lacks "d" (NilEmpty.string_of_uint u)) by (induction u; cbn; auto; split; auto; discriminate).
  unfold shape_text. induction sh as [|n sh IH]; [exact I|]. destruct sh as [|m sh]; [apply HU|].
  cbn [map join] in *. apply lacks_app; [apply HU|]. cbn [append lacks]. split; [discriminate|]. split; [discriminate|]. exact IH.
Qed.

Section C76.
Context {V : Type}.
Variable dtype_text : nat -> string.
Variable itemsize : nat -> Z.
Variable axes_text : list nat -> string.
Implicit Types a b : @barr V.
Notation str := (str_of dtype_text itemsize).
Notation repr := (repr_of dtype_text axes_text).

(** str(a) of an array of any class: the numbers in its brackets are the shape the
    array has, in order; so arrays printed alike have the same shape. *)
Theorem C76_str_shape a : read_shape (str a) = Some (shape a).
Proof. unfold str_of. cbn [append read_shape]. apply read_shape_text. Qed.
Theorem C76_str_tells a b : str a = str b -> shape a = shape b.
Proof. intros H. pose proof (C76_str_shape a). pose proof (C76_str_shape b). congruence. Qed.
(** And its dtype, as NumPy prints it (no '=' in that). *)
Theorem C76_str_dtype a : lacks "=" (dtype_text (dtype a)) -> read_dtype (str a) = Some (dtype_text (dtype a)).
Proof.
  intros H. unfold str_of. cbn [append read_dtype after Ascii.eqb Bool.eqb]. rewrite read_dtype_skip by apply shape_text_lacks.
  cbn [append read_dtype after Ascii.eqb Bool.eqb]. apply before_size. exact H.
Qed.
(** What it shows depends on the shape and the dtype only, never on data. *)
Theorem C76_str_blind a b : shape a = shape b -> dtype a = dtype b -> str a = str b.
Proof. intros H1 H2. unfold str_of, nbytes. rewrite H1, H2. reflexivity. Qed.

(** repr(a) shows the shape of what is left when every wrapper (newaxis, broadcast,
    astype, masked_equal, transpose) is taken off. *)
Fixpoint inside a : barr :=
  match a with ANewAx b _ | ABcast b _ _ | AAsTy b _ | AMaskV b _ | ATrans b _ => inside b | _ => a end.
Lemma repr_shape a : forall rest, read_shape (repr a ++ rest) = Some (shape (inside a)).
Proof.
  induction a as [sh v d|[|] c ks|a na IH|a dict lead IH|a d IH|a v IH|a axes IH|ssh items IH|tiles axis IH|g a axis d IH|o a d IH|o a b d IH1 IH2] using barr_ind2;
    intros rest; cbn [repr_of inside]; try (unfold repr_plain; rewrite !app_assoc_s; cbn [class_name append read_shape after]; apply read_shape_text);
    rewrite !app_assoc_s; cbn [append read_shape after]; apply IH.
Qed.
Theorem C76_repr_shape_partial a : read_shape (repr a) = Some (shape (inside a)).
Proof. rewrite <- (repr_shape a ""). f_equal. symmetry. generalize (repr a). induction s as [|c s IH]; cbn; congruence. Qed.
(** So: the array's own shape exactly when the wrappers leave the shape alone. *)
Theorem C76_repr_right a : read_shape (repr a) = Some (shape a) <-> shape (inside a) = shape a.
Proof. rewrite C76_repr_shape_partial. split; congruence. Qed.
(** The dtype of an astype result is never shown. *)
Theorem C76_repr_dtype_refuted a d d' : repr (AAsTy a d) = repr (AAsTy a d').
Proof. reflexivity. Qed.
End C76.
Print Assumptions C76_str_shape.
Print Assumptions C76_str_dtype.
Print Assumptions C76_str_tells.
Print Assumptions C76_str_blind.
Print Assumptions C76_repr_shape_partial.
Print Assumptions C76_repr_right.
Print Assumptions C76_repr_dtype_refuted.

(** repr shows the wrong shape: a row of 3 numbers indexed with newaxis, which has
    shape (1, 3), is shown as (3), and one number stretched to 5 as (1). *)
Theorem C76_repr_refuted (dtype_text : nat -> string) (axes_text : list nat -> string) :
  exists a b : @barr Z, getitem (arr [3]) [KNew; KFull] = Ok a /\ mk_bcast (arr [1]) [(0, 5)] [] = Ok b
    /\ shape a = [1; 3] /\ read_shape (repr_of dtype_text axes_text a) = Some [3]
    /\ shape b = [5] /\ read_shape (repr_of dtype_text axes_text b) = Some [1].
Proof.
  eexists _, _. split; [reflexivity|]. split; [reflexivity|]. rewrite !C76_repr_shape_partial. cbn [inside]. split; [reflexivity|]. split; [reflexivity|]. split; reflexivity.
Qed.
Print Assumptions C76_repr_refuted.
(** What is printed: '<Array shape=(2, 3, 10) dtype=float64 size=480 B>' and so on
    (with a dtype whose repr is float64 and whose items have 8 bytes). *)
Example C76_case : str_of (fun _ => "float64") (fun _ => 8%Z) (arr [2; 3; 10]) = "<Array shape=(2, 3, 10) dtype=float64 size=480 B>"
  /\ repr_of (fun _ => "float64") (fun _ => "(0,)") (ATrans (ABcast (arr []) [] [7]) [0]) = "TransposedArray(ArrayContainer(<NumpyArrayAdapter shape=() dtype=float64>), (0,))"
  /\ inside (ABcast (arr [4]) [] [7]) = arr [4].
Proof. split; [reflexivity|]. split; reflexivity. Qed.
Example C76_read_case : read_shape "<Array shape=(2, 3, 10) dtype=float64 size=480 B>" = Some [2; 3; 10] /\ read_shape "<Array shape=() dtype=float64 size=8 B>" = Some [].
Proof. vm_compute. auto. Qed.

(** ** size *)
Lemma one_digit d : d < 10 -> exists c, dec d = String c "" /\ digit c = Some d.
Proof. intros H. do 10 (destruct d as [|d]; [eexists; split; reflexivity|]). lia. Qed.
Lemma decz_nat z : (0 <= z)%Z -> decz z = dec (Z.to_nat z).
Proof. intros H. unfold decz. destruct (Z.ltb_spec z 0); [lia|reflexivity]. Qed.
Lemma read_fixed h unit : (0 <= h)%Z -> read_size (fixed2 h ++ " " ++ unit) = Some (Z.to_nat h, unit).
Proof.
  intros H. unfold fixed2. pose proof (Z.mod_pos_bound h 10 ltac:(lia)). pose proof (Z.mod_pos_bound (h / 10) 10 ltac:(lia)).
  pose proof (Z.div_pos h 100 H ltac:(lia)). rewrite !decz_nat by lia.
  destruct (one_digit (Z.to_nat (h / 10 mod 10)) ltac:(lia)) as (c1 & -> & D1). destruct (one_digit (Z.to_nat (h mod 10)) ltac:(lia)) as (c2 & -> & D2).
  rewrite !app_assoc_s. unfold read_size. rewrite number_dec by reflexivity. cbn [append]. rewrite D1, D2. do 2 f_equal.
  pose proof (Z.div_mod h 10 ltac:(lia)). pose proof (Z.div_mod (h / 10) 10 ltac:(lia)). rewrite Z.div_div in * by lia. change (10 * 10)%Z with 100%Z in *. lia.
Qed.
Lemma hundredths_near n b : (0 <= n)%Z -> (0 < b)%Z -> (0 <= hundredths n b)%Z /\ (2 * Z.abs (hundredths n b * b - 100 * n) <= b)%Z.
Proof.
  intros Hn Hb. unfold hundredths. pose proof (Z.div_mod (100 * n) b ltac:(lia)). pose proof (Z.mod_pos_bound (100 * n) b Hb). pose proof (Z.div_pos (100 * n) b ltac:(lia) Hb).
  set (q := (100 * n / b)%Z) in *. set (r := (100 * n mod b)%Z) in *. cbv zeta.
  assert (E : (forall x, x * b - 100 * n = (x - q) * b - r)%Z) by (intros; lia).
  destruct (Z.ltb_spec (2 * r) b); [|destruct (Z.ltb_spec b (2 * r)); [|destruct (Z.even q)]]; rewrite E; nia.
Qed.
Definition units : list string := ["B"; "KiB"; "MiB"; "GiB"; "TiB"].
(** size(array) of [n] bytes: the text is a number and the unit [u] of C46_size_unit;
    the number is within half a hundredth of n / 2^(10 u), exact for bytes. *)
Theorem C46_text n : (0 <= n < 2 ^ 53)%Z -> exists h, let u := fst (size_of n) in
  read_size (size_text n) = Some (h, nth u units "") /\ (2 * Z.abs (Z.of_nat h * 2 ^ (10 * Z.of_nat u) - 100 * n) <= 2 ^ (10 * Z.of_nat u))%Z.
Proof.
  intros [Hn _]. unfold size_text, size_of. rewrite !Z.shiftl_1_l.
  destruct (n <? 2 ^ 10)%Z; [|destruct (n <? 2 ^ 20)%Z; [|destruct (n <? 2 ^ 30)%Z; [|destruct (n <? 2 ^ 40)%Z]]]; cbn [fst nth units].
  { exists (100 * Z.to_nat n)%nat. rewrite decz_nat by lia. unfold read_size. rewrite (number_dec (Z.to_nat n) " B") by reflexivity. split; [reflexivity|].
    change (2 ^ (10 * Z.of_nat 0))%Z with 1%Z. lia. }
  all: match goal with |- context[hundredths ?x ?b] => destruct (hundredths_near x b Hn ltac:(reflexivity)) as [H1 H2]; exists (Z.to_nat (hundredths x b)) end.
  all: split; [match goal with |- read_size (_ ++ String " " ?u) = _ => apply (read_fixed _ u); assumption end|].
  all: rewrite Z2Nat.id by assumption; exact H2.
Qed.
(** A wrapped, negative count: its minus sign, its digits, and B. *)
Theorem C46_text_negative n : (n < 0)%Z -> exists s, size_text n = String "-" s /\ read_size s = Some ((100 * Z.to_nat (- n))%nat, "B").
Proof.
  intros H. unfold size_text. rewrite Z.shiftl_1_l. destruct (Z.ltb_spec n (2 ^ 10)); [|lia]. exists (dec (Z.to_nat (- n)) ++ " B").
  unfold decz. destruct (Z.ltb_spec n 0); [|lia]. split; [reflexivity|]. unfold read_size. rewrite (number_dec _ " B") by reflexivity. reflexivity.
Qed.
Print Assumptions C46_text.
Print Assumptions C46_text_negative.
(** 1048575 bytes, one less than a mebibyte, are "1024.00 KiB". *)
Example C46_text_case : size_text 14000000 = "13.35 MiB" /\ size_text 1048575 = "1024.00 KiB" /\ size_text (-8) = "-8 B".
Proof. vm_compute. auto. Qed.
