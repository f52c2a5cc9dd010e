(** Properties C01, C02 and C50: interpretation of key tuples. *)
From Verif Require Import Base PySlice Keys NDArray Spec Supported KeyLemmas EllClaims.

(** C01: keys are expanded exactly as NumPy expands them (same keys, same error). *)
Theorem C01_key_expansion keys ndim : count_if is_ell keys <= 1 ->
  full_keys keys ndim = np_expand keys ndim.
Proof. exact (full_keys_np keys ndim). Qed.
Print Assumptions C01_key_expansion.

(** C01: an IndexError exactly when more than [ndim] dimensions are addressed. *)
Theorem C01_key_expansion_error keys ndim : count_if is_ell keys <= 1 ->
  (full_keys keys ndim = Err IndexError <->
   ndim < count_if (fun k => negb (is_new k) && negb (is_ell k)) keys).
Proof. exact (full_keys_error keys ndim). Qed.
Print Assumptions C01_key_expansion_error.

(** C01: after a successful expansion every dimension is addressed exactly once
    and no Ellipsis is left. *)
Theorem C01_key_expansion_complete keys ndim ks : count_if is_ell keys <= 1 ->
  full_keys keys ndim = Ok ks ->
  existsb is_ell ks = false /\ count_if (fun k => negb (is_new k)) ks = ndim.
Proof. exact (full_keys_complete keys ndim ks). Qed.
Print Assumptions C01_key_expansion_complete.

Example C01_case :
  count_if is_ell [KInt 0; KNew; KEll; KTuple [1%Z]] <= 1
  /\ full_keys [KInt 0; KNew; KEll; KTuple [1%Z]] 4
     = Ok [KInt 0; KNew; KFull; KFull; KTuple [1%Z]].
Proof. split; [vm_compute; auto|reflexivity]. Qed.

(** C02: the predicted shape is the orthogonal-indexing shape.  Index lists that
    are Python lists (not tuples or arrays) are rejected by the code. *)
Theorem C02_predicted_shape keys sh s : oselect keys sh = Some s ->
  existsb is_list keys = false -> sliced_shape sh keys = Ok (sel_shape s).
Proof. exact (sliced_shape_ok keys sh s). Qed.
Print Assumptions C02_predicted_shape.

Example C02_case :
  oselect [KSlice (mkS None None (Some (-2)%Z)); KNew; KEll; KMask [true; false; true]; KInt (-1)] [5; 4; 3; 2]
  = Some [DLs [4; 2; 0]; DNew; DLs [0; 1; 2; 3]; DLs [0; 2]; DPt 1]
  /\ sliced_shape [5; 4; 3; 2] [KSlice (mkS None None (Some (-2)%Z)); KNew; KEll; KMask [true; false; true]; KInt (-1)]
     = Ok [3; 1; 4; 2].
Proof. split; reflexivity. Qed.

(** C02: for two Ellipsis keys see C50;
    a Python list as a key is refused although NumPy and the adapters
    accept it. *)
Theorem C02_list_key_refuted : exists sh keys s,
  oselect keys sh = Some s /\ sliced_shape sh keys = Err ValueError.
Proof. exact sliced_shape_list_rejected. Qed.
Print Assumptions C02_list_key_refuted.

(** C50: several Ellipsis keys.  Every key keeps its place and every Ellipsis is one
    full slice, except the middle one of them (that with half of them, rounded down,
    before it), which stands for all dimensions left over; keys addressing one
    dimension too many lose their first Ellipsis; otherwise IndexError. *)
Theorem C50_many_ellipses keys ndim : 1 <= ells keys ->
  (addressed keys <= ndim ->
     full_keys keys ndim = Ok (ell_at (ells keys / 2) (repeat KFull (S (ndim - addressed keys))) keys))
  /\ (addressed keys = S ndim -> full_keys keys ndim = Ok (map one_ell (drop_ell keys)))
  /\ (S ndim < addressed keys -> full_keys keys ndim = Err IndexError).
Proof.
  intros H. rewrite (full_keys_ells keys ndim H). split; [|split]; intros L.
  - destruct (Nat.leb_spec (addressed keys) ndim); [auto|lia].
  - rewrite L. rewrite (proj2 (Nat.leb_gt _ _)) by lia. rewrite Nat.eqb_refl. auto.
  - rewrite (proj2 (Nat.leb_gt _ _)) by lia. destruct (Nat.eqb_spec (addressed keys) (S ndim)); [lia|auto].
Qed.
Print Assumptions C50_many_ellipses.
(** The NumPy releases that accepted several expanded the first; the code does not. *)
Theorem C50_first_refuted : exists keys ndim ks, 1 <= ells keys /\ addressed keys <= ndim
  /\ full_keys keys ndim = Ok ks /\ ks <> ell_at 0 (repeat KFull (S (ndim - addressed keys))) keys.
Proof.
  exists [KEll; KInt 0; KEll], 4, [KFull; KInt 0; KFull; KFull]. vm_compute. repeat split; auto. discriminate.
Qed.
Print Assumptions C50_first_refuted.
Example C50_case : full_keys [KEll; KInt 1; KEll; KNew; KEll; KInt 2] 7
  = Ok [KFull; KInt 1; KFull; KFull; KFull; KNew; KFull; KInt 2].
Proof. reflexivity. Qed.
