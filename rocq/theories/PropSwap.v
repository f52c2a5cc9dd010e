(** PropSwap: indexing a wrapper around any array whatever, relative to indexing
    that array (C06). *)
From Verif Require Import Base PySlice Keys NDArray Arrays Chunks Handlers Realise Spec Supported Lib SelLemmas KeyLemmas GetBase ClassClaims BuiltClaims SwapClaims Samples.

(** C06: indexing a transposed array, for every source and all keys valid for
    NumPy.  [ks] are the keys, one per dimension of the transposed array (newaxis
    aside); the source sees the same keys in its own order of dimensions, [sk].
    If the source, indexed with these, is read back as NumPy indexes the source's
    own elements, so is the transposed array.  Nothing is asked of the keys or of
    the source's class. *)
Theorem C06_index {V} (O : numops V) maxc garbage m fuel (a : @barr V) axes da keys ks sk b0 d0 :
  let reads := reads O maxc garbage m fuel in
  NoDup axes -> length axes = ndim a -> Forall (fun x => x < ndim a) axes ->
  reads a da -> nshape da = shape a ->
  np_expand keys (ndim a) = Ok ks -> valid_keys keys (shape (ATrans a axes)) ->
  length sk = ndim a -> (forall j, j < ndim a -> nth (nth j axes 0) sk KBad = nth j (drop_new ks) KBad) ->
  getitem a sk = Ok b0 -> reads b0 d0 -> nshape d0 = shape b0 -> nd_eq d0 (oindex da sk) ->
  exists b dt db, getitem (ATrans a axes) keys = Ok b /\ reads (ATrans a axes) dt /\ reads b db /\ nd_eq db (oindex dt keys).
Proof. exact (trans_index O maxc garbage m fuel a axes da keys ks sk b0 d0). Qed.

(** A mosaic asked for position -1, which it only answers because it has a single
    tile: outside every support condition. *)
Definition tile1 : @barr Z := AMosaic [arr [3;2]] 0.
Definition last_of : res (@barr Z) := getitem tile1 [KInt (-1)%Z; KFull].
Definition none : list nat -> option Z := fun _ => None.
Example C06_index_applies : ~ supported tile1 [KInt (-1)%Z; KFull]
  /\ exists b dt db, getitem (ATrans tile1 [1;0]) [KEll; KNew; KInt (-1)%Z] = Ok b
       /\ reads z_ops 3 none false 2 (ATrans tile1 [1;0]) dt /\ reads z_ops 3 none false 2 b db
       /\ nd_eq db (oindex dt [KEll; KNew; KInt (-1)%Z]).
Proof.
  split.
  { intros H. specialize (H _ eq_refl). cbn in H. destruct H as [[H _]|[_ [H _]]]; [discriminate|]. lia. }
  destruct last_of as [b0|] eqn:E0; [|discriminate].
  destruct (realise z_ops 3 none 2 false tile1) as [da|] eqn:Ea; [|discriminate].
  destruct (realise z_ops 3 none 2 false b0) as [d0|] eqn:E1; [|vm_compute in E0; injection E0 as <-; discriminate].
  assert (Hb : shape b0 = [2]) by (vm_compute in E0; injection E0 as <-; reflexivity).
  assert (Ha : nshape da = [3;2]) by (vm_compute in Ea; injection Ea as <-; reflexivity).
  assert (Hd : nshape d0 = [2]) by (vm_compute in E0; injection E0 as <-; vm_compute in E1; injection E1 as <-; reflexivity).
  assert (HG : nd_eq d0 (oindex da [KInt (-1)%Z; KFull])).
  { vm_compute in E0; injection E0 as <-. vm_compute in E1; injection E1 as <-. vm_compute in Ea; injection Ea as <-. split; [reflexivity|].
    intros i Hi. inversion Hi as [|x n i' sh Hx Hr]; subst. inversion Hr; subst. cbn in Hx. destruct x as [|[|x]]; [reflexivity|reflexivity|lia]. }
  refine (C06_index z_ops 3 none false 2 tile1 [1;0] da [KEll; KNew; KInt (-1)%Z] [KFull; KNew; KInt (-1)%Z] [KInt (-1)%Z; KFull] b0 d0 _ _ _ Ea Ha eq_refl _ eq_refl _ E0 E1 _ HG).
  - repeat constructor; cbn; intuition lia.
  - reflexivity.
  - repeat constructor.
  - vm_compute. discriminate.
  - intros j Hj. cbn in Hj. destruct j as [|[|j]]; [reflexivity|reflexivity|lia].
  - congruence.
Qed.
Print Assumptions C06_index.
