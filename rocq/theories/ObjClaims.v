(** ObjClaims: deep copies share nothing that can change (lemmas). *)
From Verif Require Import Base PySlice Keys NDArray Arrays Lib Objects.

Section Claims.
Context {V : Type}.
Notation barr := (@barr V).
Notation ref := (ref V).
Notation oheap := (oheap V).

Section RefInd.
Variable P : ref -> Prop.
Hypotheses (H1 : forall l, P (RStk l)) (H2 : forall o l ks, P (RSrc o l ks)) (H3 : forall f ps, Forall P ps -> P (RNode f ps)).
Fixpoint ref_ind2 (r : ref) : P r :=
  match r with
  | RStk l => H1 l
  | RSrc o l ks => H2 o l ks
  | RNode f ps => H3 f ps ((fix go l : Forall P l := match l with [] => Forall_nil _ | x :: l => Forall_cons _ (ref_ind2 x) (go l) end) ps)
  end.
End RefInd.

(** The locations mentioned by a reference and by what is stored. *)
Fixpoint refs_of (r : ref) : list nat :=
  match r with RStk l => [l] | RSrc _ l _ => [l] | RNode _ ps => flat_map refs_of ps end.
Definition cell_refs (c : ocell V) : list nat :=
  match c with CStk _ il => [il] | CItems its => flat_map refs_of its | CData _ => [] end.
(** The locations an array depends on. *)
Inductive reach (h : oheap) (r : ref) : nat -> Prop :=
| reach_here l : In l (refs_of r) -> reach h r l
| reach_on l c l' : reach h r l -> nth_error h l = Some c -> In l' (cell_refs c) -> reach h r l'.

Fixpoint all (n : nat) (h : oheap) (l : list ref) : option (list barr) :=
  match l with
  | [] => Some []
  | r :: l => match content n h r, all n h l with Some a, Some b => Some (a :: b) | _, _ => None end
  end.
Lemma content_S n h r : content (S n) h r =
  match r with
  | RStk l => match nth_error h l with
              | Some (CStk ssh il) => match nth_error h il with
                                      | Some (CItems its) => match all n h its with Some x => Some (AStack ssh x) | None => None end
                                      | _ => None
                                      end
              | _ => None
              end
  | RSrc o l ks => match nth_error h l with Some (CData c) => Some (AAdapt o c ks) | _ => None end
  | RNode f ps => match all n h ps with Some x => Some (f x) | None => None end
  end.
Proof.
  assert (E : forall l, (fix all (l : list ref) : option (list barr) :=
        match l with
        | [] => Some []
        | r :: l => match content n h r, all l with Some a, Some b => Some (a :: b) | _, _ => None end
        end) l = all n h l) by (induction l as [|x l IH]; cbn; [|rewrite IH]; auto).
  cbn [content]. destruct r as [l|o l ks|f ps]; auto; [|rewrite E; auto]. destruct (nth_error h l) as [[ssh il| |]|]; auto.
  destruct (nth_error h il) as [[| its|]|]; auto. rewrite E. auto.
Qed.

(** An array depends only on the locations it reaches. *)
Lemma all_ext n h h' l : (forall r, In r l -> content n h' r = content n h r) -> all n h' l = all n h l.
Proof. induction l as [|r l IH]; intros H; cbn; auto. rewrite H by (simpl; auto). rewrite IH; auto. intros; apply H; simpl; auto. Qed.
Lemma reach_part h f ps p l : In p ps -> reach h p l -> reach h (RNode f ps) l.
Proof.
  intros Hp H. induction H as [l H|l c l' H IH E Hl].
  - apply reach_here. cbn. apply in_flat_map. eauto.
  - eapply reach_on; eauto.
Qed.
Lemma reach_item h s ssh il its p l : nth_error h s = Some (CStk ssh il) -> nth_error h il = Some (CItems its) -> In p its ->
  reach h p l -> reach h (RStk s) l.
Proof.
  intros E1 E2 Hp H. induction H as [l H|l c l' H IH E Hl].
  - eapply reach_on; [|exact E2|cbn; apply in_flat_map; eauto]. eapply reach_on; [|exact E1|cbn; auto]. apply reach_here. cbn. auto.
  - eapply reach_on; eauto.
Qed.
Lemma content_frame n : forall h h' r, (forall l, reach h r l -> nth_error h' l = nth_error h l) -> content n h' r = content n h r.
Proof.
  induction n as [|n IH]; intros h h' r H; auto. rewrite !content_S. destruct r as [l|o l ks|f ps].
  - rewrite H by (apply reach_here; cbn; auto). destruct (nth_error h l) as [[ssh il| |]|] eqn:E; auto.
    rewrite H by (eapply reach_on; [apply reach_here; cbn; auto|exact E|cbn; auto]). destruct (nth_error h il) as [[| its|]|] eqn:E2; auto.
    rewrite (all_ext n h h' its); auto. intros r Hr. apply IH. intros l' Hl'. apply H. eapply reach_item; eauto.
  - rewrite H by (apply reach_here; cbn; auto). auto.
  - rewrite (all_ext n h h' ps); auto. intros r Hr. apply IH. intros l' Hl'. apply H. eapply reach_part; eauto.
Qed.

(** More memory does not matter. *)
Definition extends (h h' : oheap) := exists e, h' = h ++ e.
Lemma extends_refl h : extends h h. Proof. exists []. rewrite app_nil_r; auto. Qed.
Lemma extends_trans a b c : extends a b -> extends b c -> extends a c.
Proof. intros [e ->] [e' ->]. exists (e ++ e'). rewrite app_assoc; auto. Qed.
Lemma extends_app a b : extends a (a ++ b). Proof. exists b. auto. Qed.
Lemma extends_nth h h' l c : extends h h' -> nth_error h l = Some c -> nth_error h' l = Some c.
Proof. intros [e ->] E. rewrite nth_error_app1; auto. apply nth_error_Some. congruence. Qed.
Lemma extends_length h h' : extends h h' -> length h <= length h'.
Proof. intros [e ->]. rewrite app_length. lia. Qed.
Lemma all_mono n h h' l x : (forall r a, In r l -> content n h r = Some a -> content n h' r = Some a) -> all n h l = Some x -> all n h' l = Some x.
Proof.
  revert x. induction l as [|r l IH]; intros x H E; cbn in *; auto. destruct (content n h r) as [a|] eqn:Ea; [|discriminate].
  destruct (all n h l) as [b|] eqn:Eb; [|discriminate]. rewrite (H r a) by auto. rewrite (IH b); auto.
Qed.
Lemma content_mono n : forall h h' r a, extends h h' -> content n h r = Some a -> content n h' r = Some a.
Proof.
  induction n as [|n IH]; intros h h' r a He E; [discriminate|]. rewrite content_S in *. destruct r as [l|o l ks|f ps].
  - destruct (nth_error h l) as [[ssh il| |]|] eqn:E1; try discriminate. rewrite (extends_nth _ _ _ _ He E1).
    destruct (nth_error h il) as [[| its|]|] eqn:E2; try discriminate. rewrite (extends_nth _ _ _ _ He E2).
    destruct (all n h its) as [x|] eqn:Ex; [|discriminate]. rewrite (all_mono n h h' its x); auto. intros; eapply IH; eauto.
  - destruct (nth_error h l) as [[| |c]|] eqn:E1; try discriminate. rewrite (extends_nth _ _ _ _ He E1). auto.
  - destruct (all n h ps) as [x|] eqn:Ex; [|discriminate]. rewrite (all_mono n h h' ps x); auto. intros; eapply IH; eauto.
Qed.

(** ** The copy *)
Section Copy.
Variable h0 : oheap.
Notation k0 := (length h0).
Definition same_as (h : oheap) (r r' : ref) : Prop := forall n a, content n h0 r = Some a -> content n h r' = Some a.
Definition above (h : oheap) (l : list nat) : Prop := Forall (fun i => k0 <= i < length h) l.
Definition good (st : cstate (V:=V)) : Prop :=
  extends h0 (fst st)
  /\ (forall i c, k0 <= i -> nth_error (fst st) i = Some c -> above (fst st) (cell_refs c))
  /\ (forall l l', memo_get l (snd st) = Some l' -> k0 <= l' < length (fst st) /\ same_as (fst st) (RStk l) (RStk l')
        /\ forall o ks, same_as (fst st) (RSrc o l ks) (RSrc o l' ks)).
Lemma same_ext h h' r r' : extends h h' -> same_as h r r' -> same_as h' r r'.
Proof. intros He H n a E. eapply content_mono; eauto. Qed.

Lemma above_ext h h' l : extends h h' -> above h l -> above h' l.
Proof. intros He H. apply extends_length in He. eapply Forall_impl; [|exact H]. cbn. intros; lia. Qed.

Definition step_ok (f : cstate -> ref -> res (cstate * ref)) : Prop := forall st r st' r', good st -> f st r = Ok (st', r') ->
  good st' /\ extends (fst st) (fst st') /\ same_as (fst st') r r' /\ above (fst st') (refs_of r').
Lemma copy_all_ok f : step_ok f -> forall l st st' l', good st -> copy_all f st l = Ok (st', l') ->
  good st' /\ extends (fst st) (fst st') /\ Forall2 (same_as (fst st')) l l' /\ above (fst st') (flat_map refs_of l').
Proof.
  intros Hf. induction l as [|r l IH]; intros st st' l' Hg E; cbn in E.
  - injection E as <- <-. split; auto. split; [apply extends_refl|]. split; constructor.
  - destruct (f st r) as [[st1 r1]|] eqn:E1; cbn in E; [|discriminate]. destruct (Hf _ _ _ _ Hg E1) as (G1 & X1 & S1 & A1).
    destruct (copy_all f st1 l) as [[st2 l2]|] eqn:E2; cbn in E; [|discriminate]. injection E as <- <-. destruct (IH _ _ _ G1 E2) as (G2 & X2 & S2 & A2).
    split; auto. split; [eapply extends_trans; eauto|]. split; [constructor; auto; eapply same_ext; eauto|].
    cbn. apply Forall_app. split; auto. eapply above_ext; eauto.
Qed.
Lemma all_same n h l l' x : Forall2 (same_as h) l l' -> all n h0 l = Some x -> all n h l' = Some x.
Proof.
  intros H. revert x. induction H as [|r r' l l' H1 H2 IH]; intros x E; cbn in *; auto.
  destruct (content n h0 r) as [a|] eqn:Ea; [|discriminate]. destruct (all n h0 l) as [b|]; [|discriminate]. rewrite (H1 _ _ Ea), (IH b); auto.
Qed.
Lemma dcopy_ok n : step_ok (dcopy n).
Proof.
  induction n as [|n IH]; intros st r st' r' Hg E; [discriminate|]. cbn [dcopy] in E. destruct r as [l|o l ks|f ps].
  - destruct (memo_get l (snd st)) as [l'|] eqn:Em.
    { injection E as <- <-. destruct Hg as (G1 & G2 & G3). destruct (G3 _ _ Em) as (A & B & C). split; [split; auto|]. split; [apply extends_refl|]. split; auto. constructor; auto. }
    destruct (nth_error (fst st) l) as [[ssh il| |]|] eqn:E1; try discriminate. destruct (nth_error (fst st) il) as [[| its|]|] eqn:E2; try discriminate.
    destruct (copy_all (dcopy n) st its) as [[st1 its']|] eqn:E3; cbn [bind] in E; [|discriminate]. cbn [fst snd] in E. injection E as <- <-.
    destruct (copy_all_ok _ IH _ _ _ _ Hg E3) as (G1 & X1 & S1 & A1). destruct st1 as [h1 m1]. cbn [fst snd] in *.
    set (h' := h1 ++ [CItems its'; CStk ssh (length h1)]). destruct G1 as (B1 & B2 & B3). cbn [fst snd] in *.
    assert (He : extends h1 h') by apply extends_app. pose proof (extends_length _ _ B1) as HL.
    assert (LH : length h' = 2 + length h1) by (unfold h'; rewrite app_length; cbn; lia).
    assert (N1 : nth_error h' (length h1) = Some (CItems its')) by (unfold h'; rewrite nth_error_app2, Nat.sub_diag by lia; auto).
    assert (N2 : nth_error h' (S (length h1)) = Some (CStk ssh (length h1))).
    { unfold h'. rewrite nth_error_app2 by lia. replace (S (length h1) - length h1) with 1 by lia. auto. }
    assert (SL : same_as h' (RStk l) (RStk (S (length h1)))).
    { intros [|n'] a Ea; [discriminate|]. rewrite content_S in *. rewrite N2, N1. destruct (nth_error h0 l) as [[ssh0 il0| |]|] eqn:F1; try discriminate.
      assert (F2 : nth_error (fst st) l = Some (CStk ssh0 il0)) by (eapply extends_nth; [apply Hg|auto]). rewrite E1 in F2. injection F2 as <- <-.
      destruct (nth_error h0 il) as [[| its0|]|] eqn:F3; try discriminate.
      assert (F4 : nth_error (fst st) il = Some (CItems its0)) by (eapply extends_nth; [apply Hg|auto]). rewrite E2 in F4. injection F4 as <-.
      destruct (all n' h0 its) as [x|] eqn:Ex; [|discriminate]. injection Ea as <-.
      rewrite (all_same n' h' its its' x); auto. eapply Forall2_impl; [|exact S1]. intros; eapply same_ext; eauto. }
    split; [split; [|split]|].
    + cbn [fst]. eapply extends_trans; eauto.
    + cbn [fst]. intros i c Hi Ei. unfold h' in Ei. destruct (Nat.lt_ge_cases i (length h1)) as [Hl|Hl].
      * rewrite nth_error_app1 in Ei by auto. eapply above_ext; eauto.
      * rewrite nth_error_app2 in Ei by auto. destruct (i - length h1) as [|[|j]] eqn:Ej; cbn in Ei; [injection Ei as <-; eapply above_ext; eauto|injection Ei as <-; constructor; [lia|constructor]|destruct j; discriminate].
    + cbn [fst snd]. intros k k' Ek. cbn [memo_get] in Ek. destruct (Nat.eqb_spec l k) as [->|Hk].
      * injection Ek as <-. split; [lia|]. split; auto. intros o ks [|n'] a Ea; [discriminate|]. rewrite content_S in *.
        destruct (nth_error h0 k) as [[| |c]|] eqn:F1; try discriminate. pose proof (extends_nth _ _ _ _ (proj1 Hg) F1). congruence.
      * destruct (Nat.eqb_spec il k) as [->|Hk2].
        -- injection Ek as <-. split; [lia|]. split; [|intros o ks]; intros [|n'] a Ea; try discriminate; rewrite content_S in *;
             (destruct (nth_error h0 k) as [[| |c]|] eqn:F1; try discriminate; pose proof (extends_nth _ _ _ _ (proj1 Hg) F1); congruence).
        -- destruct (B3 _ _ Ek) as (C1 & C2 & C3). split; [lia|]. split; [eapply same_ext; eauto|]. intros; eapply same_ext; eauto.
    + split; [cbn [fst]; eapply extends_trans; eauto|]. split; auto. cbn. constructor; [lia|constructor].
  - destruct (memo_get l (snd st)) as [l'|] eqn:Em.
    { injection E as <- <-. destruct Hg as (G1 & G2 & G3). destruct (G3 _ _ Em) as (A & B & C). split; [split; auto|]. split; [apply extends_refl|]. split; auto. constructor; auto. }
    destruct (nth_error (fst st) l) as [[| |c]|] eqn:E1; try discriminate. injection E as <- <-. destruct st as [h1 m1]. destruct Hg as (B1 & B2 & B3). cbn [fst snd] in *.
    set (h' := h1 ++ [CData c]). pose proof (extends_length _ _ B1) as HL.
    assert (He : extends h1 h') by apply extends_app.
    assert (LH : length h' = 1 + length h1) by (unfold h'; rewrite app_length; cbn; lia).
    assert (N1 : nth_error h' (length h1) = Some (CData c)) by (unfold h'; rewrite nth_error_app2, Nat.sub_diag by lia; auto).
    assert (SL : forall o ks, same_as h' (RSrc o l ks) (RSrc o (length h1) ks)).
    { intros o' ks' [|n'] a Ea; [discriminate|]. rewrite content_S in *. rewrite N1. destruct (nth_error h0 l) as [[| |c0]|] eqn:F1; try discriminate.
      pose proof (extends_nth _ _ _ _ B1 F1). congruence. }
    split; [split; [|split]|].
    + cbn [fst]. eapply extends_trans; eauto.
    + cbn [fst]. intros i c' Hi Ei. unfold h' in Ei. destruct (Nat.lt_ge_cases i (length h1)) as [Hl|Hl].
      * rewrite nth_error_app1 in Ei by auto. eapply above_ext; eauto.
      * rewrite nth_error_app2 in Ei by auto. destruct (i - length h1) as [|j] eqn:Ej; cbn in Ei; [injection Ei as <-; constructor|destruct j; discriminate].
    + cbn [fst snd]. intros k k' Ek. cbn [memo_get] in Ek. destruct (Nat.eqb_spec l k) as [->|Hk].
      * injection Ek as <-. split; [lia|]. split; auto. intros [|n'] a Ea; [discriminate|]. rewrite content_S in *.
        destruct (nth_error h0 k) as [[ssh il| |]|] eqn:F1; try discriminate. pose proof (extends_nth _ _ _ _ B1 F1). congruence.
      * destruct (B3 _ _ Ek) as (C1 & C2 & C3). split; [lia|]. split; [eapply same_ext; eauto|]. intros; eapply same_ext; eauto.
    + split; [auto|]. split; auto. cbn. constructor; [lia|constructor].
  - destruct (copy_all (dcopy n) st ps) as [[st1 ps']|] eqn:E3; cbn [bind] in E; [|discriminate]. injection E as <- <-.
    destruct (copy_all_ok _ IH _ _ _ _ Hg E3) as (G1 & X1 & S1 & A1). cbn [fst snd]. split; auto. split; auto. split; auto.
    intros [|n'] a Ea; [discriminate|]. rewrite content_S in *. destruct (all n' h0 ps) as [x|] eqn:Ex; [|discriminate].
    rewrite (all_same n' _ ps ps' x); auto.
Qed.
(** There is a copy. *)
Definition step_some (n : nat) (f : cstate (V:=V) -> ref -> res (cstate (V:=V) * ref)) : Prop := forall st r a, good st -> content n h0 r = Some a -> exists q, f st r = Ok q.
Lemma copy_all_some n f : step_ok f -> step_some n f -> forall l st x, good st -> all n h0 l = Some x -> exists q, copy_all f st l = Ok q.
Proof.
  intros H1 H2. induction l as [|r l IH]; intros st x Hg E; cbn in *; eauto.
  destruct (content n h0 r) as [a|] eqn:Ea; [|discriminate]. destruct (all n h0 l) as [b|] eqn:Eb; [|discriminate].
  destruct (H2 st r a Hg Ea) as [[st1 r1] E1]. rewrite E1. cbn [bind fst snd]. destruct (H1 _ _ _ _ Hg E1) as (G & _).
  destruct (IH st1 b G eq_refl) as [q' E2]. rewrite E2. cbn. eauto.
Qed.
Lemma dcopy_some n : step_some n (dcopy n).
Proof.
  induction n as [|n IH]; intros st r a Hg E; [discriminate|]. rewrite content_S in E. cbn [dcopy]. pose proof (proj1 Hg) as He. destruct r as [l|o l ks|f ps].
  - destruct (memo_get l (snd st)); eauto. destruct (nth_error h0 l) as [[ssh il| |]|] eqn:E1; try discriminate. rewrite (extends_nth _ _ _ _ He E1).
    destruct (nth_error h0 il) as [[| its|]|] eqn:E2; try discriminate. rewrite (extends_nth _ _ _ _ He E2).
    destruct (all n h0 its) as [x|] eqn:Ex; [|discriminate]. destruct (copy_all_some n _ (dcopy_ok n) IH its st x Hg Ex) as [q Eq]. rewrite Eq. cbn [bind]. eauto.
  - destruct (memo_get l (snd st)); eauto. destruct (nth_error h0 l) as [[| |c]|] eqn:E1; try discriminate. rewrite (extends_nth _ _ _ _ He E1). eauto.
  - destruct (all n h0 ps) as [x|] eqn:Ex; [|discriminate]. destruct (copy_all_some n _ (dcopy_ok n) IH ps st x Hg Ex) as [q Eq]. rewrite Eq. cbn [bind]. eauto.
Qed.
Lemma good_start : good (h0, []).
Proof.
  split; [apply extends_refl|]. split; cbn [fst snd]; [|discriminate]. intros i c Hi E. assert (i < k0) by (apply nth_error_Some; congruence). lia.
Qed.
End Copy.

Lemma deepcopy_total n (h : oheap) (r : ref) (a : barr) : content n h r = Some a -> exists h' r', deepcopy n h r = Ok (h', r').
Proof.
  intros E. destruct (dcopy_some h n (h, []) r a (good_start h) E) as [[st r'] Eq]. unfold deepcopy. rewrite Eq. cbn. eauto.
Qed.
Lemma deepcopy_spec n (h : oheap) r h' r' : deepcopy n h r = Ok (h', r') ->
  extends h h' /\ same_as h h' r r' /\ (forall l, reach h' r' l -> length h <= l < length h').
Proof.
  unfold deepcopy. intros E. destruct (dcopy n (h, []) r) as [[st x]|] eqn:Eq; cbn in E; [|discriminate]. injection E as <- <-.
  destruct (dcopy_ok h n _ _ _ _ (good_start h) Eq) as ((G1 & G2 & _) & X & S & A). cbn [fst snd] in *. split; auto. split; auto.
  intros l Hl. induction Hl as [l Hl|l c l' Hl IH E Hi].
  - unfold above in A. rewrite Forall_forall in A. auto.
  - specialize (G2 _ _ (proj1 IH) E). unfold above in G2. rewrite Forall_forall in G2. auto.
Qed.

(** ** The copy has the same sharing *)
Fixpoint rename (phi : nat -> nat) (r : ref) : ref :=
  match r with
  | RStk l => RStk (phi l)
  | RSrc o l ks => RSrc o (phi l) ks
  | RNode f ps => RNode f (map (rename phi) ps)
  end.
Section Sharing.
Variable h0 : oheap.
Definition phi_of (mm : memo) (l : nat) : nat := match memo_get l mm with Some l' => l' | None => 0 end.
Definition items_loc (l : nat) : Prop := exists its, nth_error h0 l = Some (CItems its).
Definition known (mm : memo) (r : ref) : Prop := forall l, In l (refs_of r) -> memo_get l mm <> None /\ ~ items_loc l.
Definition grows (mm mm' : memo) : Prop := forall l l', ~ items_loc l -> memo_get l mm = Some l' -> memo_get l mm' = Some l'.
Lemma grows_trans a b c : grows a b -> grows b c -> grows a c.
Proof. intros H1 H2 l l' Hn E. auto. Qed.
Lemma known_grows mm mm' r : grows mm mm' -> known mm r -> known mm' r /\ rename (phi_of mm') r = rename (phi_of mm) r.
Proof.
  intros HG. induction r as [l|o l ks|f ps IH] using ref_ind2; intros HK.
  - destruct (HK l ltac:(cbn; auto)) as [H1 H2]. destruct (memo_get l mm) as [l'|] eqn:E; [|congruence]. pose proof (HG _ _ H2 E) as E'.
    split; [intros l1 [<-|[]]; split; congruence|]. cbn. unfold phi_of. rewrite E, E'. auto.
  - destruct (HK l ltac:(cbn; auto)) as [H1 H2]. destruct (memo_get l mm) as [l'|] eqn:E; [|congruence]. pose proof (HG _ _ H2 E) as E'.
    split; [intros l1 [<-|[]]; split; congruence|]. cbn. unfold phi_of. rewrite E, E'. auto.
  - assert (HP : forall p, In p ps -> known mm' p /\ rename (phi_of mm') p = rename (phi_of mm) p).
    { intros p Hp. rewrite Forall_forall in IH. apply IH; auto. intros l Hl. apply HK. cbn. apply in_flat_map. eauto. }
    split.
    + intros l Hl. cbn in Hl. apply in_flat_map in Hl as (p & Hp & Hl). apply HP in Hp. apply Hp; auto.
    + cbn. f_equal. apply map_ext_in. intros p Hp. apply HP; auto.
Qed.
(** What is at the copy of [l]. *)
Definition image (h : oheap) (mm : memo) (l l' : nat) : Prop :=
  match nth_error h0 l with
  | Some (CStk ssh il) => exists its il', nth_error h0 il = Some (CItems its) /\ nth_error h l' = Some (CStk ssh il')
                          /\ nth_error h il' = Some (CItems (map (rename (phi_of mm)) its)) /\ Forall (known mm) its
  | Some (CData c) => nth_error h l' = Some (CData c)
  | Some (CItems _) => True
  | None => False
  end.
Definition good2 (st : cstate (V:=V)) : Prop :=
  extends h0 (fst st)
  /\ (forall l l', memo_get l (snd st) = Some l' -> l' < length (fst st) /\ image (fst st) (snd st) l l')
  /\ (forall l1 l2 l', memo_get l1 (snd st) = Some l' -> memo_get l2 (snd st) = Some l' -> l1 = l2).
Lemma image_mono h h' mm mm' l l' : extends h h' -> grows mm mm' -> image h mm l l' -> image h' mm' l l'.
Proof.
  intros He HG H. unfold image in *. destruct (nth_error h0 l) as [[ssh il| |c]|]; auto; [|eapply extends_nth; eauto].
  destruct H as (its & il' & A & B & C & D). exists its, il'. split; auto. split; [eapply extends_nth; eauto|]. 
  assert (D2 : forall p, In p its -> known mm' p /\ rename (phi_of mm') p = rename (phi_of mm) p).
  { intros p Hp. rewrite Forall_forall in D. apply known_grows; auto. }
  split.
  - rewrite (map_ext_in _ (rename (phi_of mm)) its) by (intros p Hp; apply D2; auto). eapply extends_nth; eauto.
  - apply Forall_forall. intros p Hp. apply D2; auto.
Qed.
Definition step2 (n : nat) (f : cstate (V:=V) -> ref -> res (cstate (V:=V) * ref)) : Prop := forall st r st' r' a, good2 st -> content n h0 r = Some a -> f st r = Ok (st', r') ->
  good2 st' /\ extends (fst st) (fst st') /\ grows (snd st) (snd st') /\ known (snd st') r /\ r' = rename (phi_of (snd st')) r.
Lemma copy_all2 n f : step2 n f -> forall l st st' l' x, good2 st -> all n h0 l = Some x -> copy_all f st l = Ok (st', l') ->
  good2 st' /\ extends (fst st) (fst st') /\ grows (snd st) (snd st') /\ Forall (known (snd st')) l /\ l' = map (rename (phi_of (snd st'))) l.
Proof.
  intros Hf. induction l as [|r l IH]; intros st st' l' x Hg Ex E; cbn in E.
  - injection E as <- <-. split; auto. split; [apply extends_refl|]. split; [intros ? ? _ ?; auto|]. split; auto.
  - cbn in Ex. destruct (content n h0 r) as [a|] eqn:Ea; [|discriminate]. destruct (all n h0 l) as [b|] eqn:Eb; [|discriminate].
    destruct (f st r) as [[st1 r1]|] eqn:E1; cbn in E; [|discriminate]. destruct (Hf _ _ _ _ _ Hg Ea E1) as (G1 & X1 & W1 & K1 & R1).
    destruct (copy_all f st1 l) as [[st2 l2]|] eqn:E2; cbn in E; [|discriminate]. injection E as <- <-. destruct (IH _ _ _ _ G1 eq_refl E2) as (G2 & X2 & W2 & K2 & R2).
    destruct (known_grows _ _ r W2 K1) as [K3 K4].
    split; auto. split; [eapply extends_trans; eauto|]. split; [eapply grows_trans; eauto|]. split; auto. cbn. rewrite K4. congruence.
Qed.
(** A stack does not hold itself: what is copied on the way is nested less deep. *)
Lemma all_fuel n : (forall r a, content n h0 r = Some a -> content (S n) h0 r = Some a) -> forall l x, all n h0 l = Some x -> all (S n) h0 l = Some x.
Proof.
  intros H. induction l as [|r l IH]; intros x E; cbn [all] in *; auto. destruct (content n h0 r) as [a|] eqn:Ea; [|discriminate].
  destruct (all n h0 l) as [b|]; [|discriminate]. rewrite (H _ _ Ea), (IH b); auto.
Qed.
Lemma content_fuel n : forall r a, content n h0 r = Some a -> content (S n) h0 r = Some a.
Proof.
  induction n as [|n IH]; intros r a E; [discriminate|]. rewrite content_S in *. destruct r as [l|o l ks|f ps]; auto.
  - destruct (nth_error h0 l) as [[ssh il| |]|]; auto. destruct (nth_error h0 il) as [[| its|]|]; auto.
    destruct (all n h0 its) as [x|] eqn:Ex; [|discriminate]. rewrite (all_fuel n IH its x); auto.
  - destruct (all n h0 ps) as [x|] eqn:Ex; [|discriminate]. rewrite (all_fuel n IH ps x); auto.
Qed.
Lemma least_fuel n : forall r a, content n h0 r = Some a -> exists m b, content (S m) h0 r = Some b /\ content m h0 r = None.
Proof. induction n as [|n IH]; intros r a E; [discriminate|]. destruct (content n h0 r) as [b|] eqn:Eb; eauto. Qed.
Definition adds (st st' : cstate (V:=V)) (m : nat) : Prop := forall k ssh il, nth_error h0 k = Some (CStk ssh il) -> memo_get k (snd st) = None ->
  memo_get k (snd st') <> None -> content m h0 (RStk k) <> None.
Definition new_ok (f : cstate (V:=V) -> ref -> res (cstate (V:=V) * ref)) : Prop := forall st r st' r', extends h0 (fst st) -> f st r = Ok (st', r') ->
  extends h0 (fst st') /\ forall m a, content m h0 r = Some a -> adds st st' m.
Lemma new_all (n : nat) f : new_ok f -> forall l st st' l', extends h0 (fst st) -> copy_all f st l = Ok (st', l') ->
  extends h0 (fst st') /\ forall m x, all m h0 l = Some x -> adds st st' m.
Proof.
  intros Hf. induction l as [|r l IH]; intros st st' l' Hg E; cbn in E.
  - injection E as <- <-. split; auto. intros m x _ k ssh il _ A B. congruence.
  - destruct (f st r) as [[st1 r1]|] eqn:E1; cbn in E; [|discriminate]. destruct (Hf _ _ _ _ Hg E1) as (X1 & N1).
    destruct (copy_all f st1 l) as [[st2 l2]|] eqn:E2; cbn in E; [|discriminate]. injection E as <- <-. destruct (IH _ _ _ X1 E2) as (X2 & N2).
    split; auto. intros m x Ex k ssh il Ek A B. cbn [all] in Ex. destruct (content m h0 r) as [a|] eqn:Ea; [|discriminate]. destruct (all m h0 l) as [b|] eqn:Eb; [|discriminate].
    destruct (memo_get k (snd st1)) as [k'|] eqn:E3; [apply (N1 m a Ea k ssh il); auto; congruence|apply (N2 m b Eb k ssh il); auto].
Qed.
Lemma new_entries n : new_ok (dcopy n).
Proof.
  induction n as [|n IH]; intros st r st' r' He0 E; [discriminate|]. cbn [dcopy] in E. destruct r as [l|o l ks|f ps].
  - destruct (memo_get l (snd st)) as [l'|] eqn:Em. { injection E as <- <-. split; auto. intros m x _ k ssh il _ A B. congruence. }
    destruct (nth_error (fst st) l) as [[ssh il| |]|] eqn:E1; try discriminate. destruct (nth_error (fst st) il) as [[| its|]|] eqn:E2; try discriminate.
    destruct (copy_all (dcopy n) st its) as [[st1 its']|] eqn:E3; cbn [bind] in E; [|discriminate]. injection E as <- <-. cbn [fst snd].
    destruct (new_all n _ IH _ _ _ _ He0 E3) as (X1 & N1). split; [eapply extends_trans; [exact X1|apply extends_app]|].
    intros [|m] a Ea k ssh' il'' Ek A B; [discriminate|]. cbn [fst snd] in B. cbn [memo_get] in B. destruct (Nat.eqb_spec l k) as [->|Hk]; [congruence|].
    rewrite content_S in Ea. destruct (nth_error h0 l) as [[ssh1 il1| |]|] eqn:F1; try discriminate. pose proof (extends_nth _ _ _ _ He0 F1) as F1'. rewrite E1 in F1'. injection F1' as <- <-.
    destruct (nth_error h0 il) as [[| its1|]|] eqn:F2; try discriminate. pose proof (extends_nth _ _ _ _ He0 F2) as F2'. rewrite E2 in F2'. injection F2' as <-.
    destruct (all m h0 its) as [x|] eqn:Ex; [|discriminate].
    destruct (Nat.eqb_spec il k) as [->|Hk2]; [congruence|]. pose proof (N1 m x Ex k ssh' il'' Ek A B) as HC.
    destruct (content m h0 (RStk k)) as [y|] eqn:Ey; [|congruence]. rewrite (content_fuel _ _ _ Ey). discriminate.
  - destruct (memo_get l (snd st)) as [l'|] eqn:Em. { injection E as <- <-. split; auto. intros m x _ k ssh il _ A B. congruence. }
    destruct (nth_error (fst st) l) as [[| |c]|] eqn:E1; try discriminate. injection E as <- <-. cbn [fst snd].
    split; [eapply extends_trans; [exact He0|apply extends_app]|].
    intros [|m] a Ea k ssh' il'' Ek A B; [discriminate|]. cbn [fst snd] in B. cbn [memo_get] in B. destruct (Nat.eqb_spec l k) as [->|Hk]; [|congruence].
    rewrite content_S, Ek in Ea. discriminate.
  - destruct (copy_all (dcopy n) st ps) as [[st1 ps']|] eqn:E3; cbn [bind] in E; [|discriminate]. injection E as <- <-. cbn [fst snd].
    destruct (new_all n _ IH _ _ _ _ He0 E3) as (X1 & N1). split; auto. intros [|m] a Ea k ssh' il'' Ek A B; [discriminate|]. rewrite content_S in Ea.
    destruct (all m h0 ps) as [x|] eqn:Ex; [|discriminate]. pose proof (N1 m x Ex k ssh' il'' Ek A B) as HC.
    destruct (content m h0 (RStk k)) as [y|] eqn:Ey; [|congruence]. rewrite (content_fuel _ _ _ Ey). discriminate.
Qed.
Lemma dcopy2 n : step2 n (dcopy n).
Proof.
  induction n as [|n IH]; intros st r st' r' a Hg Ea E; [discriminate|]. rewrite content_S in Ea. cbn [dcopy] in E. pose proof (proj1 Hg) as He0. destruct r as [l|o l ks|f ps].
  - destruct (nth_error h0 l) as [[ssh il| |]|] eqn:F1; try discriminate. assert (NI : ~ items_loc l) by (intros [x Hx]; congruence).
    destruct (memo_get l (snd st)) as [l'|] eqn:Em.
    { injection E as <- <-. split; auto. split; [apply extends_refl|]. split; [intros ? ? _ ?; auto|]. split; [intros l1 [<-|[]]; split; congruence|]. cbn. unfold phi_of. rewrite Em. auto. }
    rewrite (extends_nth _ _ _ _ He0 F1) in E. destruct (nth_error h0 il) as [[| its|]|] eqn:F2; try discriminate. rewrite (extends_nth _ _ _ _ He0 F2) in E.
    destruct (all n h0 its) as [x|] eqn:Ex; [|discriminate].
    destruct (copy_all (dcopy n) st its) as [[st1 its']|] eqn:E3; cbn [bind] in E; [|discriminate]. cbn [fst snd] in E. injection E as <- <-.
    destruct (copy_all2 n _ IH _ _ _ _ _ Hg Ex E3) as (G1 & X1 & W1 & K1 & R1). destruct st1 as [h1 m1]. cbn [fst snd] in *.
    destruct G1 as (B1 & B2 & B3). cbn [fst snd] in *.
    set (h' := h1 ++ [CItems its'; CStk ssh (length h1)]). set (mm := (l, S (length h1)) :: (il, length h1) :: m1).
    assert (He : extends h1 h') by apply extends_app.
    assert (LH : length h' = 2 + length h1) by (unfold h'; rewrite app_length; cbn; lia).
    assert (N1 : nth_error h' (length h1) = Some (CItems its')) by (unfold h'; rewrite nth_error_app2, Nat.sub_diag by lia; auto).
    assert (N2 : nth_error h' (S (length h1)) = Some (CStk ssh (length h1))).
    { unfold h'. rewrite nth_error_app2 by lia. replace (S (length h1) - length h1) with 1 by lia. auto. }
    assert (NO : memo_get l m1 = None -> grows m1 mm).
    { intros HN k k' Hk Ek. unfold mm. cbn [memo_get]. destruct (Nat.eqb_spec l k) as [->|]; [congruence|]. destruct (Nat.eqb_spec il k) as [->|]; auto. exfalso. apply Hk. exists its. auto. }
    assert (HN : memo_get l m1 = None).
    { destruct (memo_get l m1) as [l1|] eqn:E1; auto. exfalso.
      destruct (least_fuel (S n) (RStk l) a) as (m & b & M1 & M2). { rewrite content_S, F1, F2, Ex. auto. }
      rewrite content_S, F1, F2 in M1. destruct (all m h0 its) as [y|] eqn:Ey; [|discriminate].
      destruct (new_all n _ (new_entries n) its st (h1, m1) its' He0 E3) as [_ HN].
      apply (HN m y Ey l ssh il F1 Em); [cbn; congruence|auto]. }
    assert (HG : grows m1 mm) by auto.
    assert (KI : Forall (known mm) its /\ its' = map (rename (phi_of mm)) its).
    { rewrite Forall_forall in K1. split.
      - apply Forall_forall. intros p Hp. apply (known_grows m1); auto.
      - rewrite R1. apply map_ext_in. intros p Hp. symmetry. apply (known_grows m1); auto. }
    destruct KI as [KI1 KI2].
    assert (ML : memo_get l mm = Some (S (length h1))) by (unfold mm; cbn; rewrite Nat.eqb_refl; auto).
    split; [split; [|split]|].
    + cbn [fst]. eapply extends_trans; eauto.
    + cbn [fst snd]. intros k k' Ek. unfold mm in Ek. cbn [memo_get] in Ek. destruct (Nat.eqb_spec l k) as [->|Hk].
      * injection Ek as <-. split; [lia|]. unfold image. rewrite F1. exists its, (length h1). split; auto. split; auto. split; auto. rewrite N1, KI2. auto.
      * destruct (Nat.eqb_spec il k) as [->|Hk2].
        -- injection Ek as <-. split; [lia|]. unfold image. rewrite F2. auto.
        -- destruct (B2 _ _ Ek) as [C1 C2]. split; [lia|]. eapply image_mono; eauto.
    + cbn [fst snd]. unfold mm. cbn [memo_get]. intros k1 k2 k' Ek1 Ek2.
      assert (OLD : forall k, memo_get k m1 = Some k' -> k' < length h1) by (intros k Ek; apply B2 in Ek; tauto).
      destruct (Nat.eqb_spec l k1) as [A1|A1], (Nat.eqb_spec l k2) as [A2|A2]; try congruence;
        destruct (Nat.eqb_spec il k1) as [C1|C1], (Nat.eqb_spec il k2) as [C2|C2]; try congruence;
        try (injection Ek1 as <-); try (injection Ek2 as Ek2); try (apply OLD in Ek2; lia); try (apply OLD in Ek1; lia); try lia. eauto.
    + split; [cbn [fst]; eapply extends_trans; eauto|]. split; [cbn [snd]; eapply grows_trans; eauto|]. cbn [snd]. split.
      * intros l1 [<-|[]]. split; congruence.
      * cbn. unfold phi_of. rewrite ML. auto.
  - destruct (nth_error h0 l) as [[| |c]|] eqn:F1; try discriminate. assert (NI : ~ items_loc l) by (intros [x Hx]; congruence).
    destruct (memo_get l (snd st)) as [l'|] eqn:Em.
    { injection E as <- <-. split; auto. split; [apply extends_refl|]. split; [intros ? ? _ ?; auto|]. split; [intros l1 [<-|[]]; split; congruence|]. cbn. unfold phi_of. rewrite Em. auto. }
    rewrite (extends_nth _ _ _ _ He0 F1) in E. injection E as <- <-. destruct st as [h1 m1]. destruct Hg as (B1 & B2 & B3). cbn [fst snd] in *.
    set (h' := h1 ++ [CData c]). set (mm := (l, length h1) :: m1).
    assert (He : extends h1 h') by apply extends_app.
    assert (LH : length h' = 1 + length h1) by (unfold h'; rewrite app_length; cbn; lia).
    assert (N1 : nth_error h' (length h1) = Some (CData c)) by (unfold h'; rewrite nth_error_app2, Nat.sub_diag by lia; auto).
    assert (HG : grows m1 mm).
    { intros k k' Hk Ek. unfold mm. cbn [memo_get]. destruct (Nat.eqb_spec l k) as [->|]; auto. congruence. }
    assert (ML : memo_get l mm = Some (length h1)) by (unfold mm; cbn; rewrite Nat.eqb_refl; auto).
    split; [split; [|split]|].
    + cbn [fst]. eapply extends_trans; eauto.
    + cbn [fst snd]. intros k k' Ek. unfold mm in Ek. cbn [memo_get] in Ek. destruct (Nat.eqb_spec l k) as [->|Hk].
      * injection Ek as <-. split; [lia|]. unfold image. rewrite F1. auto.
      * destruct (B2 _ _ Ek) as [C1 C2]. split; [lia|]. eapply image_mono; eauto.
    + cbn [fst snd]. unfold mm. cbn [memo_get]. intros k1 k2 k' Ek1 Ek2.
      assert (OLD : forall k, memo_get k m1 = Some k' -> k' < length h1) by (intros k Ek; apply B2 in Ek; tauto).
      destruct (Nat.eqb_spec l k1) as [A1|A1], (Nat.eqb_spec l k2) as [A2|A2]; try congruence;
        try (injection Ek1 as <-); try (injection Ek2 as Ek2); try (apply OLD in Ek2; lia); try (apply OLD in Ek1; lia); try lia. eauto.
    + split; auto. split; auto. cbn [snd]. split.
      * intros l1 [<-|[]]. split; congruence.
      * cbn. unfold phi_of. rewrite ML. auto.
  - destruct (all n h0 ps) as [x|] eqn:Ex; [|discriminate].
    destruct (copy_all (dcopy n) st ps) as [[st1 ps']|] eqn:E3; cbn [bind] in E; [|discriminate]. injection E as <- <-.
    destruct (copy_all2 n _ IH _ _ _ _ _ Hg Ex E3) as (G1 & X1 & W1 & K1 & R1). cbn [fst snd]. split; auto. split; auto. split; auto. split.
    + intros l Hl. cbn in Hl. apply in_flat_map in Hl as (p & Hp & Hl). rewrite Forall_forall in K1. apply (K1 p Hp); auto.
    + cbn. congruence.
Qed.
Lemma good2_start : good2 (h0, []).
Proof. split; [apply extends_refl|]. split; cbn; discriminate. Qed.
End Sharing.

Lemma reach_known (h0 : oheap) mm r l : (forall k k', memo_get k mm = Some k' -> forall ssh il, nth_error h0 k = Some (CStk ssh il) ->
    exists its, nth_error h0 il = Some (CItems its) /\ Forall (known h0 mm) its) -> known h0 mm r -> reach h0 r l ->
  (memo_get l mm <> None /\ ~ items_loc h0 l) \/ (exists its, nth_error h0 l = Some (CItems its) /\ Forall (known h0 mm) its).
Proof.
  intros HM HK H. induction H as [l H|l c l' H IH E Hi]; [left; apply HK; auto|]. destruct IH as [[IH1 IH2]|(its & IH1 & IH2)].
  - destruct (memo_get l mm) as [k'|] eqn:Ek; [|congruence]. destruct c as [ssh il|its|c]; [|exfalso; apply IH2; exists its; auto|destruct Hi].
    destruct Hi as [<-|[]]. right. eapply HM; eauto.
  - rewrite IH1 in E. injection E as <-. cbn in Hi. apply in_flat_map in Hi as (p & Hp & Hi). left. rewrite Forall_forall in IH2. apply (IH2 p Hp); auto.
Qed.
Lemma deepcopy_shape n (h : oheap) r a h' r' : content n h r = Some a -> deepcopy n h r = Ok (h', r') ->
  exists phi, r' = rename phi r
  /\ (forall l, reach h r l -> match nth_error h l with
       | Some (CStk ssh il) => exists its il', nth_error h il = Some (CItems its) /\ nth_error h' (phi l) = Some (CStk ssh il')
                               /\ nth_error h' il' = Some (CItems (map (rename phi) its))
       | Some (CData c) => nth_error h' (phi l) = Some (CData c)
       | Some (CItems _) => True
       | None => False
       end)
  /\ (forall l1 l2, reach h r l1 -> reach h r l2 -> ~ items_loc h l1 -> ~ items_loc h l2 -> phi l1 = phi l2 -> l1 = l2).
Proof.
  intros Ea E. unfold deepcopy in E. destruct (dcopy n (h, []) r) as [[[h1 mm] x]|] eqn:Eq; cbn in E; [|discriminate]. injection E as <- <-.
  destruct (dcopy2 h n _ _ _ _ _ (good2_start h) Ea Eq) as ((G1 & G2 & G3) & _ & _ & K & R). cbn [fst snd] in *. exists (phi_of mm). split; auto.
  assert (RK : forall l, reach h r l -> (memo_get l mm <> None /\ ~ items_loc h l) \/ (exists its, nth_error h l = Some (CItems its) /\ Forall (known h mm) its)).
  { intros l. apply reach_known; auto. intros k k' Ek ssh il F. destruct (G2 _ _ Ek) as [_ I]. unfold image in I. rewrite F in I. destruct I as (its & il' & A & _ & _ & D). eauto. }
  split.
  - intros l Hl. destruct (RK l Hl) as [[H1 H2]|(its & H1 & _)]; [|rewrite H1; auto]. destruct (memo_get l mm) as [l'|] eqn:Em; [|congruence].
    destruct (G2 _ _ Em) as [_ I]. unfold image in I. unfold phi_of at 1 3. rewrite Em. destruct (nth_error h l) as [[ssh il| |c]|]; auto.
    destruct I as (its & il' & A & B & C & D). exists its, il'. auto.
  - intros l1 l2 H1 H2 N1 N2 EP. destruct (RK l1 H1) as [[A1 _]|(? & A1 & _)]; [|exfalso; apply N1; eexists; eauto]. destruct (RK l2 H2) as [[A2 _]|(? & A2 & _)]; [|exfalso; apply N2; eexists; eauto].
    unfold phi_of in EP. destruct (memo_get l1 mm) as [k1|] eqn:E1; [|congruence]. destruct (memo_get l2 mm) as [k2|] eqn:E2; [|congruence]. subst. eauto.
Qed.

(** ** Programs *)
Definition in_memory (h : oheap) (xs : list ref) : Prop := forall x l, In x xs -> reach h x l -> l < length h.
Definition apart (h : oheap) (xs ys : list ref) : Prop := forall x y l, In x xs -> In y ys -> reach h x l -> ~ reach h y l.

Section Step.
Variables (h h' : oheap) (xs xs' ys : list ref).
Notation R := (fun l => exists x, In x xs /\ reach h x l).
Notation N := (fun l => length h <= l < length h').
Hypothesis H1 : length h <= length h'.
Hypothesis H2 : forall l, l < length h -> ~ R l -> nth_error h' l = nth_error h l.
Hypothesis H3 : forall l c, nth_error h' l = Some c -> R l \/ length h <= l -> Forall (fun l' => R l' \/ N l') (cell_refs c).
Hypothesis H4 : forall x, In x xs' -> Forall (fun l => R l \/ N l) (refs_of x).
Lemma step_reach x l : In x xs' -> reach h' x l -> R l \/ N l.
Proof.
  intros Hx Hl. induction Hl as [l Hl|l c l' Hl IH E Hi].
  - specialize (H4 x Hx). rewrite Forall_forall in H4. auto.
  - assert (HR : R l \/ length h <= l) by (destruct IH as [?|?]; [left; auto|right; lia]). specialize (H3 l c E HR). rewrite Forall_forall in H3. auto.
Qed.
Hypothesis HI : in_memory h ys.
Hypothesis HA : apart h xs ys.
Lemma other_same y l : In y ys -> reach h y l -> nth_error h' l = nth_error h l.
Proof. intros Hy Hl. apply H2; [eapply HI; eauto|]. intros (x & Hx & Hr). eapply HA; eauto. Qed.
Lemma other_reach y l : In y ys -> reach h' y l -> reach h y l.
Proof.
  intros Hy Hl. induction Hl as [l Hl|l c l' Hl IH E Hi]; [apply reach_here; auto|].
  eapply reach_on; eauto. rewrite <- E. symmetry. eapply other_same; eauto.
Qed.
Lemma step_apart : in_memory h xs -> in_memory h' xs' /\ in_memory h' ys /\ apart h' xs' ys /\ forall y n, In y ys -> content n h' y = content n h y.
Proof.
  intros HX. split; [|split; [|split]].
  - intros x l Hx Hl. destruct (step_reach x l Hx Hl) as [(x0 & A & B)|?]; [|lia]. specialize (HX _ _ A B). lia.
  - intros y l Hy Hl. apply other_reach in Hl; auto. specialize (HI _ _ Hy Hl). lia.
  - intros x y l Hx Hy Hlx Hly. apply other_reach in Hly; auto. destruct (step_reach x l Hx Hlx) as [(x0 & A & B)|?].
    + eapply HA; eauto.
    + specialize (HI _ _ Hy Hly). lia.
  - intros y n Hy. apply content_frame. intros l Hl. eapply other_same; eauto.
Qed.
End Step.

Lemma nth_error_set_neq {A} (l : list A) i j x : i <> j -> nth_error (set_nth i x l) j = nth_error l j.
Proof. revert i j. induction l as [|y l IH]; intros [|i] [|j] H; cbn; auto; congruence. Qed.
Lemma nth_error_set_eq {A} (l : list A) i x c : nth_error (set_nth i x l) i = Some c -> c = x.
Proof. revert i. induction l as [|y l IH]; intros [|i] H; cbn in H; try congruence. eauto. Qed.
Lemma vars_in (xs : list ref) ks ps : vars xs ks = Some ps -> forall p, In p ps -> In p xs.
Proof.
  revert ps. induction ks as [|k ks IH]; intros ps E p Hp; cbn in E; [injection E as <-; destruct Hp|].
  destruct (nth_error xs k) as [x|] eqn:Ex; [|discriminate]. destruct (vars xs ks) as [l|]; [|discriminate]. injection E as <-.
  destruct Hp as [<-|Hp]; [eapply nth_error_In; eauto|eauto].
Qed.
Lemma set_nth_in {A} (l : list A) i x y : In y (set_nth i x l) -> y = x \/ In y l.
Proof.
  revert i. induction l as [|z l IH]; intros [|i] H; cbn in H; try (destruct H as [<-|H]; simpl; auto; fail); try destruct H; subst; simpl; auto.
  destruct (IH _ H); auto.
Qed.

(** What one program does leaves the arrays of the other as they are. *)
Lemma program_step (h : oheap) xs ys o : in_memory h xs -> in_memory h ys -> apart h xs ys ->
  let s := orun1 (h, xs) o in
  in_memory (fst s) (snd s) /\ in_memory (fst s) ys /\ apart (fst s) (snd s) ys
  /\ forall y n, In y ys -> content n (fst s) y = content n h y.
Proof.
  intros HX HY HA. cbv zeta.
  assert (RX : forall x l, In x xs -> In l (refs_of x) -> exists x0, In x0 xs /\ reach h x0 l) by (intros x l Hx Hl; exists x; split; auto; apply reach_here; auto).
  assert (RC : forall l c l', (exists x, In x xs /\ reach h x l) -> nth_error h l = Some c -> In l' (cell_refs c) -> exists x, In x xs /\ reach h x l').
  { intros l c l' (x & Hx & Hr) E Hi. exists x. split; auto. eapply reach_on; eauto. }
  assert (NB : in_memory h xs /\ in_memory h ys /\ apart h xs ys /\ (forall y n, In y ys -> content n h y = content n h y)) by auto.
  assert (GROW : forall e new, (forall c, In c e -> forall l', In l' (cell_refs c) -> (exists x, In x xs /\ reach h x l') \/ length h <= l' < length (h ++ e)) ->
    (forall x, In x new -> forall l', In l' (refs_of x) -> (exists x0, In x0 xs /\ reach h x0 l') \/ length h <= l' < length (h ++ e)) ->
    in_memory (h ++ e) (xs ++ new) /\ in_memory (h ++ e) ys /\ apart (h ++ e) (xs ++ new) ys /\ forall y n, In y ys -> content n (h ++ e) y = content n h y).
  { intros e new He Hn. apply (step_apart h (h ++ e) xs (xs ++ new) ys); auto.
    - rewrite app_length. lia.
    - intros l Hl _. rewrite nth_error_app1; auto.
    - intros l c E HR. apply Forall_forall. intros l' Hl'. destruct (Nat.lt_ge_cases l (length h)) as [Hl|Hl].
      + rewrite nth_error_app1 in E by auto. left. destruct HR as [HR|HR]; [|lia]. eapply RC; eauto.
      + rewrite nth_error_app2 in E by auto. apply nth_error_In in E. eauto.
    - intros x Hx. apply Forall_forall. intros l' Hl'. apply in_app_or in Hx. destruct Hx as [Hx|Hx]; [left; eauto|eauto]. }
  assert (WRITE : forall l0 c0, (exists x, In x xs /\ reach h x l0) -> (forall l', In l' (cell_refs c0) -> exists x, In x xs /\ reach h x l') ->
    in_memory (set_nth l0 c0 h) xs /\ in_memory (set_nth l0 c0 h) ys /\ apart (set_nth l0 c0 h) xs ys /\ forall y n, In y ys -> content n (set_nth l0 c0 h) y = content n h y).
  { intros l0 c0 HR Hc. apply (step_apart h (set_nth l0 c0 h) xs xs ys); auto.
    - rewrite set_nth_length. auto.
    - intros l Hl Hn. apply nth_error_set_neq. intros ->. auto.
    - intros l c E HRl. apply Forall_forall. intros l' Hl'. left. destruct (Nat.eq_dec l0 l) as [->|Hne].
      + apply nth_error_set_eq in E. subst. auto.
      + rewrite nth_error_set_neq in E by auto. destruct HRl as [HRl|HRl]; [eapply RC; eauto|].
        assert (l < length h) by (apply nth_error_Some; congruence). lia.
    - intros x Hx. apply Forall_forall. intros l' Hl'. left. eauto. }
  destruct o as [f ks|o c|ssh ks|k|k p j|k c]; cbn [orun1].
  - destruct (vars xs ks) as [ps|] eqn:Ev; cbn [fst snd]; auto. pose proof (GROW [] [RNode f ps]) as G. rewrite app_nil_r in G. apply G; [intros c []|].
    intros x [<-|[]] l' Hl'. left. cbn in Hl'. apply in_flat_map in Hl' as (p & Hp & Hl'). eapply RX; [eapply vars_in; eauto|auto].
  - cbn [fst snd]. apply GROW; [intros c' [<-|[]] l' []|]. intros x [<-|[]] l' [<-|[]]. right. rewrite app_length. cbn. lia.
  - destruct (vars xs ks) as [ps|] eqn:Ev; cbn [fst snd]; auto. apply GROW.
    + intros c [<-|[<-|[]]] l' Hl'; cbn in Hl'.
      * left. apply in_flat_map in Hl' as (p & Hp & Hl'). eapply RX; [eapply vars_in; eauto|auto].
      * destruct Hl' as [<-|[]]. right. rewrite app_length. cbn. lia.
    + intros x [<-|[]] l' [<-|[]]. right. rewrite app_length. cbn. lia.
  - destruct (nth_error xs k) as [[l| |]|] eqn:Ek; cbn [fst snd]; auto. destruct (nth_error h l) as [[ssh il| |]|] eqn:El; cbn [fst snd]; auto.
    apply nth_error_In in Ek. apply GROW.
    + intros c [<-|[]] l' [<-|[]]. left. eapply RC; [eapply RX; [exact Ek|cbn; auto]|exact El|cbn; auto].
    + intros x [<-|[]] l' [<-|[]]. right. rewrite app_length. cbn. lia.
  - destruct (nth_error xs k) as [[l| |]|] eqn:Ek; cbn [fst snd]; auto. destruct (nth_error xs j) as [y|] eqn:Ej; cbn [fst snd]; auto.
    destruct (nth_error h l) as [[ssh il| |]|] eqn:El; cbn [fst snd]; auto. destruct (nth_error h il) as [[| its|]|] eqn:Ei; cbn [fst snd]; auto.
    apply nth_error_In in Ek. apply nth_error_In in Ej.
    assert (HR : exists x, In x xs /\ reach h x il) by (eapply RC; [eapply RX; [exact Ek|cbn; auto]|exact El|cbn; auto]).
    apply WRITE; auto. intros l' Hl'. cbn in Hl'. apply in_flat_map in Hl' as (q & Hq & Hl'). apply set_nth_in in Hq. destruct Hq as [->|Hq]; [eauto|].
    eapply RC; [exact HR|exact Ei|cbn; apply in_flat_map; eauto].
  - destruct (nth_error xs k) as [[|o l ks|]|] eqn:Ek; cbn [fst snd]; auto. destruct (nth_error h l) as [[| |c']|] eqn:El; cbn [fst snd]; auto.
    apply nth_error_In in Ek. apply WRITE; [eapply RX; [exact Ek|cbn; auto]|intros l' []].
Qed.
Definition run2 (s : oheap * list ref * list ref) (bo : bool * oop V) : oheap * list ref * list ref :=
  let '(h, xs, ys) := s in
  if fst bo then let s := orun1 (h, xs) (snd bo) in (fst s, snd s, ys)
  else let s := orun1 (h, ys) (snd bo) in (fst s, xs, snd s).
Definition sep (s : oheap * list ref * list ref) : Prop :=
  let '(h, xs, ys) := s in in_memory h xs /\ in_memory h ys /\ apart h xs ys.
Lemma apart_sym (h : oheap) xs ys : apart h xs ys -> apart h ys xs.
Proof. intros H x y l Hx Hy A B. eapply H; eauto. Qed.
Lemma run2_sep s bo : sep s -> sep (run2 s bo).
Proof.
  destruct s as [[h xs] ys], bo as [[|] o]; intros (H1 & H2 & H3); cbn [run2 fst snd sep].
  - destruct (program_step h xs ys o H1 H2 H3) as (A & B & C & _). auto.
  - destruct (program_step h ys xs o H2 H1 (apart_sym _ _ _ H3)) as (A & B & C & _). split; auto. split; auto. apply apart_sym; auto.
Qed.
Lemma run2_seps ops s : sep s -> sep (fold_left run2 ops s).
Proof. revert s. induction ops as [|o ops IH]; intros s H; cbn [fold_left]; auto. apply IH, run2_sep; auto. Qed.
Lemma run_in_memory (ops : list (oop V)) s : in_memory (fst s) (snd s) -> in_memory (fst (fold_left orun1 ops s)) (snd (fold_left orun1 ops s)).
Proof.
  revert s. induction ops as [|o ops IH]; intros [h xs] H; cbn [fold_left]; auto. apply IH.
  destruct (program_step h xs [] o H ltac:(intros x l []) ltac:(intros x y l _ [])) as (A & _). auto.
Qed.
Lemma reach_extends (h h' : oheap) x l : (forall l, reach h x l -> l < length h) -> extends h h' -> reach h' x l -> reach h x l.
Proof.
  intros HB [e ->] H. induction H as [l H|l c l' H IH E Hi]; [apply reach_here; auto|]. eapply reach_on; eauto.
  rewrite nth_error_app1 in E; auto.
Qed.
Lemma copy_sep n (h : oheap) xs r h' r' : in_memory h xs -> deepcopy n h r = Ok (h', r') -> sep (h', xs, [r']).
Proof.
  intros HM E. destruct (deepcopy_spec _ _ _ _ _ E) as (He & _ & HR). pose proof (extends_length _ _ He). split; [|split].
  - intros x l Hx Hl. apply (reach_extends h) in Hl; eauto. specialize (HM _ _ Hx Hl). lia.
  - intros x l [<-|[]] Hl. apply HR in Hl. lia.
  - intros x y l Hx [<-|[]] Hl Hl'. apply HR in Hl'. apply (reach_extends h) in Hl; eauto. specialize (HM _ _ Hx Hl). lia.
Qed.
End Claims.
