(** Property C97: derivative programs are memory safe, whatever their
    right-hand sides and lengths. *)
From Coq Require Import String ZArith List Bool Lia Arith.
From Verif Require Import Base Num StoreModel VecModel DerivModel FloatBridge Spec StoreProofs SpecDeriv SpecDerivSafe
  SpecVec DerivProofs DerivProofs3 DerivLoad DerivSafe VecThms Examples PropVec PropDeriv.
Import ListNotations.
Open Scope Z_scope.
Local Notation length := List.length (only parsing).

(** The states of C43 are among the starting states. *)
Lemma started_begun c ins d : started c ins d -> begun ins d.
Proof.
  intros [W F I Rs O]. split; auto. intros x vs E. destruct (I x vs E) as [K [_ [_ [T [_ H]]]]]. auto.
Qed.

Lemma safe_ended d z ins (r : outcome unit) d' Q : begun ins d -> safe d z (r, d') Q ->
  (r = Done tt -> inv d d') -> ended ins d d' r.
Proof.
  intros B H HI.
  assert (Ke : forall o, inp o -> same_obj (dw d) (dw d') o).
  { destruct r as [[]|[m|]|u]; cbn [safe] in H.
    - apply (in_base _ _ (HI eq_refl)).
    - apply H.
    - exact H.
    - apply H. }
  split.
  - intros x vs E. destruct (bg_input _ _ B x vs E) as [K [_ Hd]]. apply (holds_same (dw d)); [|exact Hd].
    apply Ke. exists x. split; [exact K|reflexivity].
  - destruct r as [[]|[m|]|u]; cbn [safe] in H; auto.
    + specialize (HI eq_refl). split; [apply HI|]. split; [|apply HI]. intros o. eapply full_list; eauto.
    + split; apply H.
    + apply H.
Qed.

(** Every program of assignments to Buffer variables: any operators, any
    lengths, targets on their own right-hand sides, constants used again, any
    amount of memory, reading variables that were never assigned. *)
Theorem c97_safe : forall lm c ins d p r d', begun ins d -> Forall (assigns c) p ->
  drun lm c p d = (r, d') -> ended ins d d' r.
Proof.
  intros lm c ins d p r d' B As E.
  pose proof (drun_safe d True lm c p (fun _ => False) d As (or_introl I) ltac:(intros y []) (begun_inv _ _ B)) as H.
  rewrite E in H. apply (safe_ended d True ins r d' _ B H). intros ->. apply H.
Qed.
Print Assumptions c97_safe.

(** If every variable has elements when it is read the program is defined: it
    ends, stops at an assertion, or runs out of memory.  After its end the
    variables it assigned have elements. *)
Theorem c97_defined : forall lm c ins d p r d', begun ins d -> Forall (assigns c) p -> reads_known (given ins) p ->
  drun lm c p d = (r, d') ->
  (forall u, r <> Undef u) /\
  (r = Done tt -> forall x, In x (map target p) -> exists v vs, holds (dw d') (OD (vslot x)) (map VD (v :: vs))).
Proof.
  intros lm c ins d p r d' B As Rk E.
  pose proof (drun_safe d False lm c p (given ins) d As (or_intror Rk)) as H. specialize (H) with (2 := begun_inv _ _ B).
  rewrite E in H.
  assert (G : forall y, given ins y -> 1 <= sz (ob (dw d) (OD (vslot y)))).
  { intros y [v [vs Ey]]. destruct (bg_input _ _ B y _ Ey) as [_ [_ [Sz _]]]. rewrite Sz. cbn. lia. }
  specialize (H G). split.
  - intros u ->. apply H.
  - intros -> x Ix. destruct H as [I Hs]. specialize (Hs x (or_intror Ix)).
    destruct (full_list _ _ (OD (vslot x)) I) as [l Hl]. destruct l as [|v vs]; [|exists v, vs; exact Hl].
    exfalso. pose proof (proj1 Hl) as Q. cbn in Q. lia.
Qed.
Print Assumptions c97_defined.

(** Afterwards get() returns doubles for every variable, and get_derivs() is
    defined: it returns as many derivatives as there are values, or throws. *)
Theorem c97_ask : forall lm c ins d p d', begun ins d -> Forall (assigns c) p ->
  drun lm c p d = (Done tt, d') -> forall x, exists vs,
  get_vals x d' = (Done (map VD vs), d') /\
  match fst (get_derivs c x d') with
  | Done ds => length ds = length vs
  | Thrown _ => True
  | Undef _ => False
  end.
Proof.
  intros lm c ins d p d' B As E x.
  pose proof (drun_safe d True lm c p (fun _ => False) d As (or_introl I) ltac:(intros y []) (begun_inv _ _ B)) as H.
  rewrite E in H. destruct H as [Iv _]. destruct (full_list _ _ (OD (vslot x)) Iv) as [vs Hv]. exists vs. split.
  - unfold get_vals, inw. rewrite (iterate_vec_holds _ _ _ (ba_shape _ _ (in_base _ _ Iv)) Hv). now destruct d'.
  - pose proof (get_derivs_safe d c x d' Iv) as G. pose proof (proj1 Hv) as Sz. rewrite map_length in Sz.
    destruct (get_derivs c x d') as [[ds|[m|]|u] d2]; cbn [safe fst] in *; auto; [|tauto]. destruct G as [_ G]. lia.
Qed.
Print Assumptions c97_ask.

(** Operands of lengths 3 and 2, a quotient of variables, a sine of a sum, a
    comparison, constant number 0 used twice, the target on the right. *)
Definition ex97_p : list dstmt :=
  [DAssign (bv 1) (DDivide (DVar (ev 0)) (DCon true 0 (nums [1; 2])));
   DAssign (bv 0) (DTimes (DSin (DPlus (DVar (bv 1)) (DVar (ev 0)))) (DCmp OLt (DVar (rv 1)) (DCon false 0 (nums [5]))));
   DAssign (bv 1) (DDivide (DVar (bv 1)) (DVar (bv 0)));
   DAssign (bv 1) (DVar (rv 1))].
(** ... and one that makes its target longer: the derivatives do not follow. *)
Definition ex97_q : list dstmt :=
  ex97_p ++ [DAssign (bv 0) (DPlus (DVar (bv 0)) (DCon true 2 (nums [1; 2; 3; 4])))].
Lemma ex97_begun : begun ex43_ins ex43_d.
Proof. apply (started_begun ex43_c). apply c43_input_ex. Qed.
Example c97_ex : begun ex43_ins ex43_d /\ Forall (assigns ex43_c) ex97_p /\ reads_known (given ex43_ins) ex97_p /\
  Forall (assigns ex43_c) ex97_q /\ reads_known (given ex43_ins) ex97_q /\
  fst (drun ex_lm ex43_c ex97_p ex43_d) = Done tt /\
  fst (drun ex_lm ex43_c ex97_q ex43_d) = Thrown (Ass "Error: out of boundaries --> value beyond size of vector").
Proof.
  assert (P : Forall (assigns ex43_c) ex97_q).
  { unfold ex97_q, ex97_p. cbn [app]. repeat constructor; cbn; try discriminate; try lia;
      intros k l H; repeat (destruct H as [H|H]); try contradiction; injection H as <- <-; cbn; lia. }
  assert (G0 : given ex43_ins (ev 0)) by (exists (i2f 1), (nums [2; 3]); vm_compute; reflexivity).
  assert (G1 : given ex43_ins (rv 1)) by (exists (i2f 4), (nums [5; 6]); vm_compute; reflexivity).
  assert (R : reads_known (given ex43_ins) ex97_q).
  { unfold ex97_q, ex97_p. cbn [app reads_known dvars].
    repeat split; intros y H; cbn in H; repeat (destruct H as [<-|H]); try contradiction; auto 8. }
  split; [apply ex97_begun|]. split.
  { apply Forall_forall. intros s Is. rewrite Forall_forall in P. apply P. apply in_or_app. now left. }
  split.
  { unfold ex97_p. cbn [reads_known dvars].
    repeat split; intros y H; cbn in H; repeat (destruct H as [<-|H]); try contradiction; auto 8. }
  split; [exact P|]. split; [exact R|]. split; vm_compute; reflexivity.
Qed.

(** The condition of c97_defined is needed: a variable that was never assigned
    has no elements, and the remainder of a division by 0 is taken; the same
    for an input without elements.  As the whole right-hand side it throws. *)
Example c97_unassigned_ex :
  fst (drun ex_lm ex43_c [DAssign (bv 0) (DPlus (DVar (bv 1)) (DVar (ev 0)))] ex43_d) = Undef UB_div0 /\
  fst (drun ex_lm ex43_c [DAssign (bv 0) (DVar (bv 1))] ex43_d) = Thrown (Ass "Size has to be larger than 0").
Proof. split; vm_compute; reflexivity. Qed.
(** That of [assigns] too: a number outside of varBuffer. *)
Example c97_number_ex :
  fst (drun ex_lm ex43_c [DAssign (bv 2) (DCon true 0 (nums [1]))] ex43_d) = Undef UB_oob.
Proof. vm_compute; reflexivity. Qed.
