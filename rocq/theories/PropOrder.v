(** Property C99: which results depend on the order of evaluation that C++
    leaves open. *)
From Coq Require Import String ZArith List Bool Lia Arith Permutation.
From Verif Require Import Base Num StoreModel VecModel DerivModel FloatBridge Spec StoreProofs SpecDeriv SpecDerivSafe
  SpecVec VecProofs DerivProofs DerivProofs2 DerivProofs3 DerivProofs5 DerivLoad DerivSafe VecThms Examples PropVec PropDeriv PropDerivSafe
  OrderModel OrderProofs OrderSafe.
Import ListNotations.
Open Scope Z_scope.
Local Notation length := List.length (only parsing).

Lemma once_left : each_once left_first.
Proof. split; intros; apply Permutation_refl. Qed.
Lemma once_right : each_once right_first.
Proof. split; intros; apply Permutation_sym, Permutation_rev. Qed.
(** A schedule that changes: the left operand first in products, the right one
    in all others; in derivatives the arguments 2, 0, 3, 1 of products. *)
Definition mixed : schedule :=
  mkSched (fun _ e i => if Z.even i then [0%nat; 1%nat] else [1%nat; 0%nat])
          (fun _ e i => match e with DTimes _ _ => [0%nat; 1%nat] | _ => [1%nat; 0%nat] end)
          (fun _ e i => match e with DTimes _ _ | DDivide _ _ => [2; 0; 3; 1]%nat | _ => [1%nat; 0%nat] end)
          (fun d e => if sz (ob (dw d) (OD (kslot 0))) =? 0 then [1%nat; 0%nat] else [0%nat; 1%nat]).
Lemma swap2 : Permutation [1%nat; 0%nat] (seq 0 2).
Proof. apply perm_swap. Qed.
Lemma once_mixed : each_once mixed.
Proof.
  assert (F : Permutation [2; 0; 3; 1]%nat (seq 0 4)).
  { apply NoDup_Permutation; [repeat constructor; cbn; lia|apply seq_NoDup|]. intros k. rewrite in_seq. cbn. lia. }
  split; intros.
  - cbn. destruct (Z.even i); [apply Permutation_refl|apply swap2].
  - cbn. destruct e; try apply swap2. apply Permutation_refl.
  - cbn. destruct e; try apply swap2; exact F.
  - cbn. destruct (_ =? _); [apply swap2|apply Permutation_refl].
Qed.

(** The order of the model is one of those C++ allows. *)
Theorem c99_left : each_once left_first /\ forall lm,
  (forall e i w, elem_by left_first lm e i w = elem lm e i w) /\
  (forall c p d, drun_by left_first lm c p d = drun lm c p d).
Proof.
  split; [exact once_left|]. intros lm. split; [intros; apply left_elem|intros; apply left_run].
Qed.
Print Assumptions c99_left.

(** An element of an expression of vectors: any two orders agree on its value
    and on whether there is one; no order changes the state. *)
Theorem c99_element : forall s s' lm e i w, each_once s -> each_once s' ->
  (forall v, fst (elem_by s lm e i w) = Done v <-> fst (elem_by s' lm e i w) = Done v) /\
  snd (elem_by s lm e i w) = w.
Proof.
  intros s s' lm e i w O O'. split; [|apply elem_by_pure]. intros v.
  assert (K : forall s, each_once s -> (fst (elem_by s lm e i w) = Done v <-> elem lm e i w = (Done v, w))).
  { intros t Ot. rewrite <- (elem_by_iff t lm Ot e i w v). pose proof (elem_by_pure t lm e i w) as P.
    destruct (elem_by t lm e i w) as [r w']. cbn [fst snd] in *. subst w'. split; [now intros ->|congruence]. }
  now rewrite (K s O), (K s' O').
Qed.
Print Assumptions c99_element.
(** x + c(3, 2) * 2 in three orders.  Only which failure is met may differ: an
    operand without elements on the left (a division by 0), position 7 of a
    vector of 3 elements on the right (an assertion). *)
Definition ex99_e : expr := EBin OPlus (EVar 0) (EBin OTimes (ETmp TDouble [d3; d2] (mkMP false 0 0)) (ESca (VI 2))).
Definition ex99_f : expr := EBin OPlus (ETmp TDouble [] (mkMP false 0 0)) (ESub (EVar 0) [7] (mkMP false 0 0)).
Example c99_element_ex : each_once left_first /\ each_once right_first /\ each_once mixed /\
  fst (elem_by left_first ex_lm ex99_e 1 ex_w) = Done (VD (i2f 6)) /\
  fst (elem_by mixed ex_lm ex99_e 1 ex_w) = Done (VD (i2f 6)) /\
  fst (elem_by left_first ex_lm ex99_f 1 ex_w) = Undef UB_div0 /\
  fst (elem_by right_first ex_lm ex99_f 1 ex_w) = Thrown (Ass "Error: out of boundaries --> value beyond size of vector").
Proof.
  split; [apply once_left|]. split; [apply once_right|]. split; [apply once_mixed|].
  split; [vm_compute; reflexivity|]. split; [vm_compute; reflexivity|]. split; vm_compute; reflexivity.
Qed.

(** Programs of C43: the values and the derivatives of calculus, whatever the
    order.  Missing to the full property: the conditions of c43_forward_partial;
    two of them matter for the order, see the refutations below. *)
Theorem c99_ring_partial : forall s lm c ins d0 p, each_once s -> started c ins d0 ->
  ringp p -> wf_prog (fwd lm) lm c (hlim (hp (dw d0))) (env0 c ins) p ->
  exists d, drun_by s lm c p d0 = (Done tt, d) /\ forall xs, shows c (srun (fwd lm) lm c (env0 c ins) p) xs d.
Proof.
  intros s lm c ins d0 p O HS R W. destruct (run_any_by s O lm c ins d0 p HS W) as [d [E Rp]].
  exists d. split; [exact E|]. rewrite (ring_srun lm c p _ R) in Rp. intros xs. now apply rep_shows.
Qed.
Print Assumptions c99_ring_partial.

(** With any quotients and sines as well (whose derivatives may be wrong, C44
    and C45): all orders show the same values and derivatives, of every variable
    assigned or loaded. *)
Theorem c99_programs_partial : forall lm c ins d0 p, started c ins d0 ->
  wf_prog (fwd lm) lm c (hlim (hp (dw d0))) (env0 c ins) p ->
  exists env : senv,
    (forall x, env x = None <-> srun (fwd lm) lm c (env0 c ins) p x = None) /\
    forall s, each_once s ->
      exists d, drun_by s lm c p d0 = (Done tt, d) /\ forall xs, shows c env xs d.
Proof.
  intros lm c ins d0 p HS W. exists (srun (lder lm) lm c (env0 c ins) p). split.
  - intros x. apply (alike_run (lder lm) (fwd lm) lm c p _ _ (alike_refl (env0 c ins))).
  - intros s O. destruct (run_any_by s O lm c ins d0 p HS W) as [d [E Rp]].
    exists d. split; [exact E|]. intros xs. now apply rep_shows.
Qed.
Print Assumptions c99_programs_partial.
Example c99_programs_ex : started ex43_c ex43_ins ex43_d /\ ringp ex43_q /\
  wf_prog (fwd ex_lm) ex_lm ex43_c (hlim (hp (dw ex43_d))) (env0 ex43_c ex43_ins) ex43_q /\
  (let d := snd (drun_by mixed ex_lm ex43_c ex43_q ex43_d) in
   fst (get_vals (bv 0) d) = Done (map VD (nums [3; 16; 45])) /\
   fst (get_derivs ex43_c (bv 0) d) = Done (map VD (nums [6; 16; 30]))) /\
  (let d := snd (drun_by right_first ex_lm ex43_c ex43_q ex43_d) in
   fst (get_vals (bv 0) d) = Done (map VD (nums [3; 16; 45])) /\
   fst (get_derivs ex43_c (bv 0) d) = Done (map VD (nums [6; 16; 30]))).
Proof.
  split; [apply c43_input_ex|]. split; [apply c43_input_ex|]. split; [apply c43_input_ex|].
  repeat split; vm_compute; reflexivity.
Qed.

(** Two inputs of different kinds with the number of the independent variable,
    z = varBorrow[0] * 2 + varBorrowSEXP[0] * 3: the derivative depends on which
    operand the compiler evaluates first. *)
Theorem c99_two_inputs_refuted : exists c p d1 d2,
  drun_by left_first ex_lm c p ex43_two = (Done tt, d1) /\ drun_by right_first ex_lm c p ex43_two = (Done tt, d2) /\
  fst (get_derivs c (bv 0) d1) = Done (map VD (nums [2; 2])) /\
  fst (get_derivs c (bv 0) d2) = Done (map VD (nums [3; 3])).
Proof.
  exists (mkAv 0 1), [DAssign (bv 0) (DPlus (DTimes (DVar (ev 0)) (DCon true 0 (nums [2])))
                                           (DTimes (DVar (rv 0)) (DCon true 1 (nums [3]))))].
  eexists. eexists. split; [apply pair_eta; [vm_compute; reflexivity|reflexivity]|].
  split; [apply pair_eta; [vm_compute; reflexivity|reflexivity]|]. split; vm_compute; reflexivity.
Qed.
Print Assumptions c99_two_inputs_refuted.

(** A constant number used twice in one statement, z = coca<0>(1) + coca<0>(5):
    even the value depends on it. *)
Theorem c99_constant_refuted : exists c p d1 d2,
  drun_by left_first ex_lm c p (dstart 1000) = (Done tt, d1) /\
  drun_by right_first ex_lm c p (dstart 1000) = (Done tt, d2) /\
  fst (get_vals (bv 0) d1) = Done (map VD (nums [10])) /\
  fst (get_vals (bv 0) d2) = Done (map VD (nums [2])).
Proof.
  exists (mkAv 0 1), [DAssign (bv 0) (DPlus (DCon true 0 (nums [1])) (DCon true 0 (nums [5])))].
  eexists. eexists. split; [apply pair_eta; [vm_compute; reflexivity|reflexivity]|].
  split; [apply pair_eta; [vm_compute; reflexivity|reflexivity]|]. split; vm_compute; reflexivity.
Qed.
Print Assumptions c99_constant_refuted.

(** Memory safety (C97) holds in every order, for every program of assignments
    to Buffer variables. *)
Theorem c99_safe : forall s lm c ins d p r d', each_once s -> begun ins d -> Forall (assigns c) p ->
  drun_by s lm c p d = (r, d') -> ended ins d d' r.
Proof.
  intros s lm c ins d p r d' O B As E.
  pose proof (drun_by_safe s O d True lm c p (fun _ => False) d As (or_introl I) ltac:(intros y []) (begun_inv _ _ B)) as H.
  rewrite E in H. apply (safe_ended d True ins r d' _ B H). intros ->. apply H.
Qed.
Print Assumptions c99_safe.

Theorem c99_defined : forall s lm c ins d p r d', each_once s -> begun ins d -> Forall (assigns c) p ->
  reads_known (given ins) p -> drun_by s lm c p d = (r, d') ->
  (forall u, r <> Undef u) /\
  (r = Done tt -> forall x, In x (map target p) -> exists v vs, holds (dw d') (OD (vslot x)) (map VD (v :: vs))).
Proof.
  intros s lm c ins d p r d' O B As Rk E.
  pose proof (drun_by_safe s O d False lm c p (given ins) d As (or_intror Rk)) as H. specialize (H) with (2 := begun_inv _ _ B).
  rewrite E in H.
  assert (G : forall y, given ins y -> 1 <= sz (ob (dw d) (OD (vslot y)))).
  { intros y [v [vs Ey]]. destruct (bg_input _ _ B y _ Ey) as [_ [_ [Sz _]]]. rewrite Sz. cbn. lia. }
  specialize (H G). split.
  - intros u ->. apply H.
  - intros -> x Ix. destruct H as [I Hs]. specialize (Hs x (or_intror Ix)).
    destruct (full_list _ _ (OD (vslot x)) I) as [l Hl]. destruct l as [|v vs]; [|exists v, vs; exact Hl].
    exfalso. pose proof (proj1 Hl) as Q. cbn in Q. lia.
Qed.
Print Assumptions c99_defined.
(** The programs of C97 in another order. *)
Example c99_safe_ex : each_once mixed /\ begun ex43_ins ex43_d /\ Forall (assigns ex43_c) ex97_q /\
  reads_known (given ex43_ins) ex97_q /\
  fst (drun_by mixed ex_lm ex43_c ex97_p ex43_d) = Done tt /\
  fst (drun_by mixed ex_lm ex43_c ex97_q ex43_d) = Thrown (Ass "Error: out of boundaries --> value beyond size of vector").
Proof.
  split; [apply once_mixed|]. split; [apply ex97_begun|]. split; [apply c97_ex|]. split; [apply c97_ex|].
  split; vm_compute; reflexivity.
Qed.
