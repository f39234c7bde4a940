(** Properties C43..C46: forward derivatives. *)
From Coq Require Import String ZArith List Bool Lia Arith Reals Lra.
From Coq.Floats Require Import SpecFloat.
From Verif Require Import Base Num StoreModel VecModel DerivModel FloatBridge Spec StoreProofs SpecDeriv
  SpecVec DerivProofs DerivProofs2 DerivProofs3 DerivPrime DerivLoad DerivProofs4 DerivProofs5 Examples PropVec.
Import ListNotations.
Open Scope Z_scope.
Local Notation length := List.length (only parsing).

Lemma nth_map_seq {A} (f : nat -> A) n i u : (i < n)%nat -> nth i (map f (seq 0 n)) u = f i.
Proof.
  intros H. rewrite (nth_indep _ _ (f 0%nat)) by (now rewrite map_length, seq_length).
  rewrite map_nth. now rewrite seq_nth.
Qed.

Definition none : inputs := fun _ => None.
(** Buffer, Borrow and BorrowSEXP variables. *)
Definition bv (n : nat) : dvar := DV KBuffer n.
Definition ev (n : nat) : dvar := DV KBorrow n.
Definition rv (n : nat) : dvar := DV KBorrowSEXP n.

(* ------------------------------------------------------------------ C43 *)

(** Every program of assignments to Buffer variables whose right-hand sides are
    built from Buffer, Borrow and BorrowSEXP variables, constants, +, -, *,
    comparisons and division by a coca or scalarDeriv constant, over vectors of
    any lengths, runs without error, and afterwards get() and get_derivs(), asked for any
    variables in any order, return the values and the derivatives that the sum,
    product and quotient rules of calculus give in double arithmetic (0 for a
    comparison).
    Missing to the full property: the hypotheses of [wf_prog] that the operands
    of an expression have one common length or length one and that a target
    occurring on the right has that length, that no operator has two comparisons
    as operands, that of [started] that one input
    only has the number of the independent variable (without them see the
    refutations below), targets that are not Buffer variables (C46), and
    rounding (next theorem). *)
Theorem c43_forward_partial : forall lm c ins d0 p, started c ins d0 ->
  ringp p -> wf_prog (fwd lm) lm c (hlim (hp (dw d0))) (env0 c ins) p ->
  exists d, drun lm c p d0 = (Done tt, d) /\ forall xs, shows c (srun (fwd lm) lm c (env0 c ins) p) xs d.
Proof.
  intros lm c ins d0 p HS R W. destruct (run_any lm c ins d0 p HS W) as [d [env [E [Rp [_ [_ Q]]]]]].
  exists d. split; [exact E|]. rewrite (Q R) in Rp. intros xs. now apply rep_shows.
Qed.
Print Assumptions c43_forward_partial.

(** If moreover none of the operations rounds for element i, then the derivative
    of element i of every variable is the derivative of the real function that
    the program computes for that element, at the value z0 of the independent
    variable; comparisons must not change between TRUE and FALSE there. *)
Theorem c43_derivative_partial : forall lm c ins d0 p i z0 x, started c ins d0 ->
  ringp p -> wf_prog (fwd lm) lm c (hlim (hp (dw d0))) (env0 c ins) p ->
  exact_prog lm c i (env0 c ins) p -> at_input c i z0 ins -> at_point c i z0 p ->
  srun (fwd lm) lm c (env0 c ins) p x <> None ->
  exists d vs ds, drun lm c p d0 = (Done tt, d) /\
    get_vals x d = (Done (map VD vs), d) /\ fst (get_derivs c x d) = Done (map VD ds) /\
    length ds = length vs /\
    fR (lane i vs) = rrun c z0 i (renv0 c z0 i ins) p x /\
    derivable_pt_lim (fun z => rrun c z i (renv0 c z i ins) p x) z0 (fR (lane i ds)).
Proof.
  intros lm c ins d0 p i z0 x HS R W X AI AP N.
  destruct (c43_forward_partial lm c ins d0 p HS R W) as [d [E S]].
  destruct (srun (fwd lm) lm c (env0 c ins) p x) as [[vs ds]|] eqn:Q; [|congruence].
  exists d, vs, ds. split; [exact E|]. specialize (S [x]). cbn [shows] in S. rewrite Q in S.
  destruct S as [S1 [d' [S2 _]]].
  split; [exact S1|]. split; [now rewrite S2|].
  assert (R0 : rel i z0 (env0 c ins) (fun z => renv0 c z i ins)).
  { apply rel_start; auto. intros y v Hy. now apply (sd_input _ _ _ HS y v). }
  destruct (prog_real lm c i z0 _ p _ _ R0 R AP W X x vs ds Q) as [A [_ [B C]]].
  split; [exact A|]. split; [symmetry; exact B|exact C].
Qed.
Print Assumptions c43_derivative_partial.

(** a = coca<0>(av, 1, 2, 3); b = coca<1>(av, 4, 5, 6) * a; a = b + b
    (tests/Derivatives_Tests.cpp 48-66). *)
Definition ex43_c := mkAv 0 2.
Definition nums (l : list Z) : list flt := map i2f l.
Definition ex43_p : list dstmt :=
  [DAssign (bv 0) (DCon true 0 (nums [1; 2; 3]));
   DAssign (bv 1) (DTimes (DCon true 1 (nums [4; 5; 6])) (DVar (bv 0)));
   DAssign (bv 0) (DPlus (DVar (bv 1)) (DVar (bv 1)))].

Ltac wf_show := repeat (match goal with
  | |- wf_prog _ _ _ _ _ (_ :: _) => cbn [wf_prog]; split
  | |- wf_prog _ _ _ _ _ [] => exact I
  | |- wf_stmt _ _ _ _ => cbn [wf_stmt]
  | |- aligned _ _ _ => split
  | |- _ /\ _ => split
  | |- forall y, In y _ -> _ <> None => let H := fresh in intros ? H; cbn in H; intuition (subst; discriminate)
  | |- forall y, In y _ -> _ \/ _ => let H := fresh in intros ? H; cbn in H; intuition (subst; cbn; auto)
  | |- forall k l, In (k, l) _ -> _ =>
      let H := fresh in intros ? ? H; cbn in H;
      repeat (destruct H as [H|H]); try contradiction; injection H as <- <-; cbn; auto
  | |- NoDup _ => repeat constructor; cbn; intuition discriminate
  | |- In _ _ -> _ => let H := fresh in intros H; cbn in *; intuition (auto; discriminate)
  | |- _ <> DVar _ => discriminate
  | |- _ => first [reflexivity | cbn; lia | cbn; auto; fail]
  end).

Example c43_ex : started ex43_c none (dstart 1000) /\ ringp ex43_p /\ wf_prog (fwd ex_lm) ex_lm ex43_c 1000 (env0 ex43_c none) ex43_p /\
  srun (fwd ex_lm) ex_lm ex43_c (env0 ex43_c none) ex43_p (bv 0) = Some (nums [8; 20; 36], nums [8; 10; 12]) /\
  srun (fwd ex_lm) ex_lm ex43_c (env0 ex43_c none) ex43_p (bv 1) = Some (nums [4; 10; 18], nums [4; 5; 6]).
Proof.
  split; [apply start_empty; lia|]. split; [cbn; auto 10|]. split.
  - unfold ex43_p. wf_show.
  - split; vm_compute; reflexivity.
Qed.

(** The same with inputs: varBorrow[0] (independent) on the user's array 1, 2, 3,
    varBorrowSEXP[1] on the R vector 4, 5, 6;
    b1 = varBorrow[0] * varBorrowSEXP[1] - varBorrow[0]; b0 = b1 * varBorrow[0]. *)
Definition ex43_ins : inputs := with_input (with_input none (ev 0) (nums [1; 2; 3])) (rv 1) (nums [4; 5; 6]).
Definition ex43_d : dworld := load (rv 1) (nums [4; 5; 6]) (load (ev 0) (nums [1; 2; 3]) (dstart 1000)).
Definition ex43_q : list dstmt :=
  [DAssign (bv 1) (DMinus (DTimes (DVar (ev 0)) (DVar (rv 1))) (DVar (ev 0)));
   DAssign (bv 0) (DTimes (DVar (bv 1)) (DVar (ev 0)))].
Example c43_input_ex : started ex43_c ex43_ins ex43_d /\ hlim (hp (dw ex43_d)) = 1000 /\ ringp ex43_q /\
  wf_prog (fwd ex_lm) ex_lm ex43_c 1000 (env0 ex43_c ex43_ins) ex43_q /\
  srun (fwd ex_lm) ex_lm ex43_c (env0 ex43_c ex43_ins) ex43_q (ev 0) = Some (nums [1; 2; 3], nums [1; 1; 1]) /\
  srun (fwd ex_lm) ex_lm ex43_c (env0 ex43_c ex43_ins) ex43_q (rv 1) = Some (nums [4; 5; 6], nums [0; 0; 0]) /\
  srun (fwd ex_lm) ex_lm ex43_c (env0 ex43_c ex43_ins) ex43_q (bv 1) = Some (nums [3; 8; 15], nums [3; 4; 5]) /\
  srun (fwd ex_lm) ex_lm ex43_c (env0 ex43_c ex43_ins) ex43_q (bv 0) = Some (nums [3; 16; 45], nums [6; 16; 30]).
Proof.
  split.
  { unfold ex43_ins, ex43_d. apply load_started; [apply load_started; [apply start_empty; lia|..]|..];
      try reflexivity; try discriminate; try (cbn; lia).
    intros _ y Hy. exfalso. apply Hy. reflexivity. }
  split; [reflexivity|]. split; [cbn; tauto|]. split; [unfold ex43_q; wf_show|].
  repeat split; vm_compute; reflexivity.
Qed.

(** Two inputs with the number of the independent variable: varBorrow[0] and
    varBorrowSEXP[0] of an object whose independent variable is number 0.  The
    one asked first has the derivatives 1, the other 0, whichever it is. *)
Definition ex43_two : dworld := load (rv 0) (nums [4; 5]) (load (ev 0) (nums [1; 2]) (dstart 1000)).
Theorem c43_two_inputs_refuted :
  let d1 := snd (get_derivs ex43_c (ev 0) ex43_two) in
  let d2 := snd (get_derivs ex43_c (rv 0) ex43_two) in
  fst (get_derivs ex43_c (ev 0) ex43_two) = Done (map VD (nums [1; 1])) /\
  fst (get_derivs ex43_c (rv 0) d1) = Done (map VD (nums [0; 0])) /\
  fst (get_derivs ex43_c (rv 0) ex43_two) = Done (map VD (nums [1; 1])) /\
  fst (get_derivs ex43_c (ev 0) d2) = Done (map VD (nums [0; 0])).
Proof. repeat split; vm_compute; reflexivity. Qed.
Print Assumptions c43_two_inputs_refuted.

Lemma ex_add A B za zb : A = i2f za -> B = i2f zb -> fadd A B = i2f (za + zb) ->
  (Z.abs za <=? 2 ^ 53) && (Z.abs zb <=? 2 ^ 53) && (Z.abs (za + zb) <=? 2 ^ 53) = true ->
  exact (fadd A B) (fR A + fR B)%R.
Proof.
  intros -> -> E H. rewrite !andb_true_iff, !Z.leb_le in H. destruct H as [[H1 H2] H3]. unfold exact. rewrite E.
  destruct (i2f_exact _ H1) as [-> _], (i2f_exact _ H2) as [-> _], (i2f_exact _ H3) as [-> F].
  split; [exact F|apply plus_IZR].
Qed.
Lemma ex_mul A B za zb : A = i2f za -> B = i2f zb -> fmul A B = i2f (za * zb) ->
  (Z.abs za <=? 2 ^ 53) && (Z.abs zb <=? 2 ^ 53) && (Z.abs (za * zb) <=? 2 ^ 53) = true ->
  exact (fmul A B) (fR A * fR B)%R.
Proof.
  intros -> -> E H. rewrite !andb_true_iff, !Z.leb_le in H. destruct H as [[H1 H2] H3]. unfold exact. rewrite E.
  destruct (i2f_exact _ H1) as [-> _], (i2f_exact _ H2) as [-> _], (i2f_exact _ H3) as [-> F].
  split; [exact F|apply mult_IZR].
Qed.

(** Element 1: a = 2, the program computes z |-> 2 * (5 * z). *)
Example c43_derivative_ex : exact_prog ex_lm ex43_c 1 (env0 ex43_c none) ex43_p /\ at_point ex43_c 1 2 ex43_p /\
  (forall z, rrun ex43_c z 1 (renv0 ex43_c z 1 none) ex43_p (bv 0) = (fR (i2f 5) * z + fR (i2f 5) * z)%R).
Proof.
  split; [|split].
  - cbn [exact_prog ex43_p]. split; [exact I|]. split; [|split; [|exact I]].
    + cbn [exact_expr]. split; [exact I|]. split; [exact I|]. split; [|split; [|split]].
      * apply (ex_mul _ _ 5 2); vm_compute; reflexivity.
      * apply (ex_mul _ _ 0 2); vm_compute; reflexivity.
      * apply (ex_mul _ _ 1 5); vm_compute; reflexivity.
      * apply (ex_add _ _ 0 5); vm_compute; reflexivity.
    + cbn [exact_expr]. split; [exact I|]. split; [exact I|]. split.
      * apply (ex_add _ _ 10 10); vm_compute; reflexivity.
      * apply (ex_add _ _ 5 5); vm_compute; reflexivity.
  - cbn [at_point ex43_p]. split; [|exact I]. intros _.
    change (lane 1 (nums [1; 2; 3])) with (i2f 2). destruct (i2f_exact 2) as [E _]; [lia|exact E].
  - intros z. reflexivity.
Qed.

(** A function defined by cases: a = coca<0>(av, 1, 2, 3);
    b = (a < coca<1>(av, 2)) * a computes z |-> z for z < 2 and 0 otherwise.
    Element 0: a = 1, derivative 1; element 2: a = 3, derivative 0. *)
Definition ex43_s : list dstmt :=
  [DAssign (bv 0) (DCon true 0 (nums [1; 2; 3]));
   DAssign (bv 1) (DTimes (DCmp OLt (DVar (bv 0)) (DCon true 1 (nums [2]))) (DVar (bv 0)))].
Example c43_cases_ex : ringp ex43_s /\ wf_prog (fwd ex_lm) ex_lm ex43_c 1000 (env0 ex43_c none) ex43_s /\
  srun (fwd ex_lm) ex_lm ex43_c (env0 ex43_c none) ex43_s (bv 1) = Some (nums [1; 0; 0], nums [1; 0; 0]) /\
  exact_prog ex_lm ex43_c 2 (env0 ex43_c none) ex43_s /\ at_point ex43_c 2 3 ex43_s /\
  (forall z, rrun ex43_c z 2 (renv0 ex43_c z 2 none) ex43_s (bv 1)
    = ((if (if Rlt_dec z (fR (i2f 2)) then true else false) then 1 else 0) * z)%R).
Proof.
  split; [cbn; auto 10|]. split; [unfold ex43_s; wf_show|]. split; [vm_compute; reflexivity|].
  split; [|split].
  - cbn [exact_prog ex43_s]. split; [exact I|]. split; [|exact I].
    cbn [exact_expr]. split; [|split; [exact I|split; [|split; [|split]]]].
    + split; [exact I|]. split; [exact I|]. unfold away.
      match goal with |- valid ?x /\ valid ?y /\ _ => change x with (i2f 3); change y with (i2f 2) end.
      destruct (i2f_exact 3) as [E3 F3]; [lia|]. destruct (i2f_exact 2) as [E2 F2]; [lia|].
      split; [apply i2f_valid|]. split; [apply i2f_valid|]. split; [exact F3|]. split; [exact F2|].
      rewrite E3, E2. lra.
    + apply (ex_mul _ _ 0 3); vm_compute; reflexivity.
    + apply (ex_mul _ _ 0 3); vm_compute; reflexivity.
    + apply (ex_mul _ _ 1 0); vm_compute; reflexivity.
    + apply (ex_add _ _ 0 0); vm_compute; reflexivity.
  - cbn [at_point ex43_s]. split; [|exact I]. intros _.
    change (lane 2 (nums [1; 2; 3])) with (i2f 3). destruct (i2f_exact 3) as [E _]; [lia|exact E].
  - intros z. reflexivity.
Qed.

(** Two comparisons: their sum is a bool, TRUE + TRUE is 1.
    a = coca<0>(av, 1); b = (a < coca<1>(av, 2)) + (a < coca<2>(av, 3)). *)
Theorem c43_two_comparisons_refuted : exists c p d, drun ex_lm c p (dstart 1000) = (Done tt, d) /\
  get_vals (bv 1) d = (Done [VD fone], d) /\
  srun (fwd ex_lm) ex_lm c (env0 c none) p (bv 1) = Some (nums [2], nums [0]).
Proof.
  exists (mkAv 0 2), [DAssign (bv 0) (DCon true 0 (nums [1]));
    DAssign (bv 1) (DPlus (DCmp OLt (DVar (bv 0)) (DCon true 1 (nums [2])))
                          (DCmp OLt (DVar (bv 0)) (DCon true 2 (nums [3]))))].
  eexists. split; [vm_compute; reflexivity|]. split; vm_compute; reflexivity.
Qed.
Print Assumptions c43_two_comparisons_refuted.

Lemma cond_val lm e : forall i d v d', condx e -> dval lm e i d = (Done v, d') -> exists b, v = VB b.
Proof.
  assert (T : forall zop fop a b v, (exists x, a = VB x) -> (exists y, b = VB y) -> trait_arith zop fop a b = Done v -> exists x, v = VB x).
  { intros zop fop a b v [x ->] [y ->]. unfold trait_arith, arith. cbn [v2z]. destruct (int_res _); cbn; try discriminate.
    intros H. injection H as <-. eauto. }
  induction e as [x|ct k l|l IHl r IHr|l IHl r IHr|l IHl r IHr|l IHl r IHr|op l IHl r IHr|e IH];
    cbn [condx dval]; intros i d v d' C H; try contradiction.
  all: unfold bind in H; destruct (dval lm l i d) as [[a|?|?] d1] eqn:El; try discriminate;
    destruct (dval lm r i d1) as [[b|?|?] d2] eqn:Er; try discriminate; unfold lift in H; injection H as H _.
  1,2,3: destruct C as [Cl Cr]; cbn [bin_f] in H; apply T in H; eauto.
  destruct op; try discriminate; cbn [bin_f] in H; unfold trait_eq, trait_ne, compare_vals in H;
    try (destruct (arith _ _ a b); try discriminate; injection H as <-; eauto);
    destruct (v2z a), (v2z b); injection H as <-; eauto.
Qed.

(** Conditions are constant in pieces: the derivative of a comparison of any two
    expressions, and of any sum, difference or product of conditions (also those
    whose value is not what it should be, see above), is 0 in every state where
    it is defined. *)
Theorem c43_conditions : forall lm c e i d v d', condx e ->
  dder lm c e i d = (Done v, d') -> v2f v = fzero.
Proof.
  intros lm c e.
  set (zero := fun v => v = VB false \/ v = VI 0 \/ v = VD fzero).
  assert (Z0 : forall v, zero v -> v2f v = fzero) by (intros v [-> | [-> | ->]]; vm_compute; reflexivity).
  assert (Add : forall a b v, zero a -> zero b -> plus_der a b = Done v -> zero v).
  { intros a b v [-> | [-> | ->]] [-> | [-> | ->]] H; vm_compute in H; injection H as <-; unfold zero; auto. }
  assert (Sub : forall a b v, zero a -> zero b -> minus_der a b = Done v -> zero v).
  { intros a b v [-> | [-> | ->]] [-> | [-> | ->]] H; vm_compute in H; injection H as <-; unfold zero; auto. }
  assert (Mul : forall p q a b v, zero a -> zero b -> times_der (VB p) (VB q) a b = Done v -> zero v).
  { intros [] [] a b v [-> | [-> | ->]] [-> | [-> | ->]] H; vm_compute in H; injection H as <-; unfold zero; auto. }
  assert (Cmp : forall a b v, cmp_der a b = Done v -> zero v).
  { intros a b v H. unfold cmp_der in H. destruct (common _ _); vm_compute in H; injection H as <-; unfold zero; auto. }
  intros i d v d' C H. apply Z0. revert i d v d' C H.
  induction e as [x|ct k l|l IHl r IHr|l IHl r IHr|l IHl r IHr|l IHl r IHr|op l IHl r IHr|e IH];
    cbn [condx dder]; intros i d v d' C H; try contradiction.
  - destruct C as [Cl Cr]. unfold bind in H.
    destruct (dder lm c l i d) as [[a|?|?] d1] eqn:El; try discriminate.
    destruct (dder lm c r i d1) as [[b|?|?] d2] eqn:Er; try discriminate. injection H as H _. exact (Add a b v (IHl _ _ _ _ Cl El) (IHr _ _ _ _ Cr Er) H).
  - destruct C as [Cl Cr]. unfold bind in H.
    destruct (dder lm c l i d) as [[a|?|?] d1] eqn:El; try discriminate.
    destruct (dder lm c r i d1) as [[b|?|?] d2] eqn:Er; try discriminate. injection H as H _. exact (Sub a b v (IHl _ _ _ _ Cl El) (IHr _ _ _ _ Cr Er) H).
  - destruct C as [Cl Cr]. unfold bind in H.
    destruct (dval lm l i d) as [[p|?|?] d1] eqn:Vl; try discriminate.
    destruct (dval lm r i d1) as [[q|?|?] d2] eqn:Vr; try discriminate.
    destruct (dder lm c l i d2) as [[a|?|?] d3] eqn:El; try discriminate.
    destruct (dder lm c r i d3) as [[b|?|?] d4] eqn:Er; try discriminate. injection H as H _.
    apply cond_val in Vl; [|exact Cl]. apply cond_val in Vr; [|exact Cr]. destruct Vl as [u ->], Vr as [u' ->].
    exact (Mul u u' a b v (IHl _ _ _ _ Cl El) (IHr _ _ _ _ Cr Er) H).
  - unfold bind in H.
    destruct (dder lm c l i d) as [[a|?|?] d1] eqn:El; try discriminate.
    destruct (dder lm c r i d1) as [[b|?|?] d2] eqn:Er; try discriminate. injection H as H _. eapply Cmp; eauto.
Qed.
Print Assumptions c43_conditions.
(** ((x < 2) * (x < 3)) * ((x < 4) + (x < 1)) at x = 1, 2, 3, of which all
    operands are of the type bool. *)
Definition ex43_b : dexpr :=
  DTimes (DTimes (DCmp OLt (DVar (ev 0)) (DCon true 0 (nums [2]))) (DCmp OLt (DVar (ev 0)) (DCon true 1 (nums [3]))))
         (DPlus (DCmp OLt (DVar (ev 0)) (DCon true 2 (nums [4]))) (DCmp OLt (DVar (ev 0)) (DCon true 3 (nums [1])))).
Example c43_conditions_ex : condx ex43_b /\
  (let d := snd (mk_cons ex43_b ex43_d) in fst (dder ex_lm ex43_c ex43_b 0 d) = Done (VB false)) /\
  (let d := snd (drun ex_lm ex43_c [DAssign (bv 0) ex43_b] ex43_d) in
   fst (get_vals (bv 0) d) = Done (map VD (nums [1; 0; 0])) /\
   fst (get_derivs ex43_c (bv 0) d) = Done (map VD (nums [0; 0; 0]))).
Proof. split; [cbn; auto 10|]. split; [vm_compute; reflexivity|]. split; vm_compute; reflexivity. Qed.

(** Recycling: the value of an expression recycles every subexpression with its
    own length, its derivative recycles the variables with their own lengths.
    a = coca<0>(av, 1, 2); b = coca<1>(av, 10, 20, 30); x = coca<2>(av, 1, 1, 1, 4);
    y = (a + b) * x with x independent: y[3] is (a[0] + b[0]) * x[3] = 11 * 4, and
    its derivative 11; the stored derivative is a[1] + b[0] = 12. *)
Theorem c43_recycling_refuted : exists c p d, ringp p /\ drun ex_lm c p (dstart 1000) = (Done tt, d) /\
  fst (get_vals (bv 2) d) = Done (map VD (nums [1; 1; 1; 4])) /\
  fst (get_vals (bv 3) d) = Done (map VD (nums [11; 22; 31; 44])) /\
  fst (get_derivs c (bv 3) d) = Done (map VD (nums [11; 22; 31; 12])) /\
  (derivable_pt_lim (fun z => (1 + 10) * z) 4 11)%R /\ fR (i2f 12) <> 11%R.
Proof.
  exists (mkAv 2 4).
  exists [DAssign (bv 0) (DCon true 0 (nums [1; 2])); DAssign (bv 1) (DCon true 1 (nums [10; 20; 30]));
          DAssign (bv 2) (DCon true 2 (nums [1; 1; 1; 4]));
          DAssign (bv 3) (DTimes (DPlus (DVar (bv 0)) (DVar (bv 1))) (DVar (bv 2)))].
  eexists. split; [cbn; tauto|].
  split; [apply pair_eta; [vm_compute; reflexivity|reflexivity]|].
  split; [vm_compute; reflexivity|]. split; [vm_compute; reflexivity|]. split; [vm_compute; reflexivity|].
  split.
  - replace 11%R with ((1 + 10) * 1)%R by lra. apply derivable_pt_lim_scal, derivable_pt_lim_id.
  - destruct (i2f_exact 12) as [-> _]; lia || lra.
Qed.
Print Assumptions c43_recycling_refuted.

(** A target that occurs on the right and is shorter than the result: its
    derivatives are resized twice and the assignment fails.
    a = coca<0>(av, 1); b = coca<1>(av, 1, 2); a = a + b. *)
Theorem c43_own_length_refuted : exists c p d, ringp p /\ drun ex_lm c p (dstart 1000) = (Done tt, d) /\
  fst (get_vals (bv 0) d) = Done (map VD (nums [1])) /\
  fst (get_vals (bv 1) d) = Done (map VD (nums [1; 2])) /\
  exists m, fst (dexec ex_lm c (DAssign (bv 0) (DPlus (DVar (bv 0)) (DVar (bv 1)))) d) = Thrown m.
Proof.
  exists (mkAv 0 2).
  exists [DAssign (bv 0) (DCon true 0 (nums [1])); DAssign (bv 1) (DCon true 1 (nums [1; 2]))].
  eexists. split; [cbn; tauto|].
  split; [apply pair_eta; [vm_compute; reflexivity|reflexivity]|].
  split; [vm_compute; reflexivity|]. split; [vm_compute; reflexivity|].
  eexists. vm_compute; reflexivity.
Qed.
Print Assumptions c43_own_length_refuted.

(* ------------------------------------------------------------------ C44 *)

(** Elements of an environment after a program. *)
Definition after (lm : libm) (c : avconf) (ins : inputs) (p : list dstmt) : senv := srun (fwd lm) lm c (env0 c ins) p.

Lemma rep_both c d env x vs ds : rep c d env -> knd x = KBuffer -> env x = Some (vs, ds) ->
  get_vals x d = (Done (map VD vs), d) /\ get_derivs c x d = (Done (map VD ds), d).
Proof.
  intros R K E. split; [now apply (rep_vals c d env x vs ds)|].
  destruct (rep_ders c d env x vs ds R E) as [d' [G [Q _]]]. now rewrite G, (Q K).
Qed.

(** What is stored for x = y / z: the numerator of the quotient rule over the
    square of the derivative of the divisor. *)
Lemma quotient_stored lm c ins d0 p x y z : started c ins d0 -> ringp p -> wf_prog (fwd lm) lm c (hlim (hp (dw d0))) (env0 c ins) p ->
  wf_stmt c (hlim (hp (dw d0))) (after lm c ins p) (DAssign x (DDivide (DVar y) (DVar z))) ->
  let n := dlen (after lm c ins p) (DDivide (DVar y) (DVar z)) in
  exists d, drun lm c (p ++ [DAssign x (DDivide (DVar y) (DVar z))]) d0 = (Done tt, d) /\
    get_vals x d = (Done (map VD (map (fun i =>
      fdiv (lane i (vals (after lm c ins p) y)) (lane i (vals (after lm c ins p) z))) (seq 0 n))), d) /\
    get_derivs c x d = (Done (map VD (map (fun i =>
      let l := lane i (vals (after lm c ins p) y) in let r := lane i (vals (after lm c ins p) z) in
      let l' := lane i (ders (after lm c ins p) y) in let r' := lane i (ders (after lm c ins p) z) in
      fdiv (fsub (fmul l' r) (fmul l r')) (lm_pow lm r' (i2f 2))) (seq 0 n))), d).
Proof.
  intros HL R W Ws n. destruct (run_then lm c ins d0 p _ HL W R Ws) as [d [E Rp]].
  exists d. split; [exact E|]. apply (rep_both c d _ x _ _ Rp (proj1 Ws)). cbn [sexec].
  destruct (dvar_dec x x); [reflexivity|contradiction].
Qed.

(** The quotient rule holds for the elements where the square of the derivative
    of the divisor happens to be the square of the divisor.
    Missing to the full property: all other elements, see below. *)
Theorem c44_quotient_partial : forall lm c ins d0 p x y z, started c ins d0 ->
  ringp p -> wf_prog (fwd lm) lm c (hlim (hp (dw d0))) (env0 c ins) p ->
  wf_stmt c (hlim (hp (dw d0))) (after lm c ins p) (DAssign x (DDivide (DVar y) (DVar z))) ->
  exists d ds, drun lm c (p ++ [DAssign x (DDivide (DVar y) (DVar z))]) d0 = (Done tt, d) /\
    get_derivs c x d = (Done (map VD ds), d) /\
    length ds = dlen (after lm c ins p) (DDivide (DVar y) (DVar z)) /\
    forall i, (i < length ds)%nat ->
      lm_pow lm (lane i (ders (after lm c ins p) z)) (i2f 2) =
        fmul (lane i (vals (after lm c ins p) z)) (lane i (vals (after lm c ins p) z)) ->
      nth i ds fzero = fwd lm i (after lm c ins p) (DDivide (DVar y) (DVar z)).
Proof.
  intros lm c ins d0 p x y z HL R W Ws. destruct (quotient_stored lm c ins d0 p x y z HL R W Ws) as [d [E [_ G]]].
  eexists. eexists. split; [exact E|]. split; [exact G|]. rewrite map_length, seq_length. split; [reflexivity|].
  intros i Hi P. rewrite nth_map_seq by exact Hi. cbn zeta. rewrite P. reflexivity.
Qed.
Print Assumptions c44_quotient_partial.

(** pow with the squares of small integers, as in C. *)
Definition sq_lm : libm := {| lm_un := fun _ z => z; lm_pow := fun a _ => fmul a a |}.

(** a independent with value 1: a / a, where the rule holds. *)
Definition ex44_p : list dstmt := [DAssign (bv 0) (DCon true 0 (nums [1; 1]))].
Example c44_ex : ringp ex44_p /\ wf_prog (fwd sq_lm) sq_lm ex43_c 1000 (env0 ex43_c none) ex44_p /\
  wf_stmt ex43_c 1000 (after sq_lm ex43_c none ex44_p) (DAssign (bv 1) (DDivide (DVar (bv 0)) (DVar (bv 0)))) /\
  lm_pow sq_lm (lane 1 (ders (after sq_lm ex43_c none ex44_p) (bv 0))) (i2f 2) =
    fmul (lane 1 (vals (after sq_lm ex43_c none ex44_p) (bv 0))) (lane 1 (vals (after sq_lm ex43_c none ex44_p) (bv 0))).
Proof.
  split; [cbn; auto|]. split; [unfold ex44_p; wf_show|]. split; [unfold ex44_p; wf_show|vm_compute; reflexivity].
Qed.

(** Whenever the divisor does not depend on the independent variable, the
    stored derivative of the quotient is an infinity or NaN in every element,
    while the quotient rule may give a number. *)
Lemma div_zero_inf u : ~ finite (fdiv u (S754_zero false)).
Proof. intros H. destruct u as [[]|[]| |[] m e]; exact H. Qed.

Theorem c44_quotient_refuted : forall lm c ins d0 p x y z, started c ins d0 ->
  ringp p -> wf_prog (fwd lm) lm c (hlim (hp (dw d0))) (env0 c ins) p ->
  wf_stmt c (hlim (hp (dw d0))) (after lm c ins p) (DAssign x (DDivide (DVar y) (DVar z))) ->
  (forall i, lane i (ders (after lm c ins p) z) = fzero) -> lm_pow lm fzero (i2f 2) = fzero ->
  exists d ds, drun lm c (p ++ [DAssign x (DDivide (DVar y) (DVar z))]) d0 = (Done tt, d) /\
    get_derivs c x d = (Done (map VD ds), d) /\ ds <> [] /\ Forall (fun f => ~ finite f) ds.
Proof.
  intros lm c ins d0 p x y z HL R W Ws D P. destruct (quotient_stored lm c ins d0 p x y z HL R W Ws) as [d [E [_ G]]].
  eexists. eexists. split; [exact E|]. split; [exact G|]. split.
  - destruct Ws as [_ [_ [_ [_ [_ [Hn _]]]]]]. intros Q. apply (f_equal (@List.length flt)) in Q.
    rewrite map_length, seq_length in Q. unfold after in *. simpl in Q, Hn. lia.
  - apply Forall_forall. intros f Hf. apply in_map_iff in Hf. destruct Hf as [i [<- _]]. cbn zeta.
    rewrite D, P. apply div_zero_inf.
Qed.
Print Assumptions c44_quotient_refuted.

(** a = coca<0>(av, 6); b = coca<1>(av, 3); x = a / b: the derivative of a / 3 is
    1 / 3, the stored one infinite. *)
Definition ex44_p2 : list dstmt :=
  [DAssign (bv 0) (DCon true 0 (nums [6])); DAssign (bv 1) (DCon true 1 (nums [3]))].
Example c44_refuted_ex : ringp ex44_p2 /\ wf_prog (fwd sq_lm) sq_lm (mkAv 0 3) 1000 (env0 (mkAv 0 3) none) ex44_p2 /\
  wf_stmt (mkAv 0 3) 1000 (after sq_lm (mkAv 0 3) none ex44_p2) (DAssign (bv 2) (DDivide (DVar (bv 0)) (DVar (bv 1)))) /\
  (forall i, lane i (ders (after sq_lm (mkAv 0 3) none ex44_p2) (bv 1)) = fzero) /\ lm_pow sq_lm fzero (i2f 2) = fzero /\
  finite (fwd sq_lm 0 (after sq_lm (mkAv 0 3) none ex44_p2) (DDivide (DVar (bv 0)) (DVar (bv 1)))).
Proof.
  split; [cbn; auto|]. split; [unfold ex44_p2; wf_show|]. split; [unfold ex44_p2; wf_show|].
  split; [|split; vm_compute; reflexivity].
  intros i. unfold lane. cbn [ex44_p2 after srun sexec ders Nat.eqb]. now rewrite Nat.mod_1_r.
Qed.

(** A divisor that depends on the independent variable: a = coca<0>(av, 3);
    b = a * a; x = a / b has the derivative -1/9, the stored one is
    (9 - 18) / 36 = -1/4. *)
Theorem c44_value_refuted : exists p d f, ringp p /\
  drun sq_lm (mkAv 0 3) (p ++ [DAssign (bv 2) (DDivide (DVar (bv 0)) (DVar (bv 1)))]) (dstart 1000) = (Done tt, d) /\
  fst (get_derivs (mkAv 0 3) (bv 2) d) = Done [VD f] /\
  fmul f (i2f 4) = i2f (-1) /\
  fwd sq_lm 0 (after sq_lm (mkAv 0 3) none p) (DDivide (DVar (bv 0)) (DVar (bv 1))) = fdiv (i2f (-9)) (i2f 81) /\
  (derivable_pt_lim (fun z => z / (z * z)) 3 (- 1 / 9))%R.
Proof.
  exists [DAssign (bv 0) (DCon true 0 (nums [3])); DAssign (bv 1) (DTimes (DVar (bv 0)) (DVar (bv 0)))].
  eexists. eexists. split; [cbn; tauto|].
  split; [apply pair_eta; [vm_compute; reflexivity|reflexivity]|].
  split; [vm_compute; reflexivity|]. split; [vm_compute; reflexivity|]. split; [vm_compute; reflexivity|].
  pose proof (derivable_pt_lim_div (fun z => z) (fun z => z * z)%R 3 1 6) as H.
  replace (- 1 / 9)%R with ((1 * (3 * 3) - 6 * 3) / (3 * 3)²)%R by (unfold Rsqr; field).
  apply H; [apply derivable_pt_lim_id| |lra].
  replace 6%R with (1 * 3 + 3 * 1)%R by lra.
  apply (derivable_pt_lim_mult (fun z => z) (fun z => z)); apply derivable_pt_lim_id.
Qed.
Print Assumptions c44_value_refuted.

(* ------------------------------------------------------------------ C45 *)

Lemma sine_stored lm c ins d0 p x e : started c ins d0 -> ringp p -> wf_prog (fwd lm) lm c (hlim (hp (dw d0))) (env0 c ins) p ->
  wf_stmt c (hlim (hp (dw d0))) (after lm c ins p) (DAssign x (DSin e)) -> ringx e ->
  exists d, drun lm c (p ++ [DAssign x (DSin e)]) d0 = (Done tt, d) /\
    get_derivs c x d = (Done (map VD (map (fun i =>
      if is_leaf e then lm_un lm FCos (lval lm i (after lm c ins p) e)
      else lm_un lm FCos (fwd lm i (after lm c ins p) e)) (seq 0 (dlen (after lm c ins p) e)))), d).
Proof.
  intros HL R W Ws Re. destruct (run_then lm c ins d0 p _ HL W R Ws) as [d [E Rp]].
  exists d. split; [exact E|]. pose proof (fun vs ds => rep_both c d _ x vs ds Rp (proj1 Ws)) as S. cbn [sexec] in S.
  destruct (dvar_dec x x); [|contradiction]. destruct (S _ _ eq_refl) as [_ ->]. cbn [dlen].
  f_equal. f_equal. f_equal. apply map_ext. intros i. cbn [lder]. now rewrite ring_lder.
Qed.

(** For a variable the derivative of the sine is right where the derivative of
    the variable is 1 (and the cosine is not changed by a multiplication with
    1, which holds for numbers).  Missing to the full property: all other
    arguments, see below. *)
Theorem c45_sine_partial : forall lm c ins d0 p x y, started c ins d0 ->
  ringp p -> wf_prog (fwd lm) lm c (hlim (hp (dw d0))) (env0 c ins) p ->
  wf_stmt c (hlim (hp (dw d0))) (after lm c ins p) (DAssign x (DSin (DVar y))) ->
  exists d ds, drun lm c (p ++ [DAssign x (DSin (DVar y))]) d0 = (Done tt, d) /\
    get_derivs c x d = (Done (map VD ds), d) /\ length ds = length (vals (after lm c ins p) y) /\
    forall i, (i < length ds)%nat ->
      let f := lm_un lm FCos (lane i (vals (after lm c ins p) y)) in
      lane i (ders (after lm c ins p) y) = fone -> fmul f fone = f ->
      nth i ds fzero = fwd lm i (after lm c ins p) (DSin (DVar y)).
Proof.
  intros lm c ins d0 p x y HL R W Ws. destruct (sine_stored lm c ins d0 p x _ HL R W Ws I) as [d [E G]].
  eexists. eexists. split; [exact E|]. split; [exact G|]. rewrite map_length, seq_length. split; [reflexivity|].
  intros i Hi f D F. rewrite nth_map_seq by exact Hi.
  cbn [is_leaf lval fwd]. rewrite D. symmetry. exact F.
Qed.
Print Assumptions c45_sine_partial.

Example c45_ex : wf_stmt ex43_c 1000 (after sq_lm ex43_c none ex44_p) (DAssign (bv 1) (DSin (DVar (bv 0)))) /\
  lane 1 (ders (after sq_lm ex43_c none ex44_p) (bv 0)) = fone /\
  fmul (lm_un sq_lm FCos (lane 1 (vals (after sq_lm ex43_c none ex44_p) (bv 0)))) fone = lm_un sq_lm FCos (lane 1 (vals (after sq_lm ex43_c none ex44_p) (bv 0))).
Proof. split; [unfold ex44_p; wf_show|]. split; vm_compute; reflexivity. Qed.

(** The derivative of a variable is not used, for any program: the stored
    derivative of sinus(y) is the cosine of y. *)
Theorem c45_factor_refuted : forall lm c ins d0 p x y, started c ins d0 ->
  ringp p -> wf_prog (fwd lm) lm c (hlim (hp (dw d0))) (env0 c ins) p ->
  wf_stmt c (hlim (hp (dw d0))) (after lm c ins p) (DAssign x (DSin (DVar y))) ->
  exists d, drun lm c (p ++ [DAssign x (DSin (DVar y))]) d0 = (Done tt, d) /\
    get_derivs c x d = (Done (map VD (map (fun i => lm_un lm FCos (lane i (vals (after lm c ins p) y)))
      (seq 0 (length (vals (after lm c ins p) y))))), d).
Proof. intros lm c ins d0 p x y HL R W Ws. exact (sine_stored lm c ins d0 p x _ HL R W Ws I). Qed.
Print Assumptions c45_factor_refuted.

(** For any other argument the stored derivative is the cosine of the
    derivative of the argument. *)
Theorem c45_argument_refuted : forall lm c ins d0 p x l r, started c ins d0 ->
  ringp p -> wf_prog (fwd lm) lm c (hlim (hp (dw d0))) (env0 c ins) p -> ringx (DTimes l r) ->
  wf_stmt c (hlim (hp (dw d0))) (after lm c ins p) (DAssign x (DSin (DTimes l r))) ->
  exists d, drun lm c (p ++ [DAssign x (DSin (DTimes l r))]) d0 = (Done tt, d) /\
    get_derivs c x d = (Done (map VD (map (fun i => lm_un lm FCos (fwd lm i (after lm c ins p) (DTimes l r)))
      (seq 0 (dlen (after lm c ins p) (DTimes l r))))), d).
Proof. intros lm c ins d0 p x l r HL R W Re Ws. exact (sine_stored lm c ins d0 p x _ HL R W Ws Re). Qed.
Print Assumptions c45_argument_refuted.

(** b = 2 * a with a = 3 independent: sin(b) has the derivative 2 cos(6), stored
    is cos(6); sin(2 * a) has the same derivative, stored is cos(2).  With any
    cosine the stored numbers are right only by chance. *)
Definition ex45_p : list dstmt :=
  [DAssign (bv 0) (DCon true 0 (nums [3])); DAssign (bv 1) (DTimes (DCon true 1 (nums [2])) (DVar (bv 0)))].
Example c45_refuted_ex : ringp ex45_p /\ wf_prog (fwd sq_lm) sq_lm (mkAv 0 3) 1000 (env0 (mkAv 0 3) none) ex45_p /\
  wf_stmt (mkAv 0 3) 1000 (after sq_lm (mkAv 0 3) none ex45_p) (DAssign (bv 2) (DSin (DVar (bv 1)))) /\
  wf_stmt (mkAv 0 3) 1000 (after sq_lm (mkAv 0 3) none ex45_p) (DAssign (bv 2) (DSin (DTimes (DCon true 1 (nums [2])) (DVar (bv 0))))) /\
  (forall lm, fwd lm 0 (after lm (mkAv 0 3) none ex45_p) (DSin (DVar (bv 1))) = fmul (lm_un lm FCos (i2f 6)) (i2f 2)) /\
  (forall lm, fwd lm 0 (after lm (mkAv 0 3) none ex45_p) (DTimes (DCon true 1 (nums [2])) (DVar (bv 0))) = i2f 2) /\
  (derivable_pt_lim (fun z => sin (2 * z)) 3 (2 * cos 6))%R.
Proof.
  split; [cbn; tauto|]. split; [unfold ex45_p; wf_show|]. split; [unfold ex45_p; wf_show|].
  split; [unfold ex45_p; wf_show|]. split; [intros lm; cbn; reflexivity|]. split; [intros lm; vm_compute; reflexivity|].
  replace (2 * cos 6)%R with (cos (2 * 3) * (2 * 1))%R by (replace (2 * 3)%R with 6%R by lra; lra).
  apply (derivable_pt_lim_comp (fun z => 2 * z)%R sin); [|apply derivable_pt_lim_sin].
  apply derivable_pt_lim_scal, derivable_pt_lim_id.
Qed.

(* ------------------------------------------------------------------ C46 *)

(** After any program (also with quotients, sines and other lengths before),
    assigning a constant to a Buffer variable gives it the elements of the
    constant and as many derivatives, all 1 for the independent variable and
    all 0 for every other variable.
    Missing to the full property: Borrow variables, see below. *)
Theorem c46_seed_partial : forall lm c ins d0 p x ct k l, started c ins d0 ->
  wf_prog (fwd lm) lm c (hlim (hp (dw d0))) (env0 c ins) p -> knd x = KBuffer -> (num x < nbuf c)%nat -> l <> [] -> 2 * Z.of_nat (length l) <= hlim (hp (dw d0)) ->
  exists d, drun lm c (p ++ [DAssign x (DCon ct k l)]) d0 = (Done tt, d) /\
    get_vals x d = (Done (map VD l), d) /\
    get_derivs c x d =
      (Done (repeat (VD (if Z.eq_dec (indep c) (Z.of_nat (num x)) then i2f 1 else S754_zero false)) (length l)), d).
Proof.
  intros lm c ins d0 p x ct k l HL W Kx Hx Nl Ml.
  destruct (run_any lm c ins d0 p HL W) as [d [env [E [R [L _]]]]].
  destruct (dexec_done lm c d env (DAssign x (DCon ct k l)) R) as [d1 [E1 [R1 _]]].
  { rewrite L. unfold wf_stmt. cbn [plainx dvars dcons map fst dlen].
    split; [exact Kx|]. split; [exact Hx|]. split; [exact I|]. split; [intros y []|].
    split; [repeat constructor; intros []|]. split; [destruct l; [congruence|simpl; lia]|].
    split; [split; [intros y []|intros j u [H|[]]; injection H as <- <-; auto]|].
    split; [intros []|]. split; [discriminate|exact Ml]. }
  exists d1. rewrite (drun_app _ _ _ _ _ _ E). cbn [drun]. rewrite (bind_done _ _ _ _ _ E1).
  split; [reflexivity|]. pose proof (fun vs ds => rep_both c d1 _ x vs ds R1 Kx) as S. cbn [sexec] in S.
  destruct (dvar_dec x x); [|contradiction]. destruct (S _ _ eq_refl) as [S1 S2]. split; [exact S1|]. rewrite S2.
  assert (Mr : forall n (f : flt), map VD (repeat f n) = repeat (VD f) n)
    by (intros n f; induction n; [reflexivity|]; cbn [repeat map]; now rewrite IHn).
  rewrite Mr. unfold seed, fone, fzero.
  destruct (Z.eqb_spec (indep c) (Z.of_nat (num x))), (Z.eq_dec (indep c) (Z.of_nat (num x))); auto; contradiction.
Qed.
Print Assumptions c46_seed_partial.

(** A history with other lengths and a sine. *)
Definition ex46_p : list dstmt := ex43_p ++ [DAssign (bv 1) (DSin (DVar (bv 0))); DAssign (bv 0) (DCon true 0 (nums [7]))].
Example c46_ex : wf_prog (fwd ex_lm) ex_lm ex43_c 1000 (env0 ex43_c none) ex46_p.
Proof. unfold ex46_p, ex43_p. cbn [app]. wf_show. Qed.

(** Borrow variables: an AllVars object with the Borrow variable 0 over the
    user's array 5, 6 and, in the second case, the Buffer variable 0. *)
Definition bw_block : world := user_block (dw (dstart 1000)) OwnExt [VD (i2f 5); VD (i2f 6)].
Definition bw_start : dworld :=
  mkDw (snd (borrow_ctor (OD (vslot (ev 0))) TDouble (Some O) 2 bw_block)) false.

(** varBorrow[0] = coca<0>(av, 7, 8) without Buffer variables writes to an
    element of an empty std::array. *)
Theorem c46_borrow_undefined_refuted : fst (get_vals (ev 0) bw_start) = Done (map VD (nums [5; 6])) /\
  fst (dexec ex_lm (mkAv 0 0) (DAssign (ev 0) (DCon true 0 (nums [7; 8]))) bw_start) = Undef UB_oob.
Proof. split; vm_compute; reflexivity. Qed.
Print Assumptions c46_borrow_undefined_refuted.

(** With a Buffer variable of the same number the constant is written into that
    variable; the Borrow variable keeps its elements.  Its derivatives are set
    to 1 although the independent variable is the Buffer variable 0
    (IndepVarTypeIdx is not read). *)
Definition bw_both : dworld := snd (dexec ex_lm (mkAv 0 1) (DAssign (bv 0) (DCon true 0 (nums [1; 2]))) bw_start).
Theorem c46_borrow_written_refuted :
  let r := dexec ex_lm (mkAv 0 1) (DAssign (ev 0) (DCon true 0 (nums [7; 8]))) bw_both in
  fst (get_vals (bv 0) bw_both) = Done (map VD (nums [1; 2])) /\
  fst (get_vals (ev 0) bw_both) = Done (map VD (nums [5; 6])) /\
  fst r = Done tt /\
  fst (get_vals (bv 0) (snd r)) = Done (map VD (nums [7; 8])) /\
  fst (get_vals (ev 0) (snd r)) = Done (map VD (nums [5; 6])) /\
  fst (get_derivs (mkAv 0 1) (ev 0) (snd r)) = Done (map VD (nums [1; 1])).
Proof. repeat split; vm_compute; reflexivity. Qed.
Print Assumptions c46_borrow_written_refuted.

(** The same for BorrowSEXP variables; for more elements than the R vector has,
    the memory of R is deleted. *)
Definition rw_start : dworld := load (rv 0) (nums [5; 6]) (dstart 1000).
Definition rw_both : dworld := snd (dexec ex_lm (mkAv 0 1) (DAssign (bv 0) (DCon true 0 (nums [1; 2]))) rw_start).
Theorem c46_sexp_refuted :
  let r := dexec ex_lm (mkAv 0 1) (DAssign (rv 0) (DCon true 0 (nums [7; 8]))) rw_both in
  fst (get_vals (rv 0) rw_start) = Done (map VD (nums [5; 6])) /\
  fst (dexec ex_lm (mkAv 0 0) (DAssign (rv 0) (DCon true 0 (nums [7; 8]))) rw_start) = Undef UB_oob /\
  fst (dexec ex_lm (mkAv 0 1) (DAssign (rv 0) (DCon true 0 (nums [7; 8; 9]))) rw_both) = Undef UB_foreign_free /\
  fst r = Done tt /\
  fst (get_vals (bv 0) (snd r)) = Done (map VD (nums [7; 8])) /\
  fst (get_vals (rv 0) (snd r)) = Done (map VD (nums [5; 6])) /\
  fst (get_derivs (mkAv 0 1) (rv 0) (snd r)) = Done (map VD (nums [1; 1])).
Proof. repeat split; vm_compute; reflexivity. Qed.
Print Assumptions c46_sexp_refuted.
