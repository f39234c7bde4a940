(** Properties C38 and C39: comparison operators, integer arithmetic. *)
From Coq Require Import String ZArith List Bool Lia Reals Lra.
From Coq.Floats Require Import SpecFloat.
From Flocq Require Import Core.Core.
From Verif Require Import Base Num StoreModel VecModel SubsetModel AllocModel FloatBridge Spec SpecExpr SpecHist SpecProg SpecVec
  SpecSub SpecAlloc StoreProofs StoreOps VecProofs SubsetProofs SubsetThms AllocProofs AllocProofs3 NumProofs Examples PropVec PropSubset.
Import ListNotations.
Open Scope Z_scope.
Local Notation length := List.length (only parsing).

(** A double that is a number. *)
Definition num (d : flt) : Prop := valid d /\ finite d.
(** Element i of a recycled vector. *)
Definition rec {A} (d : A) (l : list A) (i : nat) : A := nth (i mod length l) l d.

Lemma rec_map {A} (f : A -> val) d l i : l <> [] -> nth (i mod length (map f l)) (map f l) (VB false) = f (rec d l i).
Proof.
  intros N. unfold rec. rewrite map_length. rewrite (nth_indep _ _ (f d)); [apply map_nth|].
  rewrite map_length. apply Nat.mod_upper_bound. destruct l; simpl; [congruence|lia].
Qed.
Lemma rec_In {A} (d : A) l i : l <> [] -> In (rec d l i) l.
Proof. intros N. apply nth_In. apply Nat.mod_upper_bound. destruct l; simpl; [congruence|lia]. Qed.

(** Results of comparisons of two vectors. *)
Lemma bin_bools {A} (f : A -> val) (d : A) lm w op e1 e2 l1 l2 (P : A -> A -> Prop) :
  yields lm w e1 (map f l1) -> yields lm w e2 (map f l2) -> l1 <> [] -> l2 <> [] ->
  (forall a b, In a l1 -> In b l2 -> exists c, bin_f lm op (f a) (f b) = Done (VB c) /\ (c = true <-> P a b)) ->
  exists bs, yields lm w (EBin op e1 e2) (map VB bs) /\ length bs = Nat.max (length l1) (length l2) /\
    forall i, (i < length bs)%nat -> (nth i bs false = true <-> P (rec d l1 i) (rec d l2 i)).
Proof.
  intros Y1 Y2 N1 N2 H.
  set (g := fun i => match bin_f lm op (f (rec d l1 i)) (f (rec d l2 i)) with Done (VB c) => c | _ => false end).
  assert (G : forall i, bin_f lm op (f (rec d l1 i)) (f (rec d l2 i)) = Done (VB (g i)) /\
                        (g i = true <-> P (rec d l1 i) (rec d l2 i))).
  { intros i. destruct (H (rec d l1 i) (rec d l2 i)) as [c [E S]]; [now apply rec_In|now apply rec_In|].
    unfold g. rewrite E. auto. }
  exists (map g (seq 0 (Nat.max (length l1) (length l2)))).
  rewrite map_map, map_length, seq_length. split; [|split; [reflexivity|]].
  - pose proof (bin_yields lm w op e1 e2 (map f l1) (map f l2) (fun i => VB (g i)) Y1 Y2) as B.
    rewrite !map_length in B. apply B; [now destruct l1|now destruct l2|].
    intros i Hi. rewrite <- (map_length f l1) at 1. rewrite <- (map_length f l2) at 1.
    rewrite !(rec_map f d) by auto. apply G.
  - intros i Hi. rewrite (nth_map_seq g) by exact Hi. apply G.
Qed.

(* ------------------------------------------------------------------ C38 *)

(** The order an operator stands for. *)
Inductive order_of : binop -> (R -> R -> Prop) -> Prop :=
| Ord_lt : order_of OLt Rlt
| Ord_le : order_of OLe Rle
| Ord_gt : order_of OGt Rgt
| Ord_ge : order_of OGe Rge.

(** Doubles of any two vectors or expressions, the shorter one recycled. *)
Theorem c38_order_partial : forall lm w op rel e1 e2 l1 l2, order_of op rel ->
  yields lm w e1 (map VD l1) -> yields lm w e2 (map VD l2) -> l1 <> [] -> l2 <> [] ->
  Forall num l1 -> Forall num l2 ->
  exists bs, yields lm w (EBin op e1 e2) (map VB bs) /\ length bs = Nat.max (length l1) (length l2) /\
    forall i, (i < length bs)%nat -> (nth i bs false = true <-> rel (fR (rec fzero l1 i)) (fR (rec fzero l2 i))).
Proof.
  intros lm w op rel e1 e2 l1 l2 O Y1 Y2 N1 N2 F1 F2. rewrite Forall_forall in F1, F2.
  apply (bin_bools VD fzero lm w op e1 e2 l1 l2 (fun a b => rel (fR a) (fR b))); auto.
  intros a b Ha Hb. destruct (F1 a Ha) as [Va Fa]. destruct (F2 b Hb) as [Vb Fb].
  destruct O; cbn [bin_f]; unfold compare_vals; cbn [v2z v2f]; eexists; (split; [reflexivity|]).
  - now apply fltb_correct.
  - now apply fleb_correct.
  - now apply fltb_correct.
  - rewrite fleb_correct by auto. split; intros; lra.
Qed.
Print Assumptions c38_order_partial.
Example c38_order_ex : exists bs, yields ex_lm ex_w (EBin OLt (EVar 0) (ESca d2)) (map VB bs) /\ length bs = 3%nat.
Proof.
  destruct (c38_order_partial ex_lm ex_w OLt Rlt (EVar 0) (ESca d2) [i2f 1; i2f 2; i2f 3] [i2f 2]) as [bs [Y [L _]]].
  - constructor.
  - apply vholds_yields. exact ex_holds0.
  - split; [reflexivity|]. intros [|i] Hi; [reflexivity|simpl in Hi; lia].
  - discriminate.
  - discriminate.
  - repeat constructor.
  - repeat constructor.
  - exists bs. split; [exact Y|exact L].
Qed.

(** == : the computed difference is below 1e-3 (the double nearest to it) in
    magnitude; an overflowing difference is not. *)
Theorem c38_equal_partial : forall lm w e1 e2 l1 l2,
  yields lm w e1 (map VD l1) -> yields lm w e2 (map VD l2) -> l1 <> [] -> l2 <> [] ->
  Forall num l1 -> Forall num l2 ->
  exists bs, yields lm w (EBin OEq e1 e2) (map VB bs) /\ length bs = Nat.max (length l1) (length l2) /\
    forall i, (i < length bs)%nat -> (nth i bs false = true <->
      let d := fsub (rec fzero l1 i) (rec fzero l2 i) in finite d /\ (Rabs (fR d) < fR f1em3)%R).
Proof.
  intros lm w e1 e2 l1 l2 Y1 Y2 N1 N2 F1 F2. rewrite Forall_forall in F1, F2.
  apply (bin_bools VD fzero lm w OEq e1 e2 l1 l2
    (fun a b => let d := fsub a b in finite d /\ (Rabs (fR d) < fR f1em3)%R)); auto.
  intros a b Ha Hb. destruct (F1 a Ha) as [Va Fa]. destruct (F2 b Hb) as [Vb Fb].
  eexists. split; [reflexivity|]. cbn zeta. apply ltb_1em3. now apply fsub_valid.
Qed.
Print Assumptions c38_equal_partial.
(** The computed difference is the rounded difference, and the bound is 1e-3
    up to a relative error of 2^-53. *)
Theorem c38_difference_partial : forall a b, num a -> num b -> (Rabs (fR a - fR b) <= bpow radix2 1000)%R ->
  finite (fsub a b) /\ fR (fsub a b) = rnd (fR a - fR b) /\ (Rabs (fR f1em3 - 1 / 1000) <= 1 / 1000 * bpow radix2 (-53))%R.
Proof.
  intros a b [Va Fa] [Vb Fb] H. destruct (fsub_correct a b Va Vb Fa Fb H) as [E [F _]].
  split; [exact F|]. split; [exact E|].
  unfold f1em3. simpl. unfold F2R; simpl. rewrite Rabs_pos_eq; lra.
Qed.
Print Assumptions c38_difference_partial.

Theorem c38_equal_reflexive_partial : forall lm w e l, yields lm w e (map VD l) -> l <> [] -> Forall num l ->
  yields lm w (EBin OEq e e) (map VB (repeat true (length l))).
Proof.
  intros lm w e l Y N F. rewrite Forall_forall in F.
  replace (map VB (repeat true (length l))) with (map (fun _ => VB true) (seq 0 (Nat.max (length (map VD l)) (length (map VD l))))).
  - apply bin_yields; auto; [now destruct l|now destruct l|].
    intros i Hi. rewrite (rec_map VD fzero) by auto.
    destruct (fsub_self (rec fzero l i)) as [s E]; [apply F; now apply rec_In|].
    cbn [bin_f]. unfold trait_eq, arith. cbn [v2z v2f obind]. rewrite E. reflexivity.
  - rewrite Nat.max_id, map_length. clear. generalize O.
    induction l as [|a l IH]; intros k; simpl; [reflexivity|]. f_equal. apply IH.
Qed.
Print Assumptions c38_equal_reflexive_partial.

(** Any two vectors of doubles (also NaN). *)
Theorem c38_equal_symmetric_partial : forall lm w e1 e2 l1 l2 l,
  yields lm w e1 (map VD l1) -> yields lm w e2 (map VD l2) -> l1 <> [] -> l2 <> [] ->
  yields lm w (EBin OEq e1 e2) l -> yields lm w (EBin OEq e2 e1) l.
Proof.
  intros lm w e1 e2 l1 l2 l Y1 Y2 N1 N2 [S E].
  assert (M1 : map VD l1 <> []) by now destruct l1. assert (M2 : map VD l2 <> []) by now destruct l2.
  split.
  - rewrite <- S, (bin_size lm w OEq e1 e2 (map VD l1) (map VD l2)), (bin_size lm w OEq e2 e1 (map VD l2) (map VD l1)) by auto.
    now rewrite Nat.max_comm.
  - intros i Hi. rewrite <- (E i Hi).
    rewrite (bin_elem lm w OEq e1 e2 (map VD l1) (map VD l2)), (bin_elem lm w OEq e2 e1 (map VD l2) (map VD l1)) by auto.
    rewrite !(rec_map VD fzero) by auto. cbn [bin_f]. unfold trait_eq, arith. cbn [v2z v2f obind].
    now rewrite fabs_sub_sym.
Qed.
Print Assumptions c38_equal_symmetric_partial.

(** != is the negation of == except when the computed difference is exactly
    1e-3 in magnitude or NaN.  Missing to the full property: these cases, for
    which it is false. *)
Theorem c38_unequal_partial : forall lm a b, num a -> num b ->
  finite (fsub a b) -> Rabs (fR (fsub a b)) <> fR f1em3 ->
  exists c, bin_f lm OEq (VD a) (VD b) = Done (VB c) /\ bin_f lm ONe (VD a) (VD b) = Done (VB (negb c)).
Proof.
  intros lm a b [Va Fa] [Vb Fb] F N. eexists. split; [reflexivity|]. cbn [bin_f]. unfold trait_ne, arith. cbn [v2z v2f obind].
  do 2 f_equal. destruct f1em3_ok as [V1 F1].
  assert (V : valid (fabs (fsub a b))) by (apply fabs_valid; now apply fsub_valid).
  assert (Fi : finite (fabs (fsub a b))) by now apply fabs_finite.
  rewrite <- fabs_R in N. apply eq_iff_eq_true. rewrite negb_true_iff, <- not_true_iff_false.
  rewrite !fltb_correct by auto. lra.
Qed.
Print Assumptions c38_unequal_partial.
(** Whenever the computed difference is exactly 1e-3, or one side is NaN,
    neither == nor != holds. *)
Theorem c38_neither_refuted : forall lm a b,
  fabs (fsub a b) = f1em3 \/ fsub a b = S754_nan ->
  bin_f lm OEq (VD a) (VD b) = Done (VB false) /\ bin_f lm ONe (VD a) (VD b) = Done (VB false).
Proof.
  intros lm a b H. cbn [bin_f]. unfold trait_eq, trait_ne, arith. cbn [v2z v2f obind].
  destruct H as [->|H]; [split; reflexivity|]. rewrite H. split; reflexivity.
Qed.
Print Assumptions c38_neither_refuted.
Example c38_neither_ex : fabs (fsub f1em3 fzero) = f1em3 /\ fsub S754_nan fone = S754_nan.
Proof. split; reflexivity. Qed.
(** == is not transitive: 0 == 0.0007 == 0.0014 but not 0 == 0.0014. *)
Theorem c38_not_transitive : exists a b c, forall lm,
  bin_f lm OEq (VD a) (VD b) = Done (VB true) /\ bin_f lm OEq (VD b) (VD c) = Done (VB true) /\
  bin_f lm OEq (VD a) (VD c) = Done (VB false).
Proof.
  exists fzero, (S754_finite false 6456360425798343 (-63)), (S754_finite false 6456360425798343 (-62)).
  intros lm. repeat split; vm_compute; reflexivity.
Qed.
Print Assumptions c38_not_transitive.

(** Ints and logicals: exact, as long as the difference is an int. *)
Theorem c38_integers : forall lm u v a b, v2z u = Some a -> v2z v = Some b ->
  - 2 ^ 31 <= a - b < 2 ^ 31 ->
  bin_f lm OLt u v = Done (VB (a <? b)) /\ bin_f lm OLe u v = Done (VB (a <=? b)) /\
  bin_f lm OGt u v = Done (VB (b <? a)) /\ bin_f lm OGe u v = Done (VB (b <=? a)) /\
  bin_f lm OEq u v = Done (VB (a =? b)) /\ bin_f lm ONe u v = Done (VB (negb (a =? b))).
Proof.
  intros lm u v a b U V B. cbn [bin_f]. unfold compare_vals, trait_eq, trait_ne, arith. rewrite U, V.
  repeat (split; [reflexivity|]). rewrite (int_res_ok (a - b)) by exact B. cbn [obind v2f].
  destruct (i2f_exact (a - b)) as [R F]; [lia|].
  pose proof (i2f_valid (a - b)) as Vd. destruct f1em3_ok as [V1 F1].
  assert (B1 : (0 < fR f1em3 < 1)%R) by (unfold f1em3; simpl; unfold F2R; simpl; lra).
  destruct (Z.eqb_spec a b) as [->|N].
  - rewrite Z.sub_diag. split; reflexivity.
  - assert (A : (1 <= Rabs (fR (i2f (a - b))))%R).
    { rewrite R, <- abs_IZR. apply (IZR_le 1). lia. }
    split; do 2 f_equal.
    + apply not_true_iff_false. rewrite ltb_1em3 by auto. lra.
    + simpl. apply fltb_correct; auto using fabs_valid; [now apply fabs_finite|]. rewrite fabs_R. lra.
Qed.
Print Assumptions c38_integers.
Example c38_int_ex : bin_f ex_lm OEq (VI 3) (VI 4) = Done (VB false) /\ bin_f ex_lm OEq (VB true) (VI 1) = Done (VB true).
Proof. split; reflexivity. Qed.
(** Comparing distant ints with == or != overflows. *)
Theorem c38_integers_overflow : forall lm a b, ~ (- 2 ^ 31 <= a - b < 2 ^ 31) ->
  bin_f lm OEq (VI a) (VI b) = Undef UB_overflow /\ bin_f lm ONe (VI a) (VI b) = Undef UB_overflow.
Proof.
  intros lm a b H. cbn [bin_f]. unfold trait_eq, trait_ne, arith. cbn [v2z].
  rewrite int_res_bad by exact H. split; reflexivity.
Qed.
Print Assumptions c38_integers_overflow.

(* ------------------------------------------------------------------ C39 *)

(** The integer operation an operator stands for. *)
Inductive arith_of : binop -> (Z -> Z -> Z) -> Prop :=
| Ar_plus : arith_of OPlus Z.add
| Ar_minus : arith_of OMinus Z.sub
| Ar_times : arith_of OTimes Z.mul.

(** Values that are ints or logicals, as numbers. *)
Definition nums (l : list val) (zs : list Z) : Prop := Forall2 (fun v z => v2z v = Some z) l zs.

Lemma arith_ok lm op zop u v a b : arith_of op zop -> v2z u = Some a -> v2z v = Some b ->
  common (ty_of u) (ty_of v) = TInt -> - 2 ^ 31 <= zop a b < 2 ^ 31 -> bin_f lm op u v = Done (VI (zop a b)).
Proof.
  intros A U V C B.
  assert (E : forall f, trait_arith zop f u v = Done (VI (zop a b))).
  { intros f. unfold trait_arith, arith. rewrite U, V, (int_res_ok (zop a b)) by exact B. cbn [obind]. rewrite C. reflexivity. }
  destruct A; apply E.
Qed.

(** At least one of the two vectors is an int vector, the other int or
    logical; the shorter one is recycled.  Missing to the full property: two
    logical vectors, for which it is false. *)
Theorem c39_integer_arithmetic_partial : forall lm w op zop e1 e2 l1 l2 zs1 zs2 t1 t2, arith_of op zop ->
  yields lm w e1 l1 -> yields lm w e2 l2 -> l1 <> [] -> l2 <> [] ->
  nums l1 zs1 -> nums l2 zs2 -> Forall (fun v => ty_of v = t1) l1 -> Forall (fun v => ty_of v = t2) l2 ->
  common t1 t2 = TInt ->
  (forall i, (i < Nat.max (length l1) (length l2))%nat -> - 2 ^ 31 <= zop (rec 0 zs1 i) (rec 0 zs2 i) < 2 ^ 31) ->
  yields lm w (EBin op e1 e2)
    (map (fun i => VI (zop (rec 0 zs1 i) (rec 0 zs2 i))) (seq 0 (Nat.max (length l1) (length l2)))).
Proof.
  intros lm w op zop e1 e2 l1 l2 zs1 zs2 t1 t2 A Y1 Y2 N1 N2 Z1 Z2 T1 T2 C B.
  apply (bin_yields lm w op e1 e2 l1 l2 (fun i => VI (zop (rec 0 zs1 i) (rec 0 zs2 i)))); auto.
  intros i Hi. rewrite Forall_forall in T1, T2.
  assert (I1 : (i mod length l1 < length l1)%nat) by (apply Nat.mod_upper_bound; destruct l1; simpl; [congruence|lia]).
  assert (I2 : (i mod length l2 < length l2)%nat) by (apply Nat.mod_upper_bound; destruct l2; simpl; [congruence|lia]).
  apply arith_ok; auto.
  - unfold rec. rewrite <- (Forall2_len _ _ _ Z1). exact (Forall2_nth _ _ _ (VB false) 0 (i mod length l1) Z1 I1).
  - unfold rec. rewrite <- (Forall2_len _ _ _ Z2). exact (Forall2_nth _ _ _ (VB false) 0 (i mod length l2) Z2 I2).
  - rewrite (T1 (nth _ l1 _)) by now apply nth_In. rewrite (T2 (nth _ l2 _)) by now apply nth_In. exact C.
Qed.
Print Assumptions c39_integer_arithmetic_partial.
(** c(5, -7) * c(TRUE, FALSE, TRUE, TRUE). *)
Example c39_ex : yields ex_lm ex_w (EBin OTimes (ints [5; -7]) (bools [true; false; true; true])) (map VI [5; 0; 5; -7]).
Proof.
  apply (c39_integer_arithmetic_partial ex_lm ex_w OTimes Z.mul (ints [5; -7]) (bools [true; false; true; true])
    (map VI [5; -7]) (map VB [true; false; true; true]) [5; -7] [1; 0; 1; 1] TInt TBool).
  - constructor.
  - apply yields_tmp.
  - apply yields_tmp.
  - discriminate.
  - discriminate.
  - repeat constructor.
  - repeat constructor.
  - repeat constructor.
  - repeat constructor.
  - reflexivity.
  - intros i Hi. simpl in Hi. destruct i as [|[|[|[|i]]]]; [vm_compute; split; congruence..|lia].
Qed.
(** Two logical vectors: the result is logical, so TRUE + TRUE is TRUE (1, not
    2) and FALSE - TRUE is TRUE (1, not -1). *)
Theorem c39_logical_refuted : forall lm op zop a b, arith_of op zop ->
  bin_f lm op (VB a) (VB b) = Done (VB (negb (zop (if a then 1 else 0) (if b then 1 else 0) =? 0))).
Proof. intros lm op zop a b A. destruct A, a, b; reflexivity. Qed.
Print Assumptions c39_logical_refuted.
Example c39_logical_ex : bin_f ex_lm OPlus (VB true) (VB true) = Done (VB true).
Proof. reflexivity. Qed.
(** Results that do not fit in an int: undefined. *)
Theorem c39_overflow : forall lm op zop a b, arith_of op zop -> ~ (- 2 ^ 31 <= zop a b < 2 ^ 31) ->
  bin_f lm op (VI a) (VI b) = Undef UB_overflow.
Proof.
  intros lm op zop a b A H.
  assert (E : forall f, trait_arith zop f (VI a) (VI b) = Undef UB_overflow).
  { intros f. unfold trait_arith, arith. cbn [v2z]. now rewrite int_res_bad by exact H. }
  destruct A; apply E.
Qed.
Print Assumptions c39_overflow.
