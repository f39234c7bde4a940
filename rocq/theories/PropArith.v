(** Properties C74 and C75 (and the rest of C38): arithmetic on doubles and
    mixed vectors, mathematical functions. *)
From Coq Require Import String ZArith List Bool Lia Reals Lra.
From Coq.Floats Require Import SpecFloat.
From Flocq Require Import Core.Core Relative.
From Verif Require Import Base Num StoreModel VecModel SubsetModel AllocModel FloatBridge Spec SpecExpr SpecHist SpecProg SpecVec
  SpecSub SpecAlloc SpecNum StoreProofs StoreOps VecProofs SubsetProofs SubsetThms AllocProofs AllocProofs3 NumProofs InterpProofs2
  ArithProofs Examples PropVec PropSubset PropNum.
Import ListNotations.
Open Scope Z_scope.
Local Notation length := List.length (only parsing).

(** A binary operation whose results are doubles. *)
Lemma bin_doubles lm w op e1 e2 l1 l2 (P : nat -> flt -> Prop) :
  yields lm w e1 l1 -> yields lm w e2 l2 -> l1 <> [] -> l2 <> [] ->
  (forall i, (i < Nat.max (length l1) (length l2))%nat ->
     exists d, bin_f lm op (rec (VB false) l1 i) (rec (VB false) l2 i) = Done (VD d) /\ P i d) ->
  exists ds, yields lm w (EBin op e1 e2) (map VD ds) /\ length ds = Nat.max (length l1) (length l2) /\
    forall i, (i < length ds)%nat -> P i (nth i ds fzero).
Proof.
  intros Y1 Y2 N1 N2 H.
  set (g := fun i => match bin_f lm op (rec (VB false) l1 i) (rec (VB false) l2 i) with Done (VD d) => d | _ => fzero end).
  assert (G : forall i, (i < Nat.max (length l1) (length l2))%nat ->
     bin_f lm op (rec (VB false) l1 i) (rec (VB false) l2 i) = Done (VD (g i)) /\ P i (g i)).
  { intros i Hi. destruct (H i Hi) as [d [E Q]]. unfold g. rewrite E. auto. }
  exists (map g (seq 0 (Nat.max (length l1) (length l2)))). rewrite map_map, map_length, seq_length.
  split; [|split; [reflexivity|]].
  - apply (bin_yields lm w op e1 e2 l1 l2 (fun i => VD (g i))); auto. intros i Hi. apply G, Hi.
  - intros i Hi. rewrite (nth_map_seq g) by exact Hi. apply G, Hi.
Qed.
Lemma rec_lt {A} (l : list A) i : l <> [] -> (i mod length l < length l)%nat.
Proof. intros N. apply Nat.mod_upper_bound. destruct l; simpl; [congruence|lia]. Qed.
Lemma stands_rec l r i : Forall2 stands l r -> l <> [] -> stands (rec (VB false) l i) (rec 0%R r i).
Proof.
  intros F N. unfold rec. rewrite <- (Forall2_len _ _ _ F).
  exact (Forall2_nth _ _ _ (VB false) 0%R (i mod length l) F (rec_lt l i N)).
Qed.

Lemma un_elem lm w op e l i : yields lm w e l -> (i < length l)%nat ->
  elem lm (EUn op e) (Z.of_nat i) w = (un_f lm op (nth i l (VB false)), w).
Proof.
  intros [S1 E1] Hi. cbn [elem]. rewrite bind_get.
  assert (A : (if is_sca e then elem lm e 0 else k <- lift (modz (Z.of_nat i) (esize w e)) ;; elem lm e k) w =
     (Done (nth i l (VB false)), w)).
  { destruct (is_sca e) eqn:I.
    - destruct e; try discriminate. simpl in S1. assert (i = O) as -> by lia. apply (E1 O). lia.
    - unfold modz. rewrite S1. replace (Z.of_nat (length l) =? 0) with false by (symmetry; apply Z.eqb_neq; lia).
      rewrite bind_lift_done. rewrite Z.mod_small by lia. apply E1. exact Hi. }
  rewrite (bind_done _ _ _ _ _ A). reflexivity.
Qed.

(* ------------------------------------------------------------------ C74 *)

(** +, -, * on vectors of which at least one holds doubles, and / on any:
    every element is the double nearest to the real result, the shorter vector
    recycled. *)
Theorem c74_rounded : forall lm w op rop dom e1 e2 l1 l2 r1 r2, real_of op rop dom ->
  yields lm w e1 l1 -> yields lm w e2 l2 -> l1 <> [] -> l2 <> [] ->
  Forall2 stands l1 r1 -> Forall2 stands l2 r2 -> Forall dom r2 ->
  op = ODiv \/ Forall (fun v => ty_of v = TDouble) l1 \/ Forall (fun v => ty_of v = TDouble) l2 ->
  exists ds, yields lm w (EBin op e1 e2) (map VD ds) /\ length ds = Nat.max (length l1) (length l2) /\
    forall i, (i < length ds)%nat -> nearest (rop (rec 0%R r1 i) (rec 0%R r2 i)) (nth i ds fzero).
Proof.
  intros lm w op rop dom e1 e2 l1 l2 r1 r2 O Y1 Y2 N1 N2 S1 S2 D T.
  apply (bin_doubles lm w op e1 e2 l1 l2 (fun i d => nearest (rop (rec 0%R r1 i) (rec 0%R r2 i)) d)); auto.
  intros i Hi. apply (real_done lm op rop dom).
  - exact O.
  - now apply stands_rec.
  - now apply stands_rec.
  - rewrite Forall_forall in D. apply D, rec_In. intros ->. inversion S2; subst; congruence.
  - destruct T as [T|[T|T]]; [auto|right; left|right; right]; rewrite Forall_forall in T; apply T, rec_In; assumption.
Qed.
Print Assumptions c74_rounded.

(** What nearest means: no double is closer; the relative error is at most
    2^-53 where the result is neither tiny nor out of range; a result that is a
    double is exact. *)
Theorem c74_closest : forall r d x, nearest r d -> (Rabs (rnd r) < bpow radix2 1024)%R ->
  valid x -> finite x -> (Rabs (fR d - r) <= Rabs (fR x - r))%R.
Proof.
  intros r d x [N _] B Vx Fx. destruct (N B) as [_ [_ ->]].
  destruct (valid_b x Vx) as [bx <-]. rewrite BinarySingleNaN.SF2R_B2SF.
  pose proof (round_N_pt radix2 (SpecFloat.fexp 53 1024) (fun x => negb (Z.even x)) r) as [_ H].
  apply H. apply BinarySingleNaN.generic_format_B2R.
Qed.
Print Assumptions c74_closest.
Theorem c74_error : forall r d, nearest r d ->
  (bpow radix2 (-1022) <= Rabs r)%R -> (Rabs r <= bpow radix2 1023)%R ->
  (Rabs (fR d - r) <= bpow radix2 (-53) * Rabs r)%R.
Proof.
  intros r d [N _] L U.
  assert (B : (Rabs (rnd r) < bpow radix2 1024)%R).
  { apply Rle_lt_trans with (bpow radix2 1023); [|apply bpow_lt; lia].
    apply abs_round_le_generic; auto with typeclass_instances.
    - apply BinarySingleNaN.fexp_correct. reflexivity.
    - apply generic_format_bpow. simpl. unfold SpecFloat.fexp, SpecFloat.emin. lia. }
  destruct (N B) as [_ [_ ->]].
  pose proof (relative_error_N_FLT radix2 (-1074) 53 eq_refl (fun x => negb (Z.even x)) r) as E.
  replace (bpow radix2 (-53)) with (/ 2 * bpow radix2 (- 53 + 1))%R.
  - apply E. exact L.
  - change (- 53 + 1) with (-52). change (-53) with (-1 + -52). rewrite bpow_plus. reflexivity.
Qed.
Print Assumptions c74_error.
Theorem c74_exact : forall r d x, nearest r d -> valid x -> finite x -> fR x = r ->
  valid d /\ finite d /\ fR d = r.
Proof.
  intros r d x [N _] Vx Fx <-. rewrite (rnd_float x Vx) in N. apply N.
  destruct (valid_b x Vx) as [bx <-]. rewrite BinarySingleNaN.SF2R_B2SF. apply BinarySingleNaN.abs_B2R_lt_emax.
Qed.
Print Assumptions c74_exact.

(** Division by the integer 0. *)
Theorem c74_division_by_zero : forall lm w e l r, yields lm w e l -> l <> [] -> Forall2 stands l r ->
  exists ds, yields lm w (EBin ODiv e (ESca (VI 0))) (map VD ds) /\ length ds = length l /\
    forall i, (i < length ds)%nat ->
      ((0 < rec 0%R r i)%R -> nth i ds fzero = S754_infinity false) /\
      ((rec 0%R r i < 0)%R -> nth i ds fzero = S754_infinity true) /\
      (rec 0%R r i = 0%R -> nth i ds fzero = S754_nan).
Proof.
  intros lm w e l r Y N S0.
  destruct (bin_doubles lm w ODiv e (ESca (VI 0)) l [VI 0] (fun i d =>
      ((0 < rec 0%R r i)%R -> d = S754_infinity false) /\ ((rec 0%R r i < 0)%R -> d = S754_infinity true) /\
      (rec 0%R r i = 0%R -> d = S754_nan))) as [ds [A [B C]]]; auto.
  - split; [reflexivity|]. intros [|i] Hi; [reflexivity|simpl in Hi; lia].
  - discriminate.
  - intros i Hi. unfold rec at 2. rewrite Nat.mod_1_r. cbn [nth bin_f]. unfold trait_div. eexists. split; [reflexivity|].
    destruct (stands_v2f _ _ (stands_rec l r i S0 N)) as [V [F E]]. rewrite <- E. clear E.
    change (v2f (VI 0)) with (S754_zero false).
    destruct (v2f (rec (VB false) l i)) as [s|s| |s m x]; try (simpl in F; tauto).
    + simpl. repeat split; intros; try lra. 
    + destruct s; simpl.
      * assert (F2R (Float radix2 (Zneg m) x) < 0)%R by now apply F2R_lt_0. repeat split; intros; try lra; reflexivity.
      * assert (0 < F2R (Float radix2 (Zpos m) x))%R by now apply F2R_gt_0. repeat split; intros; try lra; reflexivity.
  - exists ds. split; [exact A|]. split; [|exact C]. rewrite B. simpl. destruct l; [congruence|simpl; lia].
Qed.
Print Assumptions c74_division_by_zero.

(** NaN: the result of arithmetic with it is NaN. *)
Theorem c74_nan : forall lm op rop dom v, real_of op rop dom ->
  bin_f lm op (VD S754_nan) v = Done (VD S754_nan) /\ bin_f lm op v (VD S754_nan) = Done (VD S754_nan).
Proof.
  intros lm op rop dom v O.
  destruct O; cbn [bin_f]; unfold trait_arith, trait_div, arith; cbn [v2z v2f]; destruct v; cbn [v2z v2f obind common ty_of cast];
    split; try reflexivity.
  all: match goal with |- context [i2f ?z] => destruct (i2f z) | d : flt |- _ => destruct d end; reflexivity.
Qed.
Print Assumptions c74_nan.

(** Unary minus is exact. *)
Theorem c74_negate_partial : forall lm w e l r, yields lm w e l -> Forall2 stands l r -> ~ In (VI (- 2 ^ 31)) l ->
  exists ds, yields lm w (EUn UNeg e) (map VD ds) /\
    Forall2 (fun d x => valid d /\ finite d /\ fR d = (- x)%R) ds r.
Proof.
  intros lm w e l r [Y1 Y2] S0 N.
  assert (G : exists ds, Forall2 (fun v d => un_f lm UNeg v = Done (VD d)) l ds /\
                         Forall2 (fun d x => valid d /\ finite d /\ fR d = (- x)%R) ds r).
  { clear Y1 Y2. induction S0 as [|v x l r Sv _ IH]; [exists []; split; constructor|].
    destruct IH as [ds [A B]]; [intros I; apply N; now right|].
    assert (E : exists d, un_f lm UNeg v = Done (VD d) /\ valid d /\ finite d /\ fR d = (- x)%R).
    { assert (K : forall z : Z, - 2 ^ 31 < z < 2 ^ 31 ->
        exists d, (z0 <-o int_res (- z) ;; Done (VD (i2f z0))) = Done (VD d) /\ valid d /\ finite d /\ fR d = (- IZR z)%R).
      { intros z B'. exists (i2f (- z)). rewrite (SubsetProofs.int_res_ok (- z)) by lia. split; [reflexivity|].
        destruct (i2f_exact (- z)) as [P Q]; [assert (2 ^ 31 < 2 ^ 53) by (apply Z.pow_lt_mono_r; lia); lia|].
        split; [apply i2f_valid|]. split; [exact Q|]. rewrite P. apply opp_IZR. }
      destruct Sv as [b|z Bz|d V F]; cbn [un_f v2z].
      - destruct b; [exact (K 1 ltac:(lia))|exact (K 0 ltac:(lia))].
      - apply K. assert (z <> - 2 ^ 31) by (intros ->; apply N; now left). lia.
      - eexists. split; [reflexivity|]. cbn [v2f]. split; [now apply valid_fopp|]. split; [now apply finite_fopp|apply fR_fopp]. }
    destruct E as [d [E1 E2]]. exists (d :: ds). split; constructor; auto. }
  destruct G as [ds [A B]]. exists ds. split; [|exact B].
  pose proof (Forall2_len _ _ _ A) as L. split.
  - cbn [esize]. rewrite map_length, <- L. exact Y1.
  - rewrite map_length. intros i Hi. rewrite (un_elem lm w UNeg e l i) by (try (split; assumption); lia).
    rewrite (Forall2_nth _ _ _ (VB false) fzero i A ltac:(lia)). f_equal. f_equal.
    rewrite (nth_indep _ (VB false) (VD fzero)) by now rewrite map_length. now rewrite map_nth.
Qed.
Print Assumptions c74_negate_partial.
(** The smallest int has no int negation. *)
Theorem c74_negate_refuted : forall lm w e l i, yields lm w e l -> (i < length l)%nat -> nth i l (VB false) = VI (- 2 ^ 31) ->
  elem lm (EUn UNeg e) (Z.of_nat i) w = (Undef UB_overflow, w).
Proof.
  intros lm w e l i Y Hi E. now rewrite (un_elem lm w UNeg e l i Y Hi), E.
Qed.
Print Assumptions c74_negate_refuted.

(** c(1, 2, 3) / c(2L, -4L). *)
Lemma ex_stands3 : Forall2 stands [d1; d2; d3] [fR (i2f 1); fR (i2f 2); fR (i2f 3)].
Proof. repeat constructor. Qed.
Example c74_ex : exists ds, yields ex_lm ex_w (EBin ODiv (EVar 0) (ints [2; -4])) (map VD ds) /\ length ds = 3%nat /\
  fR (nth 0 ds fzero) = (1 / 2)%R.
Proof.
  destruct (c74_rounded ex_lm ex_w ODiv Rdiv (fun y => y <> 0%R) (EVar 0) (ints [2; -4]) [d1; d2; d3] (map VI [2; -4])
    [fR (i2f 1); fR (i2f 2); fR (i2f 3)] [2%R; (-4)%R]) as [ds [A [B C]]].
  - constructor.
  - apply vholds_yields. exact ex_holds0.
  - apply yields_tmp.
  - discriminate.
  - discriminate.
  - exact ex_stands3.
  - constructor; [apply (St_int 2); lia|constructor; [apply (St_int (-4)); lia|constructor]].
  - constructor; [lra|constructor; [lra|constructor]].
  - now left.
  - exists ds. split; [exact A|]. split; [exact B|].
    destruct (c74_exact _ _ (S754_finite false 4503599627370496 (-53)) (C 0%nat ltac:(rewrite B; simpl; lia))) as [_ [_ E]].
    + reflexivity.
    + exact I.
    + unfold rec. simpl. unfold F2R; simpl. lra.
    + rewrite E. unfold rec. simpl. unfold F2R; simpl. lra.
Qed.
Example c74_zero_ex : exists ds, yields ex_lm ex_w (EBin ODiv (EVar 0) (ESca (VI 0))) (map VD ds) /\ length ds = 3%nat.
Proof.
  destruct (c74_division_by_zero ex_lm ex_w (EVar 0) [d1; d2; d3] _ (vholds_yields _ _ _ _ ex_holds0) ltac:(discriminate) ex_stands3)
    as [ds [A [B _]]]. exists ds. split; [exact A|exact B].
Qed.
Example c74_negate_ex : exists ds, yields ex_lm ex_w (EUn UNeg (EVar 0)) (map VD ds) /\ length ds = 3%nat.
Proof.
  destruct (c74_negate_partial ex_lm ex_w (EVar 0) [d1; d2; d3] _ (vholds_yields _ _ _ _ ex_holds0) ex_stands3) as [ds [A B]].
  - simpl. intuition discriminate.
  - exists ds. split; [exact A|]. now rewrite (Forall2_len _ _ _ B).
Qed.

(* ------------------------------------------------------------------ C75 *)

(** Doubles equal to the numbers in r. *)
Definition doubles (xs : list flt) (r : list R) : Prop := Forall2 (fun x y => valid x /\ finite x /\ fR x = y) xs r.

Lemma doubles_v2f l r : Forall2 stands l r -> doubles (map v2f l) r.
Proof. intros F. induction F; simpl; constructor; auto. now apply stands_v2f. Qed.

(** sin, exp, sqrt, ...: the library's function of every element, ints and
    logicals converted to doubles exactly. *)
Theorem c75_functions : forall lm w f e l r, yields lm w e l -> Forall2 stands l r ->
  exists xs, doubles xs r /\ yields lm w (EUn (UFun f) e) (map (fun x => VD (lm_un lm f x)) xs).
Proof.
  intros lm w f e l r [Y1 Y2] S0. exists (map v2f l). split; [now apply doubles_v2f|]. split.
  - cbn [esize]. rewrite !map_length. exact Y1.
  - rewrite !map_length. intros i Hi. rewrite (un_elem lm w (UFun f) e l i) by (try (split; assumption); lia). cbn [un_f]. f_equal. f_equal.
    rewrite map_map. rewrite (nth_indep (map _ l) (VB false) (VD (lm_un lm f (v2f (VB false))))) by now rewrite map_length.
    now rewrite (map_nth (fun v => VD (lm_un lm f (v2f v)))).
Qed.
Print Assumptions c75_functions.

(** Powers: a double if one of the vectors holds doubles; of ints the double
    result truncated; undefined if it is out of range. *)
Theorem c75_power : forall lm w e1 e2 l1 l2 r1 r2,
  yields lm w e1 l1 -> yields lm w e2 l2 -> l1 <> [] -> l2 <> [] -> Forall2 stands l1 r1 -> Forall2 stands l2 r2 ->
  Forall (fun v => ty_of v = TDouble) l1 \/ Forall (fun v => ty_of v = TDouble) l2 ->
  exists xs ys, doubles xs r1 /\ doubles ys r2 /\
    yields lm w (EBin OPow e1 e2) (map (fun i => VD (lm_pow lm (rec fzero xs i) (rec fzero ys i)))
      (seq 0 (Nat.max (length l1) (length l2)))).
Proof.
  intros lm w e1 e2 l1 l2 r1 r2 Y1 Y2 N1 N2 S1 S2 T. exists (map v2f l1), (map v2f l2).
  split; [now apply doubles_v2f|]. split; [now apply doubles_v2f|].
  apply (bin_yields lm w OPow e1 e2 l1 l2); auto. intros i Hi. cbn [bin_f]. unfold trait_pow.
  assert (C : common (ty_of (nth (i mod length l1) l1 (VB false))) (ty_of (nth (i mod length l2) l2 (VB false))) = TDouble).
  { destruct T as [T|T]; rewrite Forall_forall in T.
    - rewrite (T (nth _ l1 _)) by (apply nth_In, rec_lt, N1). reflexivity.
    - rewrite (T (nth _ l2 _)) by (apply nth_In, rec_lt, N2). now destruct (ty_of _). }
  rewrite C. cbn [cast v2f]. unfold rec. rewrite !map_length.
  rewrite (nth_indep (map v2f l1) fzero (v2f (VB false))) by (rewrite map_length; now apply rec_lt).
  rewrite (nth_indep (map v2f l2) fzero (v2f (VB false))) by (rewrite map_length; now apply rec_lt).
  now rewrite !map_nth.
Qed.
Print Assumptions c75_power.
Theorem c75_power_int : forall lm a b p, lm_pow lm (i2f a) (i2f b) = p -> valid p ->
  (finite p /\ - 2 ^ 31 <= Ztrunc (fR p) < 2 ^ 31 -> bin_f lm OPow (VI a) (VI b) = Done (VI (Ztrunc (fR p)))) /\
  (~ (finite p /\ - 2 ^ 31 <= Ztrunc (fR p) < 2 ^ 31) -> bin_f lm OPow (VI a) (VI b) = Undef UB_cast).
Proof.
  intros lm a b p E V. cbn [bin_f]. unfold trait_pow. cbn [ty_of common cast v2f]. rewrite E. unfold f2int. split.
  - intros [F B]. rewrite (ftrunc_correct p F). unfold in_int, int_min, int_max.
    replace (_ && _) with true by (symmetry; rewrite andb_true_iff, Z.leb_le, Z.leb_le; lia).
    reflexivity.
  - intros H. destruct (ftrunc p) as [z|] eqn:T; [|reflexivity].
    assert (F : finite p) by (destruct p; simpl in *; try discriminate; auto).
    rewrite (ftrunc_correct p F) in T. injection T as <-. unfold in_int, int_min, int_max.
    replace (_ && _) with false; [reflexivity|]. symmetry. apply not_true_iff_false. rewrite andb_true_iff, !Z.leb_le.
    intros B. apply H. split; [exact F|lia].
Qed.
Print Assumptions c75_power_int.
Definition square_lm : libm := {| lm_un := fun _ x => x; lm_pow := fun x _ => fmul x x |}.
Example c75_power_int_ex : bin_f square_lm OPow (VI 46341) (VI 2) = Undef UB_cast /\
  bin_f square_lm OPow (VI (-46340)) (VI 2) = Done (VI 2147395600).
Proof. split; vm_compute; reflexivity. Qed.
Example c75_ex : exists xs, doubles xs [fR (i2f 1); fR (i2f 2); fR (i2f 3)] /\
  yields ex_lm ex_w (EUn (UFun FExp) (EVar 0)) (map (fun x => VD (lm_un ex_lm FExp x)) xs).
Proof. apply (c75_functions _ _ _ _ _ _ (vholds_yields _ _ _ _ ex_holds0) ex_stands3). Qed.
Example c75_power_ex : exists xs ys, doubles xs [fR (i2f 1); fR (i2f 2); fR (i2f 3)] /\ doubles ys [2%R] /\
  yields ex_lm ex_w (EBin OPow (EVar 0) (ESca (VI 2))) (map (fun i => VD (lm_pow ex_lm (rec fzero xs i) (rec fzero ys i))) (seq 0 3)).
Proof.
  apply (c75_power ex_lm ex_w (EVar 0) (ESca (VI 2)) [d1; d2; d3] [VI 2]).
  - apply vholds_yields. exact ex_holds0.
  - split; [reflexivity|]. intros [|i] Hi; [reflexivity|simpl in Hi; lia].
  - discriminate.
  - discriminate.
  - exact ex_stands3.
  - constructor; [apply (St_int 2); lia|constructor].
  - left. repeat constructor.
Qed.

(* ------------------------------------------------------------------ C38 *)

(** Comparisons of any mixture of logicals, ints and doubles. *)
Theorem c38_mixed : forall lm w op rel e1 e2 l1 l2 r1 r2, order_of op rel ->
  yields lm w e1 l1 -> yields lm w e2 l2 -> l1 <> [] -> l2 <> [] -> Forall2 stands l1 r1 -> Forall2 stands l2 r2 ->
  exists bs, yields lm w (EBin op e1 e2) (map VB bs) /\ length bs = Nat.max (length l1) (length l2) /\
    forall i, (i < length bs)%nat -> (nth i bs false = true <-> rel (rec 0%R r1 i) (rec 0%R r2 i)).
Proof.
  intros lm w op rel e1 e2 l1 l2 r1 r2 O Y1 Y2 N1 N2 S1 S2.
  assert (K : forall u v x y, stands u x -> stands v y -> exists c, bin_f lm op u v = Done (VB c) /\ (c = true <-> rel x y)).
  { intros u v x y U V.
    destruct (stands_v2f _ _ U) as [Vu [Fu Eu]]. destruct (stands_v2f _ _ V) as [Vv [Fv Ev]].
    assert (Z2 : forall a b, v2z u = Some a -> v2z v = Some b -> x = IZR a /\ y = IZR b).
    { intros a b A B. destruct U as [[]|z _|]; try discriminate; injection A as <-; destruct V as [[]|z' _|]; try discriminate; injection B as <-; auto. }
    destruct O; cbn [bin_f]; unfold compare_vals; destruct (v2z u) as [a|] eqn:A; destruct (v2z v) as [b|] eqn:B;
      eexists; (split; [reflexivity|]); try (rewrite ?fltb_correct, ?fleb_correct, ?Eu, ?Ev by auto; try tauto; split; intros; lra).
    all: destruct (Z2 a b eq_refl eq_refl) as [-> ->].
    - rewrite Z.ltb_lt. split; [apply IZR_lt|apply lt_IZR].
    - rewrite Z.leb_le. split; [apply IZR_le|apply le_IZR].
    - rewrite Z.ltb_lt. split; [apply IZR_lt|apply lt_IZR].
    - rewrite Z.leb_le. split; [intros H; apply Rle_ge, IZR_le, H|intros H; apply le_IZR, Rge_le, H]. }
  set (g := fun i => match bin_f lm op (rec (VB false) l1 i) (rec (VB false) l2 i) with Done (VB c) => c | _ => false end).
  assert (G : forall i, bin_f lm op (rec (VB false) l1 i) (rec (VB false) l2 i) = Done (VB (g i)) /\
     (g i = true <-> rel (rec 0%R r1 i) (rec 0%R r2 i))).
  { intros i. destruct (K _ _ _ _ (stands_rec l1 r1 i S1 N1) (stands_rec l2 r2 i S2 N2)) as [c [E Q]]. unfold g. rewrite E. auto. }
  exists (map g (seq 0 (Nat.max (length l1) (length l2)))). rewrite map_map, map_length, seq_length.
  split; [|split; [reflexivity|]].
  - apply (bin_yields lm w op e1 e2 l1 l2 (fun i => VB (g i))); auto. intros i Hi. apply G.
  - intros i Hi. rewrite (nth_map_seq g) by exact Hi. apply G.
Qed.
Print Assumptions c38_mixed.
Example c38_mixed_ex : exists bs, yields ex_lm ex_w (EBin OGe (EVar 0) (ints [2])) (map VB bs) /\ length bs = 3%nat.
Proof.
  destruct (c38_mixed ex_lm ex_w OGe Rge (EVar 0) (ints [2]) [d1; d2; d3] (map VI [2]) [fR (i2f 1); fR (i2f 2); fR (i2f 3)] [2%R]) as [bs [A [B _]]].
  - constructor.
  - apply vholds_yields. exact ex_holds0.
  - apply yields_tmp.
  - discriminate.
  - discriminate.
  - exact ex_stands3.
  - constructor; [apply (St_int 2); lia|constructor].
  - exists bs. split; [exact A|exact B].
Qed.
(** Every comparison with NaN is false, also !=. *)
Theorem c38_nan : forall lm op v, In op [OEq; ONe; OLt; OLe; OGt; OGe] ->
  bin_f lm op (VD S754_nan) v = Done (VB false) /\ bin_f lm op v (VD S754_nan) = Done (VB false).
Proof.
  intros lm op v H.
  simpl in H. destruct H as [<-|[<-|[<-|[<-|[<-|[<-|[]]]]]]]; cbn [bin_f]; unfold trait_eq, trait_ne, compare_vals, arith;
    cbn [v2z v2f]; destruct v; cbn [v2z v2f obind]; split; try reflexivity.
  all: match goal with |- context [i2f ?z] => destruct (i2f z) | d : flt |- _ => destruct d end; reflexivity.
Qed.
Print Assumptions c38_nan.
