(** Floating point side of the interpolation at the data points. *)
From Coq Require Import ZArith Bool Lia Reals Lra.
From Coq.Floats Require Import SpecFloat.
From Flocq Require Import Core BinarySingleNaN.
From Verif Require Import Base Num StoreModel VecModel InterpModel FloatBridge NumProofs.
Open Scope Z_scope.

Lemma fdiv_equiv (x y : bf) : fdiv (B2SF x) (B2SF y) = B2SF (Bdiv mode_NE x y).
Proof.
  unfold fdiv.
  case x as [sx|sx| |sx mx ex Bx]; case y as [sy|sy| |sy my ey By]; [now trivial.. | ].
  simpl. rewrite B2SF_SF2B.
  set (melz := SFdiv_core_binary _ _ _ _ _ _). case melz as [[mz ez] lz]. apply binary_round_aux_equiv'.
Qed.

Lemma fdiv_correct x y : valid x -> valid y -> finite x -> finite y -> fR y <> 0%R ->
  (Rabs (fR x / fR y) <= bpow radix2 1000)%R ->
  fR (fdiv x y) = rnd (fR x / fR y) /\ finite (fdiv x y) /\ valid (fdiv x y).
Proof.
  intros Vx Vy Fx Fy N H.
  destruct (valid_b x Vx) as [bx <-]. destruct (valid_b y Vy) as [by_ <-].
  rewrite fdiv_equiv. rewrite !SF2R_B2SF in *.
  generalize (Bdiv_correct 53 1024 prec53 emax1024 mode_NE bx by_ N).
  simpl round_mode.
  rewrite Rlt_bool_true.
  - intros [A [B _]]. rewrite finite_b in *. rewrite Fx in B. auto using valid_B2SF'.
  - eapply Rle_lt_trans; [apply round_lt_max, H | apply bpow_1000].
Qed.

Lemma zero_form d : finite d -> fR d = 0%R -> exists s, d = S754_zero s.
Proof.
  destruct d as [s|s| |s m e]; simpl; try easy; [eauto|]. intros _ H.
  apply eq_0_F2R in H. destruct s; discriminate.
Qed.

Lemma rnd_float x : valid x -> rnd (fR x) = fR x.
Proof.
  intros V. destruct (valid_b x V) as [b <-]. rewrite SF2R_B2SF.
  apply round_generic; [typeclasses eauto|]. apply generic_format_B2R.
Qed.

Lemma fmul_zero s y : finite y -> exists s', fmul (S754_zero s) y = S754_zero s'.
Proof. destruct y; simpl; try easy; intros _; eexists; reflexivity. Qed.

Lemma fadd_zero x s : valid x -> finite x ->
  valid (fadd x (S754_zero s)) /\ finite (fadd x (S754_zero s)) /\ fR (fadd x (S754_zero s)) = fR x.
Proof.
  destruct x as [t|t| |t m e]; simpl; try easy; intros V _.
  destruct t, s; simpl; repeat split.
Qed.

Lemma fdiv_zero s y : finite y -> fR y <> 0%R -> exists s', fdiv (S754_zero s) y = S754_zero s'.
Proof. destruct y; simpl; try easy; intros _ _; eexists; reflexivity. Qed.

(** What C requires of pow at zero. *)
Definition pow_at_zero (lm : libm) : Prop := forall s,
  lm_pow lm (S754_zero s) (i2f 2) = S754_zero false /\ lm_pow lm (S754_zero s) (i2f 3) = S754_zero s.

Lemma fone_mul y : valid y -> finite y -> (Rabs (fR y) <= bpow radix2 1000)%R ->
  fR (fmul fone y) = fR y /\ finite (fmul fone y) /\ valid (fmul fone y).
Proof.
  intros V F B. assert (O : fR fone = 1%R) by (destruct (i2f_exact 1) as [E _]; [lia|exact E]).
  assert (O2 : finite fone) by (destruct (i2f_exact 1) as [_ E]; [lia|exact E]).
  destruct (fmul_correct fone y) as [E R]; auto; [reflexivity| |].
  - now rewrite O, Rmult_1_l.
  - split; [|exact R]. rewrite E, O, Rmult_1_l. now apply rnd_float.
Qed.

Lemma knot_value lm t q : pow_at_zero lm -> valid t -> finite t -> valid (kt1 q) -> finite (kt1 q) -> fR t = fR (kt1 q) ->
  finite (fsub (kt2 q) (kt1 q)) -> fR (fsub (kt2 q) (kt1 q)) <> 0%R ->
  finite (fdiv (fsub (ky2 q) (ky0 q)) (fsub (kt2 q) (kt0 q))) ->
  finite (fdiv (fsub (ky3 q) (ky1 q)) (fsub (kt3 q) (kt1 q))) ->
  finite (ky2 q) -> valid (ky1 q) -> finite (ky1 q) -> (Rabs (fR (ky1 q)) <= bpow radix2 1000)%R ->
  valid (cmr_value lm t q) /\ finite (cmr_value lm t q) /\ fR (cmr_value lm t q) = fR (ky1 q).
Proof.
  intros P Vt Ft V1 F1 E Fd Nd M1 M2 Fy2 Vy Fy By. unfold cmr_value. cbv zeta.
  set (dt := fsub (kt2 q) (kt1 q)) in *.
  set (m1 := fdiv (fsub (ky2 q) (ky0 q)) _) in *. set (m2 := fdiv (fsub (ky3 q) (ky1 q)) _) in *.
  destruct (fsub_correct t (kt1 q)) as [R0 [Fz _]]; auto.
  { rewrite E, Rminus_diag_eq by reflexivity. rewrite Rabs_R0. apply bpow_ge_0. }
  rewrite E, Rminus_diag_eq, round_0 in R0 by (try reflexivity; typeclasses eauto).
  destruct (zero_form _ Fz R0) as [s0 ->]. destruct (fdiv_zero s0 dt Fd Nd) as [s ->].
  destruct (P s) as [-> ->].
  replace (fadd (fsub (fmul (i2f 2) (S754_zero s)) (fmul (i2f 3) (S754_zero false))) fone) with fone by (destruct s; reflexivity).
  assert (Z1 : exists s', fadd (fsub (S754_zero s) (fmul (i2f 2) (S754_zero false))) (S754_zero s) = S754_zero s')
    by (destruct s; eexists; reflexivity).
  destruct Z1 as [s1 ->].
  assert (Z2 : exists s', fadd (fmul (fopp (i2f 2)) (S754_zero s)) (fmul (i2f 3) (S754_zero false)) = S754_zero s')
    by (destruct s; eexists; reflexivity).
  destruct Z2 as [s2 ->].
  assert (Z3 : exists s', fsub (S754_zero s) (S754_zero false) = S754_zero s') by (destruct s; eexists; reflexivity).
  destruct Z3 as [s3 ->].
  destruct (fmul_zero s1 dt Fd) as [s4 ->]. destruct (fmul_zero s4 m1 M1) as [s5 ->].
  destruct (fmul_zero s2 (ky2 q) Fy2) as [s6 ->].
  destruct (fmul_zero s3 dt Fd) as [s7 ->]. destruct (fmul_zero s7 m2 M2) as [s8 ->].
  destruct (fone_mul (ky1 q) Vy Fy By) as [A [B C]].
  destruct (fadd_zero (fmul fone (ky1 q)) s5 C B) as [A1 [B1 C1]].
  destruct (fadd_zero (fadd (fmul fone (ky1 q)) (S754_zero s5)) s6 A1 B1) as [A2 [B2 C2]].
  destruct (fadd_zero _ s8 A2 B2) as [A3 [B3 C3]].
  split; [exact A3|]. split; [exact B3|]. congruence.
Qed.

(** Differences and slopes of data of moderate size. *)
Lemma diff_bound a b : valid a -> finite a -> valid b -> finite b ->
  (Rabs (fR a) <= bpow radix2 500)%R -> (Rabs (fR b) <= bpow radix2 500)%R ->
  finite (fsub a b) /\ valid (fsub a b) /\ (Rabs (fR (fsub a b)) <= bpow radix2 501)%R.
Proof.
  intros Va Fa Vb Fb Ba Bb.
  assert (D : (Rabs (fR a - fR b) <= bpow radix2 501)%R).
  { replace (bpow radix2 501) with (bpow radix2 500 + bpow radix2 500)%R.
    - eapply Rle_trans; [apply Rabs_triang|]. rewrite Rabs_Ropp. lra.
    - replace 501 with (1 + 500) by lia. rewrite bpow_plus. simpl (bpow radix2 1). lra. }
  destruct (fsub_correct a b) as [E [F V]]; auto.
  { eapply Rle_trans; [exact D|]. apply bpow_le. lia. }
  split; [exact F|]. split; [exact V|]. rewrite E.
  apply abs_round_le_generic; auto with typeclass_instances.
  - apply fexp_correct. reflexivity.
  - apply generic_format_bpow. simpl. unfold SpecFloat.fexp, SpecFloat.emin. lia.
Qed.

Lemma diff_gap a b : valid a -> finite a -> valid b -> finite b ->
  (Rabs (fR a) <= bpow radix2 500)%R -> (Rabs (fR b) <= bpow radix2 500)%R ->
  (bpow radix2 (-400) <= Rabs (fR a - fR b))%R ->
  (bpow radix2 (-400) <= Rabs (fR (fsub a b)))%R.
Proof.
  intros Va Fa Vb Fb Ba Bb G.
  assert (D : (Rabs (fR a - fR b) <= bpow radix2 501)%R).
  { replace (bpow radix2 501) with (bpow radix2 500 + bpow radix2 500)%R.
    - eapply Rle_trans; [apply Rabs_triang|]. rewrite Rabs_Ropp. lra.
    - replace 501 with (1 + 500) by lia. rewrite bpow_plus. simpl (bpow radix2 1). lra. }
  destruct (fsub_correct a b) as [E [F V]]; auto.
  { eapply Rle_trans; [exact D|]. apply bpow_le. lia. }
  rewrite E. apply abs_round_ge_generic; auto with typeclass_instances.
  - apply fexp_correct. reflexivity.
  - apply generic_format_bpow. simpl. unfold SpecFloat.fexp, SpecFloat.emin. lia.
Qed.

Lemma slope_finite a b c d : valid a -> finite a -> valid b -> finite b -> valid c -> finite c -> valid d -> finite d ->
  (Rabs (fR a) <= bpow radix2 500)%R -> (Rabs (fR b) <= bpow radix2 500)%R ->
  (Rabs (fR c) <= bpow radix2 500)%R -> (Rabs (fR d) <= bpow radix2 500)%R ->
  (bpow radix2 (-400) <= Rabs (fR c - fR d))%R ->
  finite (fdiv (fsub a b) (fsub c d)).
Proof.
  intros Va Fa Vb Fb Vc Fc Vd Fd Ba Bb Bc Bd G.
  destruct (diff_bound a b) as [F1 [V1 B1]]; auto. destruct (diff_bound c d) as [F2 [V2 B2]]; auto.
  pose proof (diff_gap c d Vc Fc Vd Fd Bc Bd G) as G2.
  assert (P : (0 < bpow radix2 (-400))%R) by apply bpow_gt_0.
  assert (N : fR (fsub c d) <> 0%R).
  { intros H. rewrite H, Rabs_R0 in G2. lra. }
  apply fdiv_correct; auto. unfold Rdiv. rewrite Rabs_mult, Rabs_inv.
  apply Rle_trans with (bpow radix2 501 * bpow radix2 400)%R.
  - apply Rmult_le_compat; auto using Rabs_pos.
    + apply Rlt_le, Rinv_0_lt_compat. lra.
    + replace (bpow radix2 400) with (/ bpow radix2 (-400))%R by (rewrite <- bpow_opp; reflexivity).
      apply Rinv_le; auto.
  - rewrite <- bpow_plus. apply bpow_le. lia.
Qed.
