(** Correctness of the SpecFloat operations used by the model with respect to
    the real numbers, obtained from Flocq. *)
From Coq Require Import ZArith Reals Lia Lra Bool.
From Coq.Floats Require Import SpecFloat.
From Flocq Require Import Core.Core IEEE754.BinarySingleNaN.
From Verif Require Import Base Num.
Open Scope Z_scope.

#[global] Instance prec53 : Prec_gt_0 53 := eq_refl.
#[global] Instance emax1024 : Prec_lt_emax 53 1024 := eq_refl.

Notation bf := (binary_float 53 1024).
Notation rnd := (round radix2 (SpecFloat.fexp 53 1024) ZnearestE).
Notation fR := (SF2R radix2).

Lemma round_nearest_even_equiv' s m l :
  round_nearest_even m l = choice_mode mode_NE s m l.
Proof.
  case l; [reflexivity|intro c]. case c; [ | reflexivity..].
  now simpl; unfold Round.cond_incr; case Z.even.
Qed.

Lemma binary_round_aux_equiv' sx mx ex lx :
  SpecFloat.binary_round_aux 53 1024 sx mx ex lx
  = BinarySingleNaN.binary_round_aux 53 1024 mode_NE sx mx ex lx.
Proof.
  unfold SpecFloat.binary_round_aux, BinarySingleNaN.binary_round_aux.
  set (mrse' := shr_fexp _ _ _ _ _).
  case mrse'; intros mrs' e'; simpl.
  now rewrite (round_nearest_even_equiv' sx).
Qed.

Lemma binary_round_equiv' s m e :
  SpecFloat.binary_round 53 1024 s m e = BinarySingleNaN.binary_round 53 1024 mode_NE s m e.
Proof.
  unfold SpecFloat.binary_round, BinarySingleNaN.binary_round, shl_align_fexp.
  set (mez := shl_align _ _ _); case mez as [mz ez].
  apply binary_round_aux_equiv'.
Qed.

Lemma binary_normalize_equiv' m e szero :
  SpecFloat.binary_normalize 53 1024 m e szero
  = B2SF (BinarySingleNaN.binary_normalize 53 1024 prec53 emax1024 mode_NE m e szero).
Proof.
  case m as [ | p | p].
  - now simpl.
  - simpl; rewrite B2SF_SF2B; apply binary_round_equiv'.
  - simpl; rewrite B2SF_SF2B; apply binary_round_equiv'.
Qed.

Lemma fmul_equiv (x y : bf) : fmul (B2SF x) (B2SF y) = B2SF (Bmult mode_NE x y).
Proof.
  unfold fmul.
  case x as [sx|sx| |sx mx ex Bx]; case y as [sy|sy| |sy my ey By]; [now trivial.. | ].
  simpl. rewrite B2SF_SF2B. apply binary_round_aux_equiv'.
Qed.

Lemma fadd_equiv (x y : bf) : fadd (B2SF x) (B2SF y) = B2SF (Bplus mode_NE x y).
Proof.
  unfold fadd.
  case x as [sx|sx| |sx mx ex Bx]; case y as [sy|sy| |sy my ey By];
    [now (trivial || simpl; case Bool.eqb).. | ].
  apply binary_normalize_equiv'.
Qed.

Lemma fsub_equiv (x y : bf) : fsub (B2SF x) (B2SF y) = B2SF (Bminus mode_NE x y).
Proof.
  unfold fsub.
  case x as [sx|sx| |sx mx ex Bx]; case y as [sy|sy| |sy my ey By];
    [now (trivial || simpl; case Bool.eqb).. | ].
  simpl. unfold Zminus. rewrite <- cond_Zopp_negb.
  apply binary_normalize_equiv'.
Qed.

Definition valid (x : flt) : Prop := valid_binary 53 1024 x = true.
Definition finite (x : flt) : Prop :=
  match x with S754_zero _ | S754_finite _ _ _ => True | _ => False end.

Lemma valid_b x : valid x -> exists b : bf, B2SF b = x.
Proof. intros H. exists (SF2B x H). apply B2SF_SF2B. Qed.

Lemma finite_b (b : bf) : finite (B2SF b) <-> is_finite b = true.
Proof. destruct b; simpl; intuition; discriminate. Qed.

Lemma valid_B2SF' (b : bf) : valid (B2SF b).
Proof. apply valid_binary_B2SF. Qed.

(** Integer conversion. *)
Lemma i2f_valid z : valid (i2f z).
Proof. unfold i2f. rewrite binary_normalize_equiv'. apply valid_B2SF'. Qed.

Lemma round_lt_max x : (Rabs x <= bpow radix2 1000)%R ->
  (Rabs (rnd x) <= bpow radix2 1000)%R.
Proof.
  intros H. apply abs_round_le_generic; auto with typeclass_instances.
  - apply fexp_correct. reflexivity.
  - apply generic_format_bpow. simpl. unfold SpecFloat.fexp, SpecFloat.emin. lia.
Qed.

Lemma bpow_1000 : (bpow radix2 1000 < bpow radix2 1024)%R.
Proof. apply bpow_lt. lia. Qed.

Lemma i2f_correct z : (Rabs (IZR z) <= bpow radix2 1000)%R ->
  fR (i2f z) = rnd (IZR z) /\ finite (i2f z).
Proof.
  intros H. unfold i2f. rewrite binary_normalize_equiv'.
  generalize (binary_normalize_correct 53 1024 prec53 emax1024 mode_NE z 0 false).
  cbv zeta. replace (F2R (Float radix2 z 0)) with (IZR z)
    by (unfold F2R; simpl; ring).
  simpl round_mode.
  rewrite Rlt_bool_true.
  - intros [A [B _]]. rewrite SF2R_B2SF. split; [exact A|]. now apply finite_b.
  - eapply Rle_lt_trans; [apply round_lt_max, H | apply bpow_1000].
Qed.

(** No integer other than 0 becomes a zero, of whatever size. *)
Lemma i2f_truth z : f2b (i2f z) = negb (z =? 0).
Proof.
  destruct (Z.eqb_spec z 0) as [->|N]; [reflexivity|]. cbn [negb]. unfold i2f. rewrite binary_normalize_equiv'.
  generalize (binary_normalize_correct 53 1024 prec53 emax1024 mode_NE z 0 false).
  cbv zeta. replace (F2R (Float radix2 z 0)) with (IZR z) by (unfold F2R; simpl; ring).
  simpl round_mode. set (b := BinarySingleNaN.binary_normalize _ _ _ _ _ _ _ _).
  destruct (Rlt_bool _ _).
  - intros [A _]. destruct b as [s| | |]; try reflexivity. exfalso. simpl in A.
    assert (G : (1 <= Rabs (rnd (IZR z)))%R).
    { apply abs_round_ge_generic; auto with typeclass_instances.
      - apply fexp_correct. reflexivity.
      - apply (generic_format_bpow radix2 _ 0). unfold SpecFloat.fexp, SpecFloat.emin. simpl. lia.
      - rewrite <- abs_IZR. apply IZR_le. lia. }
    rewrite <- A, Rabs_R0 in G. lra.
  - intros ->. reflexivity.
Qed.

Lemma fmul_correct x y : valid x -> valid y -> finite x -> finite y ->
  (Rabs (fR x * fR y) <= bpow radix2 1000)%R ->
  fR (fmul x y) = rnd (fR x * fR y) /\ finite (fmul x y) /\ valid (fmul x y).
Proof.
  intros Vx Vy Fx Fy H.
  destruct (valid_b x Vx) as [bx <-]. destruct (valid_b y Vy) as [by_ <-].
  rewrite fmul_equiv. rewrite !SF2R_B2SF in *.
  generalize (Bmult_correct 53 1024 prec53 emax1024 mode_NE bx by_).
  simpl round_mode.
  rewrite Rlt_bool_true.
  - intros [A [B _]]. rewrite finite_b in *. rewrite Fx, Fy in B. auto using valid_B2SF'.
  - eapply Rle_lt_trans; [apply round_lt_max, H | apply bpow_1000].
Qed.

Lemma fadd_correct x y : valid x -> valid y -> finite x -> finite y ->
  (Rabs (fR x + fR y) <= bpow radix2 1000)%R ->
  fR (fadd x y) = rnd (fR x + fR y) /\ finite (fadd x y) /\ valid (fadd x y).
Proof.
  intros Vx Vy Fx Fy H.
  destruct (valid_b x Vx) as [bx <-]. destruct (valid_b y Vy) as [by_ <-].
  rewrite fadd_equiv. rewrite !SF2R_B2SF in *. rewrite finite_b in *.
  generalize (Bplus_correct 53 1024 prec53 emax1024 mode_NE bx by_ Fx Fy).
  simpl round_mode.
  rewrite Rlt_bool_true.
  - intros [A [B _]]. auto using valid_B2SF'.
  - eapply Rle_lt_trans; [apply round_lt_max, H | apply bpow_1000].
Qed.

Lemma fsub_correct x y : valid x -> valid y -> finite x -> finite y ->
  (Rabs (fR x - fR y) <= bpow radix2 1000)%R ->
  fR (fsub x y) = rnd (fR x - fR y) /\ finite (fsub x y) /\ valid (fsub x y).
Proof.
  intros Vx Vy Fx Fy H.
  destruct (valid_b x Vx) as [bx <-]. destruct (valid_b y Vy) as [by_ <-].
  rewrite fsub_equiv. rewrite !SF2R_B2SF in *. rewrite finite_b in *.
  generalize (Bminus_correct 53 1024 prec53 emax1024 mode_NE bx by_ Fx Fy).
  simpl round_mode.
  rewrite Rlt_bool_true.
  - intros [A [B _]]. auto using valid_B2SF'.
  - eapply Rle_lt_trans; [apply round_lt_max, H | apply bpow_1000].
Qed.

(** Truncation. *)
Lemma ftrunc_correct x : finite x -> ftrunc x = Some (Ztrunc (fR x)).
Proof.
  destruct x as [s| | |s m e]; simpl; try easy; intros _.
  - now rewrite Ztrunc_IZR.
  - f_equal. unfold F2R; simpl.
    assert (P : forall s, IZR (cond_Zopp s (Zpos m)) = if s then (- IZR (Zpos m))%R else IZR (Zpos m)).
    { intros []; simpl; [now rewrite <- opp_IZR|reflexivity]. }
    assert (Q : Ztrunc (IZR (Zpos m) * bpow radix2 e) =
                if 0 <=? e then Zpos m * 2 ^ e else Zpos m / 2 ^ (- e)).
    { destruct (Z.leb_spec 0 e).
      - replace (bpow radix2 e) with (IZR (2 ^ e)).
        2: { rewrite (IZR_Zpower radix2); auto. }
        rewrite <- mult_IZR. apply Ztrunc_IZR.
      - replace (bpow radix2 e) with (/ IZR (2 ^ (- e)))%R.
        2: { rewrite (IZR_Zpower radix2) by lia. rewrite <- bpow_opp. f_equal. lia. }
        rewrite Ztrunc_floor.
        + apply Zfloor_div. apply Z.pow_nonzero; lia.
        + apply Rmult_le_pos; [apply IZR_le; lia|].
          apply Rlt_le, Rinv_0_lt_compat, IZR_lt, Z.pow_pos_nonneg; lia. }
    rewrite P. destruct s.
    + rewrite Ropp_mult_distr_l_reverse, Ztrunc_opp, Q. reflexivity.
    + rewrite Q. reflexivity.
Qed.

Lemma finite_not_special x : finite x -> is_nan x = false /\ is_inf x = false.
Proof. destruct x; simpl; easy. Qed.

(** Comparison of finite doubles is comparison of reals. *)
Lemma SFcompare_correct x y : valid x -> valid y -> finite x -> finite y ->
  SFcompare x y = Some (Rcompare (fR x) (fR y)).
Proof.
  intros Vx Vy Fx Fy.
  destruct (valid_b x Vx) as [bx <-]. destruct (valid_b y Vy) as [by_ <-].
  rewrite finite_b in *. rewrite !SF2R_B2SF.
  rewrite <- (Bcompare_correct 53 1024 bx by_ Fx Fy).
  destruct bx as [sx|sx| |sx mx ex Bx]; destruct by_ as [sy|sy| |sy my ey By]; reflexivity.
Qed.

Lemma fltb_correct x y : valid x -> valid y -> finite x -> finite y ->
  flt_ltb x y = true <-> (fR x < fR y)%R.
Proof.
  intros Vx Vy Fx Fy. unfold flt_ltb, SFltb. rewrite SFcompare_correct by assumption.
  destruct (Rcompare_spec (fR x) (fR y)); split; intros; try easy; lra.
Qed.

Lemma fleb_correct x y : valid x -> valid y -> finite x -> finite y ->
  flt_leb x y = true <-> (fR x <= fR y)%R.
Proof.
  intros Vx Vy Fx Fy. unfold flt_leb, SFleb. rewrite SFcompare_correct by assumption.
  destruct (Rcompare_spec (fR x) (fR y)); split; intros; try easy; lra.
Qed.

(** Integers below 2^53 are converted exactly. *)
Lemma generic_int z : Z.abs z <= 2 ^ 53 -> generic_format radix2 (SpecFloat.fexp 53 1024) (IZR z).
Proof.
  intros H.
  destruct (Z.eq_dec z 0) as [->|Hz]; [apply generic_format_0|].
  destruct (Z.eq_dec (Z.abs z) (2^53)) as [E|E].
  - assert (generic_format radix2 (SpecFloat.fexp 53 1024) (bpow radix2 53)).
    { apply generic_format_bpow. simpl. unfold SpecFloat.fexp, SpecFloat.emin. lia. }
    destruct (Z.abs_spec z) as [[_ A]|[_ A]]; rewrite A in E.
    + rewrite E. rewrite (IZR_Zpower radix2) by lia. assumption.
    + replace z with (- 2^53) by lia. rewrite opp_IZR. apply generic_format_opp.
      rewrite (IZR_Zpower radix2) by lia. assumption.
  - apply generic_format_FLT.
    exists (Float radix2 z 0).
    + unfold F2R; simpl; ring.
    + simpl. change (radix2 ^ 53)%Z with (2 ^ 53). lia.
    + simpl. unfold SpecFloat.emin. lia.
Qed.

Lemma i2f_exact z : Z.abs z <= 2 ^ 53 -> fR (i2f z) = IZR z /\ finite (i2f z).
Proof.
  intros H.
  destruct (i2f_correct z) as [A B].
  - rewrite <- abs_IZR. apply Rle_trans with (IZR (2 ^ 1000)).
    + apply IZR_le. eapply Z.le_trans; [exact H|]. apply Z.pow_le_mono_r; lia.
    + rewrite (IZR_Zpower radix2) by lia. lra.
  - rewrite A. split; [|exact B]. apply round_generic; auto with typeclass_instances.
    now apply generic_int.
Qed.

Lemma f115_valid : valid f115.
Proof. reflexivity. Qed.

Lemma f115_R : fR f115 = (5179139571476070 / 4503599627370496)%R.
Proof. unfold f115. simpl. unfold F2R; simpl. lra. Qed.
