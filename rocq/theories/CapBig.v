(** trunc(1.15 * n) of numbers a size_t cannot hold: the conversion back is
    undefined. *)
From Coq Require Import ZArith Reals Lia Lra Bool.
From Coq.Floats Require Import SpecFloat.
From Flocq Require Import Core.Core IEEE754.BinarySingleNaN.
From Verif Require Import Base Num FloatBridge CapProofs.
Open Scope Z_scope.

Definition huge (x : flt) : Prop :=
  match x with
  | S754_infinity _ => True
  | S754_nan => False
  | _ => (bpow radix2 64 <= fR x)%R
  end.

Lemma huge_round x : (bpow radix2 64 <= x)%R -> (bpow radix2 64 <= rnd x)%R.
Proof.
  intros H. apply round_ge_generic; auto with typeclass_instances.
  - apply fexp_correct. reflexivity.
  - apply generic_format_bpow. simpl. unfold SpecFloat.fexp, SpecFloat.emin. lia.
Qed.

Lemma huge_finite (b : bf) : is_finite b = true -> (bpow radix2 64 <= B2R b)%R -> huge (B2SF b).
Proof. intros F H. rewrite <- SF2R_B2SF in H. destruct b; try discriminate; exact H. Qed.

Lemma i2f_huge n : 2 ^ 64 <= n -> huge (i2f n).
Proof.
  intros H. assert (R : (bpow radix2 64 <= IZR n)%R).
  { rewrite <- (IZR_Zpower radix2) by lia. apply IZR_le. exact H. }
  unfold i2f. rewrite binary_normalize_equiv'.
  generalize (binary_normalize_correct 53 1024 prec53 emax1024 mode_NE n 0 false).
  cbv zeta. replace (F2R (Float radix2 n 0)) with (IZR n) by (unfold F2R; simpl; ring).
  simpl round_mode. destruct (Rlt_bool _ _).
  - intros [A [B _]]. apply huge_finite; [exact B|]. rewrite A. now apply huge_round.
  - intros ->. exact I.
Qed.

Lemma fmul_huge x : valid x -> huge x -> huge (fmul x f115).
Proof.
  intros V H. destruct x as [s|s| |s m e]; try (exfalso; exact H).
  - exfalso. simpl in H. assert (0 < bpow radix2 64)%R by apply bpow_gt_0. simpl in *. lra.
  - exact I.
  - destruct (valid_b _ V) as [bx E]. destruct (valid_b f115 f115_valid) as [by_ E2].
    assert (R : (bpow radix2 64 <= B2R bx)%R) by (rewrite <- SF2R_B2SF, E; exact H).
    assert (Y : (1 <= B2R by_)%R) by (rewrite <- SF2R_B2SF, E2, f115_R; lra).
    assert (Fx : is_finite bx = true) by (apply finite_b; rewrite E; exact I).
    assert (Fy : is_finite by_ = true) by (apply finite_b; rewrite E2; exact I).
    assert (P : (0 < bpow radix2 64)%R) by apply bpow_gt_0.
    rewrite <- E, <- E2, fmul_equiv.
    generalize (Bmult_correct 53 1024 prec53 emax1024 mode_NE bx by_).
    simpl round_mode. destruct (Rlt_bool _ _).
    + intros [A [B _]]. rewrite Fx, Fy in B. apply huge_finite; [exact B|]. rewrite A.
      apply huge_round. set (p := bpow radix2 64) in *. nra.
    + intros ->. exact I.
Qed.

Lemma cap115_huge n : 2 ^ 64 <= n -> cap115 n = Undef UB_cast.
Proof.
  intros H. pose proof (fmul_huge _ (i2f_valid n) (i2f_huge n H)) as B.
  unfold cap115, f2size.
  destruct (fmul (i2f n) f115) as [s|s| |s m e] eqn:E; try reflexivity.
  - exfalso. simpl in B. assert (0 < bpow radix2 64)%R by apply bpow_gt_0. simpl in *. lra.
  - rewrite ftrunc_correct by exact I.
    assert (L : 2 ^ 64 <= Ztrunc (fR (S754_finite s m e))).
    { unfold huge in B. rewrite Ztrunc_floor.
      - apply Zfloor_lub. rewrite (IZR_Zpower radix2) by lia. exact B.
      - eapply Rle_trans; [|exact B]. apply bpow_ge_0. }
    replace (Ztrunc _ <? 2 ^ 64) with false by (symmetry; apply Z.ltb_ge; exact L).
    rewrite andb_false_r. reflexivity.
Qed.

(** Every positive number: enough room, or undefined. *)
Lemma cap115_any n : 1 <= n ->
  (exists c, cap115 n = Done c /\ n <= c <= 2 * n) \/ cap115 n = Undef UB_cast.
Proof.
  intros H. destruct (Z.leb_spec (2 ^ 64) n) as [L|L].
  - right. now apply cap115_huge.
  - apply cap115_all. lia.
Qed.
