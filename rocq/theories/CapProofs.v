(** trunc(1.15 * n) computed in doubles is at least n. *)
From Coq Require Import ZArith Reals Lia Lra Bool.
From Coq.Floats Require Import SpecFloat.
From Flocq Require Import Core.Core IEEE754.BinarySingleNaN.
Require Import Flocq.Prop.Relative.
From Verif Require Import Base Num FloatBridge.
Open Scope Z_scope.

Lemma rel_err x : (1 <= x)%R ->
  (x * (1 - 1 / 1000000) <= rnd x <= x * (1 + 1 / 1000000))%R.
Proof.
  intros H.
  assert (E : (Rabs (rnd x - x) <= / 2 * bpow radix2 (- 53 + 1) * Rabs x)%R).
  { apply (relative_error_N_FLT radix2 (SpecFloat.emin 53 1024) 53 prec53 (fun z => negb (Z.even z))).
    rewrite Rabs_pos_eq by lra.
    apply Rle_trans with (bpow radix2 0); [|simpl; lra].
    apply bpow_le. unfold SpecFloat.emin. lia. }
  rewrite (Rabs_pos_eq x) in E by lra.
  assert (B : (bpow radix2 (-53 + 1) = / 4503599627370496)%R) by reflexivity.
  rewrite B in E.
  assert (C : (Rabs (rnd x - x) <= x * (1 / 1000000))%R) by nra.
  apply Rabs_le_inv in C. lra.
Qed.

Lemma big_bound z : 0 <= z <= 2 ^ 80 -> (Rabs (IZR z) <= bpow radix2 1000)%R.
Proof.
  intros H. rewrite <- abs_IZR, Z.abs_eq by lia.
  apply Rle_trans with (IZR (2 ^ 1000)).
  - apply IZR_le. eapply Z.le_trans; [apply H|]. apply Z.pow_le_mono_r; lia.
  - rewrite (IZR_Zpower radix2) by lia. lra.
Qed.

Lemma i2f_R n : 1 <= n <= 2 ^ 64 ->
  (IZR n * (1 - 1 / 1000000) <= fR (i2f n) <= IZR n * (1 + 1 / 1000000))%R /\ finite (i2f n).
Proof.
  intros H. destruct (i2f_correct n) as [A B].
  - apply big_bound. split; [lia|]. eapply Z.le_trans; [apply H|]. apply Z.pow_le_mono_r; lia.
  - rewrite A. split; [|exact B]. apply rel_err. now apply IZR_le.
Qed.

Lemma mul115 n : 1 <= n <= 2 ^ 64 ->
  finite (fmul (i2f n) f115) /\
  (IZR n <= fR (fmul (i2f n) f115) <= IZR n * (1.15 + 1 / 100000))%R.
Proof.
  intros H. destruct (i2f_R n H) as [A F].
  assert (N : (1 <= IZR n)%R) by now apply IZR_le.
  assert (N60 : (IZR n <= IZR (2 ^ 64))%R) by now apply IZR_le.
  assert (P : (1.0000001 <= fR f115 <= 1.1500001)%R) by (rewrite f115_R; lra).
  assert (P2 : (1.1499 <= fR f115)%R) by (rewrite f115_R; lra).
  set (a := fR (i2f n)) in *. set (b := fR f115) in *.
  assert (AB : (IZR n * 1.14 <= a * b <= IZR n * 1.15000200)%R).
  { split.
    - apply Rle_trans with (IZR n * (1 - 1/1000000) * b)%R; nra.
    - apply Rle_trans with (IZR n * (1 + 1/1000000) * b)%R; nra. }
  destruct (fmul_correct (i2f n) f115) as [C [D _]]; auto using i2f_valid, f115_valid.
  - exact I.
  - rewrite Rabs_pos_eq by (fold a b; nra). fold a b.
    apply Rle_trans with (IZR (2 ^ 80)).
    + apply Rle_trans with (IZR (2 ^ 64) * 1024)%R; [nra|].
      rewrite <- mult_IZR. apply IZR_le. now vm_compute.
    + rewrite <- (Rabs_pos_eq (IZR (2 ^ 80))) by (apply IZR_le; lia).
      apply big_bound. lia.
  - split; [exact D|]. rewrite C. fold a b.
    assert (X : (1 <= a * b)%R) by nra.
    destruct (rel_err _ X) as [Y Z]. split; nra.
Qed.

Lemma mul115_trunc n : 1 <= n <= 2 ^ 64 ->
  exists c, ftrunc (fmul (i2f n) f115) = Some c /\ n <= c <= 2 * n.
Proof.
  intros H. destruct (mul115 n H) as [F [L U]].
  assert (N : (1 <= IZR n)%R) by now apply IZR_le.
  exists (Ztrunc (fR (fmul (i2f n) f115))). split; [now apply ftrunc_correct|].
  rewrite Ztrunc_floor by lra. split.
  - now apply Zfloor_lub.
  - apply le_IZR. eapply Rle_trans; [apply Zfloor_lb|]. rewrite mult_IZR. lra.
Qed.

(** Upper bound used for the int conversion in realloc. *)
Lemma mul115_trunc_le n : 1 <= n <= 2 ^ 64 ->
  exists c, ftrunc (fmul (i2f n) f115) = Some c /\ n <= c /\ 100000 * c <= 115001 * n.
Proof.
  intros H. destruct (mul115 n H) as [F [L U]].
  assert (N : (1 <= IZR n)%R) by now apply IZR_le.
  exists (Ztrunc (fR (fmul (i2f n) f115))). split; [now apply ftrunc_correct|].
  rewrite Ztrunc_floor by lra. split.
  - now apply Zfloor_lub.
  - apply le_IZR. rewrite !mult_IZR.
    apply Rle_trans with (100000 * (fR (fmul (i2f n) f115)))%R.
    + apply Rmult_le_compat_l; [lra|]. apply Zfloor_lb.
    + lra.
Qed.

Lemma cap115_ok n : 1 <= n <= 2 ^ 60 ->
  exists c, cap115 n = Done c /\ n <= c <= 2 * n.
Proof.
  intros H.
  assert (H64 : 1 <= n <= 2 ^ 64) by (assert (2^60 < 2^64) by (now vm_compute); lia).
  destruct (mul115_trunc n H64) as [c [E B]].
  exists c. split; [|exact B].
  unfold cap115, f2size. rewrite E.
  replace ((0 <=? c) && (c <? 2 ^ 64)) with true; [reflexivity|].
  symmetry. apply andb_true_intro. split; [apply Z.leb_le; lia|apply Z.ltb_lt].
  eapply Z.le_lt_trans; [apply B|]. 
  change (2 ^ 64) with (2 * 2 ^ 63). assert (2 ^ 60 < 2 ^ 63) by now vm_compute. lia.
Qed.

Lemma cap115_int_ok n : 1 <= n <= 1867000000 ->
  exists c, cap115_int n = Done c /\ n <= c <= 2 * n /\ c < 2 ^ 31.
Proof.
  intros H.
  assert (H60 : 1 <= n <= 2 ^ 64) by (assert (1867000000 < 2^64) by (now vm_compute); lia).
  destruct (mul115_trunc_le n H60) as [c [E [L U]]].
  destruct (mul115_trunc n H60) as [c' [E' B']]. rewrite E' in E. injection E as ->.
  assert (C : c < 2 ^ 31) by lia.
  exists c. split; [|lia].
  unfold cap115_int, f2int. rewrite E'. unfold in_int, int_min, int_max.
  replace ((- 2 ^ 31 <=? c) && (c <=? 2 ^ 31 - 1)) with true.
  - simpl. unfold wrap64. rewrite Z.mod_small; [reflexivity|].
    assert (2 ^ 31 < 2 ^ 64) by now vm_compute. lia.
  - symmetry. apply andb_true_intro. split; apply Z.leb_le; lia.
Qed.

Lemma cap115_same_int n : 1 <= n <= 1867000000 -> cap115_int n = cap115 n.
Proof.
  intros H.
  assert (H60 : 1 <= n <= 2 ^ 60) by (assert (1867000000 < 2^60) by (now vm_compute); lia).
  destruct (cap115_int_ok n H) as [c [E [B C]]].
  destruct (cap115_ok n H60) as [c' [E' B']].
  destruct (mul115_trunc n) as [c2 [E2 _]]; [assert (1867000000 < 2^64) by (now vm_compute); lia|].
  rewrite E, E'. unfold cap115_int, f2int in E. unfold cap115, f2size in E'. rewrite E2 in *.
  destruct (in_int c2); [|discriminate]. destruct ((0 <=? c2) && (c2 <? 2 ^ 64)) eqn:X; [|discriminate].
  simpl in E. injection E as <-. injection E' as <-. f_equal. unfold wrap64.
  apply Z.mod_small. apply andb_prop in X as [X1 X2]. apply Z.leb_le in X1. apply Z.ltb_lt in X2. lia.
Qed.

(** All lengths a size_t can hold: the conversion back either is undefined or
    gives enough room. *)
Lemma cap115_all n : 1 <= n <= 2 ^ 64 ->
  (exists c, cap115 n = Done c /\ n <= c <= 2 * n) \/ cap115 n = Undef UB_cast.
Proof.
  intros H. destruct (mul115_trunc n H) as [c [E B]].
  unfold cap115, f2size. rewrite E. destruct (_ && _); eauto.
Qed.
