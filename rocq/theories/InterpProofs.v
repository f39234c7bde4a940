(** Proofs about interpolation. *)
From Coq Require Import String ZArith List Bool Lia Reals Lra.
From Coq.Floats Require Import SpecFloat.
From Flocq Require Import Core BinarySingleNaN.
From Verif Require Import Base Num StoreModel VecModel SubsetModel InterpModel FloatBridge Spec SpecExpr SpecHist SpecProg
  SpecSub StoreProofs StoreOps VecProofs SubsetProofs AllocProofs AllocProofs3 NumProofs.
Import ListNotations.
Open Scope Z_scope.
Local Notation length := List.length (only parsing).

Lemma elem_f_at lm w e fs i : yields lm w e (map VD fs) -> (i < length fs)%nat ->
  elem_f lm e (Z.of_nat i) w = (Done (nth i fs fzero), w).
Proof.
  intros [S E] Hi. unfold elem_f. rewrite (bind_done _ _ _ _ _ (E i ltac:(now rewrite map_length))).
  rewrite (nth_indep _ _ (VD fzero)) by now rewrite map_length. now rewrite map_nth.
Qed.

Lemma elem_f_z lm w e fs z : yields lm w e (map VD fs) -> 0 <= z < Z.of_nat (length fs) ->
  elem_f lm e z w = (Done (nth (Z.to_nat z) fs fzero), w).
Proof. intros Y H. rewrite <- (Z2Nat.id z) at 1 by lia. apply elem_f_at; auto. lia. Qed.

Lemma int_idx_small z : 0 <= z < 2 ^ 31 -> int_idx z = z.
Proof.
  intros H. unfold int_idx. rewrite to_int_small by lia. apply wrap64_small. lia.
Qed.

(** The interval test of the loop. *)
Definition inside (ts : list flt) (t : flt) (i : nat) : bool :=
  flt_leb (nth i ts fzero) t && flt_ltb t (nth (S i) ts fzero).

Section Cmr.
Variables (lm : libm) (w : world) (tv pv : expr) (ts ys : list flt).
Hypothesis Yt : yields lm w tv (map VD ts).
Hypothesis Yp : yields lm w pv (map VD ys).
Hypothesis Ln : length ts = length ys.
Hypothesis L4 : (4 <= length ts)%nat.
Hypothesis L31 : Z.of_nat (length ts) < 2 ^ 31.
Let n := Z.of_nat (length ts).

Lemma wrap_pred k : 0 <= k <= 3 -> wrap64 (n - k) = n - k.
Proof. intros H. apply wrap64_small. unfold n. lia. Qed.

Lemma find_at t j k i : (j <= length ts - 1)%nat -> (i <= j)%nat -> (j - i < k)%nat ->
  (forall m, (i <= m < j)%nat -> inside ts t m = false) ->
  (j < length ts - 1 -> inside ts t j = true)%nat ->
  cmr_find lm tv pv t n k (Z.of_nat i) w =
  (if (j =? length ts - 1)%nat then cmr_last lm tv pv n w else cmr_inner lm tv pv n (Z.of_nat j) w).
Proof.
  revert i. induction k as [|k IH]; intros i Hj Hi Hk Hm Hin; [lia|].
  cbn [cmr_find]. rewrite wrap_pred by lia.
  destruct (Z.eqb_spec (Z.of_nat i) (n - 1)) as [E|E].
  - assert (j = length ts - 1)%nat by (unfold n in *; lia). subst j. rewrite Nat.eqb_refl. reflexivity.
  - assert (B : (i < length ts - 1)%nat) by (unfold n in *; lia).
    rewrite (bind_done _ _ _ _ _ (elem_f_at lm w tv ts i Yt ltac:(lia))).
    assert (T : (if flt_leb (nth i ts fzero) t then b <- elem_f lm tv (Z.of_nat i + 1) ;; ret (flt_ltb t b) else ret false) w =
      (Done (inside ts t i), w)).
    { unfold inside. destruct (flt_leb (nth i ts fzero) t); [|reflexivity].
      replace (Z.of_nat i + 1) with (Z.of_nat (S i)) by lia.
      rewrite (bind_done _ _ _ _ _ (elem_f_at lm w tv ts (S i) Yt ltac:(lia))). reflexivity. }
    rewrite (bind_done _ _ _ _ _ T).
    destruct (Nat.eq_dec i j) as [->|N].
    + rewrite Hin by lia. replace (j =? length ts - 1)%nat with false by (symmetry; apply Nat.eqb_neq; lia). reflexivity.
    + rewrite (Hm i) by lia. replace (Z.of_nat i + 1) with (Z.of_nat (S i)) by lia.
      apply IH; auto; try lia. intros m H. apply Hm. lia.
Qed.

Notation T i := (nth i ts fzero).
Notation Y i := (nth i ys fzero).

Lemma get_t z i : z = Z.of_nat i -> (i < length ts)%nat -> elem_f lm tv z w = (Done (T i), w).
Proof. intros -> H. now apply elem_f_at. Qed.
Lemma get_y z i : z = Z.of_nat i -> (i < length ts)%nat -> elem_f lm pv z w = (Done (Y i), w).
Proof. intros -> H. apply elem_f_at; auto. lia. Qed.

Lemma last_done : cmr_last lm tv pv n w =
  (Done (let m := length ts in
         mkKnots (T (m - 2)%nat) (T (m - 1)%nat) (T 0%nat) (T 1%nat) (Y (m - 2)%nat) (Y (m - 1)%nat) (Y 0%nat) (Y 1%nat)), w).
Proof.
  unfold cmr_last. rewrite !wrap_pred, !int_idx_small by (unfold n; lia).
  rewrite (bind_done _ _ _ _ _ (get_t (n - 2) (length ts - 2) ltac:(unfold n; lia) ltac:(lia))).
  rewrite (bind_done _ _ _ _ _ (get_y (n - 2) (length ts - 2) ltac:(unfold n; lia) ltac:(lia))).
  rewrite (bind_done _ _ _ _ _ (get_t (n - 1) (length ts - 1) ltac:(unfold n; lia) ltac:(lia))).
  rewrite (bind_done _ _ _ _ _ (get_y (n - 1) (length ts - 1) ltac:(unfold n; lia) ltac:(lia))).
  rewrite (bind_done _ _ _ _ _ (get_t 0 0 ltac:(reflexivity) ltac:(lia))).
  rewrite (bind_done _ _ _ _ _ (get_y 0 0 ltac:(reflexivity) ltac:(lia))).
  rewrite (bind_done _ _ _ _ _ (get_t 1 1 ltac:(reflexivity) ltac:(lia))).
  rewrite (bind_done _ _ _ _ _ (get_y 1 1 ltac:(reflexivity) ltac:(lia))).
  reflexivity.
Qed.

(** Number of the point before point j (around the corner). *)
Definition before (j : nat) : nat := match j with O => (length ts - 1)%nat | S i => i end.

Lemma inner_done j : (j < length ts - 2)%nat -> cmr_inner lm tv pv n (Z.of_nat j) w =
  (Done (mkKnots (T (before j)) (T j) (T (S j)) (T (S (S j))) (Y (before j)) (Y j) (Y (S j)) (Y (S (S j)))), w).
Proof.
  intros Hj. unfold cmr_inner. cbv zeta. rewrite !wrap_pred by lia.
  replace (Z.of_nat j =? n - 1) with false by (symmetry; apply Z.eqb_neq; unfold n; lia).
  replace (Z.of_nat j =? n - 2) with false by (symmetry; apply Z.eqb_neq; unfold n; lia).
  assert (E : (if Z.of_nat j =? 0 then n - 1 else Z.of_nat j - 1) = Z.of_nat (before j)).
  { destruct j as [|j]; simpl before; [simpl; unfold n; lia|].
    replace (Z.of_nat (S j) =? 0) with false by (symmetry; apply Z.eqb_neq; lia). lia. }
  assert (B : (before j < length ts)%nat) by (destruct j; simpl; lia).
  rewrite E, !int_idx_small by (unfold n in *; lia).
  rewrite (bind_done _ _ _ _ _ (get_t _ _ eq_refl B)).
  rewrite (bind_done _ _ _ _ _ (get_y _ _ eq_refl B)).
  rewrite (bind_done _ _ _ _ _ (get_t _ j eq_refl ltac:(lia))).
  rewrite (bind_done _ _ _ _ _ (get_y _ j eq_refl ltac:(lia))).
  rewrite (bind_done _ _ _ _ _ (get_t (Z.of_nat j + 1) (S j) ltac:(lia) ltac:(lia))).
  rewrite (bind_done _ _ _ _ _ (get_y (Z.of_nat j + 1) (S j) ltac:(lia) ltac:(lia))).
  rewrite (bind_done _ _ _ _ _ (get_t (Z.of_nat j + 2) (S (S j)) ltac:(lia) ltac:(lia))).
  rewrite (bind_done _ _ _ _ _ (get_y (Z.of_nat j + 2) (S (S j)) ltac:(lia) ltac:(lia))).
  reflexivity.
Qed.

(** The last but one point: back() is reached. *)
Lemma inner_back j : (j = length ts - 2)%nat -> cmr_inner lm tv pv n (Z.of_nat j) w =
  (b <- back_f tv ;; y3 <- elem_f lm pv 0 ;;
   ret (mkKnots (T (before j)) (T j) (T (S j)) (fadd (T 0%nat) b) (Y (before j)) (Y j) (Y (S j)) y3)) w.
Proof.
  intros Hj. unfold cmr_inner. cbv zeta. rewrite !wrap_pred by lia.
  replace (Z.of_nat j =? n - 1) with false by (symmetry; apply Z.eqb_neq; unfold n; lia).
  replace (Z.of_nat j =? n - 2) with true by (symmetry; apply Z.eqb_eq; unfold n; lia).
  assert (E : (if Z.of_nat j =? 0 then n - 1 else Z.of_nat j - 1) = Z.of_nat (before j)).
  { destruct j as [|j]; simpl before; [simpl; unfold n; lia|].
    replace (Z.of_nat (S j) =? 0) with false by (symmetry; apply Z.eqb_neq; lia). lia. }
  assert (B : (before j < length ts)%nat) by (destruct j; simpl; lia).
  rewrite E, !int_idx_small by (unfold n in *; lia).
  rewrite (bind_done _ _ _ _ _ (get_t _ _ eq_refl B)).
  rewrite (bind_done _ _ _ _ _ (get_y _ _ eq_refl B)).
  rewrite (bind_done _ _ _ _ _ (get_t _ j eq_refl ltac:(lia))).
  rewrite (bind_done _ _ _ _ _ (get_y _ j eq_refl ltac:(lia))).
  rewrite (bind_done _ _ _ _ _ (get_t (Z.of_nat j + 1) (S j) ltac:(lia) ltac:(lia))).
  rewrite (bind_done _ _ _ _ _ (get_y (Z.of_nat j + 1) (S j) ltac:(lia) ltac:(lia))).
  unfold bind at 1. unfold bind at 1. rewrite (get_t 0 0 eq_refl ltac:(lia)). cbv iota beta.
  unfold bind. destruct (back_f tv w) as [[b|x|u] w']; reflexivity.
Qed.

(** First and last tests of cmrInternal. *)
Lemma cmr_start t : cmr_internal lm t tv pv w =
  (if flt_ltb t (T 0%nat) then (Done (Y 0%nat), w)
   else if flt_ltb (T (length ts - 1)%nat) t then (Done (Y (length ts - 1)%nat), w)
   else (q <- cmr_find lm tv pv t n (S (length ts)) 0 ;; ret (cmr_value lm t q)) w).
Proof.
  unfold cmr_internal. rewrite bind_get. cbv zeta.
  rewrite (proj1 Yt), (proj1 Yp), !map_length, <- Ln. fold n. rewrite Z.eqb_refl, bind_ass_true.
  replace (4 <=? n) with true by (symmetry; apply Z.leb_le; unfold n; lia). rewrite bind_ass_true.
  rewrite (bind_done _ _ _ _ _ (get_t 0 0 eq_refl ltac:(lia))).
  destruct (flt_ltb t (T 0%nat)); [now rewrite (get_y 0 0 eq_refl ltac:(lia))|].
  rewrite wrap_pred by lia.
  rewrite (bind_done _ _ _ _ _ (get_t (n - 1) (length ts - 1) ltac:(unfold n; lia) ltac:(lia))).
  destruct (flt_ltb (T (length ts - 1)%nat) t).
  - now rewrite (get_y (n - 1) (length ts - 1) ltac:(unfold n; lia) ltac:(lia)).
  - replace (Z.to_nat (n + 1)) with (S (length ts)) by (unfold n; lia). reflexivity.
Qed.

(** The loop always stops at some point. *)
Lemma first_inside t : exists j, (j <= length ts - 1)%nat /\ (forall m, (m < j)%nat -> inside ts t m = false) /\
  (j < length ts - 1 -> inside ts t j = true)%nat.
Proof.
  assert (H : forall k, (k <= length ts - 1)%nat -> (forall m, (m < k)%nat -> inside ts t m = false) \/
    exists j, (j < k)%nat /\ (forall m, (m < j)%nat -> inside ts t m = false) /\ inside ts t j = true).
  { induction k as [|k IH]; intros Hk; [left; lia|].
    destruct IH as [A|[j [Lj A]]]; [lia| |right; exists j; intuition lia].
    destruct (inside ts t k) eqn:I; [right; exists k; auto|].
    left. intros m Hm. destruct (Nat.eq_dec m k) as [->|]; auto. apply A. lia. }
  destruct (H (length ts - 1)%nat) as [A|[j [Lj [A I]]]]; [lia| |].
  - exists (length ts - 1)%nat. split; [lia|]. split; [exact A|lia].
  - exists j. split; [lia|]. auto.
Qed.
End Cmr.
