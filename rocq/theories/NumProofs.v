(** Proofs about comparison operators and integer arithmetic. *)
From Coq Require Import String ZArith List Bool Lia Reals Lra.
From Coq.Floats Require Import SpecFloat.
From Flocq Require Import Core BinarySingleNaN.
From Verif Require Import Base Num StoreModel VecModel SubsetModel FloatBridge Spec SpecExpr SpecHist SpecProg
  SpecSub StoreProofs StoreOps VecProofs SubsetProofs AllocProofs AllocProofs3.
Import ListNotations.
Open Scope Z_scope.
Local Notation length := List.length (only parsing).

(** Element i of a binary operation on two vectors, the shorter one recycled. *)
Lemma bin_elem lm w op e1 e2 l1 l2 i : yields lm w e1 l1 -> yields lm w e2 l2 -> l1 <> [] -> l2 <> [] ->
  elem lm (EBin op e1 e2) (Z.of_nat i) w =
  (bin_f lm op (nth (i mod length l1) l1 (VB false)) (nth (i mod length l2) l2 (VB false)), w).
Proof.
  intros [S1 E1] [S2 E2] N1 N2.
  assert (L1 : (0 < length l1)%nat) by (destruct l1; [congruence|simpl; lia]).
  assert (L2 : (0 < length l2)%nat) by (destruct l2; [congruence|simpl; lia]).
  assert (A : (if is_sca e1 then elem lm e1 0 else k <- lift (modz (Z.of_nat i) (esize w e1)) ;; elem lm e1 k) w =
     (Done (nth (i mod length l1) l1 (VB false)), w)).
  { destruct (is_sca e1) eqn:I.
    - destruct e1; try discriminate. simpl in S1. assert (length l1 = 1%nat) by lia.
      rewrite H, Nat.mod_1_r. apply (E1 O). lia.
    - unfold modz. rewrite S1. replace (Z.of_nat (length l1) =? 0) with false by (symmetry; apply Z.eqb_neq; lia).
      rewrite bind_lift_done. rewrite <- Nat2Z.inj_mod. apply E1. apply Nat.mod_upper_bound. lia. }
  assert (B : (if is_sca e2 then elem lm e2 0 else k <- lift (modz (Z.of_nat i) (esize w e2)) ;; elem lm e2 k) w =
     (Done (nth (i mod length l2) l2 (VB false)), w)).
  { destruct (is_sca e2) eqn:I.
    - destruct e2; try discriminate. simpl in S2. assert (length l2 = 1%nat) by lia.
      rewrite H, Nat.mod_1_r. apply (E2 O). lia.
    - unfold modz. rewrite S2. replace (Z.of_nat (length l2) =? 0) with false by (symmetry; apply Z.eqb_neq; lia).
      rewrite bind_lift_done. rewrite <- Nat2Z.inj_mod. apply E2. apply Nat.mod_upper_bound. lia. }
  cbn [elem]. rewrite bind_get, (bind_done _ _ _ _ _ A), (bind_done _ _ _ _ _ B). reflexivity.
Qed.

Lemma bin_size lm w op e1 e2 l1 l2 : yields lm w e1 l1 -> yields lm w e2 l2 -> l1 <> [] -> l2 <> [] ->
  esize w (EBin op e1 e2) = Z.of_nat (Nat.max (length l1) (length l2)).
Proof.
  intros [S1 E1] [S2 E2] N1 N2.
  assert (L1 : (0 < length l1)%nat) by (destruct l1; [congruence|simpl; lia]).
  assert (L2 : (0 < length l2)%nat) by (destruct l2; [congruence|simpl; lia]).
  cbn [esize].
  assert (I1 : is_sca e1 = true -> length l1 = 1%nat) by (destruct e1; try discriminate; simpl in S1; lia).
  assert (I2 : is_sca e2 = true -> length l2 = 1%nat) by (destruct e2; try discriminate; simpl in S2; lia).
  rewrite S1, S2. destruct (is_sca e1), (is_sca e2); simpl;
    try (specialize (I1 eq_refl)); try (specialize (I2 eq_refl)); try lia.
  destruct (Z.ltb_spec (Z.of_nat (length l2)) (Z.of_nat (length l1))); lia.
Qed.

(** When the operation is defined on all pairs that meet. *)
Lemma bin_yields lm w op e1 e2 l1 l2 (f : nat -> val) : yields lm w e1 l1 -> yields lm w e2 l2 -> l1 <> [] -> l2 <> [] ->
  (forall i, (i < Nat.max (length l1) (length l2))%nat ->
     bin_f lm op (nth (i mod length l1) l1 (VB false)) (nth (i mod length l2) l2 (VB false)) = Done (f i)) ->
  yields lm w (EBin op e1 e2) (map f (seq 0 (Nat.max (length l1) (length l2)))).
Proof.
  intros Y1 Y2 N1 N2 H. split.
  - rewrite map_length, seq_length. now apply (bin_size lm).
  - rewrite map_length, seq_length. intros i Hi.
    rewrite (bin_elem lm w op e1 e2 l1 l2) by auto. rewrite H by auto. now rewrite nth_map_seq.
Qed.

(* ------------------------------------------------------------- comparisons *)

Lemma fabs_round s t mx ex lx :
  SFabs (SpecFloat.binary_round_aux 53 1024 s mx ex lx) = SFabs (SpecFloat.binary_round_aux 53 1024 t mx ex lx).
Proof.
  unfold SpecFloat.binary_round_aux. destruct (shr_fexp 53 1024 mx ex lx) as [m' e'].
  destruct (shr_fexp 53 1024 _ e' loc_Exact) as [m'' e''].
  destruct (shr_m m''); try reflexivity. destruct (e'' <=? 1024 - 53); reflexivity.
Qed.

Lemma fabs_normalize_opp m e s t :
  SFabs (SpecFloat.binary_normalize 53 1024 (- m) e s) = SFabs (SpecFloat.binary_normalize 53 1024 m e t).
Proof.
  destruct m as [|p|p]; cbn [Z.opp SpecFloat.binary_normalize SFabs]; auto;
    unfold SpecFloat.binary_round; destruct (shl_align _ _ _) as [mz ez]; apply fabs_round.
Qed.

(** The magnitude of a difference does not depend on the order. *)
Lemma fabs_sub_sym a b : fabs (fsub a b) = fabs (fsub b a).
Proof.
  unfold fabs, fsub. destruct a as [sa|sa| |sa ma ea], b as [sb|sb| |sb mb eb]; cbn [SFsub]; try reflexivity;
    try (destruct sa, sb; reflexivity).
  set (x := cond_Zopp sa _). set (y := cond_Zopp sb _).
  set (x' := cond_Zopp sb _). set (y' := cond_Zopp sa _).
  assert (Z.min eb ea = Z.min ea eb) as E by apply Z.min_comm.
  assert (x' = y) as -> by (unfold x', y; now rewrite E).
  assert (y' = x) as -> by (unfold y', x; now rewrite E).
  rewrite E. replace (x - y) with (- (y - x)) by lia. apply fabs_normalize_opp.
Qed.

Lemma fabs_R x : fR (fabs x) = Rabs (fR x).
Proof.
  destruct x as [s| | |s m e]; simpl; rewrite ?Rabs_R0; auto.
  unfold F2R; simpl. rewrite Rabs_mult, (Rabs_pos_eq (bpow _ _)) by apply bpow_ge_0.
  f_equal. destruct s; simpl; rewrite <- abs_IZR; reflexivity.
Qed.

Lemma fabs_finite x : finite (fabs x) <-> finite x.
Proof. destruct x; simpl; tauto. Qed.
Lemma fabs_valid x : valid x -> valid (fabs x).
Proof. destruct x; simpl; auto. Qed.

Lemma fsub_valid a b : valid a -> valid b -> valid (fsub a b).
Proof.
  intros Va Vb. destruct (valid_b a Va) as [x <-]. destruct (valid_b b Vb) as [y <-].
  rewrite fsub_equiv. apply valid_B2SF'.
Qed.

Lemma f1em3_ok : valid f1em3 /\ finite f1em3.
Proof. split; [reflexivity|exact I]. Qed.

Lemma ltb_1em3 d : valid d -> (flt_ltb (fabs d) f1em3 = true <-> finite d /\ (Rabs (fR d) < fR f1em3)%R).
Proof.
  intros V. destruct f1em3_ok as [V1 F1]. split.
  - intros L. assert (F : finite d).
    { destruct d as [s|s| |s m e]; simpl; auto; vm_compute in L; discriminate. }
    split; [exact F|]. rewrite <- fabs_R. apply fltb_correct; auto using fabs_valid. now apply fabs_finite.
  - intros [F L]. apply fltb_correct; auto using fabs_valid; [now apply fabs_finite|]. now rewrite fabs_R.
Qed.

Lemma fsub_self a : finite a -> exists s, fsub a a = S754_zero s.
Proof.
  destruct a as [s|s| |s m e]; simpl; try easy; intros _.
  - destruct s; eexists; reflexivity.
  - unfold fsub, SFsub. rewrite Z.sub_diag. simpl. eauto.
Qed.
