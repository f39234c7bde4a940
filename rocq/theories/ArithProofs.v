(** Arithmetic on doubles over their whole range. *)
From Coq Require Import ZArith Reals List Bool Lia Lra.
From Coq.Floats Require Import SpecFloat.
From Flocq Require Import Core.Core IEEE754.BinarySingleNaN.
From Verif Require Import Base Num FloatBridge NumProofs InterpProofs2 SpecNum.
Open Scope Z_scope.

Lemma sign_lt (b : bf) : is_finite b = true -> B2R b <> 0%R -> Bsign b = Rlt_bool (B2R b) 0.
Proof.
  destruct b as [s|s| |s m e H]; simpl; try easy; intros _ N. destruct s.
  - rewrite Rlt_bool_true; [easy|]. now apply F2R_lt_0.
  - rewrite Rlt_bool_false; [easy|]. apply Rlt_le. now apply F2R_gt_0.
Qed.
Lemma rnd0 : rnd 0 = 0%R.
Proof. apply round_0. typeclasses eauto. Qed.
Lemma big_not0 r : (bpow radix2 1024 <= Rabs (rnd r))%R -> r <> 0%R.
Proof. intros H ->. rewrite rnd0, Rabs_R0 in H. pose proof (bpow_gt_0 radix2 1024). lra. Qed.
Lemma sign_le (b : bf) : is_finite b = true -> if Bsign b then (B2R b <= 0)%R else (0 <= B2R b)%R.
Proof.
  destruct b as [s|s| |s m e H]; simpl; try easy; intros _; destruct s; try lra.
  - now apply F2R_le_0.
  - now apply F2R_ge_0.
Qed.

Lemma nearest_pick r (b : bf) s :
  (if Rlt_bool (Rabs (rnd r)) (bpow radix2 1024) then B2R b = rnd r /\ is_finite b = true
   else B2SF b = S754_infinity s /\ (r <> 0%R -> s = Rlt_bool r 0)) -> nearest r (B2SF b).
Proof.
  intros H. split; intros L.
  - rewrite Rlt_bool_true in H by exact L. destruct H as [A B]. rewrite SF2R_B2SF. split; [apply valid_B2SF'|]. split; [now apply finite_b|exact A].
  - rewrite Rlt_bool_false in H by exact L. destruct H as [A B]. rewrite A, B; [reflexivity|]. now apply big_not0.
Qed.

Lemma fadd_nearest x y : valid x -> valid y -> finite x -> finite y -> nearest (fR x + fR y) (fadd x y).
Proof.
  intros Vx Vy Fx Fy.
  destruct (valid_b x Vx) as [bx <-]. destruct (valid_b y Vy) as [by_ <-].
  rewrite fadd_equiv, !SF2R_B2SF. rewrite finite_b in *. apply (nearest_pick _ _ (Bsign bx)).
  generalize (Bplus_correct 53 1024 prec53 emax1024 mode_NE bx by_ Fx Fy). simpl round_mode.
  destruct (Rlt_bool _ _).
  - intros [A [B _]]. auto.
  - intros [A B]. split; [exact A|]. intros N. pose proof (sign_le bx Fx) as P. pose proof (sign_le by_ Fy) as Q.
    rewrite <- B in Q. destruct (Bsign bx).
    + rewrite Rlt_bool_true; [easy|lra].
    + rewrite Rlt_bool_false; [easy|lra].
Qed.
Lemma fsub_nearest x y : valid x -> valid y -> finite x -> finite y -> nearest (fR x - fR y) (fsub x y).
Proof.
  intros Vx Vy Fx Fy.
  destruct (valid_b x Vx) as [bx <-]. destruct (valid_b y Vy) as [by_ <-].
  rewrite fsub_equiv, !SF2R_B2SF. rewrite finite_b in *. apply (nearest_pick _ _ (Bsign bx)).
  generalize (Bminus_correct 53 1024 prec53 emax1024 mode_NE bx by_ Fx Fy). simpl round_mode.
  destruct (Rlt_bool _ _).
  - intros [A [B _]]. auto.
  - intros [A B]. split; [exact A|]. intros N. pose proof (sign_le bx Fx) as P. pose proof (sign_le by_ Fy) as Q.
    rewrite B in *. destruct (Bsign by_); simpl in *.
    + rewrite Rlt_bool_false; [easy|lra].
    + rewrite Rlt_bool_true; [easy|lra].
Qed.
Lemma sign_mult (bx b : bf) : is_finite bx = true -> is_finite b = true -> (B2R bx * B2R b)%R <> 0%R ->
  xorb (Bsign bx) (Bsign b) = Rlt_bool (B2R bx * B2R b) 0.
Proof.
  intros Fx Fy N. pose proof (sign_le bx Fx) as P. pose proof (sign_le b Fy) as Q.
  destruct (Bsign bx), (Bsign b); simpl.
  - rewrite Rlt_bool_false; [easy|nra].
  - rewrite Rlt_bool_true; [easy|nra].
  - rewrite Rlt_bool_true; [easy|nra].
  - rewrite Rlt_bool_false; [easy|nra].
Qed.
Lemma fmul_nearest x y : valid x -> valid y -> finite x -> finite y -> nearest (fR x * fR y) (fmul x y).
Proof.
  intros Vx Vy Fx Fy.
  destruct (valid_b x Vx) as [bx <-]. destruct (valid_b y Vy) as [by_ <-].
  rewrite fmul_equiv, !SF2R_B2SF. rewrite finite_b in *. apply (nearest_pick _ _ (xorb (Bsign bx) (Bsign by_))).
  generalize (Bmult_correct 53 1024 prec53 emax1024 mode_NE bx by_). simpl round_mode.
  destruct (Rlt_bool _ _).
  - intros [A [B _]]. rewrite Fx, Fy in B. auto.
  - intros A. split; [exact A|]. now apply sign_mult.
Qed.
Lemma fdiv_nearest x y : valid x -> valid y -> finite x -> finite y -> fR y <> 0%R -> nearest (fR x / fR y) (fdiv x y).
Proof.
  intros Vx Vy Fx Fy N0.
  destruct (valid_b x Vx) as [bx <-]. destruct (valid_b y Vy) as [by_ <-].
  rewrite fdiv_equiv. rewrite !SF2R_B2SF in *. rewrite finite_b in *. apply (nearest_pick _ _ (xorb (Bsign bx) (Bsign by_))).
  generalize (Bdiv_correct 53 1024 prec53 emax1024 mode_NE bx by_ N0). simpl round_mode.
  destruct (Rlt_bool _ _).
  - intros [A [B _]]. rewrite Fx in B. auto.
  - intros A. split; [exact A|]. intros N. unfold Rdiv in *.
    pose proof (sign_le bx Fx) as P. pose proof (sign_le by_ Fy) as Q.
    assert (I : if Bsign by_ then (/ B2R by_ < 0)%R else (0 < / B2R by_)%R).
    { destruct (Bsign by_); [apply Rinv_lt_0_compat; lra|apply Rinv_0_lt_compat; lra]. }
    destruct (Bsign bx), (Bsign by_); simpl.
    + rewrite Rlt_bool_false; [easy|nra].
    + rewrite Rlt_bool_true; [easy|nra].
    + rewrite Rlt_bool_true; [easy|nra].
    + rewrite Rlt_bool_false; [easy|nra].
Qed.

(** Logicals and ints become doubles exactly. *)
Lemma stands_v2f v r : stands v r -> valid (v2f v) /\ finite (v2f v) /\ fR (v2f v) = r.
Proof.
  intros [b|z B|d V F]; cbn [v2f].
  - destruct (i2f_exact (b2z b)) as [A B]; [destruct b; cbv; discriminate|].
    split; [apply i2f_valid|]. split; [exact B|]. rewrite A. destruct b; reflexivity.
  - destruct (i2f_exact z) as [A C]; [assert (2 ^ 31 < 2 ^ 53) by (apply Z.pow_lt_mono_r; lia); lia|].
    split; [apply i2f_valid|]. split; [exact C|exact A].
  - auto.
Qed.

Lemma real_done lm op rop dom u v x y : real_of op rop dom -> stands u x -> stands v y -> dom y ->
  (op = ODiv \/ ty_of u = TDouble \/ ty_of v = TDouble) ->
  exists d, bin_f lm op u v = Done (VD d) /\ nearest (rop x y) d.
Proof.
  intros O U V D T.
  destruct (stands_v2f _ _ U) as [Vu [Fu <-]]. destruct (stands_v2f _ _ V) as [Vv [Fv Ev]]. rewrite <- Ev in *. clear Ev.
  assert (A : forall zop fop, ty_of u = TDouble \/ ty_of v = TDouble -> trait_arith zop fop u v = Done (VD (fop (v2f u) (v2f v)))).
  { intros zop fop [H|H].
    - destruct u; try discriminate. destruct v; reflexivity.
    - destruct v; try discriminate. destruct u; reflexivity. }
  destruct O; cbn [bin_f].
  - rewrite A by (destruct T as [T|T]; [discriminate|exact T]). eexists. split; [reflexivity|]. now apply fadd_nearest.
  - rewrite A by (destruct T as [T|T]; [discriminate|exact T]). eexists. split; [reflexivity|]. now apply fsub_nearest.
  - rewrite A by (destruct T as [T|T]; [discriminate|exact T]). eexists. split; [reflexivity|]. now apply fmul_nearest.
  - eexists. split; [reflexivity|]. now apply fdiv_nearest.
Qed.

Lemma fR_fopp x : fR (fopp x) = (- fR x)%R.
Proof.
  destruct x as [s|s| |s m e]; simpl; try ring. unfold F2R; simpl. destruct s; simpl; rewrite ?Ropp_mult_distr_l, <- ?opp_IZR; reflexivity.
Qed.
Lemma valid_fopp x : valid x -> valid (fopp x).
Proof. destruct x; auto. Qed.
Lemma finite_fopp x : finite x -> finite (fopp x).
Proof. destruct x; auto. Qed.
