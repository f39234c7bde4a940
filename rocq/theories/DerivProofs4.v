(** The derivatives of sums, differences, products and quotients by constants
    are the derivatives of the real functions. *)
From Coq Require Import Reals ZArith List Bool Arith Lia Lra.
From Verif Require Import Base Num StoreModel VecModel Spec DerivModel FloatBridge NumProofs SpecDeriv.
Import ListNotations.
Local Open Scope R_scope.

Lemma lane_mod i n l : length l = 1%nat \/ length l = n -> n <> 0%nat -> lane (i mod n)%nat l = lane i l.
Proof.
  intros [E | E] N; unfold lane; rewrite E.
  - rewrite (Nat.mod_1_r i), (Nat.mod_1_r (i mod n)%nat). reflexivity.
  - rewrite Nat.mod_mod by lia. reflexivity.
Qed.
Lemma lane_map (f : nat -> flt) i n : n <> 0%nat -> lane i (map f (seq 0 n)) = f (i mod n)%nat.
Proof.
  intros N. unfold lane. rewrite map_length, seq_length.
  pose proof (Nat.mod_upper_bound i n N) as B.
  rewrite (nth_indep _ _ (f 0%nat)) by (now rewrite map_length, seq_length).
  rewrite map_nth, seq_nth by lia. reflexivity.
Qed.

Section Real.
Variables (lm : libm) (c : avconf) (i : nat) (z0 : R).

Definition rel (env : senv) (g : R -> dvar -> R) : Prop :=
  forall x vs ds, env x = Some (vs, ds) ->
    length ds = length vs /\ vs <> [] /\
    g z0 x = fR (lane i vs) /\ derivable_pt_lim (fun z => g z x) z0 (fR (lane i ds)).

Lemma rel_vals env g x : rel env g -> env x <> None ->
  length (ders env x) = length (vals env x) /\
  g z0 x = fR (lane i (vals env x)) /\ derivable_pt_lim (fun z => g z x) z0 (fR (lane i (ders env x))).
Proof.
  intros R N. unfold vals, ders. destruct (env x) as [[vs ds]|] eqn:E; [|congruence].
  destruct (R x vs ds E) as [A [_ [B C]]]. auto.
Qed.

Lemma aligned_l env n l r : (forall x, In x (dvars l ++ dvars r) -> length (vals env x) = 1%nat \/ length (vals env x) = n) /\
  (forall k u, In (k, u) (dcons l ++ dcons r) -> length u = 1%nat \/ length u = n) -> aligned env n l /\ aligned env n r.
Proof.
  intros [A B]. split; split; intros; try (apply A); try (apply (B k)); apply in_or_app; auto.
Qed.
Lemma lval_mod env n e : n <> 0%nat -> aligned env n e ->
  lval lm (i mod n)%nat env e = lval lm i env e.
Proof.
  intros N. induction e; intros A; cbn [lval];
    try (destruct (aligned_l env n _ _ A); rewrite IHe1, IHe2; auto; fail).
  - apply lane_mod; auto. apply A. now left.
  - apply lane_mod; auto. apply (proj2 A k). now left.
  - rewrite IHe; auto.
Qed.
Lemma fwd_mod env n e : n <> 0%nat -> aligned env n e -> ringx e ->
  (forall x, In x (dvars e) -> length (ders env x) = length (vals env x)) ->
  fwd lm (i mod n)%nat env e = fwd lm i env e.
Proof.
  intros N. induction e; intros A R D; cbn [fwd ringx dvars dcons] in *.
  - apply lane_mod; auto. rewrite D by (now left). apply A. now left.
  - reflexivity.
  - destruct (aligned_l env n _ _ A), R as [R1 [R2 _]]. rewrite IHe1, IHe2; auto; intros; apply D, in_or_app; auto.
  - destruct (aligned_l env n _ _ A), R as [R1 [R2 _]]. rewrite IHe1, IHe2; auto; intros; apply D, in_or_app; auto.
  - destruct (aligned_l env n _ _ A), R as [R1 [R2 _]]. rewrite IHe1, IHe2; auto; try (intros; apply D, in_or_app; auto).
    now rewrite !lval_mod.
  - destruct (aligned_l env n _ _ A) as [A1 A2]. destruct e2; try contradiction. destruct ct; [|contradiction].
    rewrite IHe1; auto; [|intros; apply D, in_or_app; auto]. f_equal. apply lane_mod; auto. apply (proj2 A2 k). now left.
  - reflexivity.
  - contradiction.
Qed.

(** A function that is differentiable at z0 is continuous there. *)
Lemma near (f : R -> R) l eps : derivable_pt_lim f z0 l -> 0 < eps ->
  exists del, 0 < del /\ forall h, Rabs h < del -> Rabs (f (z0 + h) - f z0) < eps.
Proof.
  intros D He. assert (C : continuity_pt f z0) by (apply derivable_continuous_pt; now exists l).
  destruct (C eps He) as [del [Hd Q]]. exists del. split; [exact Hd|]. intros h Hh.
  destruct (Req_dec h 0) as [->|Nh].
  - rewrite Rplus_0_r, Rminus_diag_eq by reflexivity. now rewrite Rabs_R0.
  - apply (Q (z0 + h)). split.
    + split; [exact Logic.I|]. lra.
    + unfold dist; cbn. unfold R_dist. now replace (z0 + h - z0) with h by ring.
Qed.

Definition away_R (op : binop) (a b : R) : Prop :=
  match op with
  | OEq | ONe => Rabs (a - b) <> fR f1em3
  | _ => a <> b
  end.

Lemma says_near op (f g : R -> R) lf lg : is_cmp op = true ->
  derivable_pt_lim f z0 lf -> derivable_pt_lim g z0 lg -> away_R op (f z0) (g z0) ->
  exists del, 0 < del /\ forall h, Rabs h < del ->
    rsays op (f (z0 + h)) (g (z0 + h)) = rsays op (f z0) (g z0).
Proof.
  intros C Df Dg A.
  assert (N : forall eps, 0 < eps -> exists del, 0 < del /\ forall h, Rabs h < del ->
    Rabs ((f (z0 + h) - g (z0 + h)) - (f z0 - g z0)) < eps).
  { intros eps He. apply (near (fun z => f z - g z) (lf - lg)); [|exact He]. now apply derivable_pt_lim_minus. }
  destruct op; try discriminate; cbn [away_R] in A; cbn [rsays].
  1: { destruct (N (Rabs (Rabs (f z0 - g z0) - fR f1em3))) as [del [Hd Q]]; [apply Rabs_pos_lt; lra|].
    exists del. split; [exact Hd|]. intros h Hh. specialize (Q h Hh).
    pose proof (Rabs_triang_inv2 (f (z0 + h) - g (z0 + h)) (f z0 - g z0)) as T.
    revert Q T. generalize (Rabs (f (z0 + h) - g (z0 + h) - (f z0 - g z0))) (fR f1em3) A.
    generalize (Rabs (f (z0 + h) - g (z0 + h))) (Rabs (f z0 - g z0)). intros x y d t Ne Q T.
    unfold Rabs in Q, T. destruct (Rcase_abs (x - y)), (Rcase_abs (y - t)); destruct (Rlt_dec x t), (Rlt_dec y t); auto; lra. }
  5: { destruct (N (Rabs (Rabs (f z0 - g z0) - fR f1em3))) as [del [Hd Q]]; [apply Rabs_pos_lt; lra|].
    exists del. split; [exact Hd|]. intros h Hh. specialize (Q h Hh).
    pose proof (Rabs_triang_inv2 (f (z0 + h) - g (z0 + h)) (f z0 - g z0)) as T.
    revert Q T. generalize (Rabs (f (z0 + h) - g (z0 + h) - (f z0 - g z0))) (fR f1em3) A.
    generalize (Rabs (f (z0 + h) - g (z0 + h))) (Rabs (f z0 - g z0)). intros x y d t Ne Q T.
    unfold Rabs in Q, T. destruct (Rcase_abs (x - y)), (Rcase_abs (y - t)); destruct (Rlt_dec t x), (Rlt_dec t y); auto; lra. }
  all: destruct (N (Rabs (f z0 - g z0))) as [del [Hd Q]]; [apply Rabs_pos_lt; lra|];
    exists del; split; [exact Hd|]; intros h Hh; specialize (Q h Hh);
    revert Q; generalize (f (z0 + h)) (g (z0 + h)); revert A; generalize (f z0) (g z0);
    intros y y' Ne x x' Q; unfold Rabs in Q;
    destruct (Rcase_abs (x - x' - (y - y'))), (Rcase_abs (y - y'));
    try (destruct (Rlt_dec x x'), (Rlt_dec y y')); try (destruct (Rle_dec x x'), (Rle_dec y y'));
    try (destruct (Rlt_dec x' x), (Rlt_dec y' y)); try (destruct (Rle_dec x' x), (Rle_dec y' y)); auto; lra.
Qed.

Lemma cmp_derivable op (f g : R -> R) lf lg : is_cmp op = true ->
  derivable_pt_lim f z0 lf -> derivable_pt_lim g z0 lg -> away_R op (f z0) (g z0) ->
  derivable_pt_lim (fun z => if rsays op (f z) (g z) then 1 else 0) z0 0.
Proof.
  intros C Df Dg A. destruct (says_near op f g lf lg C Df Dg A) as [del [Hd Q]].
  intros eps He. exists (mkposreal del Hd). intros h Nh Hh. cbn in Hh. rewrite (Q h Hh).
  match goal with |- Rabs ((?x - ?x) / h - 0) < eps => replace ((x - x) / h - 0) with 0 by (field; exact Nh) end.
  now rewrite Rabs_R0.
Qed.

(** The comparison of doubles is that of the reals. *)
Lemma says_real op a b : is_cmp op = true -> away op a b ->
  says op a b = rsays op (fR a) (fR b) /\ away_R op (fR a) (fR b).
Proof.
  intros C [Va [Vb [Fa [Fb A]]]].
  assert (Lt : forall x y, valid x -> valid y -> finite x -> finite y ->
    flt_ltb x y = if Rlt_dec (fR x) (fR y) then true else false).
  { intros x y Vx Vy Fx Fy. pose proof (fltb_correct x y Vx Vy Fx Fy) as E.
    destruct (Rlt_dec (fR x) (fR y)); [now apply E|]. apply not_true_is_false. intros H. apply E in H. contradiction. }
  assert (Le : forall x y, valid x -> valid y -> finite x -> finite y ->
    flt_leb x y = if Rle_dec (fR x) (fR y) then true else false).
  { intros x y Vx Vy Fx Fy. pose proof (fleb_correct x y Vx Vy Fx Fy) as E.
    destruct (Rle_dec (fR x) (fR y)); [now apply E|]. apply not_true_is_false. intros H. apply E in H. contradiction. }
  destruct op; try discriminate; cbn [says rsays away_R]; try (split; [auto|exact A]).
  - destruct A as [[F E] A]. split; [|exact A]. rewrite Lt; auto using fabs_valid, fsub_valid; try apply f1em3_ok.
    + now rewrite fabs_R, E.
    + now apply fabs_finite.
  - destruct A as [[F E] A]. split; [|exact A]. rewrite Lt; auto using fabs_valid, fsub_valid; try apply f1em3_ok.
    + now rewrite fabs_R, E.
    + now apply fabs_finite.
Qed.

Lemma expr_real env g e : rel env g -> ringx e -> (forall x, In x (dvars e) -> env x <> None) ->
  exact_expr lm i env e ->
  rval i (g z0) e = fR (lval lm i env e) /\
  derivable_pt_lim (fun z => rval i (g z) e) z0 (fR (fwd lm i env e)).
Proof.
  intros R. induction e; intros P V X; cbn [ringx dvars exact_expr rval lval fwd] in *.
  - destruct (rel_vals env g x R) as [_ H]; auto. apply V. now left.
  - split; [reflexivity|]. apply derivable_pt_lim_const.
  - destruct X as [X1 [X2 [[_ X3] [_ X4]]]], P as [P1 [P2 _]].
    destruct IHe1 as [A1 B1]; auto; [intros; apply V, in_or_app; auto|].
    destruct IHe2 as [A2 B2]; auto; [intros; apply V, in_or_app; auto|].
    rewrite X3, X4, A1, A2. split; [reflexivity|]. now apply derivable_pt_lim_plus.
  - destruct X as [X1 [X2 [[_ X3] [_ X4]]]], P as [P1 [P2 _]].
    destruct IHe1 as [A1 B1]; auto; [intros; apply V, in_or_app; auto|].
    destruct IHe2 as [A2 B2]; auto; [intros; apply V, in_or_app; auto|].
    rewrite X3, X4, A1, A2. split; [reflexivity|]. now apply derivable_pt_lim_minus.
  - destruct X as [X1 [X2 [[_ X3] [[_ X4] [[_ X5] [_ X6]]]]]], P as [P1 [P2 _]].
    destruct IHe1 as [A1 B1]; auto; [intros; apply V, in_or_app; auto|].
    destruct IHe2 as [A2 B2]; auto; [intros; apply V, in_or_app; auto|].
    rewrite X6, X5, X4, X3, A1, A2. split; [reflexivity|].
    pose proof (derivable_pt_lim_mult _ _ _ _ _ B1 B2) as M. cbn beta in M. rewrite A1, A2 in M.
    rewrite (Rmult_comm (fR (fwd lm i env e2))). exact M.
  - destruct e2; try contradiction. destruct ct; [|contradiction].
    destruct X as [X1 [_ [[_ X3] [_ X4]]]].
    destruct IHe1 as [A1 B1]; auto; [intros; apply V, in_or_app; auto|].
    cbn [lval rval] in *. rewrite X3, X4, A1. split; [reflexivity|].
    pose proof (derivable_pt_lim_scal _ (/ fR (lane i l)) _ _ B1) as M.
    unfold Rdiv. rewrite Rmult_comm.
    intros eps He. destruct (M eps He) as [del Hd]. exists del. intros h H1 H2.
    specialize (Hd h H1 H2). unfold mult_real_fct in Hd.
    rewrite (Rmult_comm (rval i (g (z0 + h)) e1)), (Rmult_comm (rval i (g z0) e1)). exact Hd.
  - destruct P as [P1 [P2 [_ C]]], X as [X1 [X2 X3]].
    destruct IHe1 as [A1 B1]; auto; [intros; apply V, in_or_app; auto|].
    destruct IHe2 as [A2 B2]; auto; [intros; apply V, in_or_app; auto|].
    destruct (says_real op _ _ C X3) as [Sy Aw]. rewrite <- A1, <- A2 in Sy, Aw. rewrite Sy.
    assert (O : fR fone = 1) by (destruct (i2f_exact 1) as [O1 _]; [lia|exact O1]).
    split; [destruct (rsays op _ _); [now rewrite O|reflexivity]|].
    replace (fR fzero) with 0 by reflexivity.
    apply (cmp_derivable op (fun z => rval i (g z) e1) (fun z => rval i (g z) e2) _ _ C B1 B2 Aw).
  - contradiction.
Qed.

Lemma stmt_real env g s lim : rel env g -> ringp [s] -> at_point c i z0 [s] ->
  wf_stmt c lim env s -> exact_prog lm c i env [s] ->
  rel (sexec (fwd lm) lm c env s) (fun z => rexec c z i (g z) s).
Proof.
  destruct s as [x e]. intros R [P _] AP [_ [_ [_ [V [_ [Hn [Al _]]]]]]] [X _]. cbn [sexec rexec].
  intros y vs ds E. cbn beta in E |- *. destruct (dvar_dec y x) as [Ey|Ey]; [|now apply R].
  assert (Gen : forall vs' ds', vs' = map (fun j => lval lm j env e) (seq 0 (dlen env e)) ->
    ds' = map (fun j => fwd lm j env e) (seq 0 (dlen env e)) ->
    length ds' = length vs' /\ vs' <> [] /\ rval i (g z0) e = fR (lane i vs') /\
    derivable_pt_lim (fun z => rval i (g z) e) z0 (fR (lane i ds'))).
  { intros vs' ds' -> ->. rewrite !map_length, !seq_length. split; [reflexivity|].
    split; [intros Q; apply (f_equal (@List.length flt)) in Q; rewrite map_length, seq_length in Q; simpl in Q; lia|].
    rewrite !lane_map by lia. rewrite lval_mod by (auto; lia).
    rewrite fwd_mod by (auto; try lia; intros; apply (rel_vals env g); auto).
    now apply expr_real. }
  destruct e; try (injection E as E1 E2; apply Gen; auto; fail).
  - apply (R x0 vs ds E).
  - injection E as <- <-. rewrite repeat_length. split; [reflexivity|].
    cbn [dlen] in Hn. split; [intros ->; simpl in Hn; lia|].
    assert (Sd : lane i (repeat (seed c x) (length l)) = seed c x).
    { unfold lane. rewrite repeat_length. apply (repeat_spec (length l)). apply nth_In.
      rewrite repeat_length. apply Nat.mod_upper_bound. lia. }
    rewrite Sd. unfold seed. destruct (Z.eqb_spec (indep c) (Z.of_nat (num x))) as [I|I].
    + destruct AP as [AP _]. rewrite (AP I). split; [reflexivity|].
      assert (O : fR fone = 1) by (destruct (i2f_exact 1) as [O1 _]; [lia|exact O1]). rewrite O. apply derivable_pt_lim_id.
    + split; [reflexivity|]. replace (fR fzero) with 0 by reflexivity. apply derivable_pt_lim_const.
Qed.

Lemma rel_start ins : (forall x vs, ins x = Some vs -> vs <> []) -> at_input c i z0 ins ->
  rel (env0 c ins) (fun z => renv0 c z i ins).
Proof.
  intros Ne A x vs ds. unfold env0, renv0. destruct (ins x) as [l|] eqn:Q; [|discriminate].
  intros E. injection E as <- <-. specialize (Ne x l Q). rewrite repeat_length. split; [reflexivity|].
  split; [exact Ne|].
  assert (Sd : lane i (repeat (seed c x) (length l)) = seed c x).
  { unfold lane. rewrite repeat_length. apply (repeat_spec (length l)). apply nth_In.
    rewrite repeat_length. apply Nat.mod_upper_bound. destruct l; [congruence|discriminate]. }
  rewrite Sd. unfold seed. destruct (Z.eqb_spec (indep c) (Z.of_nat (num x))) as [I|I].
  - split; [symmetry; now apply (A x)|].
    assert (O : fR fone = 1) by (destruct (i2f_exact 1) as [O1 _]; [lia|exact O1]). rewrite O. apply derivable_pt_lim_id.
  - split; [reflexivity|]. replace (fR fzero) with 0 by reflexivity. apply derivable_pt_lim_const.
Qed.

Lemma prog_real lim p : forall env g, rel env g -> ringp p -> at_point c i z0 p ->
  wf_prog (fwd lm) lm c lim env p -> exact_prog lm c i env p ->
  rel (srun (fwd lm) lm c env p) (fun z => rrun c z i (g z) p).
Proof.
  induction p as [|s p IH]; intros env g R P AP W X; [exact R|].
  cbn [srun rrun]. destruct W as [W1 W2].
  apply (IH (sexec (fwd lm) lm c env s) (fun z => rexec c z i (g z) s)); auto.
  - apply (stmt_real env g s lim); auto; destruct s as [x e].
    + now destruct P.
    + destruct e; try exact I. destruct AP. now split.
    + destruct X. now split.
  - destruct s; now destruct P.
  - destruct s as [x e]. destruct e; try exact AP. now destruct AP.
  - destruct s; now destruct X.
Qed.
End Real.
