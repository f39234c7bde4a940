(** Construction of vectors from expressions. *)
From Coq Require Import String ZArith List Bool Lia.
From Verif Require Import Base Num StoreModel VecModel SubsetModel AllocModel Spec SpecExpr SpecHist SpecProg
  SpecSub SpecAlloc CapProofs StoreProofs StoreOps VecProofs VecAssign VecEval SubsetProofs StoreThms SubsetThms AllocProofs.
Import ListNotations.
Open Scope Z_scope.
Local Notation length := List.length (only parsing).

Lemma default_pair w x t : world_shape w -> unborn w (OD x) -> unborn w (OT x) ->
  exists w', vec_default x t w = (Done tt, w') /\ vstep w w' x /\ (world_ok w -> world_ok w') /\
    ob w' (OD x) = store_default KBuffer t /\ ob w' (OT x) = store_default KBuffer t.
Proof.
  intros W D1 D2.
  destruct (ctor_default_done w (OD x) t W D1) as [w1 [E1 [S1 [O1 H1]]]].
  destruct (ctor_default_done w1 (OT x) t (s1_shape _ _ _ S1)) as [w2 [E2 [S2 [O2 H2]]]].
  { intros a Ha. destruct (s1_other _ _ _ S1 (OT x)) as [Q _]; [congruence|]. rewrite Q in Ha. now apply (D2 a). }
  exists w2. unfold vec_default. rewrite (bind_done _ _ _ _ _ E1). split; [exact E2|].
  split. { eapply vstep_trans; eapply step1_vstep; [left; reflexivity|exact S1|right; reflexivity|exact S2]. }
  assert (O12 : ob w2 (OD x) = store_default KBuffer t).
  { destruct (s1_other _ _ _ S2 (OD x)) as [Q _]; [congruence|]. now rewrite Q. }
  split; [|auto]. intros WO. eapply step1_ok; [exact S2| |].
  - eapply step1_ok; [exact S1|exact WO|]. eapply inited_buffer; eauto; [apply S1|now rewrite O1].
  - eapply inited_buffer; eauto; [apply S2|now rewrite O2].
Qed.

Lemma env_vstep w w' x rho e : vstep w w' x -> ~ In x (vars e) -> env_of w rho e -> env_of w' rho e.
Proof.
  intros V N EN y Hy. eapply holds_same; [|exact (EN y Hy)]. apply (vs_other _ _ _ V); congruence.
Qed.

Section Cons.
Variables (lm : libm) (w : world) (x : nat) (t : ety) (e : expr) (rho : nat -> list val).
Hypotheses (W : world_shape w) (D1 : unborn w (OD x)) (D2 : unborn w (OT x)) (Nx : ~ In x (vars e))
  (EN : env_of w rho e) (WF : wf_expr rho e).

Definition cons_result : Prop :=
  match value lm rho t e with
  | Done us => exists w', vec_of_expr lm x t e w = (Done tt, w') /\ made w w' x t us (shape_of w e mp_none)
  | Thrown ex => exists w', vec_of_expr lm x t e w = (Thrown ex, w') /\ not_made w w' x
  | Undef u => exists w', vec_of_expr lm x t e w = (Undef u, w')
  end.

Lemma vec_of_expr_run : 1 <= xsize rho e -> fits w (xsize rho e) -> cons_result.
Proof.
  intros N1 Ft. unfold cons_result, vec_of_expr. rewrite bind_get. cbv zeta.
  rewrite (esize_xsize w rho e EN WF).
  destruct (default_pair w x t W D1 D2) as [w1 [E1 [V1 [K1 [O1 T1]]]]].
  pose proof (vs_shape _ _ _ V1) as W1. pose proof (ws_lim _ W1) as Lim.
  set (n := xsize rho e) in *.
  replace (0 <? n) with true by (symmetry; apply Z.ltb_lt; lia).
  unfold fits in Ft. rewrite <- (vs_lim _ _ _ V1) in Ft.
  destruct (cap115_ok n) as [c [C Bc]]; [lia|].
  destruct (resize_done w1 (OD x) n c W1) as [w2 [E2 R2]]; auto; try lia.
  { now rewrite O1. } { rewrite O1. discriminate. }
  destruct R2 as [S2 [Kd [Td [Md [Dd [Sd [Ad [Pd [Cd Rest]]]]]]]]].
  destruct (ptr (ob w2 (OD x))) as [a|] eqn:Pa; [|congruence].
  assert (V2 : vstep w w2 x) by (eapply vstep_trans; [exact V1|]; eapply step1_vstep; [left; reflexivity|exact S2]).
  assert (OT2 : ob w2 (OT x) = store_default KBuffer t).
  { destruct (s1_other _ _ _ S2 (OT x)) as [Q _]; [congruence|]. now rewrite Q. }
  pose proof (env_vstep _ _ _ _ _ V2 Nx EN) as EN2.
  pose proof (fill_temp_eval lm (OD x) t e w2 a (Z.to_nat n) (xval lm rho e)) as G.
  specialize (G (s1_shape _ _ _ S2) Kd Pa). rewrite Z2Nat.id in G by lia.
  specialize (G Sd ltac:(intros y Hy Q; injection Q as ->; contradiction)).
  assert (EV : forall i, 0 <= i < n -> elem lm e i w2 = (xval lm rho e i, w2)).
  { intros i Hi. apply elem_xval; auto; [apply S2|lia|left; fold n; lia]. }
  specialize (G EV). unfold value. fold n.
  assert (MPe : forall w3, ob w3 = ob w2 -> forall y, In y (vars e) -> mp (ob w3 (OD y)) = mp (ob w (OD y))).
  { intros w3 O3 y Hy. rewrite O3. destruct (vs_other _ _ _ V2 (OD y)) as [Q _]; [congruence|congruence|]. now rewrite Q. }
  destruct (omap _ (zseq 0 (Z.to_nat n))) as [us|ex|u] eqn:OM.
  - destruct G as [w3 [E3 [S3 [O3 H3]]]].
    assert (V3 : vstep w w3 x) by (eapply vstep_trans; [exact V2|]; eapply step1_vstep; [left; reflexivity|exact S3]).
    assert (WO3 : world_ok w -> world_ok w3).
    { intros WO. eapply step1_ok; [exact S3| |].
      - eapply step1_ok; [exact S2|now apply K1|].
        split; [|rewrite Kd; congruence]. intros b own cs Pb Bb i Hi.
        rewrite O1 in Rest. simpl in Rest. replace (0 <? n) with true in Rest by (symmetry; apply Z.ltb_lt; lia).
        destruct Rest as [_ Rest]. rewrite Sd in Hi.
        rewrite <- (cells_of_ptr w2 (OD x) b own cs Pb Bb). rewrite Rest by lia. eauto.
      - eapply inited_buffer; eauto; [apply S3|now rewrite O3]. }
    assert (SH : shape_of w3 e (mp (ob w3 (OD x))) = shape_of w e mp_none).
    { unfold shape_of. rewrite (eim_mp w w3 e), (edim_mp rows w w3 e), (edim_mp cols w w3 e) by (apply MPe; exact O3).
      rewrite O3, Md, O1. reflexivity. }
    assert (LU : Z.of_nat (length us) = n).
    { destruct (value_done lm rho t e us OM) as [VL _]. exact VL. }
    assert (Fin : exists w4, (resize (OD x) n;; fill_temp lm (OD x) t e n;; take_shape (OD x) e) w1 = (Done tt, w4) /\
        made w w4 x t us (shape_of w e mp_none)).
    { rewrite (bind_done _ _ _ _ _ E2), (bind_done _ _ _ _ _ E3), take_shape_done.
      destruct (eim w3 e) eqn:EI.
      - rewrite SH. set (m := shape_of w e mp_none). set (w4 := set_ob w3 (OD x) (with_mp m (ob w3 (OD x)))).
        exists w4. split; [reflexivity|].
        assert (ST : step1 w3 w4 (OD x)) by (apply step1_mp; apply S3).
        assert (H4 : vholds w4 x us) by (now apply holds_mp).
        assert (OD4 : ob w4 (OD x) = with_mp m (ob w2 (OD x))) by (unfold w4; rewrite ob_set_same, O3; reflexivity).
        assert (OT4 : ob w4 (OT x) = store_default KBuffer t) by (unfold w4; rewrite ob_set_other by discriminate; now rewrite O3).
        clearbody w4. split; unfold owning, ready, can_assign; rewrite ?OD4, ?OT4; simpl; eauto.
        + eapply vstep_trans; [exact V3|]. eapply step1_vstep; [left; reflexivity|exact ST].
        + intros WO. eapply step1_ok; [exact ST|auto|]. eapply inited_buffer; [apply ST| |exact H4].
          rewrite OD4. exact Kd.
        + split; [congruence|now left].
        + now rewrite Td, O1.
        + lia.
      - exists w3. split; [reflexivity|].
        assert (MS : shape_of w e mp_none = mp_none).
        { unfold shape_of. rewrite <- (eim_mp w w3 e), EI by (apply MPe; exact O3). reflexivity. }
        split; unfold owning, ready, can_assign; rewrite ?O3, ?OT2; eauto.
        + rewrite MS, Md, O1. reflexivity.
        + split; [congruence|now left].
        + now rewrite Td, O1.
        + lia. }
    destruct Fin as [w4 [E4 M4]]. exists w4. split; [|exact M4]. unfold bind at 1. rewrite E1, E4. reflexivity.
  - destruct G as [w3 [E3 [S3 O3]]].
    destruct (destroy_done w3 (OD x) (s1_shape _ _ _ S3)) as [w4 [E4 [S4 [U4 [P4 [Z4 Kd4]]]]]]; [now rewrite O3|].
    exists w4. split.
    { unfold bind at 1. rewrite E1. rewrite (bind_done _ _ _ _ _ E2). unfold bind at 1. rewrite E3.
      unfold any_destroy. rewrite bind_assoc, bind_st, O3, Kd. rewrite (bind_done _ _ _ _ _ E4). reflexivity. }
    assert (V4 : vstep w w4 x).
    { eapply vstep_trans; [exact V2|]. eapply vstep_trans; eapply step1_vstep; [left; reflexivity|exact S3|left; reflexivity|exact S4]. }
    split; [exact V4|]. split; [|split; [exact U4|]].
    + intros WO. eapply vstep_ok; [exact V4|exact WO| |].
      * split; [|congruence]. intros b own cs Pb. congruence.
      * destruct (s1_other _ _ _ S4 (OT x)) as [Q _]; [congruence|]. split; [|rewrite Q, O3, OT2; simpl; congruence].
        intros b own cs Pb. rewrite Q, O3, OT2 in Pb. discriminate.
    + intros b [Pb _]. destruct (s1_other _ _ _ S4 (OT x)) as [Q _]; [congruence|]. rewrite Q, O3, OT2 in Pb. discriminate.
  - destruct G as [w3 E3]. exists w3. unfold bind at 1. rewrite E1. rewrite (bind_done _ _ _ _ _ E2). unfold bind at 1. rewrite E3. reflexivity.
Qed.
End Cons.
