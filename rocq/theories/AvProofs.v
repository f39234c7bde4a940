(** Loading AllVars objects. *)
From Coq Require Import ZArith List String Bool Lia Arith.
From Verif Require Import Base Num StoreModel VecModel ForeignModel Spec SpecExpr SpecHist SpecForeign StoreProofs
  StoreOps StoreThms StoreHist StoreThms2 VecProofs VecAssign VecThms AllocProofs AllocProofs2 DistriProofs ForeignProofs6 DerivModel DerivProofs
  AvModel SpecAv.
Import ListNotations.
Open Scope Z_scope.
Local Notation length := List.length (only parsing).

Lemma Forall2_len {A B} (R : A -> B -> Prop) l r : Forall2 R l r -> length l = length r.
Proof. induction 1; cbn [length]; congruence. Qed.

Lemma copy_shape w x y l lt :
  world_shape w -> owning w y -> x <> y -> unborn w (OD x) -> unborn w (OT x) ->
  sz (ob w (OD y)) <= cap (ob w (OD y)) -> sz (ob w (OT y)) <= cap (ob w (OT y)) ->
  vholds w y l -> holds w (OT y) lt ->
  exists w', vec_copy_any x y w = (Done tt, w') /\ vstep w w' x /\
    vholds w' x l /\ owning w' x /\ mp (ob w' (OD x)) = mp_none.
Proof.
  intros W [K1 K2] Ne D1 D2 C1 C2 H Ht.
  assert (HA : forall o, alloc (ob w o) = true -> cap (ob w o) = 0 \/ ptr (ob w o) <> None).
  { intros o _. pose proof (ws_store _ W o) as Sh. unfold store_shape in Sh.
    destruct (ptr (ob w o)); [right; congruence|left; lia]. }
  destruct (ctor_copy_done w (OD x) (OD y) W D1) as [w1 [E1 [S1 [Z1 [Cp1 [T1 [M1 [Kd1 H1]]]]]]]]; auto; try congruence.
  { now apply cap_le_lim. }
  specialize (H1 l H).
  assert (SOy : forall o, o <> OD x -> same_obj w w1 o) by apply (s1_other _ _ _ S1).
  assert (EOT : ob w1 (OT y) = ob w (OT y)) by (apply SOy; congruence).
  assert (EOX : ob w1 (OT x) = ob w (OT x)) by (apply SOy; congruence).
  destruct (ctor_copy_done w1 (OT x) (OT y)) as [w2 [E2 [S2 [Z2 [Cp2 [T2 [M2 [Kd2 H2]]]]]]]].
  { apply S1. }
  { intros a Ha. rewrite EOX in Ha. now apply (D2 a). }
  { congruence. }
  { congruence. }
  { rewrite EOT. exact C2. }
  { apply cap_le_lim; [apply S1|congruence]. }
  { rewrite EOT. apply HA. }
  assert (OX : same_obj w1 w2 (OD x)) by (apply (s1_other _ _ _ S2); congruence).
  exists w2. unfold vec_copy_any. rewrite bind_st, K1, (bind_done _ _ _ _ _ E1), E2.
  split; [reflexivity|]. split.
  { eapply vstep_trans; eapply step1_vstep; [left; reflexivity|exact S1|right; reflexivity|exact S2]. }
  split; [now apply (holds_same w1)|]. unfold owning. rewrite (proj1 OX). auto.
Qed.

Lemma argument_same w w' y us : argument w y us -> same_obj w w' (OD y) -> same_obj w w' (OT y) ->
  hlim (hp w') = hlim (hp w) -> argument w' y us.
Proof.
  intros [A1 A2 A3 [l [A4 A4']] [t A5] [A6 [A7 A8]]] S1 S2 HL.
  split; unfold owning, fits in *; rewrite ?(proj1 S1), ?(proj1 S2), ?HL; auto.
  - exists l. split; [now apply (holds_same w)|exact A4'].
  - exists t. now apply (holds_same w).
Qed.

Lemma value_var lm rho t y us : Forall2 (fun v u => cast t v = Done u) (rho y) us ->
  value_of lm rho t (EVar y) us.
Proof.
  intros F. pose proof (Forall2_len _ _ _ F) as L. split; [cbn [xsize]; now rewrite L|].
  intros i Hi. cbn [xval]. unfold pick_val. rewrite Nat2Z.id.
  revert i Hi. clear L. induction F as [|v u l us' C F IH]; intros i Hi; [cbn in Hi; lia|].
  destruct i; cbn [nth_error nth]; [exists v; auto|]. apply IH. cbn in Hi. lia.
Qed.

Lemma init_one_done lm k n tmp idx y us w : k = KBuffer \/ k = KBorrowSEXP -> world_shape w -> argument w y us ->
  (idx < n)%nat -> tmp <> y -> unborn w (OD tmp) -> unborn w (OT tmp) ->
  let s := vslot (DV k idx) in s <> tmp ->
  ob w (OD s) = store_default k TDouble -> ob w (OT s) = store_default KBuffer TDouble ->
  exists w', init_one lm k n tmp idx y w = (Done tt, w') /\ world_shape w' /\ hlim (hp w') = hlim (hp w) /\
    vholds w' s us /\ mp (ob w' (OD s)) = mp_none /\ (no_leak w -> no_leak w') /\ unborn w' (OD tmp) /\ unborn w' (OT tmp) /\
    (forall o, o <> OD s -> o <> OT s -> o <> OD tmp -> o <> OT tmp -> same_obj w w' o) /\
    (forall b own cs, own <> OwnCpp -> hblk (hp w) b = Live own cs -> hblk (hp w') b = Live own cs).
Proof.
  intros K W [A1 A2 A3 [l [A4 A4']] [t A5] [A6 [A7 A8]]] Hi Nt U1 U2 s Ns D1 D2.
  destruct (copy_shape w tmp y l t W A1 Nt U1 U2 A2 A3 A4 A5) as [w1 [E1 [V1 [H1 [O1 M1]]]]].
  assert (SD : ob w1 (OD s) = store_default k TDouble) by (rewrite <- D1; apply (vs_other _ _ _ V1); congruence).
  assert (ST : ob w1 (OT s) = store_default KBuffer TDouble) by (rewrite <- D2; apply (vs_other _ _ _ V1); congruence).
  pose proof (Forall2_len _ _ _ A4') as L.
  assert (L1 : 1 <= Z.of_nat (length us)) by (destruct us; [congruence|cbn [length]; lia]).
  assert (HA : exists w2, assign lm s (EVar tmp) w1 = (Done tt, w2) /\ vstep w1 w2 s /\ vholds w2 s us /\ mp (ob w2 (OD s)) = mp_none).
  { set (rho := fun _ : nat => l).
    assert (EN : env_of w1 rho (EVar tmp)) by (intros z [<-|[]]; exact H1).
    assert (VV : value_of lm rho TDouble (EVar tmp) us) by (now apply value_var).
    assert (Sp : shape_of w1 (EVar tmp) mp_none = mp_none) by (unfold shape_of; cbn [eim]; now rewrite M1).
    destruct K as [-> | ->].
    - destruct (assign_buffer_core lm w1 s (EVar tmp) rho us) as [w2 [E2 [V2 [_ [H2 [_ [_ [_ [_ [M2 _]]]]]]]]]];
        [..|rewrite SD in M2; cbn [mp store_default] in M2; rewrite Sp in M2; eauto 6];
        unfold owning, small, can_assign, fits in *; rewrite ?SD, ?ST, ?(vs_lim _ _ _ V1); cbn [xsize]; unfold rho; rewrite ?L;
        try (now cbn); auto; try (split; cbn; reflexivity || lia). apply V1.
    - destruct (assign_wrapper_own lm w1 s (EVar tmp) rho us) as [w2 [E2 [V2 [H2 [_ [_ [_ [_ M2]]]]]]]];
        [..|rewrite SD in M2; cbn [mp store_default] in M2; rewrite Sp in M2; eauto 6];
        unfold owning, small, can_assign, fits in *; rewrite ?SD, ?ST, ?(vs_lim _ _ _ V1); cbn [xsize]; unfold rho; rewrite ?L;
        try (now cbn); auto; try (split; cbn; reflexivity || lia); try (cbn; congruence). apply V1. }
  destruct HA as [w2 [E2 [V2 [H2 M2]]]].
  assert (S2 : same_obj w1 w2 (OD tmp)) by (apply (vs_other _ _ _ V2); congruence).
  assert (S2' : same_obj w1 w2 (OT tmp)) by (apply (vs_other _ _ _ V2); congruence).
  destruct (vec_end_gen w2 tmp) as [w3 [E3 [V3 [_ [U3 U3']]]]].
  { apply V2. }
  { unfold owning. rewrite (proj1 S2), (proj1 S2'). exact O1. }
  exists w3. split.
  { unfold init_one. rewrite (bind_done _ _ _ _ _ E1). replace (idx <? n)%nat with true by (symmetry; now apply Nat.ltb_lt).
    fold s. now rewrite E2. }
  split; [apply V3|]. split.
  { rewrite (vs_lim _ _ _ V3), (vs_lim _ _ _ V2). apply V1. }
  split; [eapply vstep_vholds; [exact V3|exact Ns|exact H2]|].
  split; [rewrite <- M2; f_equal; apply (vs_other _ _ _ V3); congruence|].
  split; [intros NL; now apply (vstep_no_leak _ _ _ V3), (vstep_no_leak _ _ _ V2), (vstep_no_leak _ _ _ V1)|].
  split; [exact U3|]. split; [exact U3'|]. split.
  - intros o N1 N2 N3 N4. eapply same_obj_trans; [apply (vs_other _ _ _ V1); auto|].
    eapply same_obj_trans; [apply (vs_other _ _ _ V2); auto|apply (vs_other _ _ _ V3); auto].
  - intros b own cs No B. apply (vs_ext _ _ _ V3), (vs_ext _ _ _ V2), (vs_ext _ _ _ V1); auto.
Qed.

Lemma init_args_done lm k n tmp : k = KBuffer \/ k = KBorrowSEXP -> outside k n tmp ->
  forall ys uss idx w, world_shape w -> Forall2 (argument w) ys uss -> (idx + length ys <= n)%nat ->
  Forall (fun y => y <> tmp /\ outside k n y) ys -> unborn w (OD tmp) -> unborn w (OT tmp) ->
  (forall i, (idx <= i < n)%nat -> ob w (OD (vslot (DV k i))) = store_default k TDouble /\
    ob w (OT (vslot (DV k i))) = store_default KBuffer TDouble) ->
  exists w', init_args lm k n tmp idx ys w = (Done tt, w') /\ world_shape w' /\ hlim (hp w') = hlim (hp w) /\
    (forall i us, nth_error uss i = Some us -> vholds w' (vslot (DV k (idx + i))) us /\
      mp (ob w' (OD (vslot (DV k (idx + i))))) = mp_none) /\
    (no_leak w -> no_leak w') /\ unborn w' (OD tmp) /\ unborn w' (OT tmp) /\
    (forall o, (forall i, (i < length ys)%nat -> o <> OD (vslot (DV k (idx + i))) /\ o <> OT (vslot (DV k (idx + i)))) ->
      o <> OD tmp -> o <> OT tmp -> same_obj w w' o) /\
    (forall b own cs, own <> OwnCpp -> hblk (hp w) b = Live own cs -> hblk (hp w') b = Live own cs).
Proof.
  intros K Ot ys. induction ys as [|y ys IH]; intros uss idx w W F Hn Fo U1 U2 Em.
  - inversion F; subst. exists w. cbn [init_args]. split; [reflexivity|]. split; [exact W|]. split; [reflexivity|].
    split; [intros i us; destruct i; discriminate|]. split; [auto|]. split; [exact U1|]. split; [exact U2|]. split; [intros; apply same_obj_refl|auto].
  - inversion F as [|? us ? uss' A F' Q1 Q2]; subst. inversion Fo as [|? ? [Ny Oy] Fo' Q3]; subst. cbn [length] in Hn.
    destruct (Em idx) as [D1 D2]; [lia|].
    destruct (init_one_done lm k n tmp idx y us w) as [w1 [E1 [W1 [L1 [H1 [M1 [NL1 [U1' [U2' [S1 B1]]]]]]]]]]; auto; try lia.
    { intros X. symmetry in X. revert X. apply Ot. lia. }
    assert (So : forall z, outside k n z -> z <> tmp -> same_obj w w1 (OD z) /\ same_obj w w1 (OT z)).
    { intros z Oz Nz. assert (z <> vslot (DV k idx)) by (apply Oz; lia). split; apply S1; congruence. }
    destruct (IH uss' (S idx) w1) as [w2 [E2 [W2 [L2 [H2 [NL2 [X1 [X2 [S2 B2]]]]]]]]]; auto; try lia.
    { clear - F' Fo' So L1. induction F' as [|z vs ? ? A' F' IHF]; constructor; inversion Fo' as [|? ? [Nz Oz] Fo2]; subst; auto.
      destruct (So z Oz Nz). now apply (argument_same w). }
    { intros i Hi. assert (Nv : vslot (DV k i) <> vslot (DV k idx)).
      { intros X. apply slots_v in X. injection X. lia. }
      assert (Nu : vslot (DV k i) <> tmp) by (intros X; symmetry in X; revert X; apply Ot; lia).
      destruct (Em i) as [Q5 Q6]; [lia|].
      rewrite (proj1 (S1 (OD (vslot (DV k i))) ltac:(congruence) ltac:(congruence) ltac:(congruence) ltac:(congruence))).
      rewrite (proj1 (S1 (OT (vslot (DV k i))) ltac:(congruence) ltac:(congruence) ltac:(congruence) ltac:(congruence))). auto. }
    exists w2. cbn [init_args]. rewrite (bind_done _ _ _ _ _ E1). split; [exact E2|]. split; [exact W2|].
    split; [congruence|]. split.
    { intros [|i] vs; cbn [nth_error]; intros Hv.
      - injection Hv as <-. rewrite Nat.add_0_r.
        assert (Q : same_obj w1 w2 (OD (vslot (DV k idx)))); [|split; [now apply (holds_same w1)|now rewrite (proj1 Q)]].
        apply S2.
        + intros i Hi. split; [|discriminate]. intros X. apply od_inj, slots_v in X. injection X. lia.
        + intros X. apply od_inj in X. symmetry in X. revert X. apply Ot. lia.
        + discriminate.
      - replace (idx + S i)%nat with (S idx + i)%nat by lia. now apply H2. }
    split; [auto|]. split; [exact X1|]. split; [exact X2|]. split.
    { intros o No N1 N2. eapply same_obj_trans.
      - destruct (No 0%nat) as [Q5 Q6]; [cbn; lia|]. rewrite Nat.add_0_r in Q5, Q6. now apply S1.
      - apply S2; auto. intros i Hi. destruct (No (S i)) as [Q5 Q6]; [cbn; lia|].
        replace (S idx + i)%nat with (idx + S i)%nat by lia. auto. }
    intros b own cs No B. apply B2; auto.
Qed.

(** An assignment to a default-constructed Borrow throws. *)
Lemma init_borrow_thrown lm n tmp idx y us w : world_shape w -> argument w y us ->
  (idx < n)%nat -> tmp <> y -> unborn w (OD tmp) -> unborn w (OT tmp) ->
  let s := vslot (DV KBorrow idx) in s <> tmp ->
  ob w (OD s) = store_default KBorrow TDouble ->
  exists w', init_one lm KBorrow n tmp idx y w =
      (Thrown (Ass "number of items to replace is not a multiple of replacement length"), w') /\ world_shape w' /\
    (no_leak w -> no_leak w') /\
    (forall o, o <> OD tmp -> o <> OT tmp -> same_obj w w' o).
Proof.
  intros W [A1 A2 A3 [l [A4 A4']] [t A5] [A6 [A7 A8]]] Hi Nt U1 U2 s Ns D1.
  destruct (copy_shape w tmp y l t W A1 Nt U1 U2 A2 A3 A4 A5) as [w1 [E1 [V1 [H1 [O1 M1]]]]].
  assert (SD : ob w1 (OD s) = store_default KBorrow TDouble) by (rewrite <- D1; apply (vs_other _ _ _ V1); congruence).
  destruct (vec_end_gen w1 tmp) as [w3 [E3 [V3 _]]]; [apply V1|exact O1|].
  pose proof (Forall2_len _ _ _ A4') as L. pose proof (proj1 H1) as Sz.
  assert (E2 : assign lm s (EVar tmp) w1 =
    (Thrown (Ass "number of items to replace is not a multiple of replacement length"), w1)).
  { unfold assign. rewrite bind_st, SD. cbn [kd store_default]. unfold assign_borrow. rewrite bind_get, SD.
    cbn [esize cap store_default]. rewrite Sz.
    replace (Z.of_nat (length l) <=? 0) with false; [reflexivity|].
    symmetry. apply Z.leb_gt. destruct us; [congruence|]. cbn [length] in L. lia. }
  exists w3. split.
  { unfold init_one. rewrite (bind_done _ _ _ _ _ E1). replace (idx <? n)%nat with true by (symmetry; now apply Nat.ltb_lt).
    fold s. rewrite E2. rewrite (bind_done _ _ _ _ _ E3). reflexivity. }
  split; [apply V3|]. split; [intros NL; now apply (vstep_no_leak _ _ _ V3), (vstep_no_leak _ _ _ V1)|].
  intros o N1 N2. eapply same_obj_trans; [apply (vs_other _ _ _ V1); auto|apply (vs_other _ _ _ V3); auto].
Qed.

Lemma init_oob lm k n tmp idx y us w : world_shape w -> argument w y us -> (n <= idx)%nat ->
  tmp <> y -> unborn w (OD tmp) -> unborn w (OT tmp) -> fst (init_one lm k n tmp idx y w) = Undef UB_oob.
Proof.
  intros W [A1 A2 A3 [l [A4 A4']] [t A5] _] Hi Nt U1 U2.
  destruct (copy_shape w tmp y l t W A1 Nt U1 U2 A2 A3 A4 A5) as [w1 [E1 _]].
  unfold init_one. rewrite (bind_done _ _ _ _ _ E1). replace (idx <? n)%nat with false by (symmetry; now apply Nat.ltb_ge).
  reflexivity.
Qed.
