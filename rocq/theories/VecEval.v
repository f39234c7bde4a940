(** Executing one command of a vector program agrees with its meaning on lists. *)
From Coq Require Import ZArith List String Bool Lia.
From Verif Require Import Base Num StoreModel VecModel Spec SpecExpr SpecHist SpecProg CapProofs
  StoreProofs StoreOps VecProofs VecAssign.
Import ListNotations.
Open Scope Z_scope.

(* --------------------------------------------------------------- lists *)

Lemma zseq_length i n : List.length (zseq i n) = n.
Proof. revert i. induction n; intros; simpl; auto. Qed.

Lemma omap_done {A B} (f : A -> outcome B) l us d d' : omap f l = Done us ->
  List.length us = List.length l /\
  forall i, (i < List.length l)%nat -> f (nth i l d) = Done (nth i us d').
Proof.
  revert us. induction l as [|a l IH]; intros us H; simpl in H.
  - injection H as <-. split; auto. simpl. lia.
  - destruct (f a) as [b|e|u] eqn:E; simpl in H; try discriminate.
    destruct (omap f l) as [bs|e|u]; simpl in H; try discriminate. injection H as <-.
    destruct (IH bs eq_refl) as [L N]. split; [simpl; congruence|].
    intros [|i] Hi; simpl in *; auto. apply N. lia.
Qed.

Lemma nth_zseq i n k d : (k < n)%nat -> nth k (zseq i n) d = i + Z.of_nat k.
Proof.
  revert i k. induction n as [|n IH]; intros i k H; [lia|].
  destruct k as [|k]; simpl zseq; cbn [nth]; [lia|]. rewrite IH by lia. lia.
Qed.

Lemma omap_ext {A B} (f g : A -> outcome B) l : (forall a, In a l -> f a = g a) -> omap f l = omap g l.
Proof.
  induction l as [|a l IH]; intros H; simpl; auto.
  rewrite H by now left. rewrite IH; auto. intros. apply H. now right.
Qed.

Lemma in_zseq i n k : In k (zseq i n) -> i <= k < i + Z.of_nat n.
Proof.
  revert i. induction n as [|n IH]; intros i H; simpl in H; [tauto|].
  destruct H as [->|H]; [lia|]. apply IH in H. lia.
Qed.

(* --------------------------------------- loops whose outcome is known *)

(** Outcome of a loop whose body's outcome is [g k] in every state met. *)
Lemma forN_omap {B} (I : world -> Prop) (g : Z -> outcome B) (body : Z -> M world unit) n : forall i w,
  I w ->
  (forall k w1, i <= k < i + Z.of_nat n -> I w1 ->
     match g k with
     | Done _ => exists w2, body k w1 = (Done tt, w2) /\ I w2
     | Thrown e => exists w2, body k w1 = (Thrown e, w2) /\ I w2
     | Undef u => exists w2, body k w1 = (Undef u, w2) /\ I w2
     end) ->
  match omap g (zseq i n) with
  | Done _ => exists w2, forN n i body w = (Done tt, w2) /\ I w2
  | Thrown e => exists w2, forN n i body w = (Thrown e, w2) /\ I w2
  | Undef u => exists w2, forN n i body w = (Undef u, w2) /\ I w2
  end.
Proof.
  induction n as [|n IH]; intros i w Hw H; cbn [zseq omap forN].
  - exists w. auto.
  - pose proof (H i w ltac:(lia) Hw) as H0.
    destruct (g i) as [b|e|u]; simpl obind.
    + destruct H0 as [w2 [E2 I2]].
      specialize (IH (i + 1) w2 I2).
      rewrite (bind_done _ _ _ _ _ E2).
      destruct (omap g (zseq (i + 1) n)); simpl; apply IH; intros; apply H; auto; lia.
    + destruct H0 as [w2 [E2 I2]]. exists w2. rewrite (bind_thrown _ _ _ _ _ E2). auto.
    + destruct H0 as [w2 [E2 I2]]. exists w2. rewrite (bind_undef _ _ _ _ _ E2). auto.
Qed.

(** Filling a scratch buffer: all three outcomes. *)
Lemma fill_temp_eval lm o t e w a n (f : Z -> outcome val) :
  world_shape w -> kd (ob w o) = KBuffer -> ptr (ob w o) = Some a ->
  sz (ob w o) = Z.of_nat n ->
  (forall x, In x (vars e) -> OD x <> o) ->
  (forall i, 0 <= i < Z.of_nat n -> elem lm e i w = (f i, w)) ->
  match omap (fun i => v <-o f i ;; cast t v) (zseq 0 n) with
  | Done us => exists w', fill_temp lm o t e (Z.of_nat n) w = (Done tt, w') /\ step1 w w' o /\
      ob w' = ob w /\ holds w' o us
  | Thrown ex => exists w', fill_temp lm o t e (Z.of_nat n) w = (Thrown ex, w') /\ step1 w w' o /\ ob w' = ob w
  | Undef u => exists w', fill_temp lm o t e (Z.of_nat n) w = (Undef u, w')
  end.
Proof.
  intros W K P Sz V H.
  destruct (ptr_live _ _ _ W P) as [cs [B [L1 L2]]].
  assert (Ow : owner_of (ob w o) = OwnCpp) by (unfold owner_of; now rewrite K).
  rewrite Ow in B. pose proof (shape_alloc _ _ _ W P) as A.
  assert (OO : owns (ob w o) a) by (split; auto).
  pose (I := fun w1 => exists cs', upd_cells w w1 a OwnCpp cs' /\ List.length cs' = List.length cs).
  pose proof (forN_omap I (fun i => v <-o f i ;; cast t v)
     (fun i => v <- elem lm e i ;; v' <- lift (cast t v) ;; set_at o i v') n 0 w) as G.
  assert (ST : forall w', I w' -> step1 w w' o /\ ob w' = ob w).
  { intros w' [cs' [U L]]. split; [eapply step1_cells; eauto|apply U]. }
  destruct (omap _ (zseq 0 n)) as [us|ex|u] eqn:O.
  - clear G. apply (omap_done _ _ _ 0 (VB false)) in O. destruct O as [OL ON]. rewrite zseq_length in OL.
    rewrite <- OL. apply (fill_temp_done lm o t e us w a); auto; [congruence|].
    intros i Hi. specialize (ON i). rewrite zseq_length, nth_zseq in ON by lia. specialize (ON ltac:(lia)).
    rewrite Z.add_0_l in ON. rewrite (H (Z.of_nat i)) by lia.
    destruct (f (Z.of_nat i)) as [v| |]; simpl in ON; try discriminate. eauto.
  - unfold fill_temp, for_. rewrite Nat2Z.id. destruct G as [w2 [E2 I2]]; [| |exists w2; split; [exact E2|]; now apply ST].
    all: clear O.
    { exists cs. split; auto. unfold upd_cells. auto. }
    intros k w1 Hk I1. destruct I1 as [cs1 [U1 Len1]].
    assert (E1 : elem lm e k w1 = (f k, w1)).
    { apply pair_eta; [|apply elem_pure]. rewrite (elem_same lm w w1), H by
        (lia || (intros x Hx; eapply upd_cells_other; eauto)). reflexivity. }
    assert (IW : I w1) by (exists cs1; auto).
    destruct (f k) as [v|e1|u1]; cbn [obind]; [|exists w1; now rewrite (bind_thrown _ _ _ _ _ E1)|exists w1; now rewrite (bind_undef _ _ _ _ _ E1)].
    rewrite (bind_done _ _ _ _ _ E1). destruct (cast t v) as [v'|e1|u1]; [|exists w1; split; [reflexivity|exact IW]..].
    rewrite bind_lift_done. destruct U1 as [U1 [U2 [U3 [U4 U5]]]].
    destruct (wrc_ok w1 a k (Some v') OwnCpp cs1) as [w2 [E2 [V1 [V2 [V3 [V4 V5]]]]]]; [exact U4|lia|].
    exists w2. rewrite (set_at_in w1 o a k v'), E2; [|now rewrite U1..|rewrite U1; lia].
    split; auto. exists (list_set cs1 (Z.to_nat k) (Some v')). rewrite list_set_length. split; [|lia].
    split; [congruence|]. split; [congruence|]. split; [congruence|]. split; auto.
    intros b Hb. rewrite V5, U5; auto.
  - unfold fill_temp, for_. rewrite Nat2Z.id. destruct G as [w2 [E2 I2]]; [| |exists w2; exact E2].
    all: clear O.
    { exists cs. split; auto. unfold upd_cells. auto. }
    intros k w1 Hk I1. destruct I1 as [cs1 [U1 Len1]].
    assert (E1 : elem lm e k w1 = (f k, w1)).
    { apply pair_eta; [|apply elem_pure]. rewrite (elem_same lm w w1), H by
        (lia || (intros x Hx; eapply upd_cells_other; eauto)). reflexivity. }
    assert (IW : I w1) by (exists cs1; auto).
    destruct (f k) as [v|e1|u1]; cbn [obind]; [|exists w1; now rewrite (bind_thrown _ _ _ _ _ E1)|exists w1; now rewrite (bind_undef _ _ _ _ _ E1)].
    rewrite (bind_done _ _ _ _ _ E1). destruct (cast t v) as [v'|e1|u1]; [|exists w1; split; [reflexivity|exact IW]..].
    rewrite bind_lift_done. destruct U1 as [U1 [U2 [U3 [U4 U5]]]].
    destruct (wrc_ok w1 a k (Some v') OwnCpp cs1) as [w2 [E2 [V1 [V2 [V3 [V4 V5]]]]]]; [exact U4|lia|].
    exists w2. rewrite (set_at_in w1 o a k v'), E2; [|now rewrite U1..|rewrite U1; lia].
    split; auto. exists (list_set cs1 (Z.to_nat k) (Some v')). rewrite list_set_length. split; [|lia].
    split; [congruence|]. split; [congruence|]. split; [congruence|]. split; auto.
    intros b Hb. rewrite V5, U5; auto.
Qed.

(* ------------------------------------------- keeping the representation *)

Lemma repr_ext w lim ty V rho rho' : repr w lim ty V rho -> (forall x, In x V -> rho' x = rho x) ->
  repr w lim ty V rho'.
Proof. intros [] H. split; auto. intros x Hx. rewrite H; auto. Qed.

Lemma setl_same rho x l : setl rho x l x = l.
Proof. unfold setl. now rewrite Nat.eqb_refl. Qed.
Lemma setl_other rho x l y : y <> x -> setl rho x l y = rho y.
Proof. unfold setl. intros H. now replace (Nat.eqb y x) with false by (symmetry; now apply Nat.eqb_neq). Qed.

Lemma same_can_assign w w' x : ob w' (OT x) = ob w (OT x) -> can_assign w x -> can_assign w' x.
Proof. unfold can_assign. now intros ->. Qed.

(** Variable x gets the new contents, another object [OT s] outside V may
    change as well. *)
Lemma repr_put w w' lim ty V rho x s us :
  repr w lim ty V rho -> In x V -> (s = x \/ ~ In s V) ->
  world_shape w' -> hlim (hp w') = hlim (hp w) ->
  (forall o, o <> OD x -> o <> OT x -> o <> OT s -> same_obj w w' o) ->
  vholds w' x us -> owning w' x -> ready w' x -> small w' x ->
  sty (ob w' (OD x)) = sty (ob w (OD x)) -> (~ In s V -> unborn w' (OT s)) ->
  repr w' lim ty V (setl rho x us).
Proof.
  intros [R1 R2 R3 R4 R5 R6 R7 R8] Vx Hs W' L Oth H OW RD SM TY UB.
  assert (D : forall y, y <> x -> same_obj w w' (OD y)) by (intros; apply Oth; congruence).
  assert (T : forall y, In y V -> y <> x -> ob w' (OT y) = ob w (OT y)).
  { intros y Vy Ne. apply Oth; try congruence. intros E. injection E as ->. destruct Hs; [congruence|tauto]. }
  split; auto.
  - congruence.
  - intros y Vy. destruct (Nat.eq_dec y x) as [->|Ne]; [now rewrite setl_same|].
    rewrite setl_other by auto. eapply holds_same; [apply D; auto|now apply R3].
  - intros y Vy. destruct (Nat.eq_dec y x) as [->|Ne]; auto.
    destruct (R4 y Vy). destruct (D y Ne) as [E _]. split; [now rewrite E|now rewrite T].
  - intros y Vy. destruct (Nat.eq_dec y x) as [->|Ne]; auto.
    destruct (R5 y Vy). destruct (D y Ne) as [E _]. split; [now rewrite E|].
    apply (same_can_assign w); auto.
  - intros y Vy. destruct (Nat.eq_dec y x) as [->|Ne]; auto.
    destruct (R6 y Vy). destruct (D y Ne) as [E _]. split; [now rewrite E|now rewrite T].
  - intros y Vy. destruct (Nat.eq_dec y x) as [->|Ne]; [rewrite TY; auto|].
    destruct (D y Ne) as [E _]. rewrite E. auto.
  - intros z Vz. destruct (Nat.eq_dec z s) as [->|Ne]; auto.
    intros a. destruct (Oth (OT z)) as [E _]; [congruence| |congruence|].
    { intros E. injection E as ->. contradiction. }
    rewrite E. now apply R8.
Qed.

Lemma repr_vstep w w' lim ty V rho x us :
  repr w lim ty V rho -> In x V -> vstep w w' x ->
  vholds w' x us -> owning w' x -> ready w' x -> small w' x ->
  sty (ob w' (OD x)) = sty (ob w (OD x)) ->
  repr w' lim ty V (setl rho x us).
Proof.
  intros R Vx S. intros. eapply (repr_put w w' lim ty V rho x x); eauto; try apply S; auto.
  - intros o N1 N2 _. now apply S.
  - tauto.
Qed.

Lemma setl_id rho x y : setl rho x (rho x) y = rho y.
Proof. destruct (Nat.eq_dec y x) as [->|N]; [apply setl_same|now apply setl_other]. Qed.

Lemma repr_env w lim ty V rho e : repr w lim ty V rho -> incl (vars e) V -> env_of w rho e.
Proof. intros R I x Hx. apply R. now apply I. Qed.

Lemma xsize_nonneg rho e : 0 <= xsize rho e.
Proof. induction e; cbn [xsize]; lia. Qed.

Lemma value_done lm rho t e us : value lm rho t e = Done us -> value_of lm rho t e us.
Proof.
  intros H. pose proof (xsize_nonneg rho e). apply (omap_done _ _ _ 0 (VB false)) in H. destruct H as [L N].
  rewrite zseq_length in *. split; [lia|].
  intros i Hi. specialize (N i ltac:(lia)). rewrite nth_zseq in N by lia. rewrite Z.add_0_l in N.
  destruct (xval lm rho e (Z.of_nat i)) as [v| |]; simpl in N; try discriminate. eauto.
Qed.

Lemma resize_zero_eq w o : resize o 0 w = (Thrown msg_zero, w).
Proof. reflexivity. Qed.

Lemma cap115_small n c : 1 <= n <= max_len -> cap115 n = Done c -> c < 2 ^ 31.
Proof.
  intros N C. assert (ML : max_len = 1867000000) by reflexivity.
  destruct (cap115_int_ok n) as [c' [C' [_ B']]]; [lia|].
  rewrite cap115_same_int in C' by lia. congruence.
Qed.

(** What is claimed of each command. *)
Definition agrees (lm : libm) (ty : nat -> ety) (lim : Z) (V : list nat) (c : cmd) : Prop :=
  forall w rho, repr w lim ty V rho -> cmd_wf lim V rho c ->
  exists w', run_cmd lm c w = (fst (spec_cmd lm ty c rho), w') /\
    ((forall u, fst (spec_cmd lm ty c rho) <> Undef u) ->
      repr w' lim ty V (snd (spec_cmd lm ty c rho)) /\ (no_leak w -> no_leak w')).

Lemma agrees_assign lm ty lim V x e : agrees lm ty lim V (CAssign x e).
Proof.
  intros w rho R [Vx [Ve [WF [N2 Ft]]]]. cbn [run_cmd spec_cmd].
  pose proof (repr_env _ _ _ _ _ _ R Ve) as EN.
  pose proof (re_shape _ _ _ _ _ R) as W. pose proof (re_own _ _ _ _ _ R x Vx) as OW.
  pose proof (re_ready _ _ _ _ _ R x Vx) as [RP RC]. pose proof (re_small _ _ _ _ _ R x Vx) as SM.
  pose proof (re_type _ _ _ _ _ R x Vx) as TY. pose proof (re_holds _ _ _ _ _ R x Vx) as HX.
  pose proof (re_lim _ _ _ _ _ R) as LM.
  pose proof (xsize_nonneg rho e) as N0. pose proof (esize_xsize w rho e EN WF) as ES.
  pose proof (ws_lim _ W) as Lim.
  destruct (Z.eqb_spec (xsize rho e) 0) as [Z0|NZ].
  - exists w. cbn [fst snd]. split; [|auto].
    unfold assign. rewrite bind_st, (proj1 OW). unfold assign_buffer. rewrite bind_get, ES, Z0.
    now rewrite (bind_thrown _ _ _ _ _ (resize_zero_eq w (OT x))).
  - destruct (value lm rho (ty x) e) as [us|ex|u] eqn:EV; cbn [fst snd].
    + pose proof (value_done _ _ _ _ _ EV) as VO.
      destruct (assign_buffer_core lm w x e rho us) as
        [w' [E [VS [_ [H [OW' [P1 [P2 [T [_ S']]]]]]]]]]; auto; [lia|unfold fits; lia|now rewrite TY|].
      exists w'. split; [exact E|]. intros _. split; [|now apply (vstep_no_leak _ _ _ VS)].
      eapply repr_vstep; eauto. split; auto. right. congruence.
    + (* the value cannot be computed *)
      destruct (cap115_ok (xsize rho e)) as [c [C Bc]]; [lia|].
      destruct (resize_done w (OT x) (xsize rho e) c W (proj2 OW)) as [w1 [E1 R1]]; try lia; auto.
      { intros _ A. destruct RC; congruence. }
      destruct R1 as [ST1 [Kt [Tt [Mt [Dt [St [At [Pt [Ct Rest]]]]]]]]].
      destruct (ptr (ob w1 (OT x))) as [a|] eqn:Pa; [|congruence].
      pose proof (fill_temp_eval lm (OT x) (ty x) e w1 a (Z.to_nat (xsize rho e)) (xval lm rho e)
        (s1_shape _ _ _ ST1) Kt Pa) as FT.
      unfold value in EV. rewrite EV in FT. destruct FT as [w2 [E2 [ST2 O2]]].
      { lia. } { intros; congruence. }
      { intros i Hi. apply pair_eta; [|apply elem_pure].
        rewrite (elem_same lm w w1); [|intros y Hy; apply (s1_other _ _ _ ST1); congruence].
        rewrite (elem_xval lm w rho e W EN WF i); [reflexivity|lia|left; lia]. }
      rewrite Z2Nat.id in E2 by lia.
      assert (ST12 : step1 w w2 (OT x)) by (eapply step1_trans; eauto).
      exists w2. split.
      { unfold assign. rewrite bind_st, (proj1 OW). unfold assign_buffer. rewrite bind_get, ES, TY.
        rewrite (bind_done _ _ _ _ _ E1). now rewrite (bind_thrown _ _ _ _ _ E2). }
      intros _. split; [|now apply (step1_no_leak _ _ _ ST12)].
      assert (SO : same_obj w w2 (OD x)) by (apply (s1_other _ _ _ ST12); congruence).
      destruct SO as [EO SB].
      apply (repr_ext _ _ _ _ (setl rho x (rho x))); [|intros; symmetry; apply setl_id].
      eapply repr_vstep; eauto.
      * eapply step1_vstep; [right; reflexivity|exact ST12].
      * eapply holds_same; [split; eauto|exact HX].
      * split; [rewrite EO; apply OW|rewrite O2; exact Kt].
      * split; [now rewrite EO|]. right. rewrite O2, Pa. discriminate.
      * split; [rewrite EO; apply SM|]. rewrite O2.
        pose proof (cap115_small _ _ (conj (ltac:(lia) : 1 <= xsize rho e) N2) C).
        destruct SM. destruct (cap (ob w (OT x)) <? xsize rho e); destruct Rest; lia.
      * now rewrite EO.
    + destruct (cap115_ok (xsize rho e)) as [c [C Bc]]; [lia|].
      destruct (resize_done w (OT x) (xsize rho e) c W (proj2 OW)) as [w1 [E1 R1]]; try lia; auto.
      { intros _ A. destruct RC; congruence. }
      destruct R1 as [ST1 [Kt [Tt [Mt [Dt [St [At [Pt [Ct Rest]]]]]]]]].
      destruct (ptr (ob w1 (OT x))) as [a|] eqn:Pa; [|congruence].
      pose proof (fill_temp_eval lm (OT x) (ty x) e w1 a (Z.to_nat (xsize rho e)) (xval lm rho e)
        (s1_shape _ _ _ ST1) Kt Pa) as FT.
      unfold value in EV. rewrite EV in FT. destruct FT as [w2 E2].
      { lia. } { intros; congruence. }
      { intros i Hi. apply pair_eta; [|apply elem_pure].
        rewrite (elem_same lm w w1); [|intros y Hy; apply (s1_other _ _ _ ST1); congruence].
        rewrite (elem_xval lm w rho e W EN WF i); [reflexivity|lia|left; lia]. }
      rewrite Z2Nat.id in E2 by lia.
      exists w2. split; [|intros H; exfalso; now apply (H u)].
      unfold assign. rewrite bind_st, (proj1 OW). unfold assign_buffer. rewrite bind_get, ES, TY.
      rewrite (bind_done _ _ _ _ _ E1). now rewrite (bind_undef _ _ _ _ _ E2).
Qed.

(* ------------------------------------------------------------- x = scalar *)

Lemma cast_no_throw t v e : cast t v <> Thrown e.
Proof.
  destruct t, v; simpl; try discriminate. unfold f2int. destruct (ftrunc d); [|discriminate].
  destruct (in_int z); discriminate.
Qed.

(** Assigning a scalar to an owning vector. *)
Lemma assign_scalar_done w x v v' : world_shape w -> owning w x ->
  (alloc (ob w (OD x)) = true -> ptr (ob w (OD x)) <> None) ->
  fits w 1 -> cast (sty (ob w (OD x))) v = Done v' ->
  exists w', assign_scalar x v w = (Done tt, w') /\ step1 w w' (OD x) /\ vholds w' x [v'] /\
    kd (ob w' (OD x)) = KBuffer /\ ptr (ob w' (OD x)) <> None /\
    sty (ob w' (OD x)) = sty (ob w (OD x)) /\ mp (ob w' (OD x)) = mp (ob w (OD x)) /\
    (cap (ob w (OD x)) < 2 ^ 31 -> cap (ob w' (OD x)) < 2 ^ 31).
Proof.
  intros W [K1 K2] RP Ft C. unfold fits in Ft. pose proof (ws_lim _ W) as Lim.
  destruct (cap115_ok 1) as [c [C1 Bc]]; [lia|].
  destruct (resize_done w (OD x) 1 c W K1) as [w1 [E1 R1]]; try lia; auto.
  destruct R1 as [ST1 [Kt [Tt [Mt [Dt [St [At [Pt [Ct Rest]]]]]]]]].
  destruct (ptr (ob w1 (OD x))) as [a|] eqn:Pa; [|congruence].
  pose (lm := {| lm_un := fun _ z => z; lm_pow := fun a _ => a |}).
  destruct (fill_temp_done lm (OD x) (sty (ob w (OD x))) (ESca v) [v'] w1 a)
    as [w2 [E2 [ST2 [O2 H2]]]]; auto; try (simpl; tauto).
  { apply ST1. }
  { intros [|i] Hi; [|simpl in Hi; lia]. exists v. split; [reflexivity|exact C]. }
  exists w2. split.
  { unfold assign_scalar. rewrite bind_st, K1. unfold any_resize. rewrite bind_assoc, bind_st, K1.
    rewrite (bind_done _ _ _ _ _ E1). rewrite C, bind_lift_done.
    unfold fill_temp, for_ in E2. change (Z.to_nat (Z.of_nat (List.length [v']))) with 1%nat in E2.
    cbn [forN elem] in E2. rewrite bind_assoc, bind_ret, C, bind_assoc, bind_lift_done in E2.
    unfold at_wr. rewrite bind_st, Kt. unfold bind at 1 in E2.
    destruct (set_at (OD x) 0 v' w1) as [[[]| |] w3]; inversion E2; subst; reflexivity. }
  split; [eapply step1_trans; eauto|]. split; [exact H2|]. rewrite O2. rewrite Pa.
  do 4 (split; [assumption || congruence|]). 
  intros L. pose proof (cap115_small 1 c ltac:(unfold max_len; lia) C1).
  destruct (cap (ob w (OD x)) <? 1); destruct Rest; lia.
Qed.

Lemma agrees_scalar lm ty lim V x v : agrees lm ty lim V (CScalar x v).
Proof.
  intros w rho R [Vx L2]. cbn [run_cmd spec_cmd].
  pose proof (re_shape _ _ _ _ _ R) as W. pose proof (re_own _ _ _ _ _ R x Vx) as OW.
  pose proof (re_ready _ _ _ _ _ R x Vx) as [RP RC]. pose proof (re_small _ _ _ _ _ R x Vx) as SM.
  pose proof (re_type _ _ _ _ _ R x Vx) as TY. pose proof (re_lim _ _ _ _ _ R) as LM.
  pose proof (ws_lim _ W) as Lim.
  destruct (cast (ty x) v) as [v'|ex|u] eqn:C; cbn [fst snd].
  - destruct (assign_scalar_done w x v v') as [w' [E [ST [H [K [P [T [M S]]]]]]]]; auto.
    { unfold fits. lia. } { now rewrite TY. }
    exists w'. split; [exact E|]. intros _. split; [|now apply (step1_no_leak _ _ _ ST)].
    assert (OT' : ob w' (OT x) = ob w (OT x)) by (apply (s1_other _ _ _ ST); congruence).
    eapply repr_vstep; eauto.
    + eapply step1_vstep; [left; reflexivity|exact ST].
    + split; [exact K|]. rewrite OT'. apply OW.
    + split; [exact P|]. apply (same_can_assign w); auto.
    + destruct SM. split; [auto|]. now rewrite OT'.
  - exfalso. eapply cast_no_throw; eauto.
  - destruct (cap115_ok 1) as [c [C1 Bc]]; [lia|].
    destruct (resize_done w (OD x) 1 c W (proj1 OW)) as [w1 [E1 R1]]; try lia; auto.
    exists w1. split; [|intros H; exfalso; now apply (H u)].
    unfold assign_scalar. rewrite bind_st, (proj1 OW). unfold any_resize. rewrite bind_assoc, bind_st, (proj1 OW).
    rewrite (bind_done _ _ _ _ _ E1). rewrite TY, C. reflexivity.
Qed.

(* ------------------------------------------------------ writing elements *)

Lemma at_wr_oob w o i v : kd (ob w o) = KBuffer -> alloc (ob w o) = true -> sz (ob w o) <= i ->
  at_wr o i v w = (Thrown msg_oob, w).
Proof.
  intros K A L. apply Z.ltb_ge in L. unfold at_wr, set_at. rewrite bind_st, K, bind_st, A, bind_ass_true, L.
  apply bind_ass_false.
Qed.

Lemma scatter_loop ind : forall us i w o l (body : Z -> M world unit),
  List.length us = List.length ind ->
  world_shape w -> kd (ob w o) = KBuffer -> ptr (ob w o) <> None -> holds w o l ->
  (forall j, In j ind -> 0 <= j) ->
  (forall k w1, (k < List.length ind)%nat -> step1 w w1 o -> ob w1 = ob w ->
     body (i + Z.of_nat k) w1 = at_wr o (nth k ind 0) (nth k us (VB false)) w1) ->
  exists w', forN (List.length ind) i body w = (fst (scatter l ind us), w') /\ step1 w w' o /\ ob w' = ob w /\
    holds w' o (snd (scatter l ind us)).
Proof.
  induction ind as [|j ind IH]; intros [|u us] i w o l body Len W K P H Pos B; try discriminate.
  - exists w. cbn. split; [reflexivity|]. split; [now apply step1_refl|]. auto.
  - cbn [List.length forN scatter].
    pose proof (B 0%nat w ltac:(simpl; lia) (step1_refl _ _ W) eq_refl) as B0.
    rewrite Z.add_0_r in B0. cbn [nth] in B0.
    pose proof (Pos j (or_introl eq_refl)) as Pj.
    destruct (Z.ltb_spec j (Z.of_nat (List.length l))) as [L|L].
    + destruct (at_wr_own w o l j u W K H ltac:(lia)) as [w1 [E1 [S1 [O1 H1]]]].
      rewrite E1 in B0. rewrite (bind_done _ _ _ _ _ B0).
      destruct (IH us (i + 1) w1 o (list_set l (Z.to_nat j) u) body) as [w2 [E2 [S2 [O2 H2]]]].
      * simpl in Len. lia.
      * apply S1.
      * now rewrite O1.
      * now rewrite O1.
      * exact H1.
      * intros. apply Pos. now right.
      * intros k w3 Hk S3 O3.
        replace (i + 1 + Z.of_nat k) with (i + Z.of_nat (S k)) by lia.
        apply (B (S k) w3); [simpl; lia|eapply step1_trans; eauto|congruence].
      * exists w2. split; [exact E2|]. split; [eapply step1_trans; eauto|]. split; [congruence|exact H2].
    + assert (A : alloc (ob w o) = true).
      { destruct (ptr (ob w o)) eqn:E; [|congruence]. eapply shape_alloc; eauto. }
      rewrite at_wr_oob in B0; auto; [|rewrite (proj1 H); lia].
      rewrite (bind_thrown _ _ _ _ _ B0). exists w. cbn [fst snd]. split; [reflexivity|].
      split; [now apply step1_refl|]. auto.
Qed.

Lemma repr_elems w w' lim ty V rho x l :
  repr w lim ty V rho -> In x V -> step1 w w' (OD x) -> ob w' = ob w -> vholds w' x l ->
  repr w' lim ty V (setl rho x l) /\ (no_leak w -> no_leak w').
Proof.
  intros R Vx S O H. split; [|now apply (step1_no_leak _ _ _ S)].
  eapply repr_vstep; eauto.
  - eapply step1_vstep; [left; reflexivity|exact S].
  - unfold owning. rewrite O. now apply R.
  - unfold ready, can_assign. rewrite O. now apply R.
  - unfold small. rewrite O. now apply R.
  - now rewrite O.
Qed.

Lemma agrees_elem lm ty lim V x i v : agrees lm ty lim V (CElem x i v).
Proof.
  intros w rho R [Vx Hi]. cbn [run_cmd spec_cmd].
  pose proof (re_shape _ _ _ _ _ R) as W. pose proof (re_own _ _ _ _ _ R x Vx) as OW.
  pose proof (re_ready _ _ _ _ _ R x Vx) as [RP RC].
  pose proof (re_type _ _ _ _ _ R x Vx) as TY. pose proof (re_holds _ _ _ _ _ R x Vx) as HX.
  rewrite bind_st, TY.
  destruct (cast (ty x) v) as [v'|ex|u] eqn:C.
  - destruct (scatter_loop [i] [v'] 0 w (OD x) (rho x) (fun _ => at_wr (OD x) i v')) as [w' [E [S [O H]]]];
      auto; try apply OW.
    { intros j [<-|[]]. exact Hi. }
    { intros [|k] w1 Hk _ _; [reflexivity|simpl in Hk; lia]. }
    destruct (scatter (rho x) [i] [v']) as [o l]. cbn [fst snd] in *.
    exists w'. split.
    + rewrite bind_lift_done. cbn [List.length forN] in E. unfold bind in E.
      destruct (at_wr (OD x) i v' w) as [[[]| |] w1]; inversion E; reflexivity.
    + intros _. eapply repr_elems; eauto.
  - exfalso. eapply cast_no_throw; eauto.
  - exists w. cbn [fst snd]. split; [reflexivity|]. intros H. exfalso. now apply (H u).
Qed.

Lemma sub_wr_at w x ind k v : 0 < sz (ob w (OD x)) -> Z.of_nat (List.length ind) <= sz (ob w (OD x)) ->
  (k < List.length ind)%nat ->
  sub_wr x ind (Z.of_nat k) v w = at_wr (OD x) (nth k ind 0) v w.
Proof.
  intros P L H. unfold sub_wr. rewrite bind_get, modz_pos by lia. rewrite bind_lift_done, Z.mod_small by lia.
  unfold ind_at. replace (Z.of_nat k <? Z.of_nat (List.length ind)) with true by (symmetry; apply Z.ltb_lt; lia).
  now rewrite bind_lift_done, Nat2Z.id.
Qed.

Lemma agrees_sub_scalar lm ty lim V x ind v : agrees lm ty lim V (CSubScalar x ind v).
Proof.
  intros w rho R [Vx [Len Pos]]. cbn [run_cmd spec_cmd].
  pose proof (re_shape _ _ _ _ _ R) as W. pose proof (re_own _ _ _ _ _ R x Vx) as OW.
  pose proof (re_ready _ _ _ _ _ R x Vx) as [RP RC].
  pose proof (re_type _ _ _ _ _ R x Vx) as TY. pose proof (re_holds _ _ _ _ _ R x Vx) as HX.
  unfold assign_subset_scalar. rewrite bind_get, TY. unfold for_. rewrite Nat2Z.id.
  pose proof (proj1 HX) as SZ.
  destruct (Z.eqb_spec (Z.of_nat (List.length ind)) 0) as [Z0|NZ].
  - assert (List.length ind = O) by lia. exists w. rewrite H. cbn. split; [reflexivity|]. auto.
  - destruct (cast (ty x) v) as [v'|ex|u] eqn:C.
    + destruct (scatter_loop ind (repeat v' (List.length ind)) 0 w (OD x) (rho x)
        (fun i => v'0 <- lift (Done v') ;; sub_wr x ind i v'0)) as [w' [E [S [O H]]]];
        auto; try apply OW.
      { apply repeat_length. }
      { intros k w1 Hk S O. rewrite bind_lift_done, Z.add_0_l. rewrite sub_wr_at; auto; try (rewrite O; lia).
        f_equal. symmetry. now apply nth_repeat_in. }
      destruct (scatter _ _ _) as [o l]. cbn [fst snd] in *.
      exists w'. split; [exact E|]. intros _. eapply repr_elems; eauto.
    + exfalso. eapply cast_no_throw; eauto.
    + exists w. cbn [fst snd]. split; [|intros H; exfalso; now apply (H u)].
      destruct ind as [|j ind]; [simpl in NZ; lia|]. cbn [List.length forN]. reflexivity.
Qed.

Lemma get_at_holds w o l k : kd (ob w o) = KBuffer -> holds w o l -> (k < List.length l)%nat ->
  get_at o (Z.of_nat k) w = (Done (nth k l (VB false)), w).
Proof. intros K [_ H] L. rewrite <- get_at_rd; [now apply H|congruence]. Qed.

Lemma agrees_sub lm ty lim V s x ind same e : agrees lm ty lim V (CSub s x ind same e).
Proof.
  intros w rho R [Vs [Vx [Ve [WF [Ft [Len Pos]]]]]]. cbn [run_cmd spec_cmd].
  pose proof (repr_env _ _ _ _ _ _ R Ve) as EN.
  pose proof (re_shape _ _ _ _ _ R) as W. pose proof (re_own _ _ _ _ _ R x Vx) as OW.
  pose proof (re_ready _ _ _ _ _ R x Vx) as [RP RC]. pose proof (re_small _ _ _ _ _ R x Vx) as SM.
  pose proof (re_type _ _ _ _ _ R x Vx) as TY. pose proof (re_holds _ _ _ _ _ R x Vx) as HX.
  pose proof (re_lim _ _ _ _ _ R) as LM. pose proof (re_temp _ _ _ _ _ R s Vs) as UB.
  pose proof (xsize_nonneg rho e) as N0. pose proof (esize_xsize w rho e EN WF) as ES.
  pose proof (ws_lim _ W) as Lim. pose proof (proj1 HX) as SZ.
  assert (NE : s <> x) by congruence.
  unfold assign_subset. rewrite bind_get, ES, TY.
  destruct (ctor_default_done w (OT s) (ty x) W UB) as [w0 [E0 [S0 [O0 H0]]]].
  rewrite (bind_done _ _ _ _ _ E0).
  assert (DX0 : ob w0 (OD x) = ob w (OD x)) by (apply (s1_other _ _ _ S0); congruence).
  assert (K0 : kd (ob w0 (OT s)) = KBuffer) by (rewrite O0; reflexivity).
  (* leaving the scope *)
  assert (FIN : forall w3 o l, (forall u, o <> Undef u) -> world_shape w3 -> hlim (hp w3) = hlim (hp w) ->
     (forall o', o' <> OD x -> o' <> OT s -> same_obj w w3 o') -> ob w3 (OD x) = ob w (OD x) ->
     vholds w3 x l -> kd (ob w3 (OT s)) = KBuffer -> (no_leak w -> no_leak w3) ->
     forall (m : M world unit), m w0 = (o, w3) ->
     exists w', scoped (OT s) m w0 = (o, w') /\ repr w' lim ty V (setl rho x l) /\ (no_leak w -> no_leak w')).
  { intros w3 o l NU W3 L3 Oth3 D3 HX3 K3 NL3 m EM.
    destruct (destroy_done w3 (OT s) W3 K3) as [w4 [E4 [S4 [U4 [P4 [Z4 K4]]]]]].
    exists w4. split.
    { assert (AD : any_destroy (OT s) w3 = (Done tt, w4)).
      { unfold any_destroy. rewrite bind_st, K3. exact E4. }
      unfold scoped. rewrite EM. destruct o as [[]|ex|u]; [| |exfalso; now apply (NU u)];
        now rewrite (bind_done _ _ _ _ _ AD). }
    assert (D4 : ob w4 (OD x) = ob w (OD x)) by (rewrite <- D3; apply (s1_other _ _ _ S4); congruence).
    assert (T4 : ob w4 (OT x) = ob w (OT x)).
    { destruct (s1_other _ _ _ S4 (OT x)) as [-> _]; [congruence|]. apply Oth3; congruence. }
    split; [|intros NL; apply (step1_no_leak _ _ _ S4); auto].
    eapply (repr_put w w4 lim ty V rho x s); eauto.
    - apply S4.
    - rewrite (s1_lim _ _ _ S4). exact L3.
    - intros o' N1 N2 N3. eapply same_obj_trans; [apply Oth3; auto|]. apply (s1_other _ _ _ S4); auto.
    - eapply holds_same; [apply (s1_other _ _ _ S4); congruence|exact HX3].
    - split; [rewrite D4; apply OW|rewrite T4; apply OW].
    - split; [now rewrite D4|]. apply (same_can_assign w); auto.
    - split; [rewrite D4; apply SM|rewrite T4; apply SM].
    - now rewrite D4. }
  assert (HX0 : vholds w0 x (rho x)).
  { eapply holds_same; [apply (s1_other _ _ _ S0); congruence|exact HX]. }
  assert (NL0 : no_leak w -> no_leak w0) by (apply (step1_no_leak _ _ _ S0)).
  destruct (Z.eqb_spec (xsize rho e) (Z.of_nat (List.length ind))) as [EL|NL]; cbn [negb fst snd].
  2:{ 
      match goal with |- context [scoped (OT s) ?M w0] =>
        destruct (FIN w0 (Thrown msg_len) (rho x)) with (m := M) as [w' [E [R' NL']]] end;
        auto; try apply S0; try discriminate.
      { intros. apply (s1_other _ _ _ S0); auto. }
      exists w'. split; [exact E|]. intros _. split; [|auto].
      eapply repr_ext; eauto. intros; symmetry; apply setl_id. }
  destruct (Z.eqb_spec (xsize rho e) 0) as [Z0|NZ]; cbn [fst snd].
  { match goal with |- context [scoped (OT s) ?M w0] =>
      destruct (FIN w0 (Thrown msg_zero) (rho x)) with (m := M) as [w' [E [R' NL']]] end;
      auto; try apply S0; try discriminate.
    { intros. apply (s1_other _ _ _ S0); auto. }
    { rewrite bind_ass_true, Z0. now rewrite (bind_thrown _ _ _ _ _ (resize_zero_eq w0 (OT s))). }
    exists w'. split; [exact E|]. intros _. split; [|auto].
    eapply repr_ext; eauto. intros; symmetry; apply setl_id. }
  destruct (cap115_ok (xsize rho e)) as [c [C Bc]]; [lia|].
  destruct (resize_done w0 (OT s) (xsize rho e) c (s1_shape _ _ _ S0) K0) as [w1 [E1 R1]]; try lia; auto.
  { intros _. rewrite (s1_lim _ _ _ S0). lia. }
  { intros _ A. rewrite O0 in A. discriminate. }
  destruct R1 as [ST1 [Kt [Tt [Mt [Dt [St [At [Pt [Ct Rest]]]]]]]]].
  destruct (ptr (ob w1 (OT s))) as [a|] eqn:Pa; [|congruence].
  assert (S01 : step1 w w1 (OT s)) by (eapply step1_trans; eauto).
  pose proof (fill_temp_eval lm (OT s) (ty x) e w1 a (Z.to_nat (xsize rho e)) (xval lm rho e)
    (s1_shape _ _ _ ST1) Kt Pa) as FT.
  specialize (FT ltac:(lia) ltac:(intros; congruence)).
  assert (EE : forall i, 0 <= i < Z.of_nat (Z.to_nat (xsize rho e)) -> elem lm e i w1 = (xval lm rho e i, w1)).
  { intros i Hi. apply pair_eta; [|apply elem_pure].
    rewrite (elem_same lm w w1); [|intros y Hy; apply (s1_other _ _ _ S01); congruence].
    rewrite (elem_xval lm w rho e W EN WF i); [reflexivity|lia|left; lia]. }
  specialize (FT EE). rewrite Z2Nat.id in FT by lia. fold (value lm rho (ty x) e) in FT.
  destruct (value lm rho (ty x) e) as [us|ex|u] eqn:EV; cbn [fst snd].
  - destruct FT as [w2 [E2 [ST2 [O2 H2]]]].
    pose proof (value_done _ _ _ _ _ EV) as [VL _].
    assert (S02 : step1 w w2 (OT s)) by (eapply step1_trans; eauto).
    assert (D2 : ob w2 (OD x) = ob w (OD x)) by (apply (s1_other _ _ _ S02); congruence).
    assert (HX2 : vholds w2 x (rho x)).
    { eapply holds_same; [apply (s1_other _ _ _ S02); congruence|exact HX]. }
    assert (KT2 : kd (ob w2 (OT s)) = KBuffer) by (rewrite O2; exact Kt).
    destruct (scatter_loop ind us 0 w2 (OD x) (rho x) (fun i =>
       v <- get_at (OT s) i ;;
       k <- lift (modz i (Z.of_nat (List.length ind))) ;;
       sub_wr x ind k v)) as [w3 [E3 [S3 [O3 H3]]]]; auto.
    { lia. } { apply S02. } { rewrite D2; apply OW. } { rewrite D2; auto. }
    { intros k w4 Hk S4 O4. rewrite Z.add_0_l.
      assert (G : get_at (OT s) (Z.of_nat k) w4 = (Done (nth k us (VB false)), w4)).
      { apply get_at_holds; [now rewrite O4|eapply holds_same; [apply (s1_other _ _ _ S4); congruence|exact H2]|lia]. }
      rewrite (bind_done _ _ _ _ _ G). rewrite modz_pos by lia. rewrite bind_lift_done, Z.mod_small by lia.
      apply sub_wr_at; rewrite ?O4, ?D2; lia. }
    match goal with |- context [scoped (OT s) ?M w0] =>
      destruct (FIN w3 (fst (scatter (rho x) ind us)) (snd (scatter (rho x) ind us))) with (m := M)
        as [w' [E [R' NL']]] end; auto.
    { intros u. clear. generalize (rho x). revert us. induction ind as [|j ind IH]; intros [|v us] l; simpl; try discriminate.
      destruct (j <? _); [apply IH|discriminate]. }
    { apply S3. }
    { rewrite (s1_lim _ _ _ S3). apply S02. }
    { intros o' N1 N2. eapply same_obj_trans; [apply (s1_other _ _ _ S02); auto|apply (s1_other _ _ _ S3); auto]. }
    { now rewrite O3. } { now rewrite O3. }
    { intros N. apply (step1_no_leak _ _ _ S3), (step1_no_leak _ _ _ S02), N. }
    { rewrite bind_ass_true, (bind_done _ _ _ _ _ E1), (bind_done _ _ _ _ _ E2), bind_get.
      replace (sz (ob w2 (OD x)) <? sz (ob w2 (OT s))) with false.
      - rewrite andb_false_r, bind_ret. unfold for_. rewrite Nat2Z.id. exact E3.
      - symmetry. apply Z.ltb_ge. rewrite O2, St, <- O2, D2. lia. }
    exists w'. destruct (scatter (rho x) ind us) as [o l]. cbn [fst snd] in *. auto.
  - destruct FT as [w2 [E2 [ST2 O2]]].
    assert (S02 : step1 w w2 (OT s)) by (eapply step1_trans; eauto).
    match goal with |- context [scoped (OT s) ?M w0] =>
      destruct (FIN w2 (Thrown ex) (rho x)) with (m := M)
        as [w' [E [R' NL']]] end; auto; try discriminate.
    { apply S02. } { apply S02. }
    { intros. apply (s1_other _ _ _ S02); auto. }
    { apply (s1_other _ _ _ S02); congruence. }
    { eapply holds_same; [apply (s1_other _ _ _ S02); congruence|exact HX]. }
    { now rewrite O2. }
    { apply (step1_no_leak _ _ _ S02). }
    { rewrite bind_ass_true, (bind_done _ _ _ _ _ E1). now rewrite (bind_thrown _ _ _ _ _ E2). }
    exists w'. split; [exact E|]. intros _. split; [|auto].
    eapply repr_ext; eauto. intros; symmetry; apply setl_id.
  - destruct FT as [w2 E2]. exists w2. split; [|intros H; exfalso; now apply (H u)].
    unfold scoped. rewrite bind_ass_true, (bind_done _ _ _ _ _ E1). now rewrite (bind_undef _ _ _ _ _ E2).
Qed.

Lemma agrees_all lm ty lim V c : agrees lm ty lim V c.
Proof.
  destruct c; [apply agrees_assign|apply agrees_scalar|apply agrees_elem|apply agrees_sub|apply agrees_sub_scalar].
Qed.

(** Whole programs. *)
Lemma prog_agrees lm ty lim V cs : forall w rho, repr w lim ty V rho -> prog_wf lm ty lim V cs rho ->
  exists w', run_prog lm cs w = (fst (spec_prog lm ty cs rho), w') /\
    ((forall u, ~ In (Undef u) (fst (spec_prog lm ty cs rho))) ->
       repr w' lim ty V (snd (spec_prog lm ty cs rho)) /\ (no_leak w -> no_leak w')).
Proof.
  induction cs as [|c cs IH]; intros w rho R WF.
  - exists w. cbn. auto.
  - cbn [run_prog spec_prog prog_wf] in *. destruct WF as [WC WF].
    destruct (agrees_all lm ty lim V c w rho R WC) as [w1 [E1 R1]].
    rewrite E1. destruct (spec_cmd lm ty c rho) as [o rho1]. cbn [fst snd] in *.
    destruct o as [a|ex|u].
    + destruct R1 as [R1 L1]; [discriminate|].
      destruct (IH w1 rho1 R1 WF) as [w2 [E2 R2]]. rewrite E2.
      destruct (spec_prog lm ty cs rho1) as [os rho2]. cbn [fst snd] in *.
      exists w2. split; [reflexivity|]. intros H. destruct R2 as [R2 L2].
      { intros u Hu. apply (H u). now right. } split; auto.
    + destruct R1 as [R1 L1]; [discriminate|].
      destruct (IH w1 rho1 R1 WF) as [w2 [E2 R2]]. rewrite E2.
      destruct (spec_prog lm ty cs rho1) as [os rho2]. cbn [fst snd] in *.
      exists w2. split; [reflexivity|]. intros H. destruct R2 as [R2 L2].
      { intros u Hu. apply (H u). now right. } split; auto.
    + exists w1. cbn [fst snd]. split; [reflexivity|]. intros H. exfalso. apply (H u). now left.
Qed.
