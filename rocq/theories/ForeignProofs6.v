(** Assignment to a wrapper of an R object that has memory of its own, and the
    end of borrowing vectors. *)
From Coq Require Import ZArith List String Bool Lia.
From Verif Require Import Base Num StoreModel VecModel OutModel ForeignModel Spec SpecExpr SpecHist SpecVec SpecForeign SpecOut
  CapProofs StoreProofs StoreOps VecProofs VecAssign StoreThms StoreHist StoreThms2 BorrowProofs VecEval OutProofs
  ForeignProofs ForeignProofs2 ForeignProofs3 ForeignProofs4 ForeignProofs5.
Import ListNotations.
Open Scope Z_scope.
Local Notation length := List.length (only parsing).
Arguments Z.mul : simpl never.

Lemma sexp_resize_own w o n c :
  world_shape w -> kd (ob w o) = KBorrowSEXP -> (ptr (ob w o) <> None -> todel (ob w o) = true) ->
  (alloc (ob w o) = true -> ptr (ob w o) <> None) ->
  1 <= n -> cap115 n = Done c -> n <= c -> (cap (ob w o) < n -> c <= hlim (hp w)) ->
  exists w', sexp_resize o n w = (Done tt, w') /\ step1 w w' o /\ kd (ob w' o) = KBorrowSEXP /\
    sty (ob w' o) = sty (ob w o) /\ mp (ob w' o) = mp (ob w o) /\ todel (ob w' o) = true /\
    sz (ob w' o) = n /\ ptr (ob w' o) <> None /\ alloc (ob w' o) = true /\
    cap (ob w' o) = (if cap (ob w o) <? n then c else cap (ob w o)).
Proof.
  intros W K TD HA Hn C Hc HL. pose proof (ws_lim _ W) as Lim.
  pose proof (ws_store _ W o) as S. unfold store_shape in S.
  unfold sexp_resize. replace (1 <=? n) with true by (symmetry; now apply Z.leb_le).
  rewrite bind_ass_true, bind_st.
  assert (Fin : forall w0 s', cap (ob w o) < n ->
      (forall o', o' <> o -> ob w0 o' = ob w o') -> ob w0 o = s' ->
      hlim (hp w0) = hlim (hp w) -> hnext (hp w0) = Datatypes.S (hnext (hp w)) ->
      hblk (hp w0) (hnext (hp w)) = Live OwnCpp (repeat None (Z.to_nat c)) ->
      (forall b, b <> hnext (hp w) -> owns (ob w o) b -> hblk (hp w0) b = Freed) ->
      (forall b, b <> hnext (hp w) -> ~ owns (ob w o) b -> hblk (hp w0) b = hblk (hp w) b) ->
      kd s' = KBorrowSEXP -> sty s' = sty (ob w o) -> mp s' = mp (ob w o) -> todel s' = true ->
      ptr s' = Some (hnext (hp w)) -> alloc s' = true -> sz s' = n -> cap s' = c ->
      exists w', fill o (zero_of (sty (ob w o))) w0 = (Done tt, w') /\ step1 w w' o /\ ob w' o = s').
  { intros w0 s' Cn Oth Es Lm Nx B Fre Keep Ks Ts Ms Ds Ps As Ss Cs. specialize (HL Cn).
    assert (Ow : owner_of s' = OwnCpp) by (unfold owner_of; now rewrite Ks, Ds).
    assert (ST : step1 w w0 o).
    { apply (step1_fresh_own w w0 o (repeat None (Z.to_nat c))); auto; rewrite ?Es; auto; rewrite ?repeat_length; lia. }
    destruct (fill_ok w0 o (zero_of (sty (ob w o))) (hnext (hp w)) OwnCpp (repeat None (Z.to_nat c)))
      with (v' := zero_of (sty (ob w o))) as [w' [cs' [E [U [Len Nth]]]]]; rewrite ?Es; auto.
    { rewrite repeat_length. lia. }
    { rewrite Ts. apply cast_zero. }
    exists w'. split; [exact E|]. split.
    - eapply step1_trans; [exact ST|]. eapply step1_cells; eauto; [apply ST|]. split; rewrite Es; auto.
    - destruct U as [Eo _]. now rewrite Eo. }
  destruct (ptr (ob w o)) as [a|] eqn:P.
  - destruct S as [S1 [S2 [S3 [cs [S4 [S5 S6]]]]]]. specialize (TD ltac:(discriminate)).
    assert (Oc : owner_of (ob w o) = OwnCpp) by (unfold owner_of; now rewrite K, TD).
    assert (Lt := live_lt _ _ _ _ W S4). rewrite Oc in S4. rewrite S3. cbn [negb].
    destruct (cap (ob w o) <? n) eqn:Cn.
    + apply Z.ltb_lt in Cn. specialize (HL Cn).
      rewrite bind_ass_true, (bind_done _ _ _ _ _ (del_own _ _ _ S4)), bind_upd, C, bind_lift_done, bind_upd.
      match goal with |- context [bind (new_ c) _ ?W] => set (w2 := W) end.
      assert (HL2 : c <= hlim (hp w2)) by exact HL.
      rewrite (bind_done _ _ _ _ _ (new_ok w2 c HL2)). rewrite !bind_upd.
      match goal with |- context [fill o _ ?W] => destruct (Fin W (ob W o) Cn) as [w' [E [ST O]]] end;
        unfold w2; try (simpl; rewrite ?oid_eqb_refl; simpl; auto; fail).
      * intros o' N. simpl. now rewrite !oid_eqb_neq.
      * simpl. now rewrite Nat.eqb_refl.
      * intros b Hb [Pb _]. assert (b = a) by congruence. subst b. simpl.
        replace (Nat.eqb a (hnext (hp w))) with false by (symmetry; apply Nat.eqb_neq; lia). now rewrite Nat.eqb_refl.
      * intros b Hb Nb. simpl.
        replace (Nat.eqb b (hnext (hp w))) with false by (symmetry; now apply Nat.eqb_neq).
        destruct (Nat.eqb_spec b a) as [->|]; [|reflexivity]. exfalso. apply Nb. split; auto.
      * exists w'. split; [exact E|]. split; [exact ST|]. rewrite O. unfold w2. simpl. rewrite !oid_eqb_refl. simpl.
        repeat split; auto. discriminate.
    + apply Z.ltb_ge in Cn. eexists. split; [reflexivity|].
      assert (ST : step1 w (set_ob w o (with_sz n (ob w o))) o).
      { apply step1_upd; auto; rewrite ?ob_set_same; auto.
        unfold store_shape. cbn [sz cap ptr alloc with_sz]. rewrite P. repeat split; auto; try lia.
        exists cs. change (owner_of (with_sz n (ob w o))) with (owner_of (ob w o)). rewrite Oc. repeat split; auto; lia. }
      split; [exact ST|]. rewrite ob_set_same. simpl. rewrite P. repeat split; auto; discriminate.
  - assert (A : alloc (ob w o) = false) by (destruct (alloc (ob w o)); [exfalso; now apply HA|reflexivity]).
    assert (Cn : cap (ob w o) < n) by lia. rewrite A. cbn [negb].
    pose proof (HL Cn) as HL'.
    unfold sexp_init. rewrite bind_assoc, bind_st, A. cbn [andb].
    rewrite bind_assoc, bind_ret, bind_assoc, bind_upd, bind_assoc, C, bind_lift_done, bind_assoc, bind_upd, bind_assoc.
    match goal with |- context [bind (new_ c) _ ?W] => set (w2 := W) end.
    assert (HL2 : c <= hlim (hp w2)) by exact HL'.
    rewrite (bind_done _ _ _ _ _ (new_ok w2 c HL2)). rewrite bind_assoc, !bind_upd.
    match goal with |- context [fill o _ ?W] => destruct (Fin W (ob W o) Cn) as [w' [E [ST O]]] end;
      unfold w2; try (simpl; rewrite ?oid_eqb_refl; simpl; auto; fail).
    + intros o' N. simpl. now rewrite !oid_eqb_neq.
    + simpl. now rewrite Nat.eqb_refl.
    + intros b Hb [Pb _]. congruence.
    + intros b Hb Nb. simpl. now replace (Nat.eqb b (hnext (hp w))) with false by (symmetry; now apply Nat.eqb_neq).
    + exists w'. split; [exact E|]. split; [exact ST|]. rewrite O. unfold w2. simpl. rewrite !oid_eqb_refl. simpl.
      replace (cap (ob w o) <? n) with true by (symmetry; now apply Z.ltb_lt).
      repeat split; auto. discriminate.
Qed.

(** The exchange of a wrapper that owns its memory with the scratch buffer. *)
Lemma sexp_moveit_own w x : world_shape w -> wrapper_own w x ->
  cap (ob w (OT x)) < 2 ^ 31 -> sz (ob w (OT x)) < 2 ^ 31 -> alloc (ob w (OT x)) = true ->
  exists w', sexp_moveit (OD x) (OT x) w = (Done tt, w') /\ vstep w w' x /\ hp w' = hp w /\
    ob w' (OD x) = with_cap (cap (ob w (OT x))) (with_sz (sz (ob w (OT x))) (with_ptr (ptr (ob w (OT x))) (ob w (OD x)))) /\
    ob w' (OT x) = with_cap (cap (ob w (OD x))) (with_sz (sz (ob w (OD x))) (with_ptr (ptr (ob w (OD x))) (ob w (OT x)))) /\
    (forall o, o <> OD x -> o <> OT x -> ob w' o = ob w o).
Proof.
  intros W [K1 [P1 [TD K2]]] HC HS A.
  pose proof (ws_store _ W (OD x)) as S1. pose proof (ws_store _ W (OT x)) as S2. unfold store_shape in S1, S2.
  unfold sexp_moveit. rewrite !bind_st, TD. cbn [negb]. rewrite bind_ret, !bind_st, bind_upd.
  rewrite (to_int_id (cap _)), (to_int_id (sz _)) by lia.
  rewrite (wrap64_id (cap _)), (wrap64_id (sz _)) by lia.
  eexists. split; [reflexivity|].
  match goal with |- vstep w ?W' _ /\ _ => set (w' := W') end.
  assert (E1 : ob w' (OD x) = with_cap (cap (ob w (OT x))) (with_sz (sz (ob w (OT x))) (with_ptr (ptr (ob w (OT x))) (ob w (OD x))))).
  { unfold w'. rewrite ob_set_same. rewrite ob_set_other by congruence. reflexivity. }
  assert (E2 : ob w' (OT x) = with_cap (cap (ob w (OD x))) (with_sz (sz (ob w (OD x))) (with_ptr (ptr (ob w (OD x))) (ob w (OT x))))).
  { unfold w'. rewrite ob_set_other by congruence. now rewrite ob_set_same. }
  assert (E3 : forall o, o <> OD x -> o <> OT x -> ob w' o = ob w o).
  { intros o N1 N2. unfold w'. now rewrite !ob_set_other by auto. }
  assert (O1 : forall b, owns (ob w' (OD x)) b <-> owns (ob w (OT x)) b).
  { intros b. rewrite E1. unfold owns, owner_of. simpl. rewrite K1, K2, TD. tauto. }
  assert (O2 : forall b, owns (ob w' (OT x)) b <-> owns (ob w (OD x)) b).
  { intros b. rewrite E2. unfold owns, owner_of. simpl. rewrite K1, K2, TD. tauto. }
  assert (A1 : alloc (ob w (OD x)) = true) by (destruct (ptr (ob w (OD x))); tauto).
  assert (SW : forall o' b, owns (ob w' o') b ->
      owns (ob w (if oid_eqb o' (OD x) then OT x else if oid_eqb o' (OT x) then OD x else o')) b).
  { intros o' b Ho. destruct (oid_eqb_spec o' (OD x)) as [->|N1]; [now apply O1|].
    destruct (oid_eqb_spec o' (OT x)) as [->|N2]; [now apply O2|]. now rewrite E3 in Ho. }
  split; [|auto]. split.
  - split.
    + apply (ws_fresh _ W).
    + intros o'. change (hp w') with (hp w).
      destruct (oid_dec o' (OD x)) as [->|N1]; [|destruct (oid_dec o' (OT x)) as [->|N2]].
      * rewrite E1. unfold store_shape, owner_of in *. simpl. rewrite K1, TD. rewrite K2 in S2.
        destruct (ptr (ob w (OT x))); tauto.
      * rewrite E2. unfold store_shape, owner_of in *. simpl. rewrite K2. rewrite K1, TD in S1.
        destruct (ptr (ob w (OD x))); tauto.
      * rewrite E3 by auto. apply (ws_store _ W).
    + intros o1 o2 a H1 H2. apply SW in H1. apply SW in H2.
      pose proof (ws_sep _ W _ _ _ H1 H2) as E.
      destruct (oid_eqb_spec o1 (OD x)), (oid_eqb_spec o2 (OD x)),
               (oid_eqb_spec o1 (OT x)), (oid_eqb_spec o2 (OT x)); subst; congruence.
    + apply (ws_lim _ W).
    + apply (ws_len _ W).
  - reflexivity.
  - intros o N1 N2. split; auto.
  - intros b cs H.
    destruct (owns_dec (ob w (OD x)) b) as [O|O]; [left; right; now apply O2|].
    destruct (owns_dec (ob w (OT x)) b) as [O'|O']; [left; left; now apply O1|]. auto.
  - auto.
Qed.

(** Assignment to a wrapper without memory or with memory of its own. *)
Lemma assign_wrapper_own lm w x e rho us :
  world_shape w -> kd (ob w (OD x)) = KBorrowSEXP -> kd (ob w (OT x)) = KBuffer ->
  (ptr (ob w (OD x)) <> None -> todel (ob w (OD x)) = true) -> (alloc (ob w (OD x)) = true -> ptr (ob w (OD x)) <> None) ->
  small w x -> can_assign w x -> env_of w rho e -> wf_expr rho e ->
  1 <= xsize rho e <= max_len -> fits w (xsize rho e) ->
  value_of lm rho (sty (ob w (OD x))) e us ->
  exists w', assign lm x e w = (Done tt, w') /\ vstep w w' x /\ vholds w' x us /\ wrapper_own w' x /\
    can_assign w' x /\ small w' x /\ sty (ob w' (OD x)) = sty (ob w (OD x)) /\
    mp (ob w' (OD x)) = shape_of w e (mp (ob w (OD x))).
Proof.
  intros W K1 K2 TD HA [SM1 SM2] CA EN WF [N1 N2] Ft V.
  assert (ML : max_len = 1867000000) by reflexivity.
  destruct (assign_stage lm w x e rho us) as [w1 [w2 [c [ES [E1 [E2 [C [ST12 [OD2 [S2 [Ct [At [Kt [Pt H2]]]]]]]]]]]]]]; auto.
  assert (Cs : c < 2 ^ 31 /\ xsize rho e <= c).
  { destruct (cap115_int_ok (xsize rho e)) as [c' [C' [A' B']]]; [lia|].
    rewrite cap115_same_int in C' by lia. replace c with c' by congruence. lia. }
  unfold assign. rewrite bind_st, K1. unfold assign_sexp. rewrite bind_get, ES.
  rewrite (bind_done _ _ _ _ _ E1), (bind_done _ _ _ _ _ E2), bind_get.
  set (n := xsize rho e) in *. rewrite OD2.
  pose proof (s1_shape _ _ _ ST12) as W2.
  assert (A3 : exists w3, (if sz (ob w (OD x)) <? n then sexp_resize (OD x) n else ret tt) w2 = (Done tt, w3) /\
     step1 w2 w3 (OD x) /\ wrapper_own w3 x /\ sty (ob w3 (OD x)) = sty (ob w (OD x)) /\
     mp (ob w3 (OD x)) = mp (ob w (OD x)) /\ cap (ob w3 (OD x)) < 2 ^ 31).
  { destruct (Z.ltb_spec (sz (ob w (OD x))) n).
    - destruct (sexp_resize_own w2 (OD x) n c W2) as [w3 [E3 [ST3 [K3 [T3 [M3 [TD3 [S3 [P3 [A3 C3]]]]]]]]]]; rewrite ?OD2; auto.
      + lia.
      + intros _. rewrite (s1_lim _ _ _ ST12). unfold fits in Ft. destruct (cap115_ok n) as [c' [C' B']]; [|congruence || (rewrite C in C'; injection C' as <-; lia)].
        pose proof (ws_lim _ W). lia.
      + exists w3. rewrite OD2 in *. split; [exact E3|]. split; [exact ST3|]. split.
        * repeat split; auto. rewrite (proj1 (s1_other _ _ _ ST3 (OT x) ltac:(congruence))). exact Kt.
        * split; [congruence|]. split; [congruence|]. rewrite C3. destruct (cap (ob w (OD x)) <? n); lia.
    - exists w2. split; [reflexivity|]. split; [now apply step1_refl|]. unfold wrapper_own. rewrite OD2.
      assert (P0 : ptr (ob w (OD x)) <> None).
      { pose proof (ws_store _ W (OD x)) as S. unfold store_shape in S. destruct (ptr (ob w (OD x))); [discriminate|lia]. }
      repeat split; auto. }
  destruct A3 as [w3 [E3 [ST3 [WO3 [T3 [M3 C3]]]]]].
  rewrite (bind_done _ _ _ _ _ E3).
  assert (OT3 : same_obj w2 w3 (OT x)) by (apply (s1_other _ _ _ ST3); congruence).
  destruct OT3 as [OT3 OT3b].
  destruct (sexp_moveit_own w3 x) as [w4 [E4 [V4 [Hp4 [D4 [T4 Oth4]]]]]]; auto.
  { apply ST3. }
  { rewrite OT3, Ct. destruct (cap (ob w (OT x)) <? n); lia. }
  { rewrite OT3. lia. }
  { now rewrite OT3. }
  rewrite (bind_done _ _ _ _ _ E4), take_shape_done.
  assert (V14 : vstep w w4 x).
  { eapply vstep_trans; [eapply step1_vstep; [right; reflexivity|exact ST12]|].
    eapply vstep_trans; [eapply step1_vstep; [left; reflexivity|exact ST3]|exact V4]. }
  assert (MPe : forall y, mp (ob w4 (OD y)) = mp (ob w (OD y))).
  { intros y. destruct (Nat.eq_dec y x) as [->|Ne].
    - rewrite D4. simpl. exact M3.
    - destruct (vs_other _ _ _ V14 (OD y)) as [E _]; [congruence|congruence|]. now rewrite E. }
  assert (EI : eim w4 e = eim w e) by (apply eim_mp; auto).
  assert (SH : shape_of w4 e (mp (ob w4 (OD x))) = shape_of w e (mp (ob w (OD x)))).
  { unfold shape_of. rewrite EI, (edim_mp rows w w4 e), (edim_mp cols w w4 e), MPe; auto. }
  assert (Hx : vholds w4 x us).
  { assert (H3 : holds w3 (OT x) us) by (eapply holds_same; [split; [exact OT3|exact OT3b]|exact H2]).
    apply holds_cells in H3; [|apply ST3]. destruct H3 as [S3' C3'].
    apply holds_cells; [apply V4|]. rewrite D4. simpl. split; [exact S3'|].
    intros i Hi. rewrite <- (C3' i Hi). unfold cells_of. rewrite D4, Hp4. simpl. reflexivity. }
  assert (WO4 : wrapper_own w4 x).
  { destruct WO3 as [A1 [A2 [A3 A4]]]. unfold wrapper_own. rewrite D4, T4. simpl. rewrite OT3. repeat split; auto. }
  assert (CA4 : can_assign w4 x) by (right; rewrite T4; simpl; apply WO3).
  assert (SM4 : small w4 x).
  { unfold small. rewrite D4, T4. simpl. split; [|exact C3]. rewrite OT3, Ct. destruct (cap (ob w (OT x)) <? n); lia. }
  assert (TY4 : sty (ob w4 (OD x)) = sty (ob w (OD x))) by (rewrite D4; simpl; exact T3).
  rewrite SH, EI. destruct (eim w e) eqn:EM.
  - eexists. split; [reflexivity|]. set (m := shape_of w e (mp (ob w (OD x)))).
    assert (ST5 : step1 w4 (set_ob w4 (OD x) (with_mp m (ob w4 (OD x)))) (OD x)) by (apply step1_mp; apply V4).
    split; [eapply vstep_trans; [exact V14|eapply step1_vstep; [left; reflexivity|exact ST5]]|].
    split; [now apply holds_mp|]. unfold wrapper_own, can_assign, small in *.
    rewrite ob_set_same. rewrite ob_set_other by congruence. simpl. tauto.
  - exists w4. do 7 (split; [assumption || reflexivity|]). unfold shape_of. rewrite EM. apply MPe.
Qed.

(** The end of a borrowing vector or wrapper gives back the scratch buffer and
    leaves the memory of others alone. *)
Lemma vec_end_foreign w x : world_shape w -> kd (ob w (OT x)) = KBuffer ->
  (kd (ob w (OD x)) = KBorrow \/ (kd (ob w (OD x)) = KBorrowSEXP /\ todel (ob w (OD x)) = false)) ->
  exists w', vec_destroy x w = (Done tt, w') /\ step1 w w' (OT x) /\ ptr (ob w' (OT x)) = None /\ ob w' (OD x) = ob w (OD x).
Proof.
  intros W K2 K1. destruct (destroy_done w (OT x) W K2) as [w' [E [ST [_ [P _]]]]].
  assert (OX : ob w' (OD x) = ob w (OD x)) by (apply (s1_other _ _ _ ST); congruence).
  exists w'. split; [|auto]. unfold vec_destroy. rewrite (bind_done _ _ _ tt w').
  - unfold any_destroy. rewrite bind_st, OX. destruct K1 as [-> | [-> TD]]; [reflexivity|].
    unfold sexp_destroy. rewrite bind_st, OX, TD. reflexivity.
  - unfold any_destroy. rewrite bind_st, K2. exact E.
Qed.

(** The end of a wrapper that owns its memory gives that memory back. *)
Lemma vec_end_wrapper w x : world_shape w -> wrapper_own w x ->
  exists w', vec_destroy x w = (Done tt, w') /\ ptr (ob w' (OT x)) = None /\ ptr (ob w' (OD x)) = None /\
    (forall a, ptr (ob w (OD x)) = Some a -> hblk (hp w') a = Freed) /\
    (forall o, o <> OD x -> o <> OT x -> same_obj w w' o) /\
    (forall b own cs, own <> OwnCpp -> hblk (hp w) b = Live own cs -> hblk (hp w') b = Live own cs) /\
    (no_leak w -> no_leak w').
Proof.
  intros W [K1 [P1 [TD K2]]]. destruct (destroy_done w (OT x) W K2) as [w1 [E [ST [_ [P _]]]]].
  assert (OX : ob w1 (OD x) = ob w (OD x)) by (apply (s1_other _ _ _ ST); congruence).
  destruct (ptr (ob w (OD x))) as [a|] eqn:Pa; [|congruence].
  assert (Pa1 : ptr (ob w1 (OD x)) = Some a) by congruence.
  pose proof (s1_shape _ _ _ ST) as W1. destruct (ptr_live _ _ _ W1 Pa1) as [cs [B _]].
  assert (Ow : owner_of (ob w1 (OD x)) = OwnCpp) by (unfold owner_of; now rewrite OX, K1, TD). rewrite Ow in B.
  eexists. split.
  { unfold vec_destroy. rewrite (bind_done _ _ _ tt w1).
    - unfold any_destroy. rewrite bind_st, OX, K1. unfold sexp_destroy. rewrite bind_st, OX, TD, Pa.
      rewrite (bind_done _ _ _ _ _ (del_own _ _ _ B)). reflexivity.
    - unfold any_destroy. rewrite bind_st, K2. exact E. }
  match goal with |- ptr (ob ?W' _) = _ /\ _ => set (w' := W') end.
  assert (HB : forall b, b <> a -> hblk (hp w') b = hblk (hp w1) b).
  { intros b Nb. unfold w'. simpl. now replace (Nat.eqb b a) with false by (symmetry; now apply Nat.eqb_neq). }
  assert (HO : forall o, o <> OD x -> ob w' o = ob w1 o).
  { intros o No. unfold w'. simpl. now rewrite oid_eqb_neq. }
  split; [rewrite HO by congruence; exact P|]. split; [unfold w'; now rewrite ob_set_same|].
  split; [intros b Pb; injection Pb as <-; unfold w'; simpl; now rewrite Nat.eqb_refl|].
  assert (SO : forall o, o <> OD x -> o <> OT x -> same_obj w w' o).
  { intros o N1 N2. destruct (s1_other _ _ _ ST o N2) as [S1 S2]. split; [rewrite HO by auto; exact S1|].
    intros b Pb. rewrite <- S2 by auto. destruct (Nat.eq_dec b a) as [->|Nb]; [|now apply HB].
    exfalso. apply N1. eapply (ws_sep _ W1 o (OD x) a); split; try congruence.
    assert (Po : ptr (ob w1 o) = Some a) by congruence.
    destruct (ptr_live _ _ _ W1 Po) as [cs' [B' _]]. congruence. }
  split; [exact SO|]. split.
  - intros b own cs' No Hb. pose proof (s1_ext _ _ _ ST b own cs' No Hb) as H1.
    rewrite HB; auto. intros ->. congruence.
  - intros NL b cs' Hb. destruct (Nat.eq_dec b a) as [->|Nb]; [unfold w' in Hb; simpl in Hb; rewrite Nat.eqb_refl in Hb; discriminate|].
    rewrite HB in Hb by auto. destruct (step1_no_leak _ _ _ ST NL b cs' Hb) as [o Oo].
    exists o. rewrite HO; auto. intros ->. destruct Oo as [Po _]. congruence.
Qed.
