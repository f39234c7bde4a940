From Coq Require Import ZArith List String Bool Lia.
From Verif Require Import Base Num StoreModel VecModel Spec SpecExpr CapProofs StoreProofs StoreOps VecProofs.
Import ListNotations.
Open Scope Z_scope.

(* ------------------------------------------------ all outcomes of resize *)

Inductive resize_out (w : world) (o : oid) (n : Z) : Prop :=
| RO_done c w' : resize o n w = (Done tt, w') -> 1 <= n -> cap115 n = Done c -> n <= c <= 2 * n ->
    resize_post w w' o n c -> resize_out w o n
| RO_zero m : resize o n w = (Thrown (Ass m), w) -> n < 1 -> resize_out w o n
| RO_null m : resize o n w = (Thrown (Ass m), w) -> 1 <= n -> alloc (ob w o) = true ->
    ptr (ob w o) = None -> resize_out w o n
| RO_alloc w' : resize o n w = (Thrown BadAlloc, w') -> cap (ob w o) < n -> hlim (hp w) < 2 * n ->
    (forall o', o' <> o -> same_obj w w' o') ->
    ptr (ob w' o) = ptr (ob w o) -> kd (ob w' o) = KBuffer -> alloc (ob w' o) = alloc (ob w o) ->
    (forall a, ptr (ob w o) = Some a -> hblk (hp w') a = Freed) ->
    resize_out w o n
| RO_cast w' : resize o n w = (Undef UB_cast, w') -> 2 ^ 64 <= 2 * n -> resize_out w o n.

Lemma resize_cases w o n : world_shape w -> kd (ob w o) = KBuffer -> n <= 2 ^ 64 -> resize_out w o n.
Proof.
  intros W K Hn.
  destruct (Z.ltb_spec n 1) as [L|L].
  { eapply RO_zero; auto. unfold resize.
    replace (1 <=? n) with false by (symmetry; apply Z.leb_gt; lia). apply bind_ass_false. }
  pose proof (ws_store _ W o) as S. unfold store_shape in S.
  destruct (cap115_all n) as [[c [C Bc]]|C]; [lia| |].
  - destruct (Z.ltb_spec (cap (ob w o)) n) as [LC|LC].
    + (* needs memory *)
      destruct (ptr (ob w o)) as [a|] eqn:P.
      * destruct (Z.leb_spec c (hlim (hp w))) as [LH|LH].
        -- destruct (resize_done w o n c W K L C) as [w' [E R]]; auto; try lia.
           { intros _ _. congruence. }
           eapply RO_done; eauto.
        -- destruct S as [S1 [S2 [S3 [cs [S4 [S5 S6]]]]]].
           assert (Oc : owner_of (ob w o) = OwnCpp) by (unfold owner_of; now rewrite K).
           assert (Lt := live_lt _ _ _ _ W S4). rewrite Oc in S4.
           eapply (RO_alloc w o n (set_ob (set_hp w (set_blk (hp w) a Freed)) o (with_cap c (ob w o))));
             auto; try lia.
           ++ unfold resize. replace (1 <=? n) with true by (symmetry; now apply Z.leb_le).
              rewrite bind_ass_true, bind_st, S3. cbn [negb].
              replace (cap (ob w o) <? n) with true by (symmetry; now apply Z.ltb_lt).
              rewrite P, bind_ass_true.
              rewrite (bind_done _ _ _ _ _ (del_own _ _ _ S4)).
              rewrite C, bind_lift_done, bind_upd.
              rewrite (bind_thrown _ _ _ BadAlloc (set_ob (set_hp w (set_blk (hp w) a Freed)) o (with_cap c (ob w o)))); auto.
              apply new_fail. simpl. lia.
           ++ intros o' N. split; [simpl; now rewrite oid_eqb_neq|].
              intros b Pb. simpl. destruct (Nat.eqb_spec b a); auto. subst b. exfalso.
              apply (other_ptr w o o' a W); auto. split; auto.
           ++ rewrite ob_set_same. simpl. reflexivity.
           ++ rewrite ob_set_same. simpl. auto.
           ++ rewrite ob_set_same. simpl. auto.
           ++ intros b Pb. simpl. assert (b = a) by congruence. subst b. now rewrite Nat.eqb_refl.
      * destruct (alloc (ob w o)) eqn:A.
        -- eapply RO_null; auto.
           unfold resize. replace (1 <=? n) with true by (symmetry; now apply Z.leb_le).
           rewrite bind_ass_true, bind_st, A. cbn [negb].
           replace (cap (ob w o) <? n) with true by (symmetry; now apply Z.ltb_lt).
           rewrite P. apply bind_ass_false.
        -- destruct (Z.leb_spec c (hlim (hp w))) as [LH|LH].
           ++ destruct (resize_done w o n c W K L C) as [w' [E R]]; auto; try lia.
              { intros _. congruence. }
              eapply RO_done; eauto.
           ++ eapply (RO_alloc w o n (set_ob (set_ob w o (with_sz n (ob w o))) o
                        (with_cap c (with_sz n (ob w o)))));
                auto; try lia.
              ** unfold resize. replace (1 <=? n) with true by (symmetry; now apply Z.leb_le).
                 rewrite bind_ass_true, bind_st, A. cbn [negb].
                 unfold init. rewrite bind_assoc, bind_st, A, bind_assoc, bind_ret, bind_assoc, bind_upd.
                 rewrite C, bind_assoc, bind_lift_done, bind_assoc, bind_upd, bind_assoc.
                 rewrite ob_set_same.
                 erewrite bind_thrown; [reflexivity|]. apply new_fail. simpl. lia.
              ** intros o' N. split; [simpl; now rewrite !oid_eqb_neq|auto].
              ** rewrite ob_set_same. simpl. auto.
              ** rewrite ob_set_same. simpl. auto.
              ** rewrite ob_set_same. simpl. auto.
              ** intros a Pa. congruence.
    + destruct (resize_done w o n c W K L C) as [w' [E R]]; auto; try lia.
      eapply RO_done; eauto.
  - destruct (Z.ltb_spec (cap (ob w o)) n) as [LC|LC].
    + destruct (Z.ltb_spec (2 * n) (2 ^ 64)) as [X|X].
      { exfalso. destruct (mul115_trunc n) as [c [E B]]; [lia|].
        unfold cap115, f2size in C. rewrite E in C.
        replace ((0 <=? c) && (c <? 2 ^ 64)) with true in C; [discriminate|].
        symmetry. apply andb_true_intro. split; [apply Z.leb_le|apply Z.ltb_lt]; lia. }
      destruct (ptr (ob w o)) as [a|] eqn:P.
      * destruct S as [S1 [S2 [S3 [cs [S4 [S5 S6]]]]]].
        assert (Oc : owner_of (ob w o) = OwnCpp) by (unfold owner_of; now rewrite K).
        rewrite Oc in S4.
        eapply RO_cast; [|lia].
        unfold resize. replace (1 <=? n) with true by (symmetry; now apply Z.leb_le).
        rewrite bind_ass_true, bind_st, S3. cbn [negb].
        replace (cap (ob w o) <? n) with true by (symmetry; now apply Z.ltb_lt).
        rewrite P, bind_ass_true.
        rewrite (bind_done _ _ _ _ _ (del_own _ _ _ S4)).
        rewrite C. reflexivity.
      * destruct (alloc (ob w o)) eqn:A.
        -- eapply RO_null; auto.
           unfold resize. replace (1 <=? n) with true by (symmetry; now apply Z.leb_le).
           rewrite bind_ass_true, bind_st, A. cbn [negb].
           replace (cap (ob w o) <? n) with true by (symmetry; now apply Z.ltb_lt).
           rewrite P. apply bind_ass_false.
        -- eapply RO_cast; [|lia].
           unfold resize. replace (1 <=? n) with true by (symmetry; now apply Z.leb_le).
           rewrite bind_ass_true, bind_st, A. cbn [negb].
           unfold init. rewrite bind_assoc, bind_st, A, bind_assoc, bind_ret, bind_assoc, bind_upd.
           rewrite C. reflexivity.
    + (* n within the capacity: no conversion; n is small *)
      exfalso.
      assert (cap (ob w o) <= 2 ^ 60).
      { destruct (ptr (ob w o)) as [a|]; [|lia].
        destruct S as [S1 [S2 [S3 [cs [S4 [S5 S6]]]]]].
        pose proof (proj1 (ws_len _ W _ _ _ S4)). lia. }
      destruct (cap115_ok n) as [c [C' _]]; [lia|]. congruence.
Qed.

(* --------------------------------------------------------- filling temp *)

Lemma upd_cells_other w w1 o a cs cs1 : world_shape w -> owns (ob w o) a ->
  hblk (hp w) a = Live OwnCpp cs -> upd_cells w w1 a OwnCpp cs1 ->
  forall o', o' <> o -> same_obj w w1 o'.
Proof.
  intros W O B [U1 [U2 [U3 [U4 U5]]]] o' N. split; [now rewrite U1|].
  intros b P. apply U5. intros ->. now apply (other_ptr w o o' a W).
Qed.

Lemma fill_temp_done lm o t e us w a :
  world_shape w -> kd (ob w o) = KBuffer -> ptr (ob w o) = Some a ->
  sz (ob w o) = Z.of_nat (List.length us) ->
  (forall x, In x (vars e) -> OD x <> o) ->
  (forall i, (i < List.length us)%nat -> exists v,
      elem lm e (Z.of_nat i) w = (Done v, w) /\ cast t v = Done (nth i us (VB false))) ->
  exists w', fill_temp lm o t e (Z.of_nat (List.length us)) w = (Done tt, w') /\ step1 w w' o /\
    ob w' = ob w /\ holds w' o us.
Proof.
  intros W K P Sz V H.
  destruct (ptr_live _ _ _ W P) as [cs [B [L1 L2]]].
  assert (Ow : owner_of (ob w o) = OwnCpp) by (unfold owner_of; now rewrite K).
  rewrite Ow in B. pose proof (shape_alloc _ _ _ W P) as A.
  assert (OO : owns (ob w o) a) by (split; auto).
  destruct (for_wr_gen (fun k => Some (nth (Z.to_nat k) us (VB false)))
              (fun i => v <- elem lm e i ;; v' <- lift (cast t v) ;; set_at o i v')
              w a OwnCpp cs 0 (List.length us) B) as [w' [cs' [E [U [Len Nth]]]]]; [lia|lia| |].
  - intros k w1 cs1 Hk U Len1.
    destruct (H (Z.to_nat k)) as [v [Ev Cv]]; [lia|]. rewrite Z2Nat.id in Ev by lia.
    assert (E1 : elem lm e k w1 = (Done v, w1)).
    { apply pair_eta; [|apply elem_pure]. rewrite (elem_same lm w w1); [now rewrite Ev|].
      intros x Hx. eapply upd_cells_other; eauto. }
    rewrite (bind_done _ _ _ _ _ E1). rewrite Cv, bind_lift_done.
    destruct U as [U1 _]. apply set_at_in; rewrite U1; auto. lia.
  - exists w'. split; [unfold fill_temp, for_; rewrite Nat2Z.id; exact E|].
    assert (ST : step1 w w' o) by (eapply step1_cells; eauto).
    destruct U as [U1 [U2 [U3 [U4 U5]]]].
    split; [exact ST|]. split; [exact U1|].
    apply holds_cells; [apply ST|]. rewrite U1. split; [exact Sz|].
    intros i Hi. rewrite (cells_of_ptr w' o a OwnCpp cs'); [|now rewrite U1|exact U4].
    rewrite Nth, Nat2Z.id.
    replace ((0 <=? Z.of_nat i) && (Z.of_nat i <? 0 + Z.of_nat (List.length us))) with true; auto.
    symmetry; apply andb_true_intro; split; [apply Z.leb_le|apply Z.ltb_lt]; lia.
Qed.

(** Whatever its outcome, filling the scratch buffer changes only its block. *)
Lemma fill_temp_any lm o t e n w a cs :
  ptr (ob w o) = Some a -> hblk (hp w) a = Live OwnCpp cs ->
  exists cs', upd_cells w (snd (fill_temp lm o t e n w)) a OwnCpp cs' /\
              List.length cs' = List.length cs.
Proof.
  intros P B.
  pose (I := fun (w1 : world) => exists cs', upd_cells w w1 a OwnCpp cs' /\ List.length cs' = List.length cs).
  assert (G : match fill_temp lm o t e n w with
              | (Done _, w') => I w' | (Thrown _, w') => I w' | (Undef u, w') => I w' end).
  { unfold fill_temp, for_.
    apply (forN_all (fun _ => I) I (fun _ => I)).
    - exists cs. split; auto. unfold upd_cells. auto.
    - intros k w1 _ [cs1 [[U1 [U2 [U3 [U4 U5]]]] L1]].
      assert (I1 : I w1) by (exists cs1; repeat split; auto).
      pose proof (elem_pure lm e k w1) as EP. unfold bind at 1.
      destruct (elem lm e k w1) as [[v|ex|u] w2]; simpl in EP; subst w2; auto.
      unfold bind at 1. unfold lift. destruct (cast t v) as [v'|ex|u]; auto.
      unfold set_at. rewrite bind_st.
      unfold bind at 1. destruct (alloc (ob w1 o)); [|exact I1]. simpl.
      unfold bind at 1. destruct (k <? sz (ob w1 o)); [|exact I1]. simpl.
      rewrite U1, P. unfold wr, wrc. rewrite U4.
      destruct ((0 <=? k) && (k <? Z.of_nat (List.length cs1))); [|exact I1].
      exists (list_set cs1 (Z.to_nat k) (Some v')). rewrite list_set_length. split; [|auto].
      unfold upd_cells. simpl. rewrite Nat.eqb_refl. repeat split; auto.
      intros b Hb. replace (Nat.eqb b a) with false by (symmetry; now apply Nat.eqb_neq). auto. }
  destruct (fill_temp lm o t e n w) as [[]]; exact G.
Qed.

(* ----------------------------------------------------------- assignment *)

Lemma world_ok_shape w : world_ok w -> world_shape w.
Proof. now intros [W _]. Qed.

(** Everything up to the exchange: the scratch buffer holds the result. *)
Lemma assign_stage lm w x e rho us :
  world_shape w -> kd (ob w (OT x)) = KBuffer ->
  can_assign w x -> env_of w rho e -> wf_expr rho e ->
  1 <= xsize rho e -> fits w (xsize rho e) ->
  value_of lm rho (sty (ob w (OD x))) e us ->
  exists w1 w2 c, esize w e = xsize rho e /\
    resize (OT x) (xsize rho e) w = (Done tt, w1) /\
    fill_temp lm (OT x) (sty (ob w (OD x))) e (xsize rho e) w1 = (Done tt, w2) /\
    cap115 (xsize rho e) = Done c /\
    step1 w w2 (OT x) /\ ob w2 (OD x) = ob w (OD x) /\ sz (ob w2 (OT x)) = xsize rho e /\
    cap (ob w2 (OT x)) = (if cap (ob w (OT x)) <? xsize rho e then c else cap (ob w (OT x))) /\
    alloc (ob w2 (OT x)) = true /\ kd (ob w2 (OT x)) = KBuffer /\ ptr (ob w2 (OT x)) <> None /\
    holds w2 (OT x) us.
Proof.
  intros W K2 CA EN WF N1 Ft [VL VV].
  pose proof (ws_lim _ W) as Lim.
  pose proof (esize_xsize w rho e EN WF) as ES.
  set (n := xsize rho e) in *. unfold fits in Ft.
  destruct (cap115_ok n) as [c [C Bc]]; [lia|].
  destruct (resize_done w (OT x) n c W K2 N1 C) as [w1 [E1 R1]]; try lia.
  { intros _ A. destruct CA; congruence. }
  destruct R1 as [ST1 [Kt [Tt [Mt [Dt [St [At [Pt [Ct Rest]]]]]]]]].
  destruct (ptr (ob w1 (OT x))) as [a|] eqn:Pa; [|congruence].
  assert (OD1 : ob w1 (OD x) = ob w (OD x)).
  { apply (s1_other _ _ _ ST1). congruence. }
  destruct (fill_temp_done lm (OT x) (sty (ob w (OD x))) e us w1 a) as [w2 [E2 [ST2 [O2 H2]]]]; auto.
  { apply ST1. }
  { lia. }
  { intros; congruence. }
  { intros i Hi. destruct (VV i Hi) as [v [Ev Cv]]. exists v. split; [|exact Cv].
    apply pair_eta; [|apply elem_pure].
    rewrite (elem_same lm w w1); [|intros y Hy; apply (s1_other _ _ _ ST1); congruence].
    rewrite (elem_xval lm w rho e W EN WF (Z.of_nat i)); [exact Ev|lia|left; fold n; lia]. }
  rewrite VL in E2. fold n in E2.
  exists w1, w2, c. rewrite O2.
  assert (ST12 : step1 w w2 (OT x)) by (eapply step1_trans; eauto).
  rewrite Pa. do 7 (split; [assumption|]).
  split; [destruct (cap (ob w (OT x)) <? n); apply Rest|]. repeat (split; [assumption|]). exact H2.
Qed.

Lemma assign_buffer_core lm w x e rho us :
  world_shape w -> owning w x -> small w x ->
  can_assign w x -> env_of w rho e -> wf_expr rho e ->
  1 <= xsize rho e <= max_len -> fits w (xsize rho e) ->
  value_of lm rho (sty (ob w (OD x))) e us ->
  exists w', assign lm x e w = (Done tt, w') /\ vstep w w' x /\ (world_ok w -> world_ok w') /\
    vholds w' x us /\ owning w' x /\ ptr (ob w' (OD x)) <> None /\
    ptr (ob w' (OT x)) = ptr (ob w (OD x)) /\
    sty (ob w' (OD x)) = sty (ob w (OD x)) /\
    mp (ob w' (OD x)) = shape_of w e (mp (ob w (OD x))) /\
    small w' x.
Proof.
  intros W [K1 K2] [SM1 SM2] CA EN WF [N1 N2] Ft [VL VV].
  assert (ML : max_len = 1867000000) by reflexivity.
  destruct (assign_stage lm w x e rho us) as [w1 [w2 [c [ES [E1 [E2 [C [ST12 [OD2 [S2 [Ct [At [Kt [Pt H2]]]]]]]]]]]]]]; auto.
  { split; auto. }
  assert (Cs : c < 2 ^ 31).
  { destruct (cap115_int_ok (xsize rho e)) as [c' [C' [_ B']]]; [lia|].
    rewrite cap115_same_int in C' by lia. congruence. }
  unfold assign. rewrite bind_st, K1. unfold assign_buffer. rewrite bind_get, ES.
  rewrite (bind_done _ _ _ _ _ E1), (bind_done _ _ _ _ _ E2).
  set (n := xsize rho e) in *.
  destruct (moveit_done w2 x) as [w3 [E3 [V3 [Hp3 [D3 [T3 Oth3]]]]]].
  { apply ST12. }
  { split; [now rewrite OD2|exact Kt]. }
  { rewrite Ct. destruct (cap (ob w (OT x)) <? n); lia. }
  { lia. }
  { exact At. }
  rewrite (bind_done _ _ _ _ _ E3).
  rewrite take_shape_done.
  assert (V13 : vstep w w3 x).
  { eapply vstep_trans; [eapply step1_vstep; [right; reflexivity|exact ST12]|exact V3]. }
  assert (MPe : forall y, mp (ob w3 (OD y)) = mp (ob w (OD y))).
  { intros y. destruct (Nat.eq_dec y x) as [->|Ne].
    - rewrite D3. simpl. now rewrite OD2.
    - destruct (vs_other _ _ _ V13 (OD y)) as [E _]; [congruence|congruence|]. now rewrite E. }
  assert (EI : eim w3 e = eim w e) by (apply eim_mp; auto).
  assert (SH : shape_of w3 e (mp (ob w3 (OD x))) = shape_of w e (mp (ob w (OD x)))).
  { unfold shape_of. rewrite EI, (edim_mp rows w w3 e), (edim_mp cols w w3 e), MPe; auto. }
  (* the contents *)
  assert (Hx : vholds w3 x us).
  { apply holds_cells in H2; [|apply ST12]. destruct H2 as [S2' C2].
    apply holds_cells; [apply V3|]. rewrite D3. simpl. split; [exact S2'|].
    intros i Hi. rewrite <- (C2 i Hi). unfold cells_of. rewrite D3, Hp3. simpl. reflexivity. }
  assert (HT : world_ok w -> inited w3 (OT x)).
  { intros [_ IN]. assert (W3 : world_shape w3) by apply V3.
    split; [|rewrite T3; simpl; rewrite Kt; congruence]. destruct (IN (OD x)) as [I1 _].
    intros b own cs Pb Bb i Hi. rewrite T3 in Pb, Hi. simpl in Pb, Hi. rewrite OD2 in Pb, Hi.
    rewrite Hp3 in Bb.
    assert (SO : same_obj w w2 (OD x)) by (apply (s1_other _ _ _ ST12); congruence).
    destruct SO as [_ SB]. rewrite (SB b Pb) in Bb. eapply I1; eauto. }
  assert (OW3 : owning w3 x).
  { split; [rewrite D3; simpl; now rewrite OD2|rewrite T3; simpl; exact Kt]. }
  assert (WO3 : world_ok w -> world_ok w3).
  { intros WO. eapply vstep_ok; eauto. eapply inited_buffer; eauto; [apply V3|apply OW3]. }
  assert (PD3 : ptr (ob w3 (OD x)) <> None).
  { rewrite D3. simpl. exact Pt. }
  assert (PT3 : ptr (ob w3 (OT x)) = ptr (ob w (OD x))).
  { rewrite T3. simpl. now rewrite OD2. }
  assert (TY3 : sty (ob w3 (OD x)) = sty (ob w (OD x))) by (rewrite D3; simpl; now rewrite OD2).
  assert (SM3 : small w3 x).
  { unfold small. rewrite D3, T3. simpl. rewrite Ct, OD2. split; [|exact SM1].
    destruct (cap (ob w (OT x)) <? n); lia. }
  rewrite SH, EI.
  destruct (eim w e) eqn:EM.
  - eexists. split; [reflexivity|].
    set (m := shape_of w e (mp (ob w (OD x)))).
    assert (ST4 : step1 w3 (set_ob w3 (OD x) (with_mp m (ob w3 (OD x)))) (OD x)).
    { apply step1_mp. apply V3. }
    assert (HX4 : vholds (set_ob w3 (OD x) (with_mp m (ob w3 (OD x)))) x us) by (now apply holds_mp).
    split; [eapply vstep_trans; [exact V13|eapply step1_vstep; [left; reflexivity|exact ST4]]|].
    split.
    { intros WO. eapply step1_ok; eauto. eapply inited_buffer; eauto; [apply ST4|].
      rewrite ob_set_same. apply OW3. }
    split; [exact HX4|]. unfold owning, small.
    rewrite ob_set_same. rewrite ob_set_other by congruence. simpl. destruct OW3, SM3. repeat split; auto.
  - exists w3. do 8 (split; [assumption || reflexivity|]). split; [|exact SM3].
    unfold shape_of. rewrite EM. apply MPe.
Qed.

Lemma assign_buffer_done lm w x e rho us :
  world_ok w -> owning w x -> small w x ->
  can_assign w x -> env_of w rho e -> wf_expr rho e ->
  1 <= xsize rho e <= max_len -> fits w (xsize rho e) ->
  value_of lm rho (sty (ob w (OD x))) e us ->
  exists w', assign lm x e w = (Done tt, w') /\ vstep w w' x /\ world_ok w' /\
    vholds w' x us /\ owning w' x /\ ptr (ob w' (OD x)) <> None /\
    ptr (ob w' (OT x)) = ptr (ob w (OD x)) /\
    sty (ob w' (OD x)) = sty (ob w (OD x)) /\
    mp (ob w' (OD x)) = shape_of w e (mp (ob w (OD x))) /\
    small w' x.
Proof.
  intros WO. intros. destruct (assign_buffer_core lm w x e rho us) as [w' [A [B [C D]]]]; auto.
  - now apply world_ok_shape.
  - exists w'. auto.
Qed.

(** A throwing assignment to an owning vector leaves all vectors' elements,
    sizes and shapes as they were. *)
Lemma assign_buffer_thrown lm w x e ex w' :
  world_shape w -> owning w x -> esize w e <= 2 ^ 64 ->
  assign lm x e w = (Thrown ex, w') -> forall y, same_obj w w' (OD y).
Proof.
  intros W [K1 K2] Hs H y.
  unfold assign in H. rewrite bind_st, K1 in H. unfold assign_buffer in H. rewrite bind_get in H.
  destruct (resize_cases w (OT x) (esize w e) W K2 Hs) as
    [c w1 E1 N C Bc R|m E1 _|m E1 _ _ _|w1 E1 _ _ Oth _ _ _ _|w1 E1 _].
  - rewrite (bind_done _ _ _ _ _ E1) in H.
    destruct R as [ST1 [Kt [Tt [Mt [Dt [St [At [Pt [Ct Rest]]]]]]]]].
    destruct (ptr (ob w1 (OT x))) as [a|] eqn:Pa; [clear Pt|congruence].
    destruct (ptr_live _ _ _ (s1_shape _ _ _ ST1) Pa) as [cs [B _]].
    assert (Ow : owner_of (ob w1 (OT x)) = OwnCpp) by (unfold owner_of; now rewrite Kt).
    rewrite Ow in B.
    destruct (fill_temp_any lm (OT x) (sty (ob w (OD x))) e (esize w e) w1 a cs Pa B) as [cs' [U L]].
    assert (S2 : same_obj w (snd (fill_temp lm (OT x) (sty (ob w (OD x))) e (esize w e) w1)) (OD y)).
    { eapply same_obj_trans; [apply (s1_other _ _ _ ST1); congruence|].
      apply (upd_cells_other w1 _ (OT x) a cs cs'); auto; [apply ST1|split; auto|congruence]. }
    unfold bind at 1 in H.
    destruct (fill_temp lm (OT x) (sty (ob w (OD x))) e (esize w e) w1) as [[[]|ex'|u] w2]; simpl in S2.
    + exfalso. unfold moveit in H. rewrite bind_assoc, bind_st, bind_assoc, bind_st, bind_assoc, !bind_upd in H.
      rewrite take_shape_done in H. discriminate.
    + now injection H as _ <-.
    + discriminate.
  - rewrite (bind_thrown _ _ _ _ _ E1) in H. injection H as _ <-. apply same_obj_refl.
  - rewrite (bind_thrown _ _ _ _ _ E1) in H. injection H as _ <-. apply same_obj_refl.
  - rewrite (bind_thrown _ _ _ _ _ E1) in H. injection H as _ <-. apply Oth. congruence.
  - rewrite (bind_undef _ _ _ _ _ E1) in H. discriminate.
Qed.
