(** Vectors with borrowed memory and vectors wrapping R objects. *)
From Coq Require Import ZArith List String Bool Lia.
From Verif Require Import Base Num StoreModel VecModel Spec SpecExpr SpecHist SpecVec CapProofs
  StoreProofs StoreOps VecProofs VecAssign VecEval.
Import ListNotations.
Open Scope Z_scope.

(* --------------------------------------------- writing to foreign memory *)

(** Changing the cells of any live block keeps the world sound. *)
Lemma shape_cells w w' a own cs cs' : world_shape w -> hblk (hp w) a = Live own cs ->
  upd_cells w w' a own cs' -> List.length cs' = List.length cs -> world_shape w'.
Proof.
  intros W B [U1 [U2 [U3 [U4 U5]]]] L. pose proof (live_lt _ _ _ _ W B) as Lt.
  assert (HB : forall b own' c, hblk (hp w') b = Live own' c ->
     exists c', hblk (hp w) b = Live own' c' /\ List.length c' = List.length c).
  { intros b own' c H. destruct (Nat.eq_dec b a) as [->|N].
    - rewrite U4 in H. injection H as <- <-. eauto.
    - rewrite U5 in H by auto. eauto. }
  assert (HF : forall b own' c, hblk (hp w) b = Live own' c ->
     exists c', hblk (hp w') b = Live own' c' /\ List.length c' = List.length c).
  { intros b own' c H. destruct (Nat.eq_dec b a) as [->|N].
    - rewrite B in H. injection H as <- <-. eauto.
    - rewrite <- U5 in H by auto. eauto. }
  split.
  - intros b Hb. rewrite U2 in Hb. rewrite U5; [now apply (ws_fresh _ W)|lia].
  - intros o. rewrite U1. pose proof (ws_store _ W o) as S. unfold store_shape in *.
    destruct (ptr (ob w o)); [|exact S]. destruct S as [S1 [S2 [S3 [c [S4 [S5 S6]]]]]].
    destruct (HF _ _ _ S4) as [c' [H' L']]. repeat split; auto. exists c'. rewrite L'. auto.
  - rewrite U1. apply (ws_sep _ W).
  - rewrite U3. apply (ws_lim _ W).
  - intros b own' c H. destruct (HB _ _ _ H) as [c' [H' L']]. rewrite <- L', U3. now apply (ws_len _ W _ _ _ H').
Qed.

(** Initialised cells stay initialised. *)
Lemma inited_cells w w' a own cs cs' o : hblk (hp w) a = Live own cs ->
  upd_cells w w' a own cs' ->
  (forall i v, nth i cs None = Some v -> exists v', nth i cs' None = Some v') ->
  inited w o -> inited w' o.
Proof.
  intros B [U1 [U2 [U3 [U4 U5]]]] M.
  assert (G : forall s n, init_upto (hp w) s n -> init_upto (hp w') s n).
  { intros s n I b own' c P H i Hi. destruct (Nat.eq_dec b a) as [->|N].
    - rewrite U4 in H. injection H as <- <-. destruct (I _ _ _ P B i Hi) as [v Hv]. eauto.
    - rewrite U5 in H by auto. eapply I; eauto. }
  unfold inited. rewrite U1. intros [I1 I2]. split; [auto|]. intros K. destruct (I2 K). auto.
Qed.

Lemma esize_grow w w' x e n :
  (forall y, y <> x -> sz (ob w' (OD y)) = sz (ob w (OD y))) ->
  sz (ob w (OD x)) <= n -> sz (ob w' (OD x)) = n ->
  esize w e <= esize w' e <= Z.max (esize w e) n.
Proof.
  intros Oth L E. induction e; cbn [esize]; try lia.
  - destruct (Nat.eq_dec x0 x) as [->|N]; [lia|]. rewrite Oth by auto. lia.
  - destruct (is_sca e1), (is_sca e2); cbn [andb]; try lia.
    destruct (Z.ltb_spec (esize w e2) (esize w e1)), (Z.ltb_spec (esize w' e2) (esize w' e1)); lia.
Qed.


Lemma nth_firstn_lt {A} (l : list A) n i d : (i < n)%nat -> nth i (firstn n l) d = nth i l d.
Proof.
  revert n i. induction l as [|a l IH]; intros [|n] [|i] H; simpl; auto; try lia. apply IH. lia.
Qed.

Lemma nth_skip {A} (l : list A) n i d : nth i (skipn n l) d = nth (n + i) l d.
Proof.
  revert l. induction n as [|n IH]; intros l; simpl; auto. destruct l as [|a l]; simpl; auto. now destruct i.
Qed.

Lemma list_split {A} (l : list A) n (p : list A) d : (n <= List.length l)%nat -> List.length p = n ->
  forall l', List.length l' = List.length l ->
  (forall i, nth i l' d = if Nat.ltb i n then nth i p d else nth i l d) ->
  l' = p ++ skipn n l.
Proof.
  intros Hn Hp l' L N. apply (nth_ext _ _ d d).
  - rewrite app_length, skipn_length. lia.
  - intros i Hi. rewrite N. destruct (Nat.ltb_spec i n).
    + rewrite app_nth1 by lia. reflexivity.
    + rewrite app_nth2 by lia. rewrite nth_skip. f_equal. lia.
Qed.

Lemma borrow_assign_done lm w x a cs e rho us :
  world_shape w -> borrows w x a -> hblk (hp w) a = Live OwnExt cs ->
  can_assign w x -> env_of w rho e -> wf_expr rho e ->
  1 <= xsize rho e -> fits w (xsize rho e) ->
  sz (ob w (OD x)) <= xsize rho e <= cap (ob w (OD x)) ->
  value_of lm rho (sty (ob w (OD x))) e us ->
  exists w', assign lm x e w = (Done tt, w') /\ world_shape w' /\ (world_ok w -> world_ok w') /\
    vholds w' x us /\ borrows w' x a /\ cap (ob w' (OD x)) = cap (ob w (OD x)) /\
    can_assign w' x /\
    hblk (hp w') a = Live OwnExt (map Some us ++ skipn (List.length us) cs) /\
    (forall b own cs', own <> OwnCpp -> b <> a -> hblk (hp w) b = Live own cs' -> hblk (hp w') b = Live own cs') /\
    (forall o, o <> OD x -> o <> OT x -> ob w' o = ob w o) /\
    (forall o, o <> OD x -> o <> OT x -> ptr (ob w o) <> Some a -> same_obj w w' o) /\
    (no_leak w -> no_leak w').
Proof.
  intros W [K1 [P1 K2]] B CA EN WF N1 Ft [Lo Hi] V.
  pose proof V as [VL _].
  destruct (assign_stage lm w x e rho us W K2 CA EN WF N1 Ft V) as
    [w1 [w2 [c [ES [E1 [E2 [C [ST12 [OD2 [S2 [Ct [At [Kt [Pt H2]]]]]]]]]]]]]].
  set (n := xsize rho e) in *.
  assert (OWN : owner_of (ob w (OD x)) = OwnExt) by (unfold owner_of; now rewrite K1).
  assert (B2 : hblk (hp w2) a = Live OwnExt cs) by (apply (s1_ext _ _ _ ST12); [discriminate|exact B]).
  pose proof (ws_store _ W (OD x)) as SS. unfold store_shape in SS. rewrite P1, OWN in SS.
  destruct SS as [SS1 [SS2 [SS3 [cs0 [SS4 [SS5 SS6]]]]]]. assert (cs0 = cs) by congruence. subst cs0.
  unfold assign. rewrite bind_st, K1. unfold assign_borrow. rewrite bind_get, ES. fold n.
  replace (n <=? cap (ob w (OD x))) with true by (symmetry; apply Z.leb_le; lia).
  rewrite bind_ass_true, (bind_done _ _ _ _ _ E1), (bind_done _ _ _ _ _ E2).
  replace (sz (ob w (OD x)) <=? n) with true by (symmetry; apply Z.leb_le; lia).
  rewrite bind_ass_true, bind_upd, bind_get.
  set (w3 := set_ob w2 (OD x) (with_sz n (ob w2 (OD x)))).
  assert (ST3 : step1 w2 w3 (OD x)).
  { apply step1_upd; [apply ST12|reflexivity|reflexivity|].
    unfold store_shape. simpl. rewrite OD2, P1. split; [lia|]. split; [lia|]. split; [exact SS3|].
    exists cs. unfold owner_of. simpl. rewrite K1. split; [exact B2|lia]. }
  assert (ES3 : esize w3 e = n).
  { assert (ES2 : esize w2 e = n).
    { rewrite (esize_same w w2 e); [exact ES|]. intros y _. apply (s1_other _ _ _ ST12). congruence. }
    pose proof (esize_grow w2 w3 x e n) as G. rewrite ES2 in G.
    enough (n <= esize w3 e <= Z.max n n) by lia. apply G.
    - intros y Ne. unfold w3. rewrite ob_set_other by congruence. reflexivity.
    - rewrite OD2. lia.
    - unfold w3. rewrite ob_set_same. reflexivity. }
  rewrite ES3. unfold for_. fold n in VL. rewrite <- VL, Nat2Z.id.
  assert (T3 : ob w3 (OT x) = ob w2 (OT x)) by (unfold w3; now rewrite ob_set_other by congruence).
  assert (D3 : ob w3 (OD x) = with_sz n (ob w (OD x))) by (unfold w3; rewrite ob_set_same, OD2; reflexivity).
  assert (B3 : hblk (hp w3) a = Live OwnExt cs) by exact B2.
  assert (W3 : world_shape w3) by apply ST3.
  assert (H3 : holds w3 (OT x) us).
  { eapply holds_same; [apply (s1_other _ _ _ ST3); congruence|exact H2]. }
  (* the scratch buffer is not the borrowed block *)
  assert (NT : ptr (ob w2 (OT x)) <> Some a).
  { intros P. destruct (ptr_live _ _ _ (s1_shape _ _ _ ST12) P) as [c' [B' _]].
    rewrite B2 in B'. injection B' as E _. unfold owner_of in E. rewrite Kt in E. discriminate. }
  destruct (for_wr_gen (fun k => Some (nth (Z.to_nat k) us (VB false)))
     (fun i => v <- get_at (OT x) i ;; at_wr (OD x) i v) w3 a OwnExt cs 0 (List.length us) B3)
    as [w4 [cs4 [E4 [U4 [L4 N4]]]]]; [lia|lia| |].
  { intros k w5 cs5 Hk U5 L5.
    assert (G : get_at (OT x) k w5 = (Done (nth (Z.to_nat k) us (VB false)), w5)).
    { rewrite <- (Z2Nat.id k) at 1 by lia. apply get_at_holds; [|eapply holds_same; [|exact H3]|lia].
      - destruct U5 as [-> _]. now rewrite T3.
      - destruct U5 as [U51 [_ [_ [_ U55]]]]. split; [now rewrite U51|].
        intros b Pb. apply U55. intros ->. apply NT. now rewrite <- T3. }
    rewrite (bind_done _ _ _ _ _ G). destruct U5 as [U51 _].
    apply at_wr_in; rewrite U51, D3; simpl; auto. lia. }
  rewrite (bind_done _ _ _ _ _ E4), take_shape_done.
  assert (W4 : world_shape w4) by (eapply shape_cells; eauto).
  pose proof U4 as [U41 [U42 [U43 [U44 U45]]]].
  assert (CS4 : cs4 = map Some us ++ skipn (List.length us) cs).
  { apply (list_split cs (List.length us) (map Some us) None); auto; [lia|now rewrite map_length|].
    intros i. rewrite N4, Nat2Z.id.
    destruct (Nat.ltb_spec i (List.length us)).
    - replace ((0 <=? Z.of_nat i) && (Z.of_nat i <? 0 + Z.of_nat (List.length us))) with true
        by (symmetry; apply andb_true_intro; split; [apply Z.leb_le|apply Z.ltb_lt]; lia).
      rewrite (nth_indep _ None (Some (VB false))) by (now rewrite map_length). now rewrite map_nth.
    - replace ((0 <=? Z.of_nat i) && (Z.of_nat i <? 0 + Z.of_nat (List.length us))) with false; [reflexivity|].
      symmetry. apply andb_false_intro2. apply Z.ltb_ge. lia. }
  assert (H4 : vholds w4 x us).
  { apply holds_cells; auto. rewrite U41, D3. simpl. split; [lia|].
    intros i Hi0. unfold cells_of. rewrite U41, D3. simpl. rewrite P1, U44, N4, Nat2Z.id.
    replace ((0 <=? Z.of_nat i) && (Z.of_nat i <? 0 + Z.of_nat (List.length us))) with true; [reflexivity|].
    symmetry; apply andb_true_intro; split; [apply Z.leb_le|apply Z.ltb_lt]; lia. }
  assert (OT4 : ob w4 (OT x) = ob w2 (OT x)) by (now rewrite U41).
  assert (OK4 : world_ok w -> world_ok w4).
  { intros [_ IN]. split; [exact W4|]. intros o.
    assert (I3 : inited w3 o).
    { destruct (oid_dec o (OD x)) as [->|ND].
      - destruct (IN (OD x)) as [I1 I2]. rewrite K1 in I2. destruct I2 as [I2 I3]; [discriminate|].
        assert (IC : forall m, m <= cap (ob w (OD x)) -> init_upto (hp w3) (ob w3 (OD x)) m).
        { intros m Hm b own' c' Pb Bb i Hi0. rewrite D3 in Pb. simpl in Pb.
          assert (b = a) by congruence. subst b. rewrite B3 in Bb. injection Bb as <- <-.
          eapply (I3 a OwnExt cs); eauto. lia. }
        split; [apply IC; rewrite D3; simpl; lia|]. intros _. rewrite D3. simpl. split; [lia|].
        rewrite <- D3. apply IC. lia.
      - destruct (oid_dec o (OT x)) as [->|NTx].
        + eapply inited_buffer; eauto.
        + eapply inited_same; [apply (s1_other _ _ _ ST3); auto|].
          eapply inited_same; [apply (s1_other _ _ _ ST12); auto|]. auto. }
    eapply (inited_cells w3 w4 a OwnExt cs cs4); [exact B3|exact U4| |exact I3]. intros i v Hv. rewrite N4.
    destruct (_ && _); eauto. }
  assert (OTH4 : forall o, o <> OD x -> o <> OT x -> ob w4 o = ob w o).
  { intros o ND NTx. rewrite U41. unfold w3. rewrite ob_set_other by auto. apply (s1_other _ _ _ ST12). auto. }
  assert (SO4 : forall o, o <> OD x -> o <> OT x -> ptr (ob w o) <> Some a -> same_obj w w4 o).
  { intros o ND NTx NP. split; [auto|]. intros b Pb. rewrite U45 by congruence.
    apply (s1_other _ _ _ ST12 o NTx). exact Pb. }
  assert (EXT4 : forall b own cs', own <> OwnCpp -> b <> a -> hblk (hp w) b = Live own cs' -> hblk (hp w4) b = Live own cs').
  { intros b own cs' No Nb Bb. rewrite U45 by auto. apply (s1_ext _ _ _ ST12); auto. }
  assert (NL4 : no_leak w -> no_leak w4).
  { intros NL. pose proof (step1_no_leak _ _ _ ST3 (step1_no_leak _ _ _ ST12 NL)) as NL3.
    intros b c' Hb. rewrite U41. destruct (Nat.eq_dec b a) as [->|Nb]; [rewrite U44 in Hb; discriminate|].
    rewrite U45 in Hb by auto. eapply NL3; eauto. }
  set (w5 := if eim w4 e then set_ob w4 (OD x) (with_mp (shape_of w4 e (mp (ob w4 (OD x)))) (ob w4 (OD x))) else w4).
  assert (D5 : exists m, ob w5 (OD x) = with_mp m (with_sz n (ob w (OD x)))).
  { unfold w5. destruct (eim w4 e).
    - eexists. rewrite ob_set_same, U41, D3. reflexivity.
    - exists (mp (ob w (OD x))). rewrite U41, D3. reflexivity. }
  assert (HP5 : hp w5 = hp w4) by (unfold w5; destruct (eim w4 e); reflexivity).
  assert (O5 : forall o, o <> OD x -> ob w5 o = ob w4 o).
  { intros o No. unfold w5. destruct (eim w4 e); auto. now rewrite ob_set_other. }
  assert (ST5 : step1 w4 w5 (OD x)).
  { unfold w5. destruct (eim w4 e); [now apply step1_mp|now apply step1_refl]. }
  exists w5. split; [reflexivity|]. split; [apply ST5|].
  destruct D5 as [m D5].
  split.
  { intros WO. split; [apply ST5|]. specialize (OK4 WO). destruct OK4 as [_ IN4]. intros o.
    destruct (oid_dec o (OD x)) as [->|ND].
    - destruct (IN4 (OD x)) as [J1 J2]. unfold inited, init_upto in *. rewrite HP5.
      rewrite U41, D3 in J1, J2. rewrite D5. simpl in *. auto.
    - destruct (IN4 o) as [J1 J2]. unfold inited, init_upto in *. rewrite HP5, O5 by auto. auto. }
  split. { unfold w5. destruct (eim w4 e); [now apply holds_mp|exact H4]. }
  split. { split; [rewrite D5; exact K1|]. split; [rewrite D5; exact P1|]. rewrite O5, OT4 by congruence. exact Kt. }
  split. { now rewrite D5. }
  split. { right. rewrite O5, OT4 by congruence. exact Pt. }
  rewrite HP5. split; [now rewrite U44, CS4|]. split; [exact EXT4|].
  split. { intros o ND NTx. rewrite O5 by auto. auto. }
  split. { intros o ND NTx NP. destruct (SO4 o ND NTx NP) as [A1 A2]. split; [now rewrite O5|].
    intros b Pb. rewrite HP5. auto. }
  intros NL. apply (step1_no_leak _ _ _ ST5). auto.
Qed.

(** More values than the borrowed memory holds. *)
Lemma borrow_assign_long lm w x e : kd (ob w (OD x)) = KBorrow -> cap (ob w (OD x)) < esize w e ->
  exists m, assign lm x e w = (Thrown (Ass m), w).
Proof.
  intros K L. unfold assign. rewrite bind_st, K. unfold assign_borrow. rewrite bind_get.
  replace (esize w e <=? cap (ob w (OD x))) with false by (symmetry; apply Z.leb_gt; lia).
  eexists. apply bind_ass_false.
Qed.
Lemma borrow_resize_long w o n : 1 <= n -> cap (ob w o) < n ->
  exists m, borrow_resize o n w = (Thrown (Ass m), w).
Proof.
  intros N L. unfold borrow_resize. replace (1 <=? n) with true by (symmetry; apply Z.leb_le; lia).
  rewrite bind_ass_true, bind_st. replace (n <=? cap (ob w o)) with false by (symmetry; apply Z.leb_gt; lia).
  eexists. reflexivity.
Qed.

(** Fewer values than the current length: the assignment always fails. *)
Lemma borrow_assign_short lm w x e w' : kd (ob w (OD x)) = KBorrow -> esize w e < sz (ob w (OD x)) ->
  assign lm x e w <> (Done tt, w').
Proof.
  intros K L. unfold assign. rewrite bind_st, K. unfold assign_borrow. rewrite bind_get.
  unfold bind at 1, ass at 1. destruct (esize w e <=? cap (ob w (OD x))); cbn; [|discriminate].
  unfold bind at 1. destruct (resize (OT x) (esize w e) w) as [[[]| |] w1]; try discriminate.
  unfold bind at 1. destruct (fill_temp _ _ _ _ _ w1) as [[[]| |] w2]; try discriminate.
  replace (sz (ob w (OD x)) <=? esize w e) with false by (symmetry; apply Z.leb_gt; lia).
  cbn. discriminate.
Qed.
Lemma borrow_assign_short_throws lm w x e rho us :
  world_shape w -> kd (ob w (OD x)) = KBorrow -> kd (ob w (OT x)) = KBuffer ->
  can_assign w x -> env_of w rho e -> wf_expr rho e ->
  1 <= xsize rho e -> fits w (xsize rho e) -> xsize rho e < sz (ob w (OD x)) ->
  value_of lm rho (sty (ob w (OD x))) e us ->
  exists m w', assign lm x e w = (Thrown (Ass m), w') /\
    (forall b own cs, own <> OwnCpp -> hblk (hp w) b = Live own cs -> hblk (hp w') b = Live own cs) /\
    (forall o, o <> OT x -> same_obj w w' o).
Proof.
  intros W K1 K2 CA EN WF N1 Ft L V.
  destruct (assign_stage lm w x e rho us W K2 CA EN WF N1 Ft V) as
    [w1 [w2 [c [ES [E1 [E2 [C [ST12 _]]]]]]]].
  unfold assign. rewrite bind_st, K1. unfold assign_borrow. rewrite bind_get, ES.
  destruct (Z.leb_spec (xsize rho e) (cap (ob w (OD x)))).
  - rewrite bind_ass_true, (bind_done _ _ _ _ _ E1), (bind_done _ _ _ _ _ E2).
    replace (sz (ob w (OD x)) <=? xsize rho e) with false by (symmetry; apply Z.leb_gt; lia).
    rewrite bind_ass_false. eexists _, w2. split; [reflexivity|]. split; [apply ST12|apply ST12].
  - rewrite bind_ass_false. eexists _, w. split; [reflexivity|]. split; [auto|]. intros. apply same_obj_refl.
Qed.

(* ---------------------------------------------------------- R objects *)


Lemma del_foreign w a cs : hblk (hp w) a = Live OwnR cs -> del (Some a) w = (Undef UB_foreign_free, w).
Proof. intros H. unfold del. now rewrite H. Qed.

(** Assigning more elements than the R object has frees the R memory. *)
Lemma sexp_assign_long lm w x a e rho us :
  world_shape w -> wraps w x a ->
  can_assign w x -> env_of w rho e -> wf_expr rho e ->
  1 <= xsize rho e -> fits w (xsize rho e) ->
  sz (ob w (OD x)) < xsize rho e -> cap (ob w (OD x)) < xsize rho e ->
  value_of lm rho (sty (ob w (OD x))) e us ->
  exists w', assign lm x e w = (Undef UB_foreign_free, w').
Proof.
  intros W [K1 [P1 [TD K2]]] CA EN WF N1 Ft L1 L2 V.
  destruct (assign_stage lm w x e rho us W K2 CA EN WF N1 Ft V) as
    [w1 [w2 [c [ES [E1 [E2 [C [ST12 [OD2 [S2 [Ct [At [Kt [Pt H2]]]]]]]]]]]]]].
  destruct (ptr_live _ _ _ W P1) as [cs [B _]]. unfold owner_of in B. rewrite K1, TD in B.
  assert (B2 : hblk (hp w2) a = Live OwnR cs) by (apply (s1_ext _ _ _ ST12); [discriminate|exact B]).
  unfold assign. rewrite bind_st, K1. unfold assign_sexp. rewrite bind_get, ES.
  rewrite (bind_done _ _ _ _ _ E1), (bind_done _ _ _ _ _ E2), bind_get, OD2.
  replace (sz (ob w (OD x)) <? xsize rho e) with true by (symmetry; apply Z.ltb_lt; lia).
  unfold sexp_resize. replace (1 <=? xsize rho e) with true by (symmetry; apply Z.leb_le; lia).
  rewrite bind_assoc, bind_ass_true, bind_assoc, bind_st, OD2.
  rewrite (shape_alloc _ _ _ W P1). cbn [negb].
  replace (cap (ob w (OD x)) <? xsize rho e) with true by (symmetry; apply Z.ltb_lt; lia).
  rewrite P1, bind_assoc, bind_ass_true, bind_assoc.
  rewrite (bind_undef _ _ _ _ _ (del_foreign _ _ _ B2)). eauto.
Qed.

(** Assigning up to as many elements as the R object has succeeds, but the R
    memory then belongs to the scratch buffer, whose destruction frees it. *)
Lemma sexp_assign_short lm w x a e rho us :
  world_shape w -> wraps w x a ->
  can_assign w x -> env_of w rho e -> wf_expr rho e ->
  1 <= xsize rho e -> fits w (xsize rho e) -> xsize rho e <= cap (ob w (OD x)) ->
  value_of lm rho (sty (ob w (OD x))) e us ->
  exists w', assign lm x e w = (Done tt, w') /\ ptr (ob w' (OT x)) = Some a /\
    ptr (ob w' (OD x)) <> Some a /\
    exists w'', vec_destroy x w' = (Undef UB_foreign_free, w'').
Proof.
  intros W [K1 [P1 [TD K2]]] CA EN WF N1 Ft L V.
  destruct (assign_stage lm w x e rho us W K2 CA EN WF N1 Ft V) as
    [w1 [w2 [c [ES [E1 [E2 [C [ST12 [OD2 [S2 [Ct [At [Kt [Pt H2]]]]]]]]]]]]]].
  destruct (ptr_live _ _ _ W P1) as [cs [B _]]. unfold owner_of in B. rewrite K1, TD in B.
  assert (B2 : hblk (hp w2) a = Live OwnR cs) by (apply (s1_ext _ _ _ ST12); [discriminate|exact B]).
  pose proof (shape_alloc _ _ _ W P1) as AL.
  set (n := xsize rho e) in *.
  assert (NP : ptr (ob w2 (OT x)) <> Some a).
  { intros P. destruct (ptr_live _ _ _ (s1_shape _ _ _ ST12) P) as [c' [B' _]].
    rewrite B2 in B'. injection B' as E _. unfold owner_of in E. rewrite Kt in E. discriminate. }
  assert (RS : forall w0, ob w0 (OD x) = ob w (OD x) \/ ob w0 (OD x) = with_sz n (ob w (OD x)) ->
     sexp_resize (OD x) n w0 = (Done tt, set_ob w0 (OD x) (with_sz n (ob w0 (OD x))))).
  { intros w0 H0. unfold sexp_resize. replace (1 <=? n) with true by (symmetry; apply Z.leb_le; lia).
    rewrite bind_ass_true, bind_st.
    assert (A0 : alloc (ob w0 (OD x)) = true) by (destruct H0 as [-> | ->]; exact AL).
    assert (C0 : cap (ob w0 (OD x)) = cap (ob w (OD x))) by (destruct H0 as [-> | ->]; reflexivity).
    rewrite A0, C0. cbn [negb]. replace (cap (ob w (OD x)) <? n) with false by (symmetry; apply Z.ltb_ge; lia).
    reflexivity. }
  unfold assign. rewrite bind_st, K1. unfold assign_sexp. rewrite bind_get, ES. fold n.
  rewrite (bind_done _ _ _ _ _ E1), (bind_done _ _ _ _ _ E2), bind_get, OD2.
  assert (A3 : exists w3, (if sz (ob w (OD x)) <? n then sexp_resize (OD x) n else ret tt) w2 = (Done tt, w3) /\
     hp w3 = hp w2 /\ (ob w3 (OD x) = ob w (OD x) \/ ob w3 (OD x) = with_sz n (ob w (OD x))) /\
     (forall o, o <> OD x -> ob w3 o = ob w2 o)).
  { destruct (sz (ob w (OD x)) <? n).
    - eexists. split; [apply RS; auto|]. split; [reflexivity|]. rewrite ob_set_same, OD2. split; auto.
      intros o No. now rewrite ob_set_other.
    - exists w2. auto. }
  destruct A3 as [w3 [E3 [HP3 [D3 O3]]]].
  rewrite (bind_done _ _ _ _ _ E3).
  unfold sexp_moveit. rewrite bind_assoc, bind_st, bind_assoc, bind_st.
  assert (TD3 : todel (ob w3 (OD x)) = false) by (destruct D3 as [-> | ->]; exact TD).
  rewrite TD3. cbn [negb]. rewrite O3, S2 by congruence.
  rewrite bind_assoc, (bind_done _ _ _ _ _ (RS w3 D3)), bind_assoc, bind_st, bind_assoc, bind_st, bind_assoc, !bind_upd.
  rewrite take_shape_done.
  match goal with |- context [if eim ?W _ then _ else _] => set (w5 := W) end.
  set (w6 := if eim w5 e then set_ob w5 (OD x) (with_mp (shape_of w5 e (mp (ob w5 (OD x)))) (ob w5 (OD x))) else w5).
  assert (T6 : ob w6 (OT x) = ob w5 (OT x)).
  { unfold w6. destruct (eim w5 e); reflexivity. }
  assert (P6 : ptr (ob w6 (OD x)) = ptr (ob w5 (OD x))).
  { unfold w6. destruct (eim w5 e); [rewrite ob_set_same|]; reflexivity. }
  assert (H6 : hp w6 = hp w2).
  { transitivity (hp w5); [unfold w6; destruct (eim w5 e); reflexivity|exact HP3]. }
  assert (PT : ptr (ob w5 (OT x)) = Some a).
  { unfold w5. rewrite ob_set_other, ob_set_same by congruence. cbn [ptr with_cap with_sz with_ptr]. rewrite ob_set_same. cbn [ptr with_sz].
    destruct D3 as [-> | ->]; exact P1. }
  assert (KT : kd (ob w5 (OT x)) = KBuffer /\ alloc (ob w5 (OT x)) = true).
  { unfold w5. rewrite ob_set_other, ob_set_same by congruence. simpl.
    split; rewrite O3 by congruence; auto. }
  exists w6. split; [reflexivity|]. split; [now rewrite T6|]. split.
  { rewrite P6. unfold w5. rewrite ob_set_same. simpl. rewrite O3 by congruence. exact NP. }
  unfold vec_destroy, any_destroy. rewrite bind_assoc, bind_st, T6. rewrite (proj1 KT).
  unfold destroy. rewrite bind_assoc, bind_st, T6, PT, (proj2 KT).
  assert (B6 : hblk (hp w6) a = Live OwnR cs) by (rewrite H6; exact B2).
  exists w6. rewrite bind_assoc. now rewrite (bind_undef _ _ _ _ _ (del_foreign _ _ _ B6)).
Qed.


Lemma sexp_writes ws : forall w x a cs, world_shape w -> wraps w x a -> hblk (hp w) a = Live OwnR cs ->
  (forall i v, In (i, v) ws -> 0 <= i < sz (ob w (OD x))) ->
  exists w', elem_writes x ws w = (Done tt, w') /\ world_shape w' /\ ob w' = ob w /\
    hblk (hp w') a = Live OwnR (fold_left (fun l p => list_set l (Z.to_nat (fst p)) (Some (snd p))) ws cs) /\
    (forall b, b <> a -> hblk (hp w') b = hblk (hp w) b).
Proof.
  induction ws as [|[i v] ws IH]; intros w x a cs W WR B H.
  - exists w. cbn. auto.
  - destruct WR as [K1 [P1 [TD K2]]].
    assert (Hi : 0 <= i < sz (ob w (OD x))) by (eapply H; left; reflexivity).
    destruct (ptr_live _ _ _ W P1) as [cs0 [B0 [L1 L2]]]. rewrite B in B0. injection B0 as _ <-.
    destruct (wrc_ok w a i (Some v) OwnR cs B) as [w1 [E1 U1]]; [lia|].
    assert (W1 : world_shape w1) by (eapply shape_cells; eauto; apply list_set_length).
    destruct U1 as [U11 [_ [_ [U14 U15]]]].
    destruct (IH w1 x a (list_set cs (Z.to_nat i) (Some v))) as [w2 [E2 [W2 [O2 [B2 X2]]]]]; auto.
    + unfold wraps. rewrite U11. auto.
    + intros j u Hj. rewrite U11. apply (H j u). now right.
    + exists w2. cbn [elem_writes fold_left fst snd].
      rewrite <- (at_wr_in w (OD x) a i v P1 (shape_alloc _ _ _ W P1)) in E1 by lia.
      rewrite (bind_done _ _ _ _ _ E1). split; [exact E2|]. split; [exact W2|]. split; [congruence|].
      split; [exact B2|]. intros b Hb. rewrite X2, U15; auto.
Qed.

Lemma sexp_destroy_keeps w x a : wraps w x a -> any_destroy (OD x) w = (Done tt, w).
Proof.
  intros [K1 [P1 [TD K2]]]. unfold any_destroy. rewrite bind_st, K1. unfold sexp_destroy. rewrite bind_st, TD. reflexivity.
Qed.

(* -------------------------------------------------- making such vectors *)


Lemma user_block_same w own l o : world_shape w -> same_obj w (user_block w own l) o.
Proof.
  intros W. split; [reflexivity|]. intros a P. destruct (ptr_live _ _ _ W P) as [cs [B _]].
  pose proof (live_lt _ _ _ _ W B). simpl.
  replace (Nat.eqb a (hnext (hp w))) with false by (symmetry; apply Nat.eqb_neq; lia). reflexivity.
Qed.

Lemma user_block_ok w own l : world_ok w -> own <> OwnCpp -> Z.of_nat (List.length l) <= 2 ^ 60 ->
  world_ok (user_block w own l) /\ (no_leak w -> no_leak (user_block w own l)) /\
  hblk (hp (user_block w own l)) (hnext (hp w)) = Live own (map Some l).
Proof.
  intros [W IN] NO L. split; [split|split].
  - split.
    + intros a Ha. simpl in *. replace (Nat.eqb a (hnext (hp w))) with false by (symmetry; apply Nat.eqb_neq; lia).
      apply (ws_fresh _ W). lia.
    + intros o. destruct (user_block_same w own l o W) as [E SB].
      pose proof (ws_store _ W o) as S. unfold store_shape in *. rewrite E.
      destruct (ptr (ob w o)); [|exact S]. rewrite (SB _ eq_refl). exact S.
    + apply (ws_sep _ W).
    + apply (ws_lim _ W).
    + intros a own' cs. simpl. destruct (Nat.eqb a (hnext (hp w))).
      * intros H. injection H as <- <-. rewrite map_length. split; [exact L|congruence].
      * apply (ws_len _ W).
  - intros o. eapply inited_same; [now apply user_block_same|apply IN].
  - intros NL a cs. simpl. destruct (Nat.eqb a (hnext (hp w))); [congruence|]. apply NL.
  - simpl. now rewrite Nat.eqb_refl.
Qed.

Lemma map_some_nth l i : (i < List.length l)%nat -> nth i (map Some l) None = Some (nth i l (VB false)).
Proof.
  intros H. rewrite (nth_indep _ None (Some (VB false))) by now rewrite map_length. now rewrite map_nth.
Qed.

Lemma foreign_made w x l s own a : world_ok w -> unborn w (OD x) -> unborn w (OT x) ->
  hblk (hp w) a = Live own (map Some l) -> own <> OwnCpp ->
  ptr s = Some a -> owner_of s = own -> alloc s = true -> sz s = Z.of_nat (List.length l) -> cap s = Z.of_nat (List.length l) ->
  kd s <> KBuffer ->
  let w' := set_ob (set_ob w (OD x) s) (OT x) (store_default KBuffer (sty s)) in
  world_ok w' /\ vholds w' x l /\ (no_leak w -> no_leak w') /\
  (forall o, o <> OD x -> o <> OT x -> same_obj w w' o) /\ can_assign w' x.
Proof.
  intros [W IN] D1 D2 B NO P OW AL SZ CP K w'.
  assert (ED : ob w' (OD x) = s) by (unfold w'; rewrite ob_set_other, ob_set_same by congruence; reflexivity).
  assert (ET : ob w' (OT x) = store_default KBuffer (sty s)) by (unfold w'; apply ob_set_same).
  assert (EO : forall o, o <> OD x -> o <> OT x -> ob w' o = ob w o).
  { intros o N1 N2. unfold w'. now rewrite !ob_set_other. }
  assert (NOW : forall b, ~ owns (ob w' (OD x)) b).
  { intros b [_ H]. rewrite ED in H. congruence. }
  assert (NOT : forall b, ~ owns (ob w' (OT x)) b).
  { intros b [H _]. rewrite ET in H. discriminate. }
  assert (W' : world_shape w').
  { split.
    - apply (ws_fresh _ W).
    - intros o. destruct (oid_dec o (OD x)) as [->|N1]; [|destruct (oid_dec o (OT x)) as [->|N2]].
      + rewrite ED. unfold store_shape. rewrite P. split; [lia|]. split; [lia|]. split; [exact AL|].
        exists (map Some l). rewrite OW, map_length. split; [exact B|lia].
      + rewrite ET. unfold store_shape. simpl. repeat split; lia.
      + rewrite EO by auto. apply (ws_store _ W).
    - intros o1 o2 b H1 H2.
      assert (G : forall o, owns (ob w' o) b -> owns (ob w o) b).
      { intros o H. destruct (oid_dec o (OD x)) as [->|N1]; [now apply NOW in H|].
        destruct (oid_dec o (OT x)) as [->|N2]; [now apply NOT in H|]. now rewrite EO in H. }
      apply (ws_sep _ W o1 o2 b); auto.
    - apply (ws_lim _ W).
    - apply (ws_len _ W). }
  assert (H : vholds w' x l).
  { apply holds_cells; auto. rewrite ED. split; [exact SZ|]. intros i Hi.
    unfold cells_of. rewrite ED, P. change (hp w') with (hp w). rewrite B. now apply map_some_nth. }
  split; [split; [exact W'|]|].
  { intros o. destruct (oid_dec o (OD x)) as [->|N1]; [|destruct (oid_dec o (OT x)) as [->|N2]].
    - pose proof (inited_holds _ _ _ W' H) as I. split; [exact I|]. intros _.
      rewrite ED in *. rewrite CP, <- SZ. split; [lia|exact I].
    - rewrite <- (oid_eqb_refl (OT x)) in *. clear. unfold inited. unfold w'. rewrite ob_set_same. simpl.
      split; [intros b own' c H; discriminate|congruence].
    - destruct (IN o) as [I1 I2]. unfold inited. change (hp w') with (hp w). rewrite EO by auto. auto. }
  split; [exact H|]. split.
  { intros NL b c Hb. destruct (NL b c Hb) as [o Ho]. exists o.
    destruct (oid_dec o (OD x)) as [->|N1]; [now apply D1 in Ho|].
    destruct (oid_dec o (OT x)) as [->|N2]; [now apply D2 in Ho|]. now rewrite EO. }
  split; [intros o N1 N2; split; [now apply EO|auto]|].
  left. rewrite ET. reflexivity.
Qed.

Lemma vec_borrow_done w x t a l : world_ok w -> unborn w (OD x) -> unborn w (OT x) ->
  hblk (hp w) a = Live OwnExt (map Some l) ->
  exists w', vec_borrow x t (Some a) (Z.of_nat (List.length l)) w = (Done tt, w') /\
    world_ok w' /\ vholds w' x l /\ borrows w' x a /\ cap (ob w' (OD x)) = Z.of_nat (List.length l) /\
    hp w' = hp w /\ can_assign w' x /\ (no_leak w -> no_leak w') /\
    sty (ob w' (OD x)) = t /\
    (forall o, o <> OD x -> o <> OT x -> same_obj w w' o).
Proof.
  intros WO D1 D2 B.
  destruct (foreign_made w x l (mkStore KBorrow t (Some a) (Z.of_nat (List.length l)) (Z.of_nat (List.length l)) true mp_none false)
     OwnExt a) as [A1 [A2 [A3 [A4 A5]]]]; auto; try discriminate.
  eexists. split; [reflexivity|]. split; [exact A1|]. split; [exact A2|].
  split; [split; [|split]|]; try (rewrite ob_set_other, ob_set_same by congruence; reflexivity).
  { rewrite ob_set_same. reflexivity. }
  split. { rewrite ob_set_other, ob_set_same by congruence; reflexivity. }
  split; [reflexivity|]. split; [exact A5|]. split; [exact A3|].
  split; [rewrite ob_set_other, ob_set_same by congruence; reflexivity|exact A4].
Qed.

Lemma vec_sexp_done w x t a l m : world_ok w -> unborn w (OD x) -> unborn w (OT x) ->
  hblk (hp w) a = Live OwnR (map Some l) ->
  exists w', vec_sexp x t (Some a) (Z.of_nat (List.length l)) m w = (Done tt, w') /\
    world_ok w' /\ vholds w' x l /\ wraps w' x a /\ cap (ob w' (OD x)) = Z.of_nat (List.length l) /\
    hp w' = hp w /\ can_assign w' x /\ (no_leak w -> no_leak w') /\
    sty (ob w' (OD x)) = t /\
    (forall o, o <> OD x -> o <> OT x -> same_obj w w' o).
Proof.
  intros WO D1 D2 B.
  destruct (foreign_made w x l (mkStore KBorrowSEXP t (Some a) (Z.of_nat (List.length l)) (Z.of_nat (List.length l)) true
      (if ismat m then m else mp_none) false)
     OwnR a) as [A1 [A2 [A3 [A4 A5]]]]; auto; try discriminate.
  eexists. split; [reflexivity|]. split; [exact A1|]. split; [exact A2|].
  split; [split; [|split; [|split]]|]; try (rewrite ob_set_other, ob_set_same by congruence; reflexivity).
  { rewrite ob_set_same. reflexivity. }
  split. { rewrite ob_set_other, ob_set_same by congruence; reflexivity. }
  split; [reflexivity|]. split; [exact A5|]. split; [exact A3|].
  split; [rewrite ob_set_other, ob_set_same by congruence; reflexivity|exact A4].
Qed.
