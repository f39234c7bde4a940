(** Memory safety of statements on vectors, whatever their operands. *)
From Coq Require Import String ZArith List Bool Lia.
From Verif Require Import Base Num StoreModel VecModel Spec SpecExpr SpecHist SpecProg SpecSub SpecAlloc SpecVec SpecSafe
  CapProofs StoreProofs StoreOps VecProofs VecAssign VecEval VecThms StoreThms SubsetThms AllocProofs AllocProofs2 ConsProofs BorrowProofs LendProofs.
Import ListNotations.
Open Scope Z_scope.
Local Notation length := List.length (only parsing).

(** Not undefined, or undefined arithmetic. *)
Definition tame {A} (r : outcome A) : Prop := forall u, r = Undef u -> arithmetic u.

Lemma tame_done {A} (a : A) : tame (Done a). Proof. intros u H. discriminate. Qed.
Lemma tame_thrown {A} e : @tame A (Thrown e). Proof. intros u H. discriminate. Qed.
Lemma tame_obind {A B} (m : outcome A) (f : A -> outcome B) : tame m -> (forall a, m = Done a -> tame (f a)) -> tame (obind m f).
Proof. intros H K. destruct m as [a|e|u]; cbn [obind]; [now apply K|apply tame_thrown|]. intros u' Q. injection Q as <-. now apply H. Qed.
Lemma tame_cast t v : tame (cast t v).
Proof.
  destruct t, v; try apply tame_done. cbn [cast]. unfold f2int. destruct (ftrunc d) as [z|]; cbn [obind].
  - destruct (in_int z); [apply tame_done|]. intros u H. injection H as <-. right. now left.
  - intros u H. injection H as <-. right. now left.
Qed.
Lemma cast_thrown t v e : cast t v <> Thrown e.
Proof.
  destruct t, v; try discriminate. cbn [cast]. unfold f2int. destruct (ftrunc d) as [z|]; cbn [obind]; [|discriminate].
  destruct (in_int z); discriminate.
Qed.
Lemma tame_int z : tame (int_res z).
Proof. unfold int_res. destruct (in_int z); [apply tame_done|]. intros u H. injection H as <-. now left. Qed.
Lemma tame_arith zop fop l r : tame (arith zop fop l r).
Proof.
  unfold arith. destruct (v2z l); [destruct (v2z r)|]; try apply tame_done.
  apply tame_obind; [apply tame_int|]. intros. apply tame_done.
Qed.
Lemma tame_bin lm op l r : tame (bin_f lm op l r).
Proof.
  destruct op; cbn [bin_f]; unfold trait_arith, trait_div, trait_pow, trait_eq, trait_ne, compare_vals;
    try (apply tame_obind; [apply tame_arith|intros; first [apply tame_cast|apply tame_done]]); try apply tame_done; try apply tame_cast;
    destruct (v2z l), (v2z r); apply tame_done.
Qed.
Lemma tame_un lm op v : tame (un_f lm op v).
Proof.
  destruct op; cbn [un_f]; [|apply tame_done]. destruct (v2z v); [|apply tame_done].
  apply tame_obind; [apply tame_int|intros; apply tame_done].
Qed.
Lemma tame_modz i n : tame (modz i n).
Proof. unfold modz. destruct (n =? 0); [|apply tame_done]. intros u H. injection H as <-. right. now right. Qed.


Section Ini.
Variable ini : mode.
Local Notation inited := (LendProofs.inited ini).
Local Notation fit := (SpecSafe.fit ini).

(** Not undefined, or undefined in an allowed way. *)
Definition calm {A} (r : outcome A) : Prop := forall u, r = Undef u -> allowed ini u.
Lemma calm_tame {A} (r : outcome A) : tame r -> calm r. Proof. intros H u E. left. now apply H. Qed.
Lemma calm_done {A} (a : A) : calm (Done a). Proof. intros u H. discriminate. Qed.
Lemma calm_thrown {A} e : @calm A (Thrown e). Proof. intros u H. discriminate. Qed.
Lemma calm_obind {A B} (m : outcome A) (f : A -> outcome B) : calm m -> (forall a, m = Done a -> calm (f a)) -> calm (obind m f).
Proof. intros H K. destruct m as [a|e|u]; cbn [obind]; [now apply K|apply calm_thrown|]. intros u' Q. injection Q as <-. now apply H. Qed.
Lemma calm_cast t v : calm (cast t v). Proof. apply calm_tame, tame_cast. Qed.
Lemma calm_bin lm op l r : calm (bin_f lm op l r). Proof. apply calm_tame, tame_bin. Qed.
Lemma calm_un lm op v : calm (un_f lm op v). Proof. apply calm_tame, tame_un. Qed.
Lemma calm_modz i n : calm (modz i n). Proof. apply calm_tame, tame_modz. Qed.
Lemma allowed_cast : allowed ini UB_cast. Proof. left. right. now left. Qed.

(** A step of a computation that does not change the state. *)
Lemma bind_calm {A B} (m : M world A) (f : A -> M world B) w : snd (m w) = w -> calm (fst (m w)) ->
  (forall a, m w = (Done a, w) -> calm (fst (f a w))) -> calm (fst (bind m f w)).
Proof.
  intros P T H. unfold bind. destruct (m w) as [[a|e|u] w1]; simpl in P; subst w1.
  - now apply H.
  - apply calm_thrown.
  - intros u' Q. injection Q as <-. now apply T.
Qed.

(** Reading an element of live memory. *)
Lemma rd_calm w x a i : world_shape w -> inited w x -> ptr (ob w (OD x)) = Some a -> 0 <= i < sz (ob w (OD x)) ->
  exists r, rd (Some a) i w = (r, w) /\ calm r.
Proof.
  intros W I P Hi. destruct (ptr_live _ _ _ W P) as [cs [B [L1 L2]]]. unfold rd. rewrite B.
  replace ((0 <=? i) && (i <? Z.of_nat (length cs))) with true by (symmetry; apply andb_true_intro; split; [apply Z.leb_le|apply Z.ltb_lt]; lia).
  destruct (nth (Z.to_nat i) cs None) as [v|] eqn:N; [eexists; split; [reflexivity|apply calm_done]|].
  eexists. split; [reflexivity|]. intros u H. injection H as <-. destruct (written ini) eqn:Ei; [|right; now split].
  destruct (I Ei) as [l H]. apply holds_cells in H; [|exact W]. destruct H as [H1 H2].
  specialize (H2 (Z.to_nat i) ltac:(lia)). rewrite (cells_of_ptr w (OD x) a _ cs P B), N in H2. discriminate.
Qed.
Lemma at_rd_calm w x i : world_shape w -> inited w x -> 0 <= i -> calm (fst (at_rd (OD x) i w)).
Proof.
  intros W I Hi. destruct (Z.ltb_spec i (sz (ob w (OD x)))) as [L|L].
  - destruct (shape_ptr w (OD x) W) as [a P]; [lia|]. rewrite (at_rd_in w (OD x) a i P (shape_alloc _ _ _ W P) L).
    destruct (rd_calm w x a i W I P) as [r [E C]]; [lia|]. now rewrite E.
  - destruct (at_rd_out w (OD x) i L) as [m E]. rewrite E. apply calm_thrown.
Qed.

Definition readable (w : world) (e : expr) : Prop := forall x, In x (vars e) -> inited w x.

Lemma esize_range w e : world_shape w -> sizes_ok e -> 0 <= esize w e <= 2 ^ 64.
Proof.
  intros W. induction e; cbn [esize sizes_ok]; intros S.
  - pose proof (ws_store _ W (OD x)) as Sh. unfold store_shape in Sh. destruct (ptr (ob w (OD x))) as [a|].
    + destruct Sh as [A [B [C [cs [D [E F]]]]]]. pose proof (proj1 (ws_len _ W _ _ _ D)). lia.
    + lia.
  - lia.
  - lia.
  - lia.
  - destruct S as [S1 S2]. specialize (IHe1 S1). specialize (IHe2 S2).
    destruct (is_sca e1), (is_sca e2); cbn [andb]; try lia. destruct (esize w e2 <? esize w e1); lia.
  - auto.
Qed.

Lemma elem_calm lm w e : world_shape w -> readable w e -> sizes_ok e -> forall i, 0 <= i -> calm (fst (elem lm e i w)).
Proof.
  intros W. induction e; cbn [sizes_ok]; intros R S i Hi; cbn [elem].
  - apply at_rd_calm; auto. apply R. now left.
  - destruct (i <? Z.of_nat (length l)); [apply calm_done|apply calm_thrown].
  - apply calm_done.
  - destruct S as [S1 [S2 S3]]. rewrite bind_get. pose proof (esize_range w e W S1) as ES.
    apply bind_calm; [reflexivity|apply calm_modz|]. intros k Hk.
    assert (0 <= k).
    { unfold lift, modz in Hk. destruct (Z.eqb_spec (esize w e) 0); [discriminate|]. injection Hk as <-. apply Z.mod_pos_bound. lia. }
    apply bind_calm; [reflexivity| |].
    + unfold lift, ind_at. destruct (k <? Z.of_nat (length ind)); [apply calm_done|apply calm_thrown].
    + intros j Hj. unfold lift, ind_at in Hj. destruct (Z.ltb_spec k (Z.of_nat (length ind))); [|discriminate].
      injection Hj as <-. apply bind_calm; [apply elem_pure| |intros; apply calm_done]. apply IHe; auto. rewrite Forall_forall in S3. apply S3. apply nth_In. lia.
  - destruct S as [S1 S2]. rewrite bind_get.
    assert (R1 : readable w e1) by (intros y Hy; apply R; simpl; rewrite in_app_iff; auto).
    assert (R2 : readable w e2) by (intros y Hy; apply R; simpl; rewrite in_app_iff; auto).
    assert (G : forall e, sizes_ok e -> (forall i, 0 <= i -> calm (fst (elem lm e i w))) ->
      let m := if is_sca e then elem lm e 0 else k <- lift (modz i (esize w e)) ;; elem lm e k in
      snd (m w) = w /\ calm (fst (m w))).
    { intros e S Te. pose proof (esize_range w e W S) as ES. destruct (is_sca e); [split; [apply elem_pure|apply Te; lia]|].
      split; [apply bind_pure; [reflexivity|intros; apply elem_pure]|].
      apply bind_calm; [reflexivity|apply calm_modz|]. intros k Hk. apply Te.
      unfold lift, modz in Hk. destruct (Z.eqb_spec (esize w e) 0); [discriminate|]. injection Hk as <-. apply Z.mod_pos_bound. lia. }
    destruct (G e1 S1 (IHe1 R1 S1)) as [P1 T1]. destruct (G e2 S2 (IHe2 R2 S2)) as [P2 T2].
    apply bind_calm; [exact P1|exact T1|]. intros a _. apply bind_calm; [exact P2|exact T2|]. intros b _. apply calm_bin.
  - rewrite bind_get. pose proof (esize_range w e W S) as ES. apply bind_calm.
    + destruct (is_sca e); [apply elem_pure|]. apply bind_pure; [reflexivity|intros; apply elem_pure].
    + destruct (is_sca e); [apply IHe; auto; lia|].
      apply bind_calm; [reflexivity|apply calm_modz|]. intros k Hk. apply IHe; auto.
      unfold lift, modz in Hk. destruct (Z.eqb_spec (esize w e) 0); [discriminate|]. injection Hk as <-. apply Z.mod_pos_bound. lia.
    + intros a _. apply calm_un.
Qed.

Lemma omap_undef {A} (f : Z -> outcome A) k : forall i u, omap f (zseq i k) = Undef u -> exists j, i <= j < i + Z.of_nat k /\ f j = Undef u.
Proof.
  induction k as [|k IH]; intros i u; cbn [zseq omap]; [discriminate|].
  destruct (f i) as [v|g|g] eqn:Q; cbn [obind].
  - destruct (omap _ (zseq (i + 1) k)) as [us|g|g] eqn:R; cbn [obind]; try discriminate.
    intros Q2. injection Q2 as ->. destruct (IH (i + 1) u R) as [j [Hj Ej]]. exists j. split; [lia|exact Ej].
  - discriminate.
  - intros Q2. injection Q2 as ->. exists i. split; [lia|exact Q].
Qed.

Lemma fill_outcome lm o t e w a n : world_shape w -> kd (ob w o) = KBuffer -> ptr (ob w o) = Some a -> sz (ob w o) = Z.of_nat n ->
  (forall x, In x (vars e) -> OD x <> o) -> readable w e -> sizes_ok e ->
  exists r w', fill_temp lm o t e (Z.of_nat n) w = (r, w') /\
    match r with
    | Done _ => step1 w w' o /\ ob w' = ob w /\ exists us, holds w' o us
    | Thrown _ => step1 w w' o /\ ob w' = ob w
    | Undef u => allowed ini u
    end.
Proof.
  intros W K P Sz N R S.
  pose proof (fill_temp_eval lm o t e w a n (fun i => fst (elem lm e i w)) W K P Sz N) as G.
  specialize (G ltac:(intros; apply elem_eq)).
  destruct (omap _ (zseq 0 n)) as [us|ex|u] eqn:OM.
  - destruct G as [w' [E [S1 [O1 H1]]]]. exists (Done tt), w'. eauto 6.
  - destruct G as [w' [E [S1 O1]]]. exists (Thrown ex), w'. eauto 6.
  - destruct G as [w' E]. exists (Undef u), w'. split; [exact E|].
    destruct (omap_undef _ _ _ _ OM) as [j [Hj Ej]].
    pose proof (calm_obind (fst (elem lm e j w)) (cast t)) as T. apply T in Ej; [exact Ej| |].
    + apply elem_calm; auto. lia.
    + intros. apply calm_cast.
Qed.

(** What a statement on vector x leaves behind; B: it may run out of memory. *)
Definition leaves {A} (B : Prop) (w : world) (x : nat) (r : outcome A) (w' : world) : Prop :=
  match r with
  | Done _ | Thrown (Ass _) => lstep w w' x /\ fit w' x /\ inited w' x
  | Thrown BadAlloc => B
  | Undef u => allowed ini u
  end.

Lemma readable_same w w' e : (forall x, In x (vars e) -> same_obj w w' (OD x)) -> readable w e -> readable w' e.
Proof. intros H R x Hx. eapply inited_same; [now apply H|now apply R]. Qed.
Lemma readable_step1 w w' o e : step1 w w' o -> (forall x, In x (vars e) -> OD x <> o) -> readable w e -> readable w' e.
Proof. intros S N. apply readable_same. intros x Hx. apply (s1_other _ _ _ S); auto. Qed.
Lemma cpp_small w o a : world_shape w -> hlim (hp w) < 2 ^ 31 -> kd (ob w o) = KBuffer -> ptr (ob w o) = Some a ->
  sz (ob w o) < 2 ^ 31 /\ cap (ob w o) < 2 ^ 31.
Proof.
  intros W L K P. pose proof (ws_store _ W o) as S. unfold store_shape in S. rewrite P in S.
  destruct S as [_ [_ [_ [cs [B [S1 S2]]]]]]. unfold owner_of in B. rewrite K in B.
  pose proof (proj2 (ws_len _ W _ _ _ B) eq_refl). lia.
Qed.

Lemma assign_buffer_leaves lm w x e : world_shape w -> hlim (hp w) < 2 ^ 31 -> owning w x -> ~ In x (wrapped ini) -> inited w x ->
  readable w e -> sizes_ok e -> let (r, w') := assign lm x e w in leaves True w x r w'.
Proof.
  intros W L [K1 K2] NR H0 R S. unfold assign. rewrite bind_st, K1. unfold assign_buffer. rewrite bind_get.
  pose proof (esize_range w e W S) as ES.
  destruct (resize_cases w (OT x) (esize w e) W K2 ltac:(lia)) as
    [c w1 E1 N C Bc RP|m E1 _|m E1 _ _ _|w1 E1 _ _ Oth _ _ _ _|w1 E1 _].
  2, 3: rewrite (bind_thrown _ _ _ _ _ E1); split; [now apply lstep_refl|]; split; [apply fit_owning; [split|]; assumption|eauto].
  2: { rewrite (bind_thrown _ _ _ _ _ E1). exact I. }
  2: { rewrite (bind_undef _ _ _ _ _ E1). exact allowed_cast. }
  rewrite (bind_done _ _ _ _ _ E1).
  destruct RP as [ST1 [Kt [Tt [Mt [Dt [St [At [Pt [Ct Rest]]]]]]]]].
  destruct (ptr (ob w1 (OT x))) as [a|] eqn:Pa; [|congruence].
  assert (NV : forall y, In y (vars e) -> OD y <> OT x) by congruence.
  assert (R1 : readable w1 e) by (eapply readable_step1; [exact ST1|exact NV|exact R]).
  destruct (fill_outcome lm (OT x) (sty (ob w (OD x))) e w1 a (Z.to_nat (esize w e)) (s1_shape _ _ _ ST1) Kt Pa) as [r [w2 [E2 F]]];
    auto; [lia|]. rewrite Z2Nat.id in E2 by lia.
  assert (OD1 : same_obj w w1 (OD x)) by (apply (s1_other _ _ _ ST1); congruence).
  destruct r as [[]|ex|u].
  - destruct F as [ST2 [O2 [us H2]]]. rewrite (bind_done _ _ _ _ _ E2).
    assert (ST : step1 w w2 (OT x)) by (eapply step1_trans; eauto).
    assert (OW : owning w2 x) by (split; [rewrite O2, (proj1 OD1); exact K1|now rewrite O2]).
    assert (L2 : hlim (hp w2) < 2 ^ 31) by (rewrite (s1_lim _ _ _ ST); exact L).
    destruct (cpp_small w2 (OT x) a (s1_shape _ _ _ ST2) L2) as [B1 B2]; [now rewrite O2|now rewrite O2|].
    destruct (moveit_done w2 x (s1_shape _ _ _ ST2) OW B2 B1) as [w3 [E3 [V3 [HP3 [D3 [T3 Oth3]]]]]]; [now rewrite O2|].
    rewrite (bind_done _ _ _ _ _ E3), take_shape_done.
    assert (V : vstep w w3 x) by (eapply vstep_trans; [eapply step1_vstep; [right; reflexivity|exact ST]|exact V3]).
    assert (OW3 : owning w3 x).
    { split; [rewrite D3|rewrite T3]; simpl; [apply OW|now rewrite O2]. }
    assert (H3 : vholds w3 x us).
    { apply holds_cells; [apply V3|]. destruct (holds_cells w2 (OT x) us (s1_shape _ _ _ ST2)) as [HC _].
      destruct (HC H2) as [Q1 Q2]. rewrite D3. split; [exact Q1|].
      intros i Hi. rewrite <- (Q2 i Hi). unfold cells_of. rewrite D3, HP3. reflexivity. }
    destruct (eim w3 e).
    + cbn [leaves]. set (m := shape_of w3 e _).
      assert (S4 : step1 w3 (set_ob w3 (OD x) (with_mp m (ob w3 (OD x)))) (OD x)) by (apply step1_mp; apply V3).
      split; [apply vstep_lstep; [eapply vstep_trans; [exact V|eapply step1_vstep; [left; reflexivity|exact S4]]|apply kept_buffer; rewrite ob_set_same; apply OW3]|]. split.
      * apply fit_owning; [|exact NR]. split; [rewrite ob_set_same; simpl; apply OW3|rewrite ob_set_other by discriminate; apply OW3].
      * intros _. exists us. now apply holds_mp.
    + cbn [leaves]. split; [apply vstep_lstep; [exact V|apply kept_buffer, OW3]|]. split; [now apply fit_owning|]. intros _. eauto.
  - destruct F as [ST2 O2]. rewrite (bind_thrown _ _ _ _ _ E2). destruct ex; [|exact I].
    assert (ST : step1 w w2 (OT x)) by (eapply step1_trans; eauto).
    split; [now apply lstep_scratch|].
    split; [apply fit_owning; [|exact NR]; split; [rewrite O2, (proj1 OD1); exact K1|now rewrite O2]|].
    eapply inited_same; [|exact H0]. apply (s1_other _ _ _ ST). congruence.
  - rewrite (bind_undef _ _ _ _ _ E2). exact F.
Qed.

(** The values of the scratch buffer are copied to the foreign memory. *)
Lemma copy_leaves w x us : forall k i, world_shape w -> fit w x -> inited w x -> kd (ob w (OT x)) = KBuffer -> holds w (OT x) us ->
  0 <= i -> i + Z.of_nat k <= Z.of_nat (length us) -> i + Z.of_nat k <= sz (ob w (OD x)) ->
  exists w', forN k i (fun i => v <- get_at (OT x) i ;; at_wr (OD x) i v) w = (Done tt, w') /\ lstep w w' x /\ ob w' = ob w /\ fit w' x /\ inited w' x.
Proof.
  intros k. revert w. induction k as [|k IH]; intros w i W F In0 K H Hi Hk Hs; cbn [forN].
  - exists w. split; [reflexivity|]. split; [now apply lstep_refl|]. auto.
  - assert (G : get_at (OT x) i w = (Done (nth (Z.to_nat i) us (VB false)), w)).
    { rewrite <- (Z2Nat.id i) at 1 by lia. apply get_at_holds; [exact K|exact H|lia]. }
    destruct (at_wr_any ini w x i (nth (Z.to_nat i) us (VB false)) W F) as [w1 [E1 [S1 [O1 [F1 [I1 T1]]]]]]; [lia|].
    destruct (IH w1 (i + 1)) as [w2 [E2 [S2 [O2 [F2 I2]]]]]; auto; try lia.
    + apply S1.
    + now rewrite O1.
    + eapply holds_same; [apply T1; [congruence|]|exact H]. unfold owner_of. now rewrite K.
    + rewrite O1. lia.
    + exists w2. split; [|split; [eapply lstep_trans; eauto|]].
      * assert (E : (v <- get_at (OT x) i ;; at_wr (OD x) i v) w = (Done tt, w1)) by (rewrite (bind_done _ _ _ _ _ G); exact E1).
        rewrite (bind_done _ _ _ _ _ E). exact E2.
      * split; [congruence|]. auto.
Qed.

Lemma assign_borrow_leaves lm w x e : world_shape w -> kd (ob w (OT x)) = KBuffer -> lent ini w x -> kd (ob w (OD x)) = KBorrow ->
  readable w e -> sizes_ok e -> let (r, w') := assign lm x e w in leaves True w x r w'.
Proof.
  intros W K2 L K1 R S. pose proof (lent_inited ini w x W L) as H0.
  assert (F0 : fit w x) by (split; auto).
  unfold assign. rewrite bind_st, K1. unfold assign_borrow. rewrite bind_get.
  pose proof (esize_range w e W S) as ES.
  destruct (Z.leb_spec (esize w e) (cap (ob w (OD x)))) as [Hc|Hc].
  2: { rewrite bind_ass_false. split; [now apply lstep_refl|]. auto. }
  rewrite bind_ass_true.
  destruct (resize_cases w (OT x) (esize w e) W K2 ltac:(lia)) as
    [c w1 E1 N C Bc RP|m E1 _|m E1 _ _ _|w1 E1 _ _ Oth _ _ _ _|w1 E1 _].
  2, 3: rewrite (bind_thrown _ _ _ _ _ E1); split; [now apply lstep_refl|]; auto.
  2: { rewrite (bind_thrown _ _ _ _ _ E1). exact I. }
  2: { rewrite (bind_undef _ _ _ _ _ E1). exact allowed_cast. }
  rewrite (bind_done _ _ _ _ _ E1).
  destruct RP as [ST1 [Kt [Tt [Mt [Dt [St [At [Pt [Ct Rest]]]]]]]]].
  destruct (ptr (ob w1 (OT x))) as [a|] eqn:Pa; [|congruence].
  assert (NV : forall y, In y (vars e) -> OD y <> OT x) by congruence.
  assert (R1 : readable w1 e) by (eapply readable_step1; [exact ST1|exact NV|exact R]).
  destruct (fill_outcome lm (OT x) (sty (ob w (OD x))) e w1 a (Z.to_nat (esize w e)) (s1_shape _ _ _ ST1) Kt Pa) as [r [w2 [E2 F]]];
    auto; [lia|]. rewrite Z2Nat.id in E2 by lia.
  assert (KP : forall w2, step1 w1 w2 (OT x) -> ob w2 = ob w1 -> lstep w w2 x /\ fit w2 x /\ inited w2 x /\ lent ini w2 x /\ ob w2 (OD x) = ob w (OD x)).
  { intros w0 ST0 O0. assert (ST : step1 w w0 (OT x)) by (eapply step1_trans; eauto).
    assert (F1 : fit w0 x) by (eapply fit_step1; [exact ST|congruence|rewrite O0; exact Kt|exact F0]).
    assert (Q : ob w0 (OD x) = ob w (OD x)) by (apply (s1_other _ _ _ ST); congruence).
    split; [now apply lstep_scratch|]. split; [exact F1|]. split.
    - eapply inited_same; [|exact H0]. apply (s1_other _ _ _ ST). congruence.
    - split; [|exact Q]. destruct F1 as [_ [[Kb _]|L1]]; [rewrite Q in Kb; congruence|exact L1]. }
  destruct r as [[]|ex|u].
  - destruct F as [ST2 [O2 [us H2]]]. rewrite (bind_done _ _ _ _ _ E2).
    destruct (KP w2 ST2 O2) as [LS [F2 [I2 [L2 Q2]]]].
    destruct (Z.leb_spec (sz (ob w (OD x))) (esize w e)) as [Hz|Hz].
    2: { rewrite bind_ass_false. split; [exact LS|]. auto. }
    rewrite bind_ass_true, bind_upd, bind_get.
    destruct (lent_sized ini w2 x (esize w e) (s1_shape _ _ _ ST2) ltac:(now rewrite O2) L2) as [S3 [F3 I3]]; [rewrite Q2; lia|].
    set (w3 := set_ob w2 (OD x) (with_sz (esize w e) (ob w2 (OD x)))) in *.
    assert (Su : sz (ob w2 (OT x)) = esize w e) by (rewrite O2; lia).
    assert (Lu : Z.of_nat (length us) = esize w e) by (rewrite <- (proj1 H2); exact Su).
    assert (ES3 : 0 <= esize w3 e <= esize w e).
    { assert (ES2 : esize w2 e = esize w e).
      { apply esize_same. intros y _. eapply same_obj_trans; [apply (s1_other _ _ _ ST1)|apply (s1_other _ _ _ ST2)]; congruence. }
      pose proof (esize_grow w2 w3 x e (esize w e)) as G. rewrite ES2 in G.
      assert (esize w e <= esize w3 e <= Z.max (esize w e) (esize w e)); [|lia]. apply G.
      - intros y Ne. unfold w3. rewrite ob_set_other by congruence. reflexivity.
      - rewrite Q2. lia.
      - unfold w3. rewrite ob_set_same. reflexivity. }
    assert (T3 : ob w3 (OT x) = ob w2 (OT x)) by (unfold w3; now rewrite ob_set_other by congruence).
    assert (K3 : kd (ob w3 (OT x)) = KBuffer) by (rewrite T3, O2; exact Kt).
    assert (H3 : holds w3 (OT x) us) by (eapply holds_same; [apply (s1_other _ _ _ S3); congruence|exact H2]).
    destruct (copy_leaves w3 x us (Z.to_nat (esize w3 e)) 0 (s1_shape _ _ _ S3) F3 I3 K3 H3) as [w4 [E4 [S4 [O4 [F4 I4]]]]];
      [lia|lia|unfold w3 at 2; rewrite ob_set_same; cbn [with_sz sz]; lia|].
    unfold for_. rewrite (bind_done _ _ _ _ _ E4), take_shape_done.
    assert (LS4 : lstep w w4 x).
    { eapply lstep_trans; [exact LS|]. eapply lstep_trans; [|exact S4]. apply lstep_data; [exact S3|right; unfold w3; rewrite ob_set_same; split; reflexivity]. }
    destruct (eim w4 e); cbn [leaves]; [|auto].
    set (m := shape_of w4 e _).
    assert (S5 : step1 w4 (set_ob w4 (OD x) (with_mp m (ob w4 (OD x)))) (OD x)) by (apply step1_mp; apply S4).
    split; [eapply lstep_trans; [exact LS4|apply lstep_data; [exact S5|right; rewrite ob_set_same; split; reflexivity]]|]. split.
    + eapply fit_shape; [apply ob_set_same|apply ob_set_other; congruence|reflexivity|exact F4].
    + intros Ei. destruct (I4 Ei) as [l Hl]. exists l. now apply holds_mp.
  - destruct F as [ST2 O2]. rewrite (bind_thrown _ _ _ _ _ E2). destruct ex; [|exact I].
    destruct (KP w2 ST2 O2) as [LS [F2 [I2 _]]]. cbn [leaves]. auto.
  - rewrite (bind_undef _ _ _ _ _ E2). exact F.
Qed.

Lemma assign_leaves lm w x e : world_shape w -> hlim (hp w) < 2 ^ 31 -> fit w x -> ~ In x (wrapped ini) -> inited w x ->
  readable w e -> sizes_ok e -> let (r, w') := assign lm x e w in leaves True w x r w'.
Proof.
  intros W L [K2 [[K1 _]|F]] NR H0 R S; [apply assign_buffer_leaves; auto; now split|].
  apply assign_borrow_leaves; auto. destruct F as [[[K _]|[_ [_ Q]]] _]; [exact K|contradiction].
Qed.

(** The loop over all elements. *)
Lemma walk_calm w x a n : world_shape w -> inited w x -> ptr (ob w (OD x)) = Some a ->
  forall i, 0 <= i -> i + Z.of_nat n <= sz (ob w (OD x)) -> exists r, walk (Some a) i n w = (r, w) /\ calm r.
Proof.
  intros W I P. induction n as [|n IH]; intros i Hi Hn; cbn [walk]; [eexists; split; [reflexivity|apply calm_done]|].
  destruct (rd_calm w x a i W I P) as [r [E C]]; [lia|]. destruct (IH (i + 1)) as [r2 [E2 C2]]; [lia|lia|].
  destruct r as [v|ex|u].
  - rewrite (bind_done _ _ _ _ _ E). destruct r2 as [vs|ex|u].
    + rewrite (bind_done _ _ _ _ _ E2). eexists; split; [reflexivity|apply calm_done].
    + rewrite (bind_thrown _ _ _ _ _ E2). eexists; split; [reflexivity|apply calm_thrown].
    + rewrite (bind_undef _ _ _ _ _ E2). eexists; split; [reflexivity|]. intros u' Q. injection Q as <-. now apply C2.
  - rewrite (bind_thrown _ _ _ _ _ E). eexists; split; [reflexivity|apply calm_thrown].
  - rewrite (bind_undef _ _ _ _ _ E). eexists; split; [reflexivity|]. intros u' Q. injection Q as <-. now apply C.
Qed.
Lemma iterate_calm w x : world_shape w -> inited w x -> exists r, iterate_vec x w = (r, w) /\ calm r.
Proof.
  intros W I. unfold iterate_vec. rewrite bind_st.
  destruct (ptr (ob w (OD x))) as [a|] eqn:P.
  - apply (walk_calm w x a); auto; [lia|]. pose proof (ws_store _ W (OD x)) as Sh. unfold store_shape in Sh. rewrite P in Sh. lia.
  - pose proof (ws_store _ W (OD x)) as Sh. unfold store_shape in Sh. rewrite P in Sh.
    replace (sz (ob w (OD x))) with 0 by lia. eexists; split; [reflexivity|apply calm_done].
Qed.

Lemma element_leaves (B : Prop) w x i v : world_shape w -> fit w x -> inited w x -> 0 <= i ->
  let (r, w') := at_wr (OD x) i v w in leaves B w x r w'.
Proof.
  intros W F H Hi. destruct (Z.ltb_spec i (sz (ob w (OD x)))) as [L|L].
  - destruct (at_wr_any ini w x i v W F) as [w' [E [S [O' [F' [H' _]]]]]]; [lia|]. rewrite E. cbn [leaves]. auto.
  - destruct (at_wr_out w (OD x) i v L) as [m E]. rewrite E. split; [now apply lstep_refl|]. auto.
Qed.

(** Statements one after the other. *)
Lemma leaves_bind {A C} (B : Prop) w x (m : M world A) (f : A -> M world C) :
  (let (r, w1) := m w in leaves B w x r w1) ->
  (forall a w1, m w = (Done a, w1) -> lstep w w1 x -> fit w1 x -> inited w1 x -> let (r, w2) := f a w1 in leaves B w1 x r w2) ->
  let (r, w2) := bind m f w in leaves B w x r w2.
Proof.
  intros H K. unfold bind. destruct (m w) as [[a|e|u] w1]; [|exact H|exact H].
  cbn [leaves] in H. destruct H as [V [O L]]. specialize (K a w1 eq_refl V O L). destruct (f a w1) as [[b|[msg|]|u] w2]; cbn [leaves] in *; auto.
  - destruct K as [V2 K2]. split; [eapply lstep_trans; eauto|exact K2].
  - destruct K as [V2 K2]. split; [eapply lstep_trans; eauto|exact K2].
Qed.

Lemma scalar_buffer_leaves w x v : world_shape w -> owning w x -> ~ In x (wrapped ini) -> inited w x ->
  let (r, w') := assign_scalar x v w in leaves True w x r w'.
Proof.
  intros W [K1 K2] NR H0. unfold assign_scalar. rewrite bind_st, K1. unfold any_resize. rewrite bind_assoc, bind_st, K1.
  destruct (resize_cases w (OD x) 1 W K1 ltac:(lia)) as
    [c w1 E1 N C Bc RP|m E1 _|m E1 _ _ _|w1 E1 _ _ Oth _ _ _ _|w1 E1 _].
  2, 3: rewrite (bind_thrown _ _ _ _ _ E1); split; [now apply lstep_refl|]; split; [apply fit_owning; [split|]; assumption|eauto].
  2: { rewrite (bind_thrown _ _ _ _ _ E1). exact I. }
  2: { rewrite (bind_undef _ _ _ _ _ E1). exact allowed_cast. }
  rewrite (bind_done _ _ _ _ _ E1).
  destruct RP as [ST1 [Kt [Tt [Mt [Dt [St [At [Pt [Ct Rest]]]]]]]]].
  destruct (cast (sty (ob w (OD x))) v) as [v'|ex|u] eqn:C1.
  - rewrite bind_lift_done. destruct (ptr (ob w1 (OD x))) as [a|] eqn:Pa; [|congruence].
    destruct (ptr_live _ _ _ (s1_shape _ _ _ ST1) Pa) as [cs [B [L1 L2]]].
    assert (Ow : owner_of (ob w1 (OD x)) = OwnCpp) by (unfold owner_of; now rewrite Kt). rewrite Ow in B.
    assert (E2 : at_wr (OD x) 0 v' w1 = (Done tt, set_hp w1 (set_blk (hp w1) a (Live OwnCpp (list_set cs 0 (Some v')))))).
    { unfold at_wr. rewrite bind_st, Kt. rewrite (set_at_in w1 (OD x) a 0 v' Pa At) by lia. unfold wrc. rewrite B.
      replace ((0 <=? 0) && (0 <? Z.of_nat (length cs))) with true by (symmetry; apply andb_true_intro; split; [reflexivity|apply Z.ltb_lt; lia]).
      reflexivity. }
    rewrite E2. set (w2 := set_hp w1 _) in *.
    assert (ST2 : step1 w1 w2 (OD x)).
    { eapply (step1_cells w1 w2 (OD x) a cs (list_set cs 0 (Some v'))); [apply ST1|split; auto|exact B| |apply list_set_length].
      unfold w2, upd_cells. simpl. rewrite Nat.eqb_refl. repeat split; auto.
      intros b Hb. replace (Nat.eqb b a) with false by (symmetry; now apply Nat.eqb_neq). auto. }
    assert (ST : step1 w w2 (OD x)) by (eapply step1_trans; eauto).
    split; [apply lstep_data; [exact ST|now apply kept_buffer]|]. split.
    + apply fit_owning; [|exact NR]. split; [exact Kt|]. destruct (s1_other _ _ _ ST (OT x)) as [Q _]; [congruence|]. now rewrite Q.
    + intros _. exists [v']. apply holds_cells; [apply ST|]. split; [exact St|]. intros i Hi. simpl in Hi. assert (i = O) as -> by lia.
      rewrite (cells_of_ptr w2 (OD x) a OwnCpp (list_set cs 0 (Some v'))); [|exact Pa|unfold w2; simpl; now rewrite Nat.eqb_refl].
      destruct cs; [simpl in *; lia|reflexivity].
  - exfalso. exact (cast_thrown _ _ _ C1).
  - unfold bind, lift. apply (calm_cast _ _ _ C1).
Qed.

Lemma any_resize_lent w x n : world_shape w -> lent ini w x -> 1 <= n ->
  kd (ob w (OD x)) = KBorrow \/ n <= cap (ob w (OD x)) ->
  any_resize (OD x) n w = if n <=? cap (ob w (OD x)) then (Done tt, set_ob w (OD x) (with_sz n (ob w (OD x))))
    else (Thrown (Ass "Cannot resize Borrow element above size of borrowed object"), w).
Proof.
  intros W L N C. destruct (lent_ptr ini w x W L) as [a [cs [P [A _]]]]. unfold any_resize. rewrite bind_st.
  destruct L as [[[K _]|[K [T _]]] _]; rewrite K.
  - unfold borrow_resize. replace (1 <=? n) with true by (symmetry; apply Z.leb_le; lia). rewrite bind_ass_true, bind_st.
    destruct (n <=? cap (ob w (OD x))); reflexivity.
  - unfold sexp_resize. replace (1 <=? n) with true by (symmetry; apply Z.leb_le; lia). rewrite bind_ass_true, bind_st, A. cbn [negb].
    destruct C as [C|C]; [congruence|]. replace (cap (ob w (OD x)) <? n) with false by (symmetry; apply Z.ltb_ge; lia).
    replace (n <=? cap (ob w (OD x))) with true by (symmetry; apply Z.leb_le; lia). reflexivity.
Qed.

Lemma scalar_leaves w x v : world_shape w -> fit w x -> inited w x ->
  let (r, w') := assign_scalar x v w in leaves True w x r w'.
Proof.
  intros W [K2 [[K1 NR]|L]] H0; [apply scalar_buffer_leaves; auto; now split|].
  assert (C1 : 1 <= cap (ob w (OD x))) by (destruct L as [_ [[C _] _]]; exact C).
  destruct (lent_sized ini w x 1 W K2 L) as [S1 [F1 I1]]; [lia|]. set (w1 := set_ob w (OD x) _) in *.
  assert (E : assign_scalar x v w = (v' <- lift (cast (sty (ob w (OD x))) v) ;; at_wr (OD x) 0 v') w1).
  { unfold assign_scalar. rewrite bind_st. destruct L as [LK L']. destruct LK as [[K _]|[K [T Q]]]; rewrite K.
    - rewrite bind_upd. reflexivity.
    - assert (R : any_resize (OD x) 1 w = (Done tt, w1)).
      { rewrite (any_resize_lent w x 1 W (conj (or_intror (conj K (conj T Q))) L') ltac:(lia) (or_intror C1)). replace (1 <=? cap (ob w (OD x))) with true by (symmetry; now apply Z.leb_le). reflexivity. }
      rewrite (bind_done _ _ _ _ _ R). reflexivity. }
  rewrite E. destruct (cast (sty (ob w (OD x))) v) as [v'|ex|u] eqn:C.
  - rewrite bind_lift_done. pose proof (element_leaves True w1 x 0 v' (s1_shape _ _ _ S1) F1 I1 ltac:(lia)) as G.
    assert (V1 : lstep w w1 x) by (apply lstep_data; [exact S1|right; unfold w1; rewrite ob_set_same; split; reflexivity]).
    destruct (at_wr (OD x) 0 v' w1) as [[a|[m|]|u] w2]; cbn [leaves] in *; auto; destruct G as [G1 G2]; split; auto; eapply lstep_trans; eauto.
  - exfalso. exact (cast_thrown _ _ _ C).
  - unfold bind, lift. apply (calm_cast _ _ _ C).
Qed.

(* ------------------------------------------------------------- subsets *)

Lemma ind_at_calm ind k : calm (ind_at ind k).
Proof. unfold ind_at. destruct (k <? Z.of_nat (length ind)); [apply calm_done|apply calm_thrown]. Qed.

Lemma sub_wr_leaves (B : Prop) w x ind i v : world_shape w -> fit w x -> inited w x -> Forall (fun p => 0 <= p) ind ->
  let (r, w') := sub_wr x ind i v w in leaves B w x r w'.
Proof.
  intros W O L F. unfold sub_wr. rewrite bind_get.
  destruct (modz i (sz (ob w (OD x)))) as [k|ex|u] eqn:Q1.
  2: { unfold modz in Q1. destruct (sz (ob w (OD x)) =? 0); discriminate. }
  2: { exact (calm_modz _ _ _ Q1). }
  rewrite bind_lift_done. unfold ind_at. destruct (Z.ltb_spec k (Z.of_nat (length ind))) as [Hk|Hk].
  - rewrite bind_lift_done. apply element_leaves; auto.
    destruct (Nat.ltb_spec (Z.to_nat k) (length ind)) as [Bi|Bi]; [|rewrite nth_overflow by lia; lia].
    rewrite Forall_forall in F. apply F. now apply nth_In.
  - split; [now apply lstep_refl|]. auto.
Qed.

Lemma forN_leaves (B : Prop) x (P : world -> Prop) (body : Z -> M world unit) :
  (forall w w', lstep w w' x -> P w -> P w') ->
  (forall i w, 0 <= i -> world_shape w -> fit w x -> inited w x -> P w ->
     let (r, w') := body i w in leaves B w x r w') ->
  forall n i w, 0 <= i -> world_shape w -> fit w x -> inited w x -> P w ->
     let (r, w') := forN n i body w in leaves B w x r w'.
Proof.
  intros T H. induction n as [|n IH]; intros i w Hi W O L Pw; cbn [forN].
  - split; [now apply lstep_refl|]. auto.
  - apply (leaves_bind B w x (body i)); [now apply H|]. intros [] w1 _ V O1 L1. apply IH; auto; [lia|apply V|eapply T; eauto].
Qed.

Lemma subset_scalar_leaves (B : Prop) w x ind v : world_shape w -> fit w x -> inited w x -> Forall (fun p => 0 <= p) ind ->
  let (r, w') := assign_subset_scalar x ind v w in leaves B w x r w'.
Proof.
  intros W O L F. unfold assign_subset_scalar. rewrite bind_get. unfold for_.
  apply (forN_leaves B x (fun _ => True)); auto; [|lia].
  intros i w1 _ W1 O1 L1 _. destruct (cast (sty (ob w (OD x))) v) as [v'|ex|u] eqn:C.
  - rewrite bind_lift_done. now apply sub_wr_leaves.
  - exfalso. exact (cast_thrown _ _ _ C).
  - exact (calm_cast _ _ _ C).
Qed.

(** The invariant while the scratch storage of vector [s] is in use. *)
Record inv (V : list nat) (s : nat) (w : world) : Prop := {
  in_shape : world_shape w;
  in_lim : hlim (hp w) < 2 ^ 31;
  in_live : forall x, In x V -> live ini w x;
  in_dead : forall x, ~ In x V -> unborn w (OD x) /\ (x <> s -> unborn w (OT x));
  in_kd : kd (ob w (OT s)) = KBuffer;
  in_leak : no_leak w;
  in_there : there (lenders ini) w }.

Lemma unborn_obj w w' o : ob w' o = ob w o -> unborn w o -> unborn w' o.
Proof. intros E U a. rewrite E. apply U. Qed.
Lemma unborn_same w w' o : same_obj w w' o -> unborn w o -> unborn w' o.
Proof. intros [E _] U a. rewrite E. apply U. Qed.

Lemma live_step w w' o y : step1 w w' o -> o <> OD y -> kd (ob w' o) = KBuffer -> live ini w y -> live ini w' y.
Proof.
  intros S N K [F L]. split; [eapply fit_step1; eauto|].
  eapply inited_same; [apply (s1_other _ _ _ S); congruence|exact L].
Qed.

Lemma inv_scratch V s w w' : ~ In s V -> step1 w w' (OT s) -> kd (ob w' (OT s)) = KBuffer -> inv V s w -> inv V s w'.
Proof.
  intros Ns S K [A B C D E F G]. split; auto.
  - apply S.
  - now rewrite (s1_lim _ _ _ S).
  - intros x Hx. eapply live_step; eauto. congruence.
  - intros x Hx. destruct (D x Hx) as [D1 D2]. split.
    + eapply unborn_same; [apply (s1_other _ _ _ S); congruence|exact D1].
    + intros Nx. eapply unborn_same; [apply (s1_other _ _ _ S); congruence|auto].
  - now apply (step1_no_leak _ _ _ S).
  - now apply (ext_there _ w _ (s1_ext _ _ _ S)).
Qed.

Lemma inv_vec V s w w' x : ~ In s V -> In x V -> lstep w w' x -> fit w' x -> inited w' x -> inv V s w -> inv V s w'.
Proof.
  intros Ns Hx S O L [A B C D E F G].
  assert (Nsx : s <> x) by congruence. split; auto.
  - apply S.
  - now rewrite (ls_lim _ _ _ S).
  - intros y Hy. destruct (Nat.eq_dec y x) as [->|N]; [now split|]. apply (live_lstep ini w w' x); auto.
  - intros y Hy. assert (y <> x) by congruence. destruct (D y Hy) as [D1 D2]. split.
    + eapply unborn_obj; [apply (ls_obj _ _ _ S); congruence|exact D1].
    + intros Nx. eapply unborn_obj; [apply (ls_obj _ _ _ S); congruence|auto].
  - rewrite (ls_obj _ _ _ S (OT s)); congruence.
  - now apply (lstep_no_leak _ _ _ S).
  - apply (lstep_there ini w w' x); auto. now apply C.
Qed.

Lemma inv_sound V s w : ~ In s V -> unborn w (OT s) -> inv V s w -> sound_at ini V w.
Proof.
  intros Ns U [A B C D E F G]. split; auto. intros x Hx. destruct (D x Hx) as [D1 D2]. split; [exact D1|].
  destruct (Nat.eq_dec x s) as [->|N]; auto.
Qed.
Lemma sound_vec V w w' x : In x V -> lstep w w' x -> fit w' x -> inited w' x -> sound_at ini V w -> sound_at ini V w'.
Proof.
  intros Hx S O L [A B C D F G]. split.
  - apply S.
  - now rewrite (ls_lim _ _ _ S).
  - intros y Hy. destruct (Nat.eq_dec y x) as [->|N]; [now split|]. apply (live_lstep ini w w' x); auto.
  - intros y Hy. assert (y <> x) by congruence. destruct (D y Hy) as [D1 D2].
    split; (eapply unborn_obj; [apply (ls_obj _ _ _ S); congruence|auto]).
  - now apply (lstep_no_leak _ _ _ S).
  - apply (lstep_there ini w w' x); auto. now apply C.
Qed.

(** How a statement ends, and the state it leaves. *)
Definition safely {A} (V : list nat) (V' : list nat) (r : outcome A) (w' : world) : Prop :=
  match r with
  | Done _ => sound_at ini V' w'
  | Thrown (Ass _) => sound_at ini V w'
  | Thrown BadAlloc => True
  | Undef u => allowed ini u
  end.
(** The same inside the scope of a scratch object. *)
Definition within_scope {A} (V : list nat) (s : nat) (r : outcome A) (w' : world) : Prop :=
  match r with
  | Done _ | Thrown (Ass _) => inv V s w'
  | Thrown BadAlloc => exists w2, any_destroy (OT s) w' = (Done tt, w2)
  | Undef u => allowed ini u
  end.

Lemma leaves_within {A} V s x w (r : outcome A) w' : ~ In s V -> In x V -> inv V s w -> leaves False w x r w' -> within_scope V s r w'.
Proof.
  intros Ns Hx I L. destruct r as [a|[m|]|u]; cbn [leaves within_scope] in *; auto; try contradiction;
    destruct L as [V1 [O1 L1]]; eapply inv_vec; eauto.
Qed.
Lemma leaves_safely {A} (B : Prop) V x w (r : outcome A) w' : In x V -> sound_at ini V w -> leaves B w x r w' -> safely V V r w'.
Proof.
  intros Hx I L. destruct r as [a|[m|]|u]; cbn [leaves safely] in *; auto;
    destruct L as [V1 [O1 L1]]; eapply sound_vec; eauto.
Qed.

Lemma any_destroy_inv V s w : inv V s w -> ~ In s V -> exists w', any_destroy (OT s) w = (Done tt, w') /\ sound_at ini V w'.
Proof.
  intros H Ns. unfold any_destroy. rewrite bind_st, (in_kd _ _ _ H).
  destruct (destroy_done w (OT s) (in_shape _ _ _ H) (in_kd _ _ _ H)) as [w2 [E [S [U [_ [_ K]]]]]].
  exists w2. split; [exact E|]. eapply inv_sound; eauto. eapply inv_scratch; eauto.
Qed.

Lemma scoped_safely V s (m : M world unit) w : ~ In s V -> (let (r, w1) := m w in within_scope V s r w1) ->
  let (r, w') := scoped (OT s) m w in safely V V r w'.
Proof.
  intros Ns H. unfold scoped. destruct (m w) as [[a|[msg|]|u] w1]; [| | |exact H]; cbn [within_scope] in H.
  - destruct (any_destroy_inv V s w1 H Ns) as [w2 [E S]]. rewrite (bind_done _ _ _ _ _ E). exact S.
  - destruct (any_destroy_inv V s w1 H Ns) as [w2 [E S]]. rewrite (bind_done _ _ _ _ _ E). exact S.
  - destruct H as [w2 E]. rewrite (bind_done _ _ _ _ _ E). exact I.
Qed.

(** A failed allocation for an empty object does no harm to its end. *)
Lemma destroy_empty w o : kd (ob w o) = KBuffer -> ptr (ob w o) = None -> exists w2, any_destroy o w = (Done tt, w2).
Proof.
  intros K P. unfold any_destroy. rewrite bind_st, K. unfold destroy. rewrite bind_st, P.
  destruct (alloc (ob w o)); eexists; reflexivity.
Qed.

Lemma subset_safely lm V w s x ind same e : (same = true -> written ini = false) -> (same = true -> ~ In x (wrapped ini)) -> sound_at ini V w -> In x V -> ~ In s V -> incl (vars e) V -> sizes_ok e -> Forall (fun p => 0 <= p) ind ->
  let (r, w') := assign_subset lm s x ind same e w in safely V V r w'.
Proof.
  intros Sm Sw SO Hx Ns Ve Se F. unfold assign_subset. rewrite bind_get. cbv zeta.
  destruct (so_dead _ _ _ SO s Ns) as [U1 U2].
  destruct (ctor_default_done w (OT s) (sty (ob w (OD x))) (so_shape _ _ _ SO) U2) as [w1 [E1 [S1 [O1 H1]]]].
  rewrite (bind_done _ _ _ _ _ E1).
  assert (I1 : inv V s w1).
  { assert (K1 : kd (ob w1 (OT s)) = KBuffer) by now rewrite O1. destruct SO as [A B C D G H]. split; auto.
    - apply S1.
    - now rewrite (s1_lim _ _ _ S1).
    - intros y Hy. eapply live_step; [exact S1|congruence|exact K1|]. apply (C y Hy).
    - intros y Hy. destruct (D y Hy) as [D1 D2]. split.
      + eapply unborn_same; [apply (s1_other _ _ _ S1); congruence|exact D1].
      + intros Nx. eapply unborn_same; [apply (s1_other _ _ _ S1); congruence|auto].
    - now apply (step1_no_leak _ _ _ S1).
    - now apply (ext_there _ w _ (s1_ext _ _ _ S1)). }
  assert (NV : forall y, In y (vars e) -> OD y <> OT s) by congruence.
  assert (ES : esize w e = esize w1 e).
  { symmetry. apply esize_same. intros y Hy. apply (s1_other _ _ _ S1). congruence. }
  rewrite ES. pose proof (esize_range w1 e (in_shape _ _ _ I1) Se) as ER. set (n := esize w1 e) in *.
  set (t := sty (ob w (OD x))) in *.
  apply scoped_safely; [exact Ns|].
  destruct (Z.eqb_spec n (Z.of_nat (length ind))) as [Qn|Qn]; [rewrite bind_ass_true|rewrite bind_ass_false; exact I1].
  destruct (resize_cases w1 (OT s) n (in_shape _ _ _ I1) (in_kd _ _ _ I1) ltac:(lia)) as
    [c w2 E2 N C Bc RP|m E2 _|m E2 _ _ _|w2 E2 _ _ Oth Pq Kq Aq Fr|w2 E2 _].
  2, 3: rewrite (bind_thrown _ _ _ _ _ E2); exact I1.
  2: { rewrite (bind_thrown _ _ _ _ _ E2). cbn [within_scope]. apply destroy_empty; [exact Kq|]. rewrite Pq, O1. reflexivity. }
  2: { rewrite (bind_undef _ _ _ _ _ E2). exact allowed_cast. }
  rewrite (bind_done _ _ _ _ _ E2).
  destruct RP as [ST2 [Kt [Tt [Mt [Dt [St [At [Pt [Ct Rest]]]]]]]]].
  pose proof (inv_scratch V s w1 w2 Ns ST2 Kt I1) as I2.
  destruct (ptr (ob w2 (OT s))) as [a|] eqn:Pa; [|congruence].
  assert (R2 : readable w2 e) by (intros y Hy; destruct (in_live _ _ _ I2 y) as [_ G]; auto).
  destruct (fill_outcome lm (OT s) t e w2 a (Z.to_nat n) (s1_shape _ _ _ ST2) Kt Pa) as [r [w3 [E3 G]]]; auto; [lia|].
  rewrite Z2Nat.id in E3 by lia. destruct r as [[]|ex|u].
  2: { rewrite (bind_thrown _ _ _ _ _ E3). destruct G as [ST3 O3].
    assert (I3 : inv V s w3) by (eapply inv_scratch; eauto; now rewrite O3).
    destruct ex; cbn [within_scope]; [exact I3|]. destruct (any_destroy_inv V s w3 I3 Ns) as [w4 [E4 _]]. eauto. }
  2: { rewrite (bind_undef _ _ _ _ _ E3). exact G. }
  rewrite (bind_done _ _ _ _ _ E3). destruct G as [ST3 [O3 [us H3]]].
  assert (I3 : inv V s w3) by (eapply inv_scratch; eauto; now rewrite O3).
  rewrite bind_get. assert (Nsx : s <> x) by congruence.
  (* a subset on the right-hand side may enlarge x *)
  assert (GR : let (r, w4) := (if same && (sz (ob w3 (OD x)) <? sz (ob w3 (OT s))) then any_resize (OD x) (sz (ob w3 (OT s))) else ret tt) w3 in
    match r with
    | Done _ => lstep w3 w4 x /\ fit w4 x /\ inited w4 x
    | Thrown (Ass _) => w4 = w3
    | Thrown BadAlloc => same_obj w3 w4 (OT s)
    | Undef u => allowed ini u
    end).
  { destruct (in_live _ _ _ I3 x Hx) as [F3 L3].
    destruct same; cbn [andb]; [|split; [apply lstep_refl; apply I3|]; now split].
    destruct (sz (ob w3 (OD x)) <? sz (ob w3 (OT s))); [|split; [apply lstep_refl; apply I3|]; now split].
    destruct F3 as [K2 [[K1 NR]|LT]].
    - unfold any_resize. rewrite bind_st, K1.
      destruct (resize_cases w3 (OD x) (sz (ob w3 (OT s))) (in_shape _ _ _ I3) K1) as
        [c4 w4 E4 N4 C4 Bc4 RP4|m4 E4 _|m4 E4 _ _ _|w4 E4 _ _ Oth4 _ _ _ _|w4 E4 _].
      + rewrite O3, St. lia.
      + rewrite E4. destruct RP4 as [ST4 [Kt4 _]]. split; [apply lstep_data; [exact ST4|now apply kept_buffer]|]. split.
        * apply fit_owning; [|exact NR]. split; [exact Kt4|]. destruct (s1_other _ _ _ ST4 (OT x)) as [Q _]; [congruence|]. now rewrite Q.
        * intros Ei. rewrite Sm in Ei by reflexivity. discriminate.
      + rewrite E4. reflexivity.
      + rewrite E4. reflexivity.
      + rewrite E4. apply Oth4. congruence.
      + rewrite E4. exact allowed_cast.
    - assert (KB : kd (ob w3 (OD x)) = KBorrow) by (destruct LT as [[[K _]|[_ [_ Q]]] _]; [exact K|exfalso; now apply Sw]).
      assert (N1 : 1 <= sz (ob w3 (OT s))) by (rewrite O3, St; exact N).
      rewrite (any_resize_lent w3 x _ (in_shape _ _ _ I3) LT N1 (or_introl KB)).
      destruct (Z.leb_spec (sz (ob w3 (OT s))) (cap (ob w3 (OD x)))) as [Lc|Lc]; [|reflexivity].
      destruct (lent_sized ini w3 x (sz (ob w3 (OT s))) (in_shape _ _ _ I3) K2 LT) as [S4 [F4 I4]]; [lia|].
      split; [apply lstep_data; [exact S4|right; rewrite ob_set_same; split; reflexivity]|]. now split. }
  destruct ((if same && (sz (ob w3 (OD x)) <? sz (ob w3 (OT s))) then any_resize (OD x) (sz (ob w3 (OT s))) else ret tt) w3) as [r w4] eqn:E4.
  destruct r as [[]|[m4|]|u4].
  2: { rewrite (bind_thrown _ _ _ _ _ E4). subst w4. exact I3. }
  2: { rewrite (bind_thrown _ _ _ _ _ E4). cbn [within_scope]. destruct (any_destroy_inv V s w3 I3 Ns) as [w5 [E5 _]].
    destruct GR as [Q4 B4]. unfold any_destroy. rewrite bind_st, Q4, (in_kd _ _ _ I3).
    unfold destroy. rewrite bind_st, Q4. assert (P3 : ptr (ob w3 (OT s)) = Some a) by now rewrite O3.
    rewrite P3. rewrite (shape_alloc _ _ _ (in_shape _ _ _ I3) P3).
    destruct (ptr_live _ _ _ (in_shape _ _ _ I3) P3) as [cs3 [B3 _]]. unfold owner_of in B3. rewrite (in_kd _ _ _ I3) in B3.
    assert (B5 : hblk (hp w4) a = Live OwnCpp cs3) by (rewrite B4; auto).
    rewrite (bind_done _ _ _ _ _ (del_own _ _ _ B5)). eexists; reflexivity. }
  2: { rewrite (bind_undef _ _ _ _ _ E4). exact GR. }
  rewrite (bind_done _ _ _ _ _ E4). destruct GR as [V4 [OW4 L4]].
  pose proof (inv_vec V s w3 w4 x Ns Hx V4 OW4 L4 I3) as I4.
  assert (OWS : forall w5, kd (ob w5 (OT s)) = KBuffer -> owner_of (ob w5 (OT s)) = OwnCpp) by (intros w5 K5; unfold owner_of; now rewrite K5).
  assert (H4 : holds w4 (OT s) us) by (eapply holds_same; [apply (lstep_same _ _ _ _ V4); [congruence|congruence|apply OWS; exact (in_kd _ _ _ I3)]|exact H3]).
  unfold for_.
  assert (Lu : Z.of_nat (length us) = Z.of_nat (length ind)) by (rewrite <- (proj1 H3), O3, St; exact Qn).
  match goal with |- let (_, _) := ?m w4 in _ => assert (G : let (r, w') := m w4 in leaves False w4 x r w') end.
  { assert (GN : forall k i w5, 0 <= i -> i + Z.of_nat k <= Z.of_nat (length us) -> world_shape w5 -> fit w5 x -> inited w5 x ->
       kd (ob w5 (OT s)) = KBuffer -> holds w5 (OT s) us ->
       let (r, w') := forN k i (fun i => v <- get_at (OT s) i;; k0 <- lift (modz i (Z.of_nat (length ind)));; sub_wr x ind k0 v) w5 in leaves False w5 x r w').
    { induction k as [|k IH]; intros i w5 Hi Hk W5 O5 L5 K5 H5; cbn [forN].
      - split; [now apply lstep_refl|]. auto.
      - apply (leaves_bind False w5 x).
        + replace i with (Z.of_nat (Z.to_nat i)) by lia.
          assert (GA : get_at (OT s) (Z.of_nat (Z.to_nat i)) w5 = (Done (nth (Z.to_nat i) us (VB false)), w5)) by (apply get_at_holds; auto; lia).
          rewrite (bind_done _ _ _ _ _ GA). rewrite modz_pos by lia. rewrite bind_lift_done. now apply sub_wr_leaves.
        + intros [] w6 _ V6 O6 L6. pose proof (ls_obj _ _ _ V6 (OT s) ltac:(congruence) ltac:(congruence)) as Q6.
          apply IH; auto; try lia; [apply V6|now rewrite Q6|].
          eapply holds_same; [apply (lstep_same _ _ _ _ V6); [congruence|congruence|now apply OWS]|exact H5]. }
    apply GN; auto; [lia|lia|exact (in_shape _ _ _ I4)|exact (in_kd _ _ _ I4)]. }
  match goal with |- let (_, _) := ?m w4 in _ => destruct (m w4) as [r w5] end.
  eapply leaves_within; eauto.
Qed.

(* -------------------------------------------------------- declarations *)

Lemma sound_new V w w' x : ~ In x V -> vstep w w' x -> fit w' x -> inited w' x -> sound_at ini V w -> sound_at ini (x :: V) w'.
Proof.
  intros Nx S O L [A B C D F G]. split.
  - apply S.
  - now rewrite (vs_lim _ _ _ S).
  - intros y [<-|Hy]; [now split|]. assert (Nyx : y <> x) by congruence. apply (live_vstep ini w w' x); auto.
  - intros y Hy. assert (Nyx : y <> x) by (intros ->; apply Hy; now left). assert (Hy' : ~ In y V) by (intros Q; apply Hy; now right).
    destruct (D y Hy') as [D1 D2].
    split; (eapply unborn_same; [apply (vs_other _ _ _ S); congruence|auto]).
  - now apply (vstep_no_leak _ _ _ S).
  - now apply (ext_there _ w _ (vs_ext _ _ _ S)).
Qed.

Lemma sound_gone V w w' x : vstep w w' x -> unborn w' (OD x) -> unborn w' (OT x) -> sound_at ini V w ->
  sound_at ini (filter (fun y => negb (Nat.eqb x y)) V) w'.
Proof.
  intros S U1 U2 [A B C D F G]. split.
  - apply S.
  - now rewrite (vs_lim _ _ _ S).
  - intros y Hy. apply filter_In in Hy. destruct Hy as [Hy N]. apply negb_true_iff, Nat.eqb_neq in N.
    apply (live_vstep ini w w' x); auto.
  - intros y Hy. destruct (Nat.eq_dec y x) as [->|N]; [auto|].
    assert (Hy' : ~ In y V).
    { intros Q. apply Hy. apply filter_In. split; [exact Q|]. apply negb_true_iff, Nat.eqb_neq. congruence. }
    destruct (D y Hy') as [D1 D2].
    split; (eapply unborn_same; [apply (vs_other _ _ _ S); congruence|auto]).
  - now apply (vstep_no_leak _ _ _ S).
  - now apply (ext_there _ w _ (vs_ext _ _ _ S)).
Qed.

(** A construction that failed: x does not exist. *)
Lemma sound_none V w w' x : ~ In x V -> vstep w w' x -> unborn w' (OD x) -> unborn w' (OT x) -> sound_at ini V w -> sound_at ini V w'.
Proof.
  intros Nx S U1 U2 H. pose proof (sound_gone V w w' x S U1 U2 H) as G.
  replace (filter (fun y => negb (Nat.eqb x y)) V) with V in G; [exact G|].
  clear -Nx. induction V as [|y V IH]; [reflexivity|]. cbn [filter].
  assert (N : x <> y) by (intros ->; apply Nx; now left). replace (Nat.eqb x y) with false by (symmetry; now apply Nat.eqb_neq).
  cbn [negb]. rewrite <- IH; [reflexivity|]. intros Q. apply Nx. now right.
Qed.

Lemma sized_safely V w x t n : sound_at ini V w -> ~ In x (wrapped ini) -> ~ In x V -> 0 <= n < 2 ^ 64 ->
  let (r, w') := vec_sized x t n w in safely V (x :: V) r w'.
Proof.
  intros SO NR Nx Hn. destruct (so_dead _ _ _ SO x Nx) as [U1 U2]. pose proof (so_shape _ _ _ SO) as W.
  unfold vec_sized.
  destruct (ctor_size_cases w (OD x) t n W U1 Hn) as [[_ [m E1]]|[[_ [E1 _]]|[[_ [E1 _]]|[_ [c [w1 [Bc [E1 [S1 [O1 H1]]]]]]]]]].
  - rewrite (bind_thrown _ _ _ _ _ E1). exact SO.
  - rewrite (bind_thrown _ _ _ _ _ E1). exact I.
  - rewrite (bind_undef _ _ _ _ _ E1). exact allowed_cast.
  - rewrite (bind_done _ _ _ _ _ E1).
    assert (T1 : same_obj w w1 (OT x)) by (apply (s1_other _ _ _ S1); congruence).
    destruct (ctor_default_done w1 (OT x) t (s1_shape _ _ _ S1)) as [w2 [E2 [S2 [O2 H2]]]].
    { intros a Ha. destruct T1 as [T1 _]. rewrite T1 in Ha. now apply (U2 a). }
    rewrite E2. cbn [safely].
    assert (SO2 : same_obj w1 w2 (OD x)) by (apply (s1_other _ _ _ S2); congruence).
    eapply (sound_new V w w2 x Nx); [|apply fit_owning; [split|exact NR]| |exact SO].
    + eapply vstep_trans; eapply step1_vstep; [left; reflexivity|exact S1|right; reflexivity|exact S2].
    + rewrite (proj1 SO2), O1. reflexivity.
    + rewrite O2. reflexivity.
    + eexists. eapply holds_same; eauto.
Qed.

Lemma declare_safely lm V w x t e : sound_at ini V w -> ~ In x (wrapped ini) -> ~ In x V -> incl (vars e) V -> sizes_ok e ->
  let (r, w') := vec_of_expr lm x t e w in safely V (x :: V) r w'.
Proof.
  intros SO NR Nx Ve Se. destruct (so_dead _ _ _ SO x Nx) as [U1 U2]. pose proof (so_shape _ _ _ SO) as W.
  unfold vec_of_expr. rewrite bind_get. cbv zeta.
  destruct (default_pair w x t W U1 U2) as [w1 [E1 [V1 [_ [O1 T1]]]]]. pose proof (vs_shape _ _ _ V1) as W1.
  unfold bind at 1. rewrite E1.
  pose proof (esize_range w e W Se) as ER. set (n := esize w e) in *.
  assert (Nv : forall y, In y (vars e) -> OD y <> OD x) by (intros y Hy Q; injection Q as ->; auto).
  assert (R1 : readable w1 e).
  { eapply readable_same; [|intros y Hy; exact (proj2 (so_live _ _ _ SO y (Ve y Hy)))]. intros y Hy.
    assert (y <> x) by (intros ->; auto). apply (vs_other _ _ _ V1); [congruence|congruence]. }
  (* the end of a construction that throws *)
  assert (Fail : forall w2 m, vstep w w2 x -> kd (ob w2 (OD x)) = KBuffer -> ob w2 (OT x) = store_default KBuffer t ->
     let (r, w') := (_ <- any_destroy (OD x) ;; @throw world unit (Ass m)) w2 in safely V (x :: V) r w').
  { intros w2 m V2 K2 T2. unfold any_destroy. rewrite bind_assoc, bind_st, K2.
    destruct (destroy_done w2 (OD x) (vs_shape _ _ _ V2) K2) as [w3 [E3 [S3 [U3 _]]]].
    rewrite (bind_done _ _ _ _ _ E3). cbn. eapply (sound_none V w w3 x Nx); [|exact U3| |exact SO].
    - eapply vstep_trans; [exact V2|eapply step1_vstep; [left; reflexivity|exact S3]].
    - intros a [Pa _]. destruct (s1_other _ _ _ S3 (OT x)) as [Q _]; [congruence|]. rewrite Q, T2 in Pa. discriminate. }
  (* what remains once the memory is there *)
  assert (Rest : forall w2, vstep w w2 x -> kd (ob w2 (OD x)) = KBuffer -> ob w2 (OT x) = store_default KBuffer t ->
     (exists a, ptr (ob w2 (OD x)) = Some a) \/ n = 0 -> sz (ob w2 (OD x)) = n -> readable w2 e ->
     let (r, w') := match (fill_temp lm (OD x) t e n ;; take_shape (OD x) e) w2 with
       | (Thrown ex, w2) => (_ <- any_destroy (OD x) ;; throw ex) w2 | r => r end in safely V (x :: V) r w').
  { intros w2 V2 K2 T2 P2 Z2 R2.
    assert (FO : exists r w3, fill_temp lm (OD x) t e n w2 = (r, w3) /\
      match r with
      | Done _ => step1 w2 w3 (OD x) /\ ob w3 = ob w2 /\ exists us, holds w3 (OD x) us
      | Thrown _ => step1 w2 w3 (OD x) /\ ob w3 = ob w2
      | Undef u => allowed ini u
      end).
    { destruct P2 as [[a Pa]|N0].
      - destruct (fill_outcome lm (OD x) t e w2 a (Z.to_nat n) (vs_shape _ _ _ V2) K2 Pa) as [r [w3 [E3 G]]]; auto; [lia|].
        rewrite Z2Nat.id in E3 by lia. eauto.
      - exists (Done tt), w2. split; [rewrite N0; reflexivity|]. split; [apply step1_refl; apply V2|]. split; [reflexivity|].
        exists []. split; [rewrite Z2; exact N0|]. simpl. intros; lia. }
    destruct FO as [r [w3 [E3 G]]]. destruct r as [[]|ex|u].
    - rewrite (bind_done _ _ _ _ _ E3), take_shape_done. destruct G as [S3 [O3 [us H3]]].
      assert (V3 : vstep w w3 x) by (eapply vstep_trans; [exact V2|eapply step1_vstep; [left; reflexivity|exact S3]]).
      assert (SO3 : sound_at ini (x :: V) w3).
      { eapply (sound_new V w w3 x Nx V3); [apply fit_owning; [split|exact NR]| |exact SO]; [now rewrite O3|rewrite O3, T2; reflexivity|exists us; exact H3]. }
      destruct (eim w3 e); [|exact SO3].
      cbn [safely]. set (m := shape_of w3 e _).
      assert (S4 : step1 w3 (set_ob w3 (OD x) (with_mp m (ob w3 (OD x)))) (OD x)) by (apply step1_mp; apply S3).
      eapply (sound_vec (x :: V) w3); [now left|apply lstep_data; [exact S4|right; rewrite ob_set_same; split; reflexivity]| | |exact SO3].
      + apply fit_owning; [|exact NR]. split; [rewrite ob_set_same; simpl; now rewrite O3|rewrite ob_set_other by discriminate; rewrite O3, T2; reflexivity].
      + exists us. now apply holds_mp.
    - rewrite (bind_thrown _ _ _ _ _ E3). destruct G as [S3 O3].
      assert (V3 : vstep w w3 x) by (eapply vstep_trans; [exact V2|eapply step1_vstep; [left; reflexivity|exact S3]]).
      destruct ex as [m|]; [apply Fail; auto; [now rewrite O3|now rewrite O3]|].
      unfold any_destroy. rewrite bind_assoc, bind_st, O3, K2.
      destruct (destroy_done w3 (OD x) (vs_shape _ _ _ V3)) as [w4 [E4 _]]; [now rewrite O3|].
      rewrite (bind_done _ _ _ _ _ E4). exact I.
    - rewrite (bind_undef _ _ _ _ _ E3). exact G. }
  destruct (Z.ltb_spec 0 n) as [Hn|Hn].
  - destruct (resize_cases w1 (OD x) n W1 ltac:(now rewrite O1) ltac:(lia)) as
      [c w2 E2 N C Bc RP|m E2 _|m E2 _ _ _|w2 E2 _ _ Oth Pq Kq Aq Fr|w2 E2 _].
    + rewrite (bind_done _ _ _ _ _ E2).
      destruct RP as [ST2 [Kt [Tt [Mt [Dt [St [At [Pt [Ct Rst]]]]]]]]].
      destruct (s1_other _ _ _ ST2 (OT x)) as [QT _]; [congruence|].
      apply Rest; auto.
      * eapply vstep_trans; [exact V1|eapply step1_vstep; [left; reflexivity|exact ST2]].
      * now rewrite QT.
      * left. destruct (ptr (ob w2 (OD x))) as [a|]; [eauto|congruence].
      * eapply readable_step1; [exact ST2|exact Nv|exact R1].
    + rewrite (bind_thrown _ _ _ _ _ E2). apply Fail; auto. now rewrite O1.
    + rewrite (bind_thrown _ _ _ _ _ E2). apply Fail; auto. now rewrite O1.
    + rewrite (bind_thrown _ _ _ _ _ E2). destruct (destroy_empty w2 (OD x) Kq) as [w3 E3]; [rewrite Pq, O1; reflexivity|].
      rewrite (bind_done _ _ _ _ _ E3). exact I.
    + rewrite (bind_undef _ _ _ _ _ E2). exact allowed_cast.
  - assert (N0 : n = 0) by lia.
    rewrite bind_upd. rewrite O1. cbn [with_sz store_default kd sty ptr sz cap alloc mp todel]. rewrite N0.
    set (w2 := set_ob w1 (OD x) _).
    assert (Q2 : ob w2 (OD x) = ob w1 (OD x)) by (unfold w2; rewrite ob_set_same, O1; reflexivity).
    assert (S2 : step1 w1 w2 (OD x)).
    { pose proof (step1_upd w1 (OD x) (fun s => s) W1 eq_refl eq_refl) as G.
      unfold w2. rewrite O1 in G. apply G. rewrite <- O1. apply (ws_store _ W1). }
    pose proof (Rest w2) as G. rewrite N0 in G. apply G; auto.
    + eapply vstep_trans; [exact V1|eapply step1_vstep; [left; reflexivity|exact S2]].
    + rewrite Q2, O1. reflexivity.
    + rewrite Q2, O1. reflexivity.
    + eapply readable_step1; [exact S2|exact Nv|exact R1].
Qed.

(* ---------------------------------------------------------- statements *)

Lemma inb_In x V : inb x V = true <-> In x V.
Proof. unfold inb. rewrite existsb_exists. split; [intros [y [H E]]; apply Nat.eqb_eq in E; now subst|intros H; exists x; split; [exact H|apply Nat.eqb_refl]]. Qed.
Lemma inb_notIn x V : negb (inb x V) = true <-> ~ In x V.
Proof. rewrite negb_true_iff, <- inb_In. destruct (inb x V); split; congruence. Qed.
Lemma forallb_incl e V : forallb (fun y => inb y V) (vars e) = true -> incl (vars e) V.
Proof. intros H y Hy. rewrite forallb_forall in H. apply inb_In. auto. Qed.

Lemma foreign_safely V w x own l s : sound_at ini V w -> ~ In x V -> own <> OwnCpp -> 1 <= Z.of_nat (length l) < 2 ^ 31 ->
  ptr s = Some (hnext (hp w)) -> owner_of s = own -> alloc s = true -> sz s = Z.of_nat (length l) -> cap s = Z.of_nat (length l) ->
  (kd s = KBorrow /\ ~ In x (wrapped ini) \/ kd s = KBorrowSEXP /\ todel s = false /\ In x (wrapped ini)) ->
  sound_at ini (x :: V) (set_ob (set_ob (user_block w own l) (OD x) s) (OT x) (store_default KBuffer (sty s))).
Proof.
  intros SO Nx NO Ll P OW AL SZ CP K. destruct (so_dead _ _ _ SO x Nx) as [U1 U2].
  destruct (foreign_new ini w x own l s (so_shape _ _ _ SO) (so_there _ _ _ SO) U1 U2 NO Ll P OW AL SZ CP K) as [S [F I]].
  eapply (sound_new V w); eauto.
Qed.

Lemma scmd_safely lm V w c : (written ini = true -> other_rhs c) -> cmd_keeps (wrapped ini) c -> sound_at ini V w -> in_scope V c = true -> cmd_ok c ->
  let (r, w') := run_scmd lm c w in safely V (scope_after V c) r w'.
Proof.
  intros Rh Kp SO Sc Ok. pose proof (so_shape _ _ _ SO) as W. pose proof (so_lim _ _ _ SO) as L.
  assert (LV : forall x, inb x V = true -> In x V /\ fit w x /\ inited w x).
  { intros x Hx. apply inb_In in Hx. split; [exact Hx|]. now apply (so_live _ _ _ SO). }
  assert (RD : forall e, incl (vars e) V -> readable w e) by (intros e He y Hy; exact (proj2 (so_live _ _ _ SO y (He y Hy)))).
  destruct c as [x t e|x t n|x e|x v|x i v|s x ind same e|x ind v|e i|x|x|x t l|x t l m]; cbn [in_scope cmd_ok cmd_keeps run_scmd scope_after other_rhs] in *.
  - apply andb_prop in Sc. destruct Sc as [S1 S2]. apply declare_safely; auto; [now apply inb_notIn|now apply forallb_incl].
  - apply sized_safely; auto. now apply inb_notIn.
  - apply andb_prop in Sc. destruct Sc as [S1 S2]. destruct (LV x S1) as [Hx [O Lx]].
    pose proof (assign_leaves lm w x e W L O Kp Lx (RD e (forallb_incl _ _ S2)) Ok) as G.
    destruct (assign lm x e w) as [r w']. eapply leaves_safely; eauto.
  - destruct (LV x Sc) as [Hx [O Lx]]. pose proof (scalar_leaves w x v W O Lx) as G.
    destruct (assign_scalar x v w) as [r w']. eapply leaves_safely; eauto.
  - destruct (LV x Sc) as [Hx [O Lx]]. pose proof (element_leaves True w x i v W O Lx Ok) as G.
    destruct (at_wr (OD x) i v w) as [r w']. eapply leaves_safely; eauto.
  - apply andb_prop in Sc. destruct Sc as [S1 S3]. apply andb_prop in S1. destruct S1 as [S1 S2]. destruct (LV x S1) as [Hx _].
    apply subset_safely; auto; [|now apply inb_notIn|now apply forallb_incl|apply Ok|apply Ok].
    intros ->. destruct (written ini); [discriminate (Rh eq_refl)|reflexivity].
  - destruct (LV x Sc) as [Hx [O Lx]]. pose proof (subset_scalar_leaves True w x ind v W O Lx Ok) as G.
    destruct (assign_subset_scalar x ind v w) as [r w']. eapply leaves_safely; eauto.
  - destruct Ok as [Se Hi]. pose proof (elem_calm lm w e W (RD e (forallb_incl _ _ Sc)) Se i Hi) as G.
    pose proof (elem_pure lm e i w) as PU. unfold bind. destruct (elem lm e i w) as [[v|[m|]|u] w1]; cbn [fst snd] in *; subst w1; cbn [safely]; auto.
  - destruct (LV x Sc) as [Hx [O Lx]]. destruct (iterate_calm w x W Lx) as [r [E C]].
    unfold bind. rewrite E. destruct r as [a|[m|]|u]; cbn [safely ret]; auto.
  - destruct (LV x Sc) as [Hx [O _]]. destruct (fit_end ini w x W O) as [w' [E [V' [U1 U2]]]]. rewrite E. cbn [safely].
    eapply sound_gone; eauto.
  - unfold vec_borrow. cbn [bind borrow_ctor upd ctor_default ret safely]. apply (foreign_safely V w x OwnExt l); auto; try discriminate. now apply inb_notIn.
  - unfold vec_sexp. cbn [bind sexp_ctor upd ctor_default ret safely]. apply (foreign_safely V w x OwnR l); auto; try discriminate. now apply inb_notIn.
Qed.

Lemma history_safe lm cs : forall V w, (written ini = true -> Forall other_rhs cs) -> Forall (cmd_keeps (wrapped ini)) cs -> sound_at ini V w -> Forall cmd_ok cs ->
  match history lm cs V w with
  | (Finished, V', w') => sound_at ini V' w'
  | (NoMemory, _, _) => True
  | (Undefined u, _, _) => allowed ini u
  end.
Proof.
  induction cs as [|c cs IH]; intros V w Rh Kp SO F; cbn [history]; [exact SO|].
  inversion F as [|? ? Fc Fr]; subst. inversion Kp as [|? ? Kc Kr]; subst.
  assert (R1 : written ini = true -> other_rhs c) by (intros E; specialize (Rh E); now inversion Rh).
  assert (R2 : written ini = true -> Forall other_rhs cs) by (intros E; specialize (Rh E); now inversion Rh).
  destruct (in_scope V c) eqn:Sc; [|now apply IH].
  pose proof (scmd_safely lm V w c R1 Kc SO Sc Fc) as G.
  destruct (run_scmd lm c w) as [[a|[m|]|u] w']; cbn [safely] in G; [now apply IH|now apply IH|exact I|exact G].
Qed.

Lemma sound_empty lim : lenders ini = [] -> 0 <= lim < 2 ^ 31 -> sound_at ini [] (empty_world lim).
Proof.
  intros N L. split.
  - apply world_ok_shape, empty_world_ok. lia.
  - cbn. lia.
  - intros x [].
  - intros x _. split; apply empty_world_unborn.
  - apply empty_world_no_leak.
  - rewrite N. intros b own cs m [].
Qed.
End Ini.
