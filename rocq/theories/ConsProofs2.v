(** Shapes of expressions and construction of vectors: remaining lemmas. *)
From Coq Require Import String ZArith List Bool Lia.
From Verif Require Import Base Num StoreModel VecModel SubsetModel AllocModel Spec SpecExpr SpecHist SpecProg
  SpecSub SpecAlloc SpecCons CapProofs StoreProofs StoreOps VecProofs VecAssign VecEval SubsetProofs StoreThms SubsetThms
  AllocProofs AllocProofs2 ConsProofs ForeignProofs.
Import ListNotations.
Open Scope Z_scope.
Local Notation length := List.length (only parsing).

Lemma eim_dims w e : eim w e = match xdims (dims_in w) e with Some _ => true | None => false end.
Proof.
  induction e as [y|t l m|v|e IH ind m|op l IHl r IHr|op e IH]; cbn [eim xdims]; auto.
  - unfold dims_in, dims_of. now destruct (ismat _).
  - unfold dims_of. now destruct (ismat m).
  - unfold dims_of. now destruct (ismat m).
  - rewrite IHl, IHr. destruct (is_sca l) eqn:SL.
    { destruct l; try discriminate. cbn [xdims join]. now destruct (xdims _ r). }
    destruct (is_sca r) eqn:SR.
    { destruct r; try discriminate. cbn [xdims join]. now destruct (xdims _ l) as [[? ?]|]. }
    destruct (xdims _ l) as [[? ?]|], (xdims _ r) as [[? ?]|]; reflexivity.
Qed.

Lemma edim_dims w e r c : xdims (dims_in w) e = Some (r, c) -> edim rows w e = Done r /\ edim cols w e = Done c.
Proof.
  revert r c. induction e as [y|t l m|v|e IH ind m|op l IHl q IHr|op e IH]; intros r c; cbn [edim xdims]; try discriminate.
  - unfold dims_in, dims_of. destruct (ismat _); [|discriminate]. intros Q. injection Q as <- <-. auto.
  - unfold dims_of. destruct (ismat _); [|discriminate]. intros Q. injection Q as <- <-. auto.
  - unfold dims_of. destruct (ismat _); [|discriminate]. intros Q. injection Q as <- <-. auto.
  - destruct (is_sca l) eqn:SL.
    { destruct l; try discriminate. cbn [xdims join]. apply IHr. }
    destruct (is_sca q) eqn:SR.
    { destruct q; try discriminate. cbn [xdims join]. intros Q. apply IHl. now destruct (xdims _ l) as [[? ?]|]. }
    rewrite !eim_dims.
    destruct (xdims _ l) as [[r1 c1]|], (xdims _ q) as [[r2 c2]|]; cbn [join andb negb]; try discriminate; auto.
    destruct (IHl _ _ eq_refl) as [A1 A2]. destruct (IHr _ _ eq_refl) as [B1 B2].
    rewrite A1, A2, B1, B2. cbn [obind]. intros Q. injection Q as <- <-.
    split; f_equal; [destruct (Z.ltb_spec r2 r1)|destruct (Z.ltb_spec c2 c1)]; lia.
Qed.

Lemma shape_dims w e old : dims_of (shape_of w e old) = received (xdims (dims_in w) e) (dims_of old).
Proof.
  unfold shape_of. rewrite eim_dims. destruct (xdims (dims_in w) e) as [[r c]|] eqn:X; [|reflexivity].
  destruct (edim_dims w e r c X) as [-> ->]. reflexivity.
Qed.

Lemma take_shape_total w o e : exists w', take_shape o e w = (Done tt, w').
Proof. rewrite take_shape_done. destruct (eim w e); eauto. Qed.

Lemma cast_ty t v v' : cast t v = Done v' -> ty_of v' = t.
Proof.
  unfold cast. destruct t, v; cbn; intros H; try (injection H as <-; reflexivity).
  destruct (f2int d) as [?|?|?]; try discriminate; injection H as <-; reflexivity.
Qed.
Lemma cast_idem t v v' : cast t v = Done v' -> cast t v' = Done v'.
Proof. intros H. apply cast_same. eapply cast_ty; eauto. Qed.

Lemma fill_cast w o v v' : cast (sty (ob w o)) v = Done v' -> fill o v w = fill o v' w.
Proof. intros H. unfold fill. rewrite !bind_st, H, (cast_idem _ _ _ H). reflexivity. Qed.

Lemma matrix_fill_made w x t r c v v' : world_shape w -> unborn w (OD x) -> unborn w (OT x) ->
  1 <= r -> 1 <= c -> fits w (r * c) -> cast t v = Done v' ->
  exists w', vec_matrix_fill x t r c v w = (Done tt, w') /\
    made w w' x t (repeat v' (Z.to_nat (r * c))) (mkMP true r c).
Proof.
  intros W D1 D2 R C Ft Cv. destruct (vec_matrix_fresh w x t r c W D1 D2 R C Ft) as [w1 [E1 F1]].
  destruct (fresh_fill_scalar w w1 x t (mkMP true r c) (r * c) v' F1) as [w2 [E2 M2]]; [nia| |].
  { eapply cast_ty; eauto. }
  exists w2. split; [|exact M2]. unfold vec_matrix_fill. rewrite (bind_done _ _ _ _ _ E1).
  destruct F1 as [_ [_ [_ [_ [_ [_ [TY _]]]]]]]. rewrite (fill_cast w1 (OD x) v v'); [exact E2|now rewrite TY].
Qed.

(** An empty value gives an empty vector. *)
Lemma vec_of_empty lm w x t e rho : world_shape w -> unborn w (OD x) -> unborn w (OT x) -> ~ In x (vars e) ->
  env_of w rho e -> wf_expr rho e -> xsize rho e = 0 ->
  exists w', vec_of_expr lm x t e w = (Done tt, w') /\ vstep w w' x /\ (world_ok w -> world_ok w') /\ vholds w' x [] /\
    mp (ob w' (OD x)) = shape_of w e mp_none.
Proof.
  intros W D1 D2 Nx EN WF N0.
  destruct (default_pair w x t W D1 D2) as [w1 [E1 [V1 [K1 [O1 T1]]]]].
  unfold vec_of_expr. rewrite bind_get. cbv zeta. rewrite (esize_xsize w rho e EN WF), N0.
  unfold bind at 1. rewrite E1. cbn [Z.ltb Z.compare].
  unfold bind at 1. unfold upd at 1. rewrite O1. cbn [with_sz store_default].
  set (w2 := set_ob w1 (OD x) _).
  assert (Q2 : ob w2 (OD x) = ob w1 (OD x)) by (unfold w2; rewrite ob_set_same, O1; reflexivity).
  assert (S2 : step1 w1 w2 (OD x)).
  { pose proof (step1_upd w1 (OD x) (fun s => s) (vs_shape _ _ _ V1) eq_refl eq_refl) as G.
    unfold w2. rewrite O1 in G. apply G. rewrite <- O1. apply (ws_store _ (vs_shape _ _ _ V1)). }
  assert (V2 : vstep w w2 x) by (eapply vstep_trans; [exact V1|eapply step1_vstep; [left; reflexivity|exact S2]]).
  assert (H2 : vholds w2 x []).
  { split; [rewrite Q2, O1; reflexivity|simpl; intros; lia]. }
  assert (WO2 : world_ok w -> world_ok w2).
  { intros WO. eapply step1_ok; [exact S2|auto|]. eapply inited_buffer; [apply S2|rewrite Q2, O1; reflexivity|exact H2]. }
  assert (SH : shape_of w2 e (mp (ob w2 (OD x))) = shape_of w e mp_none).
  { assert (ME : forall y, In y (vars e) -> mp (ob w2 (OD y)) = mp (ob w (OD y))).
    { intros y Hy. destruct (vs_other _ _ _ V2 (OD y)) as [Q _]; [congruence|congruence|]. now rewrite Q. }
    unfold shape_of. rewrite (eim_mp w w2 e), (edim_mp rows w w2 e), (edim_mp cols w w2 e) by exact ME.
    rewrite Q2, O1. reflexivity. }
  assert (FT : fill_temp lm (OD x) t e 0 w2 = (Done tt, w2)) by reflexivity.
  rewrite (bind_done _ _ _ _ _ FT), take_shape_done, SH. destruct (eim w2 e) eqn:EI.
  - set (m := shape_of w e mp_none). pose proof (step1_mp w2 (OD x) m (s1_shape _ _ _ S2)) as S3.
    exists (set_ob w2 (OD x) (with_mp m (ob w2 (OD x)))). split; [reflexivity|].
    assert (H3 : vholds (set_ob w2 (OD x) (with_mp m (ob w2 (OD x)))) x []) by (now apply holds_mp).
    assert (K3 : kd (ob (set_ob w2 (OD x) (with_mp m (ob w2 (OD x)))) (OD x)) = KBuffer).
    { rewrite ob_set_same. cbn [kd with_mp]. rewrite Q2, O1. reflexivity. }
    assert (M3 : mp (ob (set_ob w2 (OD x) (with_mp m (ob w2 (OD x)))) (OD x)) = m) by (rewrite ob_set_same; reflexivity).
    split; [eapply vstep_trans; [exact V2|eapply step1_vstep; [left; reflexivity|exact S3]]|].
    split; [|auto]. intros WO. eapply step1_ok; [exact S3|auto|]. eapply inited_buffer; eauto. apply S3.
  - exists w2. split; [reflexivity|]. split; [exact V2|]. split; [exact WO2|]. split; [exact H2|].
    rewrite <- SH. unfold shape_of. now rewrite EI.
Qed.

Lemma omap_thrown (f : Z -> outcome val) ex k : forall i, omap f (zseq i k) = Thrown ex ->
  exists j, i <= j < i + Z.of_nat k /\ f j = Thrown ex.
Proof.
  induction k as [|k IH]; intros i; cbn [zseq omap]; [discriminate|].
  destruct (f i) as [u|g|g] eqn:Q; cbn [obind].
  - destruct (omap _ (zseq (i + 1) k)) as [us|g|g] eqn:R; cbn [obind]; try discriminate.
    intros Q2. injection Q2 as ->. destruct (IH (i + 1) R) as [j [Hj Ej]]. exists j. split; [lia|exact Ej].
  - intros Q2. injection Q2 as ->. exists i. split; [lia|exact Q].
  - discriminate.
Qed.
