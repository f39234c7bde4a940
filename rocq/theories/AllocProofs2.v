(** Proofs about functions that make vectors: matrix, isNA, isInf, dim, colon, coca. *)
From Coq Require Import String ZArith List Bool Lia Reals Lra.
From Flocq Require Import Core BinarySingleNaN.
From Verif Require Import Base Num StoreModel VecModel SubsetModel AllocModel FloatBridge Spec SpecExpr SpecHist SpecProg
  SpecSub SpecAlloc CapProofs StoreProofs StoreOps VecProofs VecAssign VecEval SubsetProofs StoreThms SubsetThms AllocProofs.
Import ListNotations.
Open Scope Z_scope.
Local Notation length := List.length (only parsing).

(** The end of a vector gives back its memory and changes nothing else. *)
Lemma vec_end_gen w x : world_shape w -> owning w x ->
  exists w', vec_end x w = (Done tt, w') /\ vstep w w' x /\ (world_ok w -> world_ok w') /\
    unborn w' (OD x) /\ unborn w' (OT x).
Proof.
  intros W [K1 K2].
  destruct (destroy_done w (OT x) W K2) as [w1 [E1 [S1 [U1 [P1 [Z1 B1]]]]]].
  assert (SO1 : same_obj w w1 (OD x)) by (apply (s1_other _ _ _ S1); congruence).
  destruct SO1 as [SO1 _].
  destruct (destroy_done w1 (OD x) (s1_shape _ _ _ S1)) as [w2 [E2 [S2 [U2 [P2 [Z2 B2]]]]]]; [now rewrite SO1|].
  assert (SO2 : same_obj w1 w2 (OT x)) by (apply (s1_other _ _ _ S2); congruence).
  destruct SO2 as [SO2 _].
  set (w3 := set_ob w2 (OD x) (store_default KBuffer (sty (ob w2 (OD x))))).
  assert (S3 : step1 w2 w3 (OD x)) by (apply step1_empty; auto; apply S2).
  assert (O3 : ob w3 (OT x) = ob w1 (OT x)) by (unfold w3; rewrite ob_set_other by congruence; exact SO2).
  set (w4 := set_ob w3 (OT x) (store_default KBuffer (sty (ob w3 (OT x))))).
  assert (S4 : step1 w3 w4 (OT x)).
  { apply step1_empty; auto; [apply S3|]. intros a Ha. rewrite O3 in Ha. now apply (U1 a). }
  exists w4.
  assert (V : vstep w w4 x).
  { eapply vstep_trans; [eapply step1_vstep; [right; reflexivity|exact S1]|].
    eapply vstep_trans; [eapply step1_vstep; [left; reflexivity|exact S2]|].
    eapply vstep_trans; [eapply step1_vstep; [left; reflexivity|exact S3]|].
    eapply step1_vstep; [right; reflexivity|exact S4]. }
  assert (OA : ob w4 (OD x) = store_default KBuffer (sty (ob w2 (OD x)))).
  { unfold w4. rewrite ob_set_other by congruence. apply ob_set_same. }
  assert (OB : ob w4 (OT x) = store_default KBuffer (sty (ob w3 (OT x)))) by apply ob_set_same.
  split.
  { unfold vec_end, vec_destroy, any_destroy. rewrite bind_assoc, bind_assoc, bind_st, K2, (bind_done _ _ _ _ _ E1).
    rewrite bind_assoc, bind_st, SO1, K1, (bind_done _ _ _ _ _ E2), bind_upd. reflexivity. }
  split; [exact V|]. split.
  { intros WO. eapply vstep_ok; eauto.
    - eapply (inited_buffer w4 (OD x) []); [apply V|now rewrite OA|]. split; [now rewrite OA|simpl; lia].
    - eapply (inited_buffer w4 (OT x) []); [apply V|now rewrite OB|]. split; [now rewrite OB|simpl; lia]. }
  split; intros a [Ha _]; [rewrite OA in Ha|rewrite OB in Ha]; discriminate.
Qed.

Lemma vec_end_done w x : world_ok w -> owning w x ->
  exists w', vec_end x w = (Done tt, w') /\ vstep w w' x /\ world_ok w' /\
    unborn w' (OD x) /\ unborn w' (OT x).
Proof.
  intros WO OW. destruct (vec_end_gen w x (world_ok_shape _ WO) OW) as [w' [E [V [H R]]]]. exists w'. auto.
Qed.

(** A construction that fails after the constructor leaves no trace. *)
Lemma built_thrown w w1 x t n m body e w2 : fresh_vec w w1 x t n m -> within w1 x w2 -> (world_ok w -> world_ok w2) ->
  body w1 = (Thrown e, w2) ->
  exists w', built x body w1 = (Thrown e, w') /\ vstep w w' x /\ (world_ok w -> world_ok w') /\
    unborn w' (OD x) /\ unborn w' (OT x).
Proof.
  intros F Wi WO2 E. unfold built. rewrite E.
  assert (OW : owning w2 x).
  { destruct F as [_ [_ [_ [_ [[K1 K2] _]]]]]. unfold owning. rewrite (within_ob _ _ _ Wi). now split. }
  pose proof (within_step _ _ _ _ _ _ _ F Wi) as VW.
  destruct (vec_end_gen w2 x (vs_shape _ _ _ VW) OW) as [w3 [E3 [V3 [R1 R2]]]].
  exists w3. rewrite (bind_done _ _ _ _ _ E3). split; [reflexivity|]. split; [|split; [auto|exact R2]].
  eapply vstep_trans; [|exact V3]. exact VW.
Qed.

(* ------------------------------------------------------------------ matrix *)

Lemma vec_matrix_fresh w x t r c : world_shape w -> unborn w (OD x) -> unborn w (OT x) ->
  1 <= r -> 1 <= c -> fits w (r * c) ->
  exists w1, vec_matrix x t r c w = (Done tt, w1) /\ fresh_vec w w1 x t (r * c) (mkMP true r c).
Proof.
  intros WO D1 D2 Hr Hc Ft. pose proof (fits_len w x _ WO Ft) as F60.
  assert (1 <= r * c) by nia.
  destruct (vec_sized_fresh w x t (r * c) WO D1 D2) as [w1 [E1 F1]]; auto.
  destruct F1 as [V [WO1 [H1 [MP [[K1 K2] [[P0 CA] [TY [CP [SZ OTD]]]]]]]]].
  unfold vec_sized in E1. unfold vec_matrix. rewrite wrap64_small by lia.
  exists (set_ob w1 (OD x) (with_mp (mkMP true r c) (ob w1 (OD x)))).
  split.
  { unfold bind in *. destruct (ctor_size (OD x) t (r * c) w) as [[[]|e|u] wa]; try discriminate.
    destruct (ctor_default (OT x) t wa) as [[[]|e|u] wb]; try discriminate. injection E1 as <-. reflexivity. }
  pose proof (step1_mp w1 (OD x) (mkMP true r c) (vs_shape _ _ _ V)) as S1.
  set (w2 := set_ob w1 (OD x) _) in *.
  assert (O2 : ob w2 (OD x) = with_mp (mkMP true r c) (ob w1 (OD x))) by apply ob_set_same.
  assert (T2 : ob w2 (OT x) = ob w1 (OT x)) by (unfold w2; now rewrite ob_set_other by congruence).
  assert (H2 : vholds w2 x (repeat (zero_of t) (Z.to_nat (r * c)))) by now apply holds_mp.
  unfold fresh_vec, owning, ready, can_assign. rewrite O2, T2. simpl.
  split; [eapply vstep_trans; [exact V|eapply step1_vstep; [left; reflexivity|exact S1]]|].
  split. { intros WO0. eapply step1_ok; eauto. eapply inited_buffer; eauto; [apply S1|now rewrite O2]. }
  split; [exact H2|]. repeat split; auto.
Qed.


Lemma fresh_ptr w w1 x t n m : fresh_vec w w1 x t n m -> exists a, ptr (ob w1 (OD x)) = Some a /\
  alloc (ob w1 (OD x)) = true.
Proof.
  intros [V [WO [H [MP [[K1 K2] [[P0 CA] [TY [CP [SZ OTD]]]]]]]]].
  destruct (ptr (ob w1 (OD x))) as [a|] eqn:P; [|congruence]. exists a. split; auto.
  apply (shape_alloc w1 (OD x) a); auto. apply V.
Qed.

(** fill with an expression of the right length. *)
Lemma fresh_fill_expr lm w w1 x t m e l us : fresh_vec w w1 x t (Z.of_nat (length us)) m -> us <> [] ->
  ~ In x (vars e) -> yields lm w e l -> Forall2 (fun v u => cast t v = Done u) l us ->
  exists w2, fill_expr lm (OD x) e w1 = (Done tt, w2) /\ made w w2 x t us m.
Proof.
  intros F Ne Nx Y C. pose proof (Forall2_len _ _ _ C) as Ln.
  pose proof F as [V [WO [H [MP [OW [RD [TY [CP [SZ OTD]]]]]]]]].
  destruct Y as [ES EL].
  unfold fill_expr. rewrite bind_get, bind_st, (esize_vstep w w1 x e V Nx), ES, SZ, TY, Ln, Z.eqb_refl, bind_ass_true.
  destruct (fresh_ptr _ _ _ _ _ _ F) as [a [P A]].
  apply (fresh_fill w w1 x t m us _ F Ne).
  intros k w2 Hk V2 O2.
  assert (Hk2 : (Z.to_nat k < length l)%nat) by lia.
  specialize (EL (Z.to_nat k) Hk2). rewrite Z2Nat.id in EL by lia.
  rewrite (bind_done _ _ _ _ _ (elem_vstep lm w w2 x e k _ V2 Nx EL)).
  rewrite (Forall2_nth _ _ _ (VB false) (VB false) (Z.to_nat k) C Hk2), bind_lift_done.
  rewrite (set_at_in w2 (OD x) a); rewrite ?O2; auto; [|lia]. now rewrite P.
Qed.

Lemma matrix_done lm w x inp nr nc l r c rv cv : world_shape w -> unborn w (OD x) -> unborn w (OT x) ->
  ~ In x (arg_vars inp) ->
  items lm w inp l -> (forall u, In u l -> ty_of u = arg_ty inp) ->
  first_is lm w nr rv -> size_is rv r -> 1 <= r -> first_is lm w nc cv -> size_is cv c -> 1 <= c ->
  fits w (r * c) -> (exists e t, inp = AV t e /\ Z.of_nat (length l) = r * c) ->
  exists w', matrix_fn lm x inp nr nc w = (Done tt, w') /\ made w w' x (arg_ty inp) l (mkMP true r c).
Proof.
  intros WO D1 D2 Nx It Ty Fr Sr Hr Fc Sc Hc Ft [e [t [-> Ln]]].
  unfold matrix_fn. rewrite (bind_done _ _ _ _ _ (arg_first_is lm w nr rv Fr)).
  rewrite (convert_size_ok rv r Sr Hr), bind_lift_done.
  rewrite (bind_done _ _ _ _ _ (arg_first_is lm w nc cv Fc)).
  rewrite (convert_size_ok cv c Sc Hc), bind_lift_done.
  destruct (vec_matrix_fresh w x (arg_ty (AV t e)) r c WO D1 D2 Hr Hc Ft) as [w1 [E1 F1]].
  rewrite (bind_done _ _ _ _ _ E1). simpl in *. rewrite <- Ln in F1.
  destruct (fresh_fill_expr lm w w1 x t (mkMP true r c) e l l F1) as [w2 [E2 M2]]; auto.
  - intros ->. simpl in Ln. nia.
  - clear - Ty. induction l as [|a l IH]; constructor.
    + rewrite <- (Ty a); [apply cast_same|now left].
    + apply IH. intros u Hu. apply Ty. now right.
  - exists w2. split; auto. now apply built_done.
Qed.

Lemma matrix_scalar lm w x v nr nc r c rv cv : world_shape w -> unborn w (OD x) -> unborn w (OT x) ->
  first_is lm w nr rv -> size_is rv r -> 1 <= r -> first_is lm w nc cv -> size_is cv c -> 1 <= c ->
  fits w (r * c) ->
  exists w', matrix_fn lm x (AS v) nr nc w = (Done tt, w') /\
    made w w' x (ty_of v) (repeat v (Z.to_nat (r * c))) (mkMP true r c).
Proof.
  intros WO D1 D2 Fr Sr Hr Fc Sc Hc Ft.
  unfold matrix_fn. rewrite (bind_done _ _ _ _ _ (arg_first_is lm w nr rv Fr)).
  rewrite (convert_size_ok rv r Sr Hr), bind_lift_done.
  rewrite (bind_done _ _ _ _ _ (arg_first_is lm w nc cv Fc)).
  rewrite (convert_size_ok cv c Sc Hc), bind_lift_done.
  destruct (vec_matrix_fresh w x (arg_ty (AS v)) r c WO D1 D2 Hr Hc Ft) as [w1 [E1 F1]].
  rewrite (bind_done _ _ _ _ _ E1).
  destruct (fresh_fill_scalar w w1 x (ty_of v) _ _ v F1) as [w2 [E2 M2]]; auto; [nia|].
  exists w2. split; auto. now apply built_done.
Qed.

Lemma matrix_bad lm w x t e nr nc r c rv cv : world_shape w -> unborn w (OD x) -> unborn w (OT x) ->
  ~ In x (vars e) -> esize w e <> r * c ->
  first_is lm w nr rv -> size_is rv r -> 1 <= r -> first_is lm w nc cv -> size_is cv c -> 1 <= c ->
  fits w (r * c) ->
  exists w' m, matrix_fn lm x (AV t e) nr nc w = (Thrown (Ass m), w') /\ vstep w w' x /\ (world_ok w -> world_ok w') /\
    unborn w' (OD x) /\ unborn w' (OT x).
Proof.
  intros WO D1 D2 Nx Ln Fr Sr Hr Fc Sc Hc Ft.
  unfold matrix_fn. rewrite (bind_done _ _ _ _ _ (arg_first_is lm w nr rv Fr)).
  rewrite (convert_size_ok rv r Sr Hr), bind_lift_done.
  rewrite (bind_done _ _ _ _ _ (arg_first_is lm w nc cv Fc)).
  rewrite (convert_size_ok cv c Sc Hc), bind_lift_done.
  destruct (vec_matrix_fresh w x (arg_ty (AV t e)) r c WO D1 D2 Hr Hc Ft) as [w1 [E1 F1]].
  rewrite (bind_done _ _ _ _ _ E1).
  pose proof F1 as [V1 [WO1 [_ [_ [_ [_ [_ [_ [SZ _]]]]]]]]].
  destruct (built_thrown w w1 x _ _ _ (fill_expr lm (OD x) e) (Ass "cannot use fill with vectors of different lengths") w1 F1)
    as [w2 [E2 R]]; auto.
  - eapply within_refl; eauto.
  - unfold fill_expr. rewrite bind_get, bind_st, (esize_vstep w w1 x e V1 Nx), SZ.
    apply Z.eqb_neq in Ln. rewrite Ln. apply bind_ass_false.
  - exists w2. eexists. split; [exact E2|exact R].
Qed.

(* ------------------------------------------------------------ isNA, isInf *)

Lemma test_done lm p w x e l : world_shape w -> unborn w (OD x) -> unborn w (OT x) ->
  ~ In x (vars e) -> yields lm w e l -> l <> [] -> fits w (Z.of_nat (length l)) ->
  exists w', test_fn lm p x e w = (Done tt, w') /\
    made w w' x TBool (map (fun v => VB (p (v2f v))) l) mp_none.
Proof.
  intros WO D1 D2 Nx [ES EL] Ne Ft.
  assert (L0 : (0 < length l)%nat) by (destruct l; [congruence|simpl; lia]).
  unfold test_fn. rewrite bind_get, ES.
  destruct (vec_sized_fresh w x TBool (Z.of_nat (length l)) WO D1 D2) as [w1 [E1 F1]]; auto; [lia|].
  rewrite (bind_done _ _ _ _ _ E1).
  set (us := map (fun v => VB (p (v2f v))) l).
  assert (Lu : length us = length l) by apply map_length.
  rewrite <- Lu in *.
  destruct (fresh_fill w w1 x TBool mp_none us
    (fun i => v <- elem lm e i ;; set_at (OD x) i (VB (test_scalar p v))) F1) as [w2 [E2 M2]].
  - intros E. rewrite E in L0. simpl in L0. lia.
  - intros k w2 Hk V2 O2.
    assert (Hk2 : (Z.to_nat k < length us)%nat) by lia.
    specialize (EL (Z.to_nat k) Hk2). rewrite Z2Nat.id in EL by lia.
    rewrite (bind_done _ _ _ _ _ (elem_vstep lm w w2 x e k _ V2 Nx EL)).
    f_equal. unfold us. rewrite (nth_indep (map _ l) _ ((fun v => VB (p (v2f v))) (VB false))) by exact Hk2.
    now rewrite (map_nth (fun v => VB (p (v2f v)))).
  - exists w2. split; auto. now apply built_done.
Qed.

(** The empty vector: the constructor of the result throws. *)
Lemma test_empty lm p w x e : esize w e = 0 ->
  exists m, test_fn lm p x e w = (Thrown (Ass m), w).
Proof.
  intros ES. unfold test_fn. rewrite bind_get, ES.
  destruct (vec_sized_zero w x TBool) as [m E]. exists m. unfold bind. now rewrite E.
Qed.

(* ------------------------------------------------------------- dim, length *)

Lemma dim_done w x t e r c : world_shape w -> unborn w (OD x) -> unborn w (OT x) ->
  ~ In x (vars e) -> eim w e = true -> edim rows w e = Done r -> edim cols w e = Done c ->
  0 <= r < 2 ^ 31 -> 0 <= c < 2 ^ 31 -> fits w 2 ->
  exists w', dim_fn x (AV t e) w = (Done tt, w') /\ made w w' x TInt [VI r; VI c] mp_none.
Proof.
  intros WO D1 D2 Nx Im Er Ec Hr Hc Ft. unfold dim_fn. rewrite bind_get, Im, bind_ass_true.
  destruct (vec_sized_fresh w x TInt 2 WO D1 D2) as [w1 [E1 F1]]; auto; [lia|].
  rewrite (bind_done _ _ _ _ _ E1).
  destruct (fresh_writes w w1 x TInt mp_none [VI r; VI c]) as [w2 [E2 M2]]; [exact F1|congruence|].
  exists w2. split; auto. apply built_done.
  rewrite Er, Ec, bind_lift_done. rewrite !to_int_small by lia.
  cbn [length forN] in E2. change (Z.to_nat 0) with O in E2. change (Z.to_nat (0 + 1)) with 1%nat in E2. cbn [nth] in E2.
  unfold bind, lift, ret in *. destruct (set_at (OD x) 0 (VI r) w1) as [[[]|ex|u] wa]; try discriminate.
  change (0 + 1) with 1 in E2. rewrite (to_int_small c) by lia.
  destruct (set_at (OD x) 1 (VI c) wa) as [[[]|ex|u] wb]; try discriminate. exact E2.
Qed.

Lemma dim_bad w x t e : eim w e = false -> exists m, dim_fn x (AV t e) w = (Thrown (Ass m), w).
Proof. intros H. unfold dim_fn. rewrite bind_get, H, bind_ass_false. eauto. Qed.
