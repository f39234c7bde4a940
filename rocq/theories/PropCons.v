(** Properties C68 to C70: construction of vectors from expressions, the shape
    of expressions and their conversion to a scalar. *)
From Coq Require Import String ZArith List Bool Lia.
From Verif Require Import Base Num StoreModel VecModel SubsetModel AllocModel Spec SpecExpr SpecHist SpecProg
  SpecVec SpecSub SpecAlloc SpecCons StoreProofs StoreOps VecProofs VecAssign VecEval StoreThms SubsetThms ConsProofs ConsProofs2
  Examples PropVec.
Import ListNotations.
Open Scope Z_scope.
Local Notation length := List.length (only parsing).

(* ------------------------------------------------------------------ C68 *)

(** [Vec x = e;] (t is the element type of x): x has the elements of e,
    converted to t, and the shape of e; nothing else has changed. *)
Theorem c68_construction : forall lm w x t e rho us,
  world_shape w -> unborn w (OD x) -> unborn w (OT x) -> ~ In x (vars e) -> env_of w rho e -> wf_expr rho e ->
  1 <= xsize rho e -> fits w (xsize rho e) -> value_of lm rho t e us ->
  exists w' m, vec_of_expr lm x t e w = (Done tt, w') /\ made w w' x t us m /\ dims_of m = xdims (dims_in w) e.
Proof.
  intros lm w x t e rho us W D1 D2 Nx EN WF N1 Ft VO.
  pose proof (vec_of_expr_run lm w x t e rho W D1 D2 Nx EN WF N1 Ft) as G. unfold cons_result in G.
  rewrite (value_of_done lm rho t e us VO) in G. destruct G as [w' [E M]]. exists w', (shape_of w e mp_none).
  split; [exact E|]. split; [exact M|]. rewrite shape_dims. unfold received. destruct (xdims (dims_in w) e); reflexivity.
Qed.
Print Assumptions c68_construction.
Example c68_ex : exists w' m, vec_of_expr ex_lm 5 TInt (EBin OPlus (EVar 0) (ESca d1)) ex_w = (Done tt, w') /\
  made ex_w w' 5 TInt [VI 2; VI 3; VI 4] m /\ dims_of m = None.
Proof.
  apply (c68_construction ex_lm ex_w 5 TInt (EBin OPlus (EVar 0) (ESca d1)) ex_rho [VI 2; VI 3; VI 4]).
  - exact ex_shape.
  - show_unborn.
  - show_unborn.
  - simpl. intros [H|[]]; lia.
  - apply ex_env. intros ? ?; simpl in *; tauto.
  - cbn [wf_expr]. repeat split; vm_compute; congruence.
  - vm_compute; congruence.
  - vm_compute; congruence.
  - split; [reflexivity|]. intros i Hi.
    destruct i as [|[|[|i]]]; [exists d2|exists d3|exists (VD (i2f 4))|simpl in Hi; lia]; (split; [vm_compute; reflexivity|reflexivity]).
Qed.

(** An empty value gives an empty vector. *)
Theorem c68_empty : forall lm w x t e rho,
  world_shape w -> unborn w (OD x) -> unborn w (OT x) -> ~ In x (vars e) -> env_of w rho e -> wf_expr rho e ->
  xsize rho e = 0 ->
  exists w', vec_of_expr lm x t e w = (Done tt, w') /\ vstep w w' x /\ (world_ok w -> world_ok w') /\ vholds w' x [].
Proof.
  intros lm w x t e rho W D1 D2 Nx EN WF N. destruct (vec_of_empty lm w x t e rho W D1 D2 Nx EN WF N) as [w' [A [B [C [D _]]]]].
  exists w'. auto.
Qed.
Print Assumptions c68_empty.
Example c68_empty_ex : xsize ex_rho (ETmp TDouble [] mp_none) = 0 /\ wf_expr ex_rho (ETmp TDouble [] mp_none) /\
  exists w', vec_of_expr ex_lm 5 TDouble (ETmp TDouble [] mp_none) ex_w = (Done tt, w') /\ vholds w' 5 [].
Proof.
  split; [reflexivity|]. split; [exact I|].
  destruct (c68_empty ex_lm ex_w 5 TDouble (ETmp TDouble [] mp_none) ex_rho) as [w' [A [_ [_ B]]]]; eauto.
  - exact ex_shape.
  - show_unborn.
  - show_unborn.
  - intros y [].
  - exact I.
Qed.

(** When an element cannot be computed the exception leaves nothing behind: the
    memory that was reserved is given back, and nothing else has changed. *)
Theorem c68_failure : forall lm w x t e rho ex w',
  world_shape w -> unborn w (OD x) -> unborn w (OT x) -> ~ In x (vars e) -> env_of w rho e -> wf_expr rho e ->
  1 <= xsize rho e -> fits w (xsize rho e) -> vec_of_expr lm x t e w = (Thrown ex, w') ->
  not_made w w' x /\ (no_leak w -> no_leak w') /\
  exists i, 0 <= i < xsize rho e /\ (v <-o xval lm rho e i ;; cast t v) = Thrown ex.
Proof.
  intros lm w x t e rho ex w' W D1 D2 Nx EN WF N1 Ft H.
  pose proof (vec_of_expr_run lm w x t e rho W D1 D2 Nx EN WF N1 Ft) as G. unfold cons_result in G.
  destruct (value lm rho t e) as [us|ex'|u] eqn:V.
  - destruct G as [w1 [E _]]. congruence.
  - destruct G as [w1 [E NM]]. rewrite E in H. injection H as <- <-. split; [exact NM|]. split.
    + intros NL a cs Ha. destruct NM as [VS [_ [U1 U2]]].
      destruct (vs_leak _ _ _ VS a cs Ha) as [[A|A]|[A [B1 B2]]]; [exfalso; now apply (U1 a)|exfalso; now apply (U2 a)|].
      destruct (NL a cs A) as [o Ho].
      assert (o <> OD x) by congruence. assert (o <> OT x) by congruence.
      exists o. destruct (vs_other _ _ _ VS o) as [Q _]; auto. now rewrite Q.
    + destruct (omap_thrown _ _ _ _ V) as [j [Hj Ej]]. exists j. split; [lia|exact Ej].
  - destruct G as [w1 E]. congruence.
Qed.
Print Assumptions c68_failure.
Example c68_failure_ex : exists ex w', vec_of_expr ex_lm 5 TDouble (ESub (EVar 0) [0; 7] mp_none) ex_w = (Thrown ex, w') /\
  not_made ex_w w' 5 /\ wf_expr ex_rho (ESub (EVar 0) [0; 7] mp_none).
Proof.
  assert (WF : wf_expr ex_rho (ESub (EVar 0) [0; 7] mp_none)).
  { cbn [wf_expr]. repeat split; try (vm_compute; congruence). intros j [<-|[<-|[]]]; lia. }
  destruct (vec_of_expr ex_lm 5 TDouble (ESub (EVar 0) [0; 7] mp_none) ex_w) as [[[]|ex|u] w'] eqn:E.
  - exfalso. assert (Q : fst (vec_of_expr ex_lm 5 TDouble (ESub (EVar 0) [0; 7] mp_none) ex_w) = Done tt) by now rewrite E.
    vm_compute in Q. discriminate.
  - exists ex, w'. split; [reflexivity|]. split; [|exact WF].
    apply (c68_failure ex_lm ex_w 5 TDouble (ESub (EVar 0) [0; 7] mp_none) ex_rho ex w'); auto.
    + exact ex_shape.
    + show_unborn.
    + show_unborn.
    + simpl. intros [H|[]]; lia.
    + apply ex_env. intros ? ?; simpl in *; tauto.
    + vm_compute; congruence.
    + vm_compute; congruence.
  - exfalso. assert (Q : fst (vec_of_expr ex_lm 5 TDouble (ESub (EVar 0) [0; 7] mp_none) ex_w) = Undef u) by now rewrite E.
    vm_compute in Q. discriminate.
Qed.

(** [Vec x(rows, cols, value)]: a matrix of that shape, every element is the value. *)
Theorem c68_filled_matrix : forall w x t r c v v',
  world_shape w -> unborn w (OD x) -> unborn w (OT x) -> 1 <= r -> 1 <= c -> fits w (r * c) -> cast t v = Done v' ->
  exists w', vec_matrix_fill x t r c v w = (Done tt, w') /\
    made w w' x t (repeat v' (Z.to_nat (r * c))) (mkMP true r c).
Proof. exact matrix_fill_made. Qed.
Print Assumptions c68_filled_matrix.
Example c68_filled_ex : exists w', vec_matrix_fill 5 TInt 2 3 d2 ex_w = (Done tt, w') /\
  made ex_w w' 5 TInt [VI 2; VI 2; VI 2; VI 2; VI 2; VI 2] (mkMP true 2 3).
Proof.
  apply (c68_filled_matrix ex_w 5 TInt 2 3 d2 (VI 2)); try lia.
  - exact ex_shape.
  - show_unborn.
  - show_unborn.
  - vm_compute; congruence.
  - reflexivity.
Qed.

(* ------------------------------------------------------------------ C69 *)

(** The shape after an assignment is the shape of the value, or the shape the
    vector had when the value is no matrix; two matrices give the larger number
    of rows and of columns. *)
Theorem c69_shape_assigned : forall lm w x e rho us,
  world_shape w -> owning w x -> small w x -> can_assign w x -> env_of w rho e -> wf_expr rho e ->
  1 <= xsize rho e <= max_len -> fits w (xsize rho e) -> value_of lm rho (sty (ob w (OD x))) e us ->
  exists w', assign lm x e w = (Done tt, w') /\ vholds w' x us /\
    dims_in w' x = received (xdims (dims_in w) e) (dims_in w x) /\
    forall y, y <> x -> dims_in w' y = dims_in w y.
Proof.
  intros lm w x e rho us W O S C EN WF N F V.
  destruct (assign_buffer_core lm w x e rho us) as [w' [A [B [_ [H [_ [_ [_ [_ [M _]]]]]]]]]]; auto.
  exists w'. split; [exact A|]. split; [exact H|]. split.
  - unfold dims_in. now rewrite M, shape_dims.
  - intros y Ny. unfold dims_in. destruct (vs_other _ _ _ B (OD y)) as [Q _]; [congruence|congruence|]. now rewrite Q.
Qed.
Print Assumptions c69_shape_assigned.
Example c69_ex : exists w', assign ex_lm 0 (EBin OPlus (EVar 1) ex_mat) ex_w = (Done tt, w') /\
  dims_in w' 0 = Some (2, 2) /\ dims_in ex_w 0 = None.
Proof.
  destruct (c69_shape_assigned ex_lm ex_w 0 (EBin OPlus (EVar 1) ex_mat) ex_rho [d3; d2; d1; d0]) as [w' [A [_ [B _]]]].
  - exact ex_shape.
  - show_kd.
  - apply ex_small.
  - exact (proj2 ex_ready0).
  - apply ex_env. intros ? ?; simpl in *; tauto.
  - cbn [wf_expr ex_mat]. repeat split; vm_compute; congruence.
  - split; vm_compute; congruence.
  - vm_compute; congruence.
  - split; [reflexivity|]. intros i Hi.
    destruct i as [|[|[|[|i]]]]; [exists d3|exists d2|exists d1|exists d0|simpl in Hi; lia]; (split; [vm_compute; reflexivity|reflexivity]).
  - exists w'. split; [exact A|]. split; [|reflexivity]. rewrite B. reflexivity.
Qed.

(** Taking over the shape never fails: the exception "Matrix calculation
    failed!" of the code cannot occur. *)
Theorem c69_shape_total : forall w o e, exists w', take_shape o e w = (Done tt, w').
Proof. exact take_shape_total. Qed.
Print Assumptions c69_shape_total.

(** Two matrices of different shape are not rejected, and the shape of the
    result need not agree with its number of elements: a 1 x 4 and a 4 x 1
    matrix give four elements and the shape 4 x 4. *)
Theorem c69_shape_fits_refuted : forall lm w x t l1 l2 op r c us,
  world_shape w -> owning w x -> small w x -> can_assign w x -> sty (ob w (OD x)) = t ->
  1 <= r -> 1 <= c -> length l1 = Z.to_nat (r * c) -> length l2 = Z.to_nat (r * c) -> r <> c ->
  r * c <= max_len -> fits w (r * c) ->
  let e := EBin op (ETmp TDouble l1 (mkMP true r c)) (ETmp TDouble l2 (mkMP true c r)) in
  value_of lm (fun _ => []) t e us ->
  exists w', assign lm x e w = (Done tt, w') /\ vholds w' x us /\ Z.of_nat (length us) = r * c /\
    dims_in w' x = Some (Z.max r c, Z.max r c) /\ Z.of_nat (length us) < Z.max r c * Z.max r c.
Proof.
  intros lm w x t l1 l2 op r c us W O S C T R1 C1 L1 L2 N B F e V. subst t.
  assert (XS : xsize (fun _ => []) e = r * c) by (cbn [e xsize]; rewrite L1, L2; nia).
  assert (P : 1 <= r * c) by nia.
  destruct (c69_shape_assigned lm w x e (fun _ => []) us) as [w' [A [H [D _]]]]; auto; rewrite ?XS; try lia.
  - intros y Hy. simpl in Hy. contradiction.
  - cbn [e wf_expr xsize]. rewrite L1, L2. repeat split; nia.
  - exact F.
  - exists w'. destruct V as [VL _]. rewrite XS in VL. split; [exact A|]. split; [exact H|]. split; [exact VL|].
    split; [rewrite D; cbn [e xdims dims_of ismat rows cols join received]; rewrite (Z.max_comm c r); reflexivity|].
    rewrite VL. clear - R1 C1 N. destruct (Z.max_spec r c) as [[? ->]|[? ->]].
    + apply Z.mul_lt_mono_pos_r; lia.
    + apply Z.mul_lt_mono_pos_l; lia.
Qed.
Print Assumptions c69_shape_fits_refuted.
Example c69_refuted_ex : exists w' us, assign ex_lm 0 (EBin OPlus (ETmp TDouble (repeat d1 6) (mkMP true 2 3)) (ETmp TDouble (repeat d1 6) (mkMP true 3 2))) ex_w = (Done tt, w') /\
  length us = 6%nat /\ vholds w' 0 us /\ dims_in w' 0 = Some (3, 3).
Proof.
  destruct (c69_shape_fits_refuted ex_lm ex_w 0 TDouble (repeat d1 6) (repeat d1 6) OPlus 2 3 (repeat d2 6)) as [w' [A [B [_ [D _]]]]]; try lia; auto.
  - exact ex_shape.
  - show_kd.
  - apply ex_small.
  - exact (proj2 ex_ready0).
  - vm_compute; congruence.
  - vm_compute; congruence.
  - split; [reflexivity|]. intros i Hi.
    repeat (destruct i as [|i]; [exists d2; split; [vm_compute; reflexivity|reflexivity]|]). simpl in Hi. lia.
  - exists w', (repeat d2 6). auto.
Qed.

(* ------------------------------------------------------------------ C70 *)

(** Conversion of an expression to a scalar gives its first element (for an
    expression without elements the exception of its first element). *)
Theorem c70_scalar_first : forall lm w e rho,
  world_shape w -> env_of w rho e -> wf_expr rho e -> 1 <= xsize rho e ->
  to_scalar lm e w = (v <-o xval lm rho e 0 ;; Done (read e v), w).
Proof.
  intros lm w e rho W EN WF N. unfold to_scalar. rewrite vat_read. unfold bind. rewrite elem_xval with (rho := rho); auto; try lia.
  destruct (xval lm rho e 0); reflexivity.
Qed.
Print Assumptions c70_scalar_first.
Theorem c70_scalar_variable : forall lm w x l, world_shape w -> vholds w x l ->
  match l with
  | v :: _ => to_scalar lm (EVar x) w = (Done v, w)
  | [] => exists m, to_scalar lm (EVar x) w = (Thrown (Ass m), w)
  end.
Proof.
  intros lm w x l W H. unfold to_scalar. rewrite vat_read. cbn [elem]. unfold read, own_type, bind, ret. pose proof (at_rd_bounds w (OD x) l 0 W H ltac:(lia)) as B.
  destruct l as [|v l].
  - destruct (proj2 B ltac:(simpl; lia)) as [m E]. rewrite E. now exists m.
  - pose proof (proj2 H 0%nat ltac:(simpl; lia)) as E. change (Z.of_nat 0) with 0 in E. rewrite E. reflexivity.
Qed.
Print Assumptions c70_scalar_variable.
Example c70_ex : to_scalar ex_lm (EVar 0) ex_w = (Done d1, ex_w).
Proof. exact (c70_scalar_variable ex_lm ex_w 0 [d1; d2; d3] ex_shape ex_holds0). Qed.
