(** Properties C49, C50: conversion to R objects and printing. *)
From Coq Require Import String ZArith List Bool Lia Arith.
From Verif Require Import Base Num StoreModel VecModel OutModel Spec SpecExpr SpecVec SpecSub SpecOut StoreProofs VecProofs
  SubsetProofs VecThms StoreThms SpecHist StoreHist OutProofs SubsetThms Examples PropVec PropSubset.
Import ListNotations.
Open Scope Z_scope.
Local Notation length := List.length (only parsing).

(* ------------------------------------------------------------------ C49 *)

(** Converting any expression without matrices, of at most 2^31 - 1 elements,
    gives R a new object with the elements of the expression, converted to the
    element type, and without dimensions. *)
Theorem c49_vector : forall lm t e rho us w, world_shape w -> env_of w rho e -> wf_expr rho e -> value_of lm rho (in_R t) e us ->
  flat w e -> Z.of_nat (length us) <= 2 ^ 31 - 1 -> Z.of_nat (length us) <= hlim (hp w) ->
  exists o w', cpp2R lm t e w = (Done o, w') /\ r_got w w' o t us None.
Proof. intros. eapply cpp2R_flat; eauto using flat_im. Qed.
Print Assumptions c49_vector.

(** A matrix expression keeps its elements and its shape. *)
Theorem c49_matrix : forall lm t e rho us w r c, world_shape w -> env_of w rho e -> wf_expr rho e -> value_of lm rho (in_R t) e us ->
  shaped w rho r c e -> 0 <= r < 2 ^ 31 -> 0 <= c < 2 ^ 31 ->
  Z.of_nat (length us) <= 2 ^ 31 - 1 -> Z.of_nat (length us) <= hlim (hp w) ->
  exists o w', cpp2R lm t e w = (Done o, w') /\ r_got w w' o t us (Some (r, c)).
Proof. exact cpp2R_matrix. Qed.
Print Assumptions c49_matrix.

(** A matrix whose rows times columns differ from its length throws, and
    nothing is made or changed. *)
Theorem c49_mismatch : forall lm t w x r c, mp (ob w (OD x)) = mkMP true r c -> sz (ob w (OD x)) <> (r * c) mod 2 ^ 64 ->
  exists m, cpp2R lm t (EVar x) w = (Thrown (Ass m), w).
Proof.
  intros lm t w x r c M S. apply (cpp2R_mismatch lm t (EVar x) w r c); cbn [eim edim esize]; rewrite ?M; auto.
Qed.
Print Assumptions c49_mismatch.

Lemma ex49_env : env_of ex_w ex_rho (EBin OPlus ex_mat (EVar 1)).
Proof. apply ex_env. intros ? ?; simpl in *; tauto. Qed.
Example c49_ex : exists o w', cpp2R ex_lm TInt (EBin OPlus ex_mat (EVar 1)) ex_w = (Done o, w') /\
  r_got ex_w w' o TInt [VI 3; VI 2; VI 1; VI 0] (Some (2, 2)).
Proof.
  apply (c49_matrix ex_lm TInt (EBin OPlus ex_mat (EVar 1)) ex_rho); try lia.
  - exact ex_shape.
  - apply ex49_env.
  - cbn [wf_expr ex_mat]. repeat split; vm_compute; congruence.
  - split; [reflexivity|]. intros i Hi.
    do 4 (destruct i as [|i]; [eexists; split; [vm_compute; reflexivity|vm_compute; reflexivity]|]). simpl in Hi. lia.
  - apply Sh_left; [apply Sh_tmp; reflexivity|apply Fl_var; vm_compute; reflexivity|vm_compute; congruence].
  - simpl. lia.
  - vm_compute. congruence.
Qed.
Example c49_vector_ex : exists o w', cpp2R ex_lm TDouble (EVar 0) ex_w = (Done o, w') /\
  r_got ex_w w' o TDouble [d1; d2; d3] None.
Proof.
  apply (c49_vector ex_lm TDouble (EVar 0) ex_rho); try lia.
  - exact ex_shape.
  - apply ex_env. intros ? ?; simpl in *; tauto.
  - exact I.
  - split; [reflexivity|]. intros i Hi.
    do 3 (destruct i as [|i]; [eexists; split; [vm_compute; reflexivity|vm_compute; reflexivity]|]). simpl in Hi. lia.
  - apply Fl_var; vm_compute; reflexivity.
  - simpl. lia.
  - vm_compute. congruence.
Qed.

(** A vector of logicals becomes a logical object of R: 1 for true, 0 for false. *)
Theorem c49_logical : forall lm w x l, world_shape w -> vholds w x (map VB l) -> ismat (mp (ob w (OD x))) = false ->
  Z.of_nat (length l) <= 2 ^ 31 - 1 -> Z.of_nat (length l) <= hlim (hp w) ->
  exists o w', cpp2R lm TBool (EVar x) w = (Done o, w') /\
    r_got w w' o TBool (map (fun b : bool => VI (if b then 1 else 0)) l) None.
Proof.
  intros lm w x l W H M L1 L2. apply (c49_vector lm TBool (EVar x) (fun _ => map VB l)); rewrite ?map_length; auto.
  - intros y [<-|[]]. exact H.
  - exact I.
  - split; [cbn [xsize]; now rewrite !map_length|]. intros i Hi. rewrite map_length in Hi. exists (VB (nth i l false)). cbn [xval]. unfold pick_val.
    rewrite Nat2Z.id. rewrite (map_nth_error VB i l (nth_error_nth' l false Hi)). split; [reflexivity|].
    rewrite (nth_map_val (fun b : bool => VI (if b then 1 else 0)) l i false (VB false) Hi). now destruct (nth i l false).
  - now apply Fl_var.
Qed.
Print Assumptions c49_logical.

(** The negation of a vector of logicals has the element type bool, but its
    elements are not converted to it: where one is true R gets a logical object
    with the element -1, neither TRUE nor FALSE nor NA. *)
Theorem c49_logical_refuted : forall lm w x l i, world_shape w -> vholds w x (map VB l) ->
  Z.of_nat (length l) <= 2 ^ 31 - 1 -> Z.of_nat (length l) <= hlim (hp w) -> nth_error l i = Some true ->
  exists o w' us, cpp2R lm TBool (EUn UNeg (EVar x)) w = (Done o, w') /\ r_got w w' o TBool us None /\
    nth_error us i = Some (VI (-1)).
Proof.
  intros lm w x l i W Hx L1 L2 Ni.
  set (neg := fun b : bool => VI (if b then -1 else 0)).
  destruct (cpp2R_flat lm TBool (EUn UNeg (EVar x)) (fun _ => map VB l) (map neg l) w W) as [o [w' [E G]]].
  - intros z [<-|[]]. exact Hx.
  - assert (1 <= Z.of_nat (length l)) by (assert (nth_error l i <> None) as Q by congruence; apply nth_error_Some in Q; lia).
    cbn [wf_expr xsize]. rewrite !map_length. auto.
  - split; [cbn [xsize]; now rewrite !map_length|]. intros k Hk. rewrite map_length in Hk.
    exists (VD (i2f (- b2z (nth k l false)))). cbn [xval xsize].
    unfold pick_val. rewrite Nat2Z.id, (map_nth_error VB k l (nth_error_nth' l false Hk)).
    rewrite (nth_map_val neg l k false (VB false) Hk). now destruct (nth k l false).
  - reflexivity.
  - rewrite map_length. exact L1.
  - rewrite map_length. exact L2.
  - exists o, w', (map neg l). split; [exact E|]. split; [exact G|]. now rewrite (map_nth_error neg _ _ Ni).
Qed.
Print Assumptions c49_logical_refuted.
(** Vector 0 holds false, true. *)
Definition lg_ops : list sop := [SNew (OD 0) TBool 2; SSet (OD 0) 1 (VB true)].
Definition lg_w : world := snd (exec lg_ops (empty_world 1000)).
Lemma lg_ok : world_shape lg_w.
Proof.
  assert (A : allowed lg_ops (empty_world 1000)) by show_allowed.
  pose proof (exec_final 1000 lg_ops ltac:(lia) A) as F.
  rewrite (exec_run lg_ops (empty_world 1000)) in F by (vm_compute; reflexivity). apply F.
Qed.
Lemma lg_holds : vholds lg_w 0 (map VB [false; true]).
Proof. show_holds. Qed.
Example c49_logical_ex : (exists o w', cpp2R ex_lm TBool (EVar 0) lg_w = (Done o, w') /\ r_got lg_w w' o TBool [VI 0; VI 1] None) /\
  exists o w' us, cpp2R ex_lm TBool (EUn UNeg (EVar 0)) lg_w = (Done o, w') /\ r_got lg_w w' o TBool us None /\
    nth_error us 1 = Some (VI (-1)).
Proof.
  split.
  - apply (c49_logical ex_lm lg_w 0 [false; true]); [exact lg_ok|exact lg_holds|reflexivity|cbn; lia|vm_compute; discriminate].
  - apply (c49_logical_refuted ex_lm lg_w 0 [false; true] 1); try reflexivity;
      [exact lg_ok|exact lg_holds|cbn; lia|vm_compute; discriminate].
Qed.

(** A function of a matrix (sinus(m), -m) loses its dimensions on the way. *)
Theorem c49_functions_lose_shape_refuted : forall lm t op e rho us w, world_shape w -> env_of w rho e ->
  wf_expr rho (EUn op e) -> value_of lm rho (in_R t) (EUn op e) us ->
  Z.of_nat (length us) <= 2 ^ 31 - 1 -> Z.of_nat (length us) <= hlim (hp w) ->
  exists o w', cpp2R lm t (EUn op e) w = (Done o, w') /\ r_got w w' o t us None.
Proof. intros. eapply cpp2R_flat; eauto. Qed.
Print Assumptions c49_functions_lose_shape_refuted.
Example c49_lose_ex : shaped ex_w ex_rho 2 2 ex_mat /\
  exists o w', cpp2R ex_lm TDouble (EUn (UFun FSin) ex_mat) ex_w = (Done o, w') /\ r_dim o = None.
Proof.
  split; [apply Sh_tmp; reflexivity|].
  destruct (c49_functions_lose_shape_refuted ex_lm TDouble (UFun FSin) ex_mat ex_rho
    (map (fun v => match un_f ex_lm (UFun FSin) v with Done u => u | _ => v end) [d3; d2; d1; d0]) ex_w) as [o [w' [E [_ [D _]]]]]; [..|eauto].
  - exact ex_shape.
  - intros x [].
  - split; [exact I|vm_compute; congruence].
  - split; [reflexivity|]. intros i Hi.
    do 4 (destruct i as [|i]; [eexists; split; [vm_compute; reflexivity|vm_compute; reflexivity]|]). simpl in Hi. lia.
  - simpl. lia.
  - vm_compute. congruence.
Qed.

(** More than 2^31 - 1 elements: the loop variable of type int overflows. *)
Theorem c49_long_refuted : forall lm t e rho us w, world_shape w -> env_of w rho e -> wf_expr rho e ->
  value_of lm rho (in_R t) e us -> flat w e -> 2 ^ 31 <= Z.of_nat (length us) <= hlim (hp w) ->
  fst (cpp2R lm t e w) = Undef UB_overflow.
Proof. intros. eapply cpp2R_long; eauto using flat_im; unfold int_max; lia. Qed.
Print Assumptions c49_long_refuted.
Lemma some_length n : 0 <= n -> exists l : list bool, Z.of_nat (length l) = n.
Proof. intros H. exists (repeat false (Z.to_nat n)). rewrite repeat_length. now apply Z2Nat.id. Qed.
(** Such a vector: 2^31 times false. *)
Example c49_long_ex : exists l, fst (cpp2R ex_lm TBool (ETmp TBool (map VB l) mp_none) (empty_world (2 ^ 40))) = Undef UB_overflow.
Proof.
  destruct (some_length (2 ^ 31) ltac:(lia)) as [l L]. exists l. rewrite <- (map_length (fun b : bool => VI (if b then 1 else 0))) in L. apply (c49_long_refuted _ _ _ (fun _ => []) (map (fun b : bool => VI (if b then 1 else 0)) l)).
  - apply empty_world_ok. lia.
  - intros x [].
  - exact I.
  - split; [cbn [xsize]; now rewrite !map_length|]. intros i Hi. rewrite map_length in Hi. exists (VB (nth i l false)). cbn [xval]. unfold pick_val.
    rewrite Nat2Z.id. rewrite (map_nth_error VB i l (nth_error_nth' l false Hi)). split; [reflexivity|].
    rewrite (nth_map_val (fun b : bool => VI (if b then 1 else 0)) l i false (VB false) Hi). now destruct (nth i l false).
  - now apply Fl_tmp.
  - rewrite L. cbn [empty_world hp hlim]. lia.
Qed.

(* ------------------------------------------------------------------ C50 *)

(** print shows the elements of a vector or of an expression without matrices
    in order, on one line, and changes nothing; those of an operation or a
    subset as doubles. *)
Theorem c50_vector : forall lm w e us, flat w e -> yields lm w e us -> print_ lm e w = (Done [map (read e) us], w).
Proof. intros. apply print_flat; auto using flat_im. Qed.
Print Assumptions c50_vector.

(** For a matrix expression with the columns [cs], each of length r, it shows r
    lines; line i has element i of every column, in the order of the columns. *)
Theorem c50_matrix : forall lm w rho e r cs, env_of w rho e -> shaped w rho (Z.of_nat r) (Z.of_nat (length cs)) e ->
  yields lm w e (List.concat cs) -> Forall (fun col => length col = r) cs -> Z.of_nat (length (List.concat cs)) < 2 ^ 64 ->
  print_ lm e w = (Done (map (fun i => map (fun col => read e (nth i col (VB false))) cs) (seq 0 r)), w).
Proof.
  intros lm w rho e r cs EN Sh Y F B. destruct (shaped_facts _ _ _ _ _ EN Sh) as [Im [R [C _]]].
  rewrite (print_matrix lm w e (List.concat cs) r (length cs)); auto; [|now apply concat_len].
  pose proof (f_equal (map (map (read e))) (rows_cols (VB false) r cs F)) as E. rewrite !map_map in E.
  rewrite (map_ext _ (fun i => map (fun j => read e (nth (j * r + i) (List.concat cs) (VB false))) (seq 0 (length cs)))) in E by (intros; apply map_map).
  rewrite E. do 2 f_equal. apply map_ext. intros. apply map_map.
Qed.
Print Assumptions c50_matrix.
Example c50_ex : print_ ex_lm ex_mat ex_w = (Done [[d3; d1]; [d2; d0]], ex_w).
Proof.
  apply (c50_matrix ex_lm ex_w ex_rho ex_mat 2 [[d3; d2]; [d1; d0]]).
  - intros x [].
  - apply Sh_tmp. reflexivity.
  - apply yields_tmp.
  - repeat constructor.
  - simpl. lia.
Qed.
Example c50_vector_ex : print_ ex_lm (EVar 0) ex_w = (Done [[d1; d2; d3]], ex_w).
Proof. apply (c50_vector ex_lm ex_w (EVar 0) [d1; d2; d3]); [apply Fl_var; vm_compute; reflexivity|]. apply vholds_yields, ex_holds0. Qed.

(** A function of a matrix is shown on one line. *)
Theorem c50_functions_refuted : forall lm w op e us, yields lm w (EUn op e) us -> print_ lm (EUn op e) w = (Done [map (fun v => VD (v2f v)) us], w).
Proof. intros. now apply print_flat. Qed.
Print Assumptions c50_functions_refuted.
Example c50_functions_ex : fst (print_ ex_lm (EUn UNeg ex_mat) ex_w) = Done [map (fun z => VD (fopp (i2f z))) [3; 2; 1; 0]].
Proof. vm_compute. reflexivity. Qed.
