(** Properties C09..C21, C51, C53 (assignment) and C55: vectors, expressions
    and assignment. *)
From Coq Require Import ZArith List String Bool Lia.
From Verif Require Import Base Num StoreModel VecModel Spec SpecExpr SpecHist SpecProg SpecVec
  StoreProofs StoreOps VecProofs VecAssign VecEval BorrowProofs VecThms StoreHist StoreThms2 Examples.
Import ListNotations.
Open Scope Z_scope.

(** Contents of the vectors of the example state. *)
Definition ex_rho : state := fun x => match x with O => [d1; d2; d3] | _ => [d0; d0] end.
Lemma ex_env e : incl (vars e) [0%nat; 1%nat] -> env_of ex_w ex_rho e.
Proof.
  intros I x Hx. destruct (I x Hx) as [<-|[<-|[]]]; [exact ex_holds0|exact ex_holds1].
Qed.
Definition ex_lm : libm := {| lm_un := fun _ z => z; lm_pow := fun a _ => a |}.

(* ------------------------------------------------------------------ C09 *)

(** Any program of assignments to vectors (whole vectors, scalars, elements,
    subsets; exceptions caught) has exactly the outcomes and the final
    contents that the same program has on lists: in particular no assignment
    fails because of earlier ones.  [repr] asks that every variable has memory
    (it was made with a length or from a value).  Missing to the full
    property: default-constructed variables, for which it is false. *)
Theorem c09_assignment_programs_partial : forall lm ty lim V cs w rho,
  repr w lim ty V rho -> prog_wf lm ty lim V cs rho ->
  exists w', run_prog lm cs w = (fst (spec_prog lm ty cs rho), w') /\
    ((forall u, ~ In (Undef u) (fst (spec_prog lm ty cs rho))) ->
       repr w' lim ty V (snd (spec_prog lm ty cs rho)) /\ (no_leak w -> no_leak w')).
Proof. intros lm ty lim V cs. exact (prog_agrees lm ty lim V cs). Qed.
Print Assumptions c09_assignment_programs_partial.
Lemma ex_repr : repr ex_w 1000 (fun _ => TDouble) [0%nat; 1%nat] ex_rho.
Proof.
  split.
  - exact ex_shape.
  - exact ex_lim.
  - intros x [<-|[<-|[]]]; [exact ex_holds0|exact ex_holds1].
  - intros x _. show_kd.
  - intros x [<-|[<-|[]]]; [exact ex_ready0|exact ex_ready1].
  - intros x _. apply ex_small.
  - intros x [<-|[<-|[]]]; vm_compute; reflexivity.
  - intros x N. apply ex_unbornT. destruct x as [|[|x]]; simpl in N; lia.
Qed.
Definition c09_prog : list cmd :=
  [ CAssign 1 (EBin OPlus (EVar 0) (EVar 1)); CAssign 0 (EBin OTimes (EVar 0) (ESca d2));
    CAssign 0 (EVar 1); CScalar 1 d3; CAssign 1 (EBin OPlus (EVar 0) (EVar 1)); CElem 0 2 d1;
    CSub 5 0 [2; 0] false (EBin OMinus (EVar 1) (ESca d1)); CElem 1 7 d1 ].
Example c09_ex : prog_wf ex_lm (fun _ => TDouble) 1000 [0%nat; 1%nat] (firstn 6 c09_prog) ex_rho /\
  fst (run_prog ex_lm (firstn 6 c09_prog) ex_w) = repeat (Done tt) 6.
Proof.
  split; [|vm_compute; reflexivity].
  assert (ML : max_len = 1867000000) by reflexivity.
  repeat (match goal with
  | |- prog_wf _ _ _ _ (firstn _ _) _ => unfold c09_prog; cbn [firstn]
  | |- prog_wf _ _ _ _ (_ :: _) _ => cbn [prog_wf]; split
  | |- prog_wf _ _ _ _ [] _ => exact I
  | |- cmd_wf _ _ _ _ => cbn [cmd_wf vars app]
  | |- wf_expr _ _ => cbn [wf_expr]
  | |- _ /\ _ => split
  | |- True => exact I
  | |- In _ _ => simpl; tauto
  | |- incl _ _ => intros ? ?; simpl in *; tauto
  | |- _ <= max_len => rewrite ML; vm_compute; congruence
  | |- (_ <= _) => vm_compute; congruence
  | |- match spec_cmd ?a ?b ?c ?d with _ => _ end =>
      let r := eval vm_compute in (fst (spec_cmd a b c d)) in
      let s := constr:(snd (spec_cmd a b c d)) in
      replace (spec_cmd a b c d) with (r, s) by (symmetry; apply pair_eta; [vm_compute; reflexivity|reflexivity])
  end; cbn beta iota).
Qed.

(** A default-constructed vector can be assigned once; the second vector
    assignment throws. *)
Theorem c09_default_constructed_refuted : exists w1 w2 w3 m,
  vec_default 2 TDouble ex_w = (Done tt, w1) /\
  assign ex_lm 2 (EVar 0) w1 = (Done tt, w2) /\ vholds w2 2 [d1; d2; d3] /\
  assign ex_lm 2 (EVar 0) w2 = (Thrown (Ass m), w3) /\ m = "try to delete nullptr"%string.
Proof.
  eexists. eexists. eexists. eexists.
  split; [apply pair_eta; [vm_compute; reflexivity|reflexivity]|].
  split; [apply pair_eta; [vm_compute; reflexivity|reflexivity]|].
  split; [show_holds|].
  split; [apply pair_eta; [vm_compute; reflexivity|reflexivity]|reflexivity].
Qed.
Print Assumptions c09_default_constructed_refuted.

(* ------------------------------------------------------------------ C10 *)

(** [rho] are the contents before the assignment; x may occur in e. *)
Theorem c10_assignment_value : forall lm w x e rho us,
  world_ok w -> owning w x -> small w x -> can_assign w x ->
  env_of w rho e -> wf_expr rho e -> 1 <= xsize rho e <= max_len -> fits w (xsize rho e) ->
  value_of lm rho (sty (ob w (OD x))) e us ->
  exists w', assign lm x e w = (Done tt, w') /\ vholds w' x us /\ vstep w w' x /\ world_ok w' /\
    sty (ob w' (OD x)) = sty (ob w (OD x)).
Proof.
  intros. destruct (assign_buffer_done lm w x e rho us) as [w' [A [B [C [D [_ [_ [_ [E _]]]]]]]]]; auto.
  exists w'. auto 6.
Qed.
Print Assumptions c10_assignment_value.
(** x0 = x0 + x1 * 2, with x1 shorter than x0. *)
Example c10_ex : exists w', assign ex_lm 0 (EBin OPlus (EVar 0) (EBin OTimes (EVar 1) (ESca d2))) ex_w = (Done tt, w') /\
  vholds w' 0 [d1; d2; d3].
Proof.
  destruct (c10_assignment_value ex_lm ex_w 0 (EBin OPlus (EVar 0) (EBin OTimes (EVar 1) (ESca d2))) ex_rho [d1; d2; d3])
    as [w' [E [H _]]]; [..|eauto].
  - exact ex_ok.
  - show_kd.
  - apply ex_small.
  - exact (proj2 ex_ready0).
  - apply ex_env. intros ? ?; simpl in *; tauto.
  - cbn [wf_expr]. repeat split; vm_compute; congruence.
  - split; vm_compute; congruence.
  - vm_compute. congruence.
  - split; [reflexivity|]. intros i Hi.
    repeat (destruct i as [|i]; [eexists; split; vm_compute; reflexivity|]). simpl in Hi. lia.
Qed.

(* ------------------------------------------------------------------ C11 *)

(** For every expression and every outcome other than undefined behaviour. *)
Theorem c11_assignment_frame : forall lm w x e r w',
  world_shape w -> owning w x -> esize w e <= 2 ^ 64 ->
  assign lm x e w = (r, w') -> (forall u, r <> Undef u) ->
  forall y, y <> x -> mp (ob w' (OD y)) = mp (ob w (OD y)) /\ sz (ob w' (OD y)) = sz (ob w (OD y)) /\
    forall l, vholds w y l -> vholds w' y l.
Proof.
  intros lm w x e r w' W O S H NU y N.
  assert (SO : same_obj w w' (OD y)) by (eapply assign_frame; eauto; congruence).
  destruct SO as [A B]. split; [now rewrite A|]. split; [now rewrite A|].
  intros l L. eapply same_holds; [split; eauto|exact L].
Qed.
Print Assumptions c11_assignment_frame.
(** Memory of the user and of R is unchanged as well. *)
Theorem c11_foreign_memory : forall lm w x e rho us w',
  world_ok w -> owning w x -> small w x -> can_assign w x ->
  env_of w rho e -> wf_expr rho e -> 1 <= xsize rho e <= max_len -> fits w (xsize rho e) ->
  value_of lm rho (sty (ob w (OD x))) e us -> assign lm x e w = (Done tt, w') ->
  forall b own cs, own <> OwnCpp -> hblk (hp w) b = Live own cs -> hblk (hp w') b = Live own cs.
Proof.
  intros until w'. intros H1 H2 H3 H4 H5 H6 H7 H8 H9 E.
  destruct (assign_buffer_done lm w x e rho us) as [w1 [A [B _]]]; auto.
  rewrite E in A. injection A as <-. exact (vs_ext _ _ _ B).
Qed.
Print Assumptions c11_foreign_memory.
Example c11_ex : world_shape ex_w /\ owning ex_w 0 /\ esize ex_w (EUn (UFun FSin) (EVar 1)) <= 2 ^ 64 /\
  fst (assign ex_lm 0 (EUn (UFun FSin) (EVar 1)) ex_w) = Done tt.
Proof. split; [exact ex_shape|]. split; [show_kd|]. split; vm_compute; [congruence|reflexivity]. Qed.

(* ------------------------------------------------------------------ C12 *)

Theorem c12_failed_assignment : forall lm w x e ex w',
  world_shape w -> owning w x -> esize w e <= 2 ^ 64 -> assign lm x e w = (Thrown ex, w') ->
  forall y, mp (ob w' (OD y)) = mp (ob w (OD y)) /\ sz (ob w' (OD y)) = sz (ob w (OD y)) /\
    forall l, vholds w y l -> vholds w' y l.
Proof.
  intros lm w x e ex w' W O S H y. pose proof (assign_buffer_thrown lm w x e ex w' W O S H y) as SO.
  split; [now rewrite (proj1 SO)|]. split; [now rewrite (proj1 SO)|].
  intros l L. eapply same_holds; eauto.
Qed.
Print Assumptions c12_failed_assignment.
(** A position beyond the end in the middle of an expression; no memory. *)
Example c12_ex : (exists m, fst (assign ex_lm 0 (EBin OPlus (EVar 0) (ESub (EVar 0) [0; 7] mp_none)) ex_w) = Thrown m) /\
  fst (assign ex_lm 0 (ETmp TDouble (repeat d1 1001) mp_none) ex_w) = Thrown BadAlloc.
Proof. split; [eexists|]; vm_compute; reflexivity. Qed.

(* ------------------------------------------------------------------ C13 *)

(** No condition on the operands but that neither is empty; the equation is
    between outcomes, so it also says which exceptions leave the operation. *)
Theorem c13_recycling : forall lm w op l r, 1 <= esize w l -> 1 <= esize w r ->
  esize w (EBin op l r) = Z.max (esize w l) (esize w r) /\
  forall i, 0 <= i -> elem lm (EBin op l r) i w =
    (a <-o fst (elem lm l (i mod esize w l) w) ;; b <-o fst (elem lm r (i mod esize w r) w) ;; bin_f lm op a b, w).
Proof. intros lm w op l r. exact (recycle lm w op l r). Qed.
Print Assumptions c13_recycling.
Theorem c13_scalar : forall lm w op v r, 1 <= esize w r ->
  esize w (EBin op (ESca v) r) = esize w r /\
  forall i, 0 <= i < esize w r -> elem lm (EBin op (ESca v) r) i w = (b <-o fst (elem lm r i w) ;; bin_f lm op v b, w).
Proof.
  intros lm w op v r H. destruct (recycle lm w op (ESca v) r) as [A B]; [cbn; lia|exact H|].
  split; [rewrite A; cbn [esize]; lia|]. intros i Hi. rewrite B by lia. rewrite (Z.mod_small i (esize w r)) by lia. reflexivity.
Qed.
Print Assumptions c13_scalar.
Example c13_ex : 1 <= esize ex_w (EVar 0) /\ 1 <= esize ex_w (EVar 1) /\
  fst (elem ex_lm (EBin OPlus (EVar 1) (EVar 0)) 2 ex_w) = Done d3.
Proof. split; [|split]; vm_compute; congruence || reflexivity. Qed.

(* ------------------------------------------------------------------ C14 *)

Theorem c14_matrix_shape : forall lm w x e rho us r c,
  world_ok w -> owning w x -> small w x -> can_assign w x -> env_of w rho e -> wf_expr rho e ->
  1 <= xsize rho e <= max_len -> fits w (xsize rho e) ->
  value_of lm rho (sty (ob w (OD x))) e us -> shaped w rho r c e ->
  exists w', assign lm x e w = (Done tt, w') /\ vholds w' x us /\ is_matrix w' x r c.
Proof. exact assign_matrix. Qed.
Print Assumptions c14_matrix_shape.
Definition ex_mat : expr := ETmp TDouble [d3; d2; d1; d0] (mkMP true 2 2).
Example c14_ex : exists w1, assign ex_lm 0 (EBin OPlus (EBin OTimes ex_mat ex_mat) (EBin OMinus (EVar 1) (EVar 1))) ex_w = (Done tt, w1) /\
  is_matrix w1 0 2 2.
Proof.
  destruct (c14_matrix_shape ex_lm ex_w 0 (EBin OPlus (EBin OTimes ex_mat ex_mat) (EBin OMinus (EVar 1) (EVar 1))) ex_rho
     [VD (i2f 9); VD (i2f 4); d1; d0] 2 2) as [w1 [E [_ H]]]; [..|eauto].
  - exact ex_ok.
  - show_kd.
  - apply ex_small.
  - exact (proj2 ex_ready0).
  - apply ex_env. intros ? ?; simpl in *; tauto.
  - cbn [wf_expr ex_mat]. repeat split; vm_compute; congruence.
  - split; vm_compute; congruence.
  - vm_compute. congruence.
  - split; [reflexivity|]. intros i Hi.
    repeat (destruct i as [|i]; [eexists; split; vm_compute; reflexivity|]). simpl in Hi. lia.
  - apply Sh_left.
    + apply Sh_both; apply Sh_tmp; reflexivity.
    + apply Fl_bin; apply Fl_var; vm_compute; reflexivity.
    + vm_compute. congruence.
Qed.

(* ------------------------------------------------------------------ C15 *)

(** A mathematical function of anything never changes the shape of the target:
    a fresh target stays a plain vector. *)
Theorem c15_functions_lose_shape_refuted : forall lm w x op e rho us,
  world_ok w -> owning w x -> small w x -> can_assign w x -> env_of w rho e -> wf_expr rho e ->
  1 <= xsize rho e <= max_len -> fits w (xsize rho e) ->
  value_of lm rho (sty (ob w (OD x))) (EUn op e) us ->
  exists w', assign lm x (EUn op e) w = (Done tt, w') /\ vholds w' x us /\
    mp (ob w' (OD x)) = mp (ob w (OD x)).
Proof. exact assign_unary. Qed.
Print Assumptions c15_functions_lose_shape_refuted.
Example c15_ex : exists w1, assign ex_lm 0 (EUn (UFun FSin) ex_mat) ex_w = (Done tt, w1) /\ ismat (mp (ob w1 (OD 0))) = false.
Proof.
  eexists. split; [apply pair_eta; [vm_compute; reflexivity|reflexivity]|]. vm_compute. reflexivity.
Qed.

(* ------------------------------------------------------------------ C16 *)

(** Matrix right-hand sides give their shape (c14_matrix_shape); a right-hand
    side without matrices keeps a plain vector a plain vector.  Missing to the
    full property: a target that was a matrix, where it is false. *)
Theorem c16_plain_stays_plain_partial : forall lm w x e rho us,
  world_ok w -> owning w x -> small w x -> can_assign w x -> env_of w rho e -> wf_expr rho e ->
  1 <= xsize rho e <= max_len -> fits w (xsize rho e) ->
  value_of lm rho (sty (ob w (OD x))) e us -> flat w e ->
  exists w', assign lm x e w = (Done tt, w') /\ vholds w' x us /\ mp (ob w' (OD x)) = mp (ob w (OD x)).
Proof. exact assign_flat. Qed.
Print Assumptions c16_plain_stays_plain_partial.
Theorem c16_matrix_shape_partial : forall lm w x e rho us r c,
  world_ok w -> owning w x -> small w x -> can_assign w x -> env_of w rho e -> wf_expr rho e ->
  1 <= xsize rho e <= max_len -> fits w (xsize rho e) ->
  value_of lm rho (sty (ob w (OD x))) e us -> shaped w rho r c e ->
  exists w', assign lm x e w = (Done tt, w') /\ vholds w' x us /\ is_matrix w' x r c.
Proof. exact assign_matrix. Qed.
Print Assumptions c16_matrix_shape_partial.

(** A matrix that is assigned a plain vector of three elements still claims to
    be a 2 x 2 matrix. *)
Theorem c16_stale_shape_refuted : exists w1 w2,
  assign ex_lm 1 ex_mat ex_w = (Done tt, w1) /\ is_matrix w1 1 2 2 /\
  assign ex_lm 1 (EVar 0) w1 = (Done tt, w2) /\ vholds w2 1 [d1; d2; d3] /\
  flat w1 (EVar 0) /\ mp (ob w2 (OD 1)) = mkMP true 2 2.
Proof.
  eexists. eexists.
  split; [apply pair_eta; [vm_compute; reflexivity|reflexivity]|].
  split; [split; vm_compute; reflexivity|].
  split; [apply pair_eta; [vm_compute; reflexivity|reflexivity]|].
  split; [show_holds|]. split; [apply Fl_var; vm_compute; reflexivity|vm_compute; reflexivity].
Qed.
Print Assumptions c16_stale_shape_refuted.

(* ------------------------------------------------------------------ C17 *)

Theorem c17_scalar_assignment : forall w x v v', world_shape w -> owning w x ->
  (alloc (ob w (OD x)) = true -> ptr (ob w (OD x)) <> None) ->
  fits w 1 -> cast (sty (ob w (OD x))) v = Done v' ->
  exists w', assign_scalar x v w = (Done tt, w') /\ step1 w w' (OD x) /\ vholds w' x [v'] /\
    sty (ob w' (OD x)) = sty (ob w (OD x)).
Proof.
  intros w x v v' W O A F C. destruct (assign_scalar_done w x v v' W O A F C) as [w' [E [S [H [_ [_ [T _]]]]]]].
  exists w'. auto.
Qed.
Print Assumptions c17_scalar_assignment.
Example c17_ex : exists w', assign_scalar 0 (VI 7) ex_w = (Done tt, w') /\ vholds w' 0 [VD (i2f 7)].
Proof.
  destruct (c17_scalar_assignment ex_w 0 (VI 7) (VD (i2f 7))) as [w' [E [_ [H _]]]]; [..|eauto].
  - exact ex_shape.
  - show_kd.
  - intros _. exact (proj1 ex_ready0).
  - vm_compute. congruence.
  - vm_compute. reflexivity.
Qed.

(* ------------------------------------------------------------------ C18 *)

(** For at least as many values as the vector's current length and at most as
    many as the borrowed memory holds. *)
Theorem c18_borrowed_assignment : forall lm w x a cs e rho us,
  world_shape w -> borrows w x a -> hblk (hp w) a = Live OwnExt cs ->
  can_assign w x -> env_of w rho e -> wf_expr rho e ->
  1 <= xsize rho e -> fits w (xsize rho e) ->
  sz (ob w (OD x)) <= xsize rho e <= cap (ob w (OD x)) ->
  value_of lm rho (sty (ob w (OD x))) e us ->
  exists w', assign lm x e w = (Done tt, w') /\ world_shape w' /\ (world_ok w -> world_ok w') /\
    vholds w' x us /\ borrows w' x a /\ cap (ob w' (OD x)) = cap (ob w (OD x)) /\
    can_assign w' x /\
    hblk (hp w') a = Live OwnExt (map Some us ++ skipn (List.length us) cs) /\
    (forall b own cs', own <> OwnCpp -> b <> a -> hblk (hp w) b = Live own cs' -> hblk (hp w') b = Live own cs') /\
    (forall o, o <> OD x -> o <> OT x -> ob w' o = ob w o) /\
    (forall o, o <> OD x -> o <> OT x -> ptr (ob w o) <> Some a -> same_obj w w' o) /\
    (no_leak w -> no_leak w').
Proof. exact borrow_assign_done. Qed.
Print Assumptions c18_borrowed_assignment.
(** Vector 7 borrows a block of four elements and is set to its own elements
    plus those of vector 1. *)
Definition ex_bw : world := user_block ex_w OwnExt [d1; d1; d2; d3].
Example c18_ex : exists a w1 w2, vec_borrow 7 TDouble (Some a) 4 ex_bw = (Done tt, w1) /\
  assign ex_lm 7 (EBin OMinus (EVar 7) (ESca d1)) w1 = (Done tt, w2) /\
  hblk (hp w2) a = Live OwnExt (map Some [d0; d0; d1; d2]).
Proof.
  destruct (user_block_ok ex_w OwnExt [d1; d1; d2; d3] ex_ok) as [WO [_ B]]; [congruence|vm_compute; congruence|].
  destruct (vec_borrow_done ex_bw 7 TDouble (hnext (hp ex_w)) [d1; d1; d2; d3]) as
    [w1 [E [WO1 [H [BO [CP [HP [CA [_ [TY _]]]]]]]]]]; auto.
  { apply unborn_ptr. vm_compute. reflexivity. }
  { apply unborn_ptr. vm_compute. reflexivity. }
  destruct (c18_borrowed_assignment ex_lm w1 7 (hnext (hp ex_w)) (map Some [d1; d1; d2; d3])
    (EBin OMinus (EVar 7) (ESca d1)) (fun _ => [d1; d1; d2; d3]) [d0; d0; d1; d2]) as
    [w2 [E2 [_ [_ [_ [_ [_ [_ [H2 _]]]]]]]]]; auto.
  - apply WO1.
  - now rewrite HP.
  - intros x [<-|[]]. exact H.
  - cbn [wf_expr]. repeat split; vm_compute; congruence.
  - vm_compute. congruence.
  - unfold fits. rewrite HP. vm_compute. congruence.
  - destruct H as [H _]. rewrite H, CP. vm_compute. split; congruence.
  - rewrite TY. split; [reflexivity|]. intros i Hi.
    repeat (destruct i as [|i]; [eexists; split; vm_compute; reflexivity|]). simpl in Hi. lia.
  - exists (hnext (hp ex_w)), w1, w2. split; [exact E|]. split; [exact E2|]. exact H2.
Qed.

(* ------------------------------------------------------------------ C19 *)

Theorem c19_borrowed_too_long : forall lm w x e, kd (ob w (OD x)) = KBorrow -> cap (ob w (OD x)) < esize w e ->
  exists m, assign lm x e w = (Thrown (Ass m), w).
Proof. exact borrow_assign_long. Qed.
Print Assumptions c19_borrowed_too_long.
Theorem c19_borrowed_resize : forall w o n, 1 <= n -> cap (ob w o) < n ->
  exists m, borrow_resize o n w = (Thrown (Ass m), w).
Proof. exact borrow_resize_long. Qed.
Print Assumptions c19_borrowed_resize.
Example c19_ex : exists w1, vec_borrow 7 TDouble (Some (hnext (hp ex_w))) 4 ex_bw = (Done tt, w1) /\
  kd (ob w1 (OD 7)) = KBorrow /\ cap (ob w1 (OD 7)) < esize w1 (ETmp TDouble [d1; d1; d1; d1; d1] mp_none).
Proof.
  eexists. split; [apply pair_eta; [vm_compute; reflexivity|reflexivity]|]. split; vm_compute; reflexivity.
Qed.

(* ------------------------------------------------------------------ C20 *)

(** Fewer values than the current length: the assignment never succeeds. *)
Theorem c20_borrowed_shorter_refuted : forall lm w x e w', kd (ob w (OD x)) = KBorrow ->
  esize w e < sz (ob w (OD x)) -> assign lm x e w <> (Done tt, w').
Proof. exact borrow_assign_short. Qed.
Print Assumptions c20_borrowed_shorter_refuted.
(** It throws, and leaves the borrowed memory and all vectors as they were. *)
Theorem c20_borrowed_shorter_throws : forall lm w x e rho us,
  world_shape w -> kd (ob w (OD x)) = KBorrow -> kd (ob w (OT x)) = KBuffer ->
  can_assign w x -> env_of w rho e -> wf_expr rho e ->
  1 <= xsize rho e -> fits w (xsize rho e) -> xsize rho e < sz (ob w (OD x)) ->
  value_of lm rho (sty (ob w (OD x))) e us ->
  exists m w', assign lm x e w = (Thrown (Ass m), w') /\
    (forall b own cs, own <> OwnCpp -> hblk (hp w) b = Live own cs -> hblk (hp w') b = Live own cs) /\
    (forall o, o <> OT x -> same_obj w w' o).
Proof. exact borrow_assign_short_throws. Qed.
Print Assumptions c20_borrowed_shorter_throws.
Example c20_ex : exists w1, vec_borrow 7 TDouble (Some (hnext (hp ex_w))) 4 ex_bw = (Done tt, w1) /\
  kd (ob w1 (OD 7)) = KBorrow /\ esize w1 (EVar 0) < sz (ob w1 (OD 7)).
Proof.
  eexists. split; [apply pair_eta; [vm_compute; reflexivity|reflexivity]|]. split; vm_compute; reflexivity.
Qed.

(* ------------------------------------------------------------------ C21 *)

(** Element writes reach the R object, and the end of the vector leaves its
    memory alone.  Missing to the full property: whole-vector assignment. *)
Theorem c21_element_writes_partial : forall ws w x a cs,
  world_shape w -> wraps w x a -> hblk (hp w) a = Live OwnR cs ->
  (forall i v, In (i, v) ws -> 0 <= i < sz (ob w (OD x))) ->
  exists w', elem_writes x ws w = (Done tt, w') /\ world_shape w' /\ ob w' = ob w /\
    hblk (hp w') a = Live OwnR (fold_left (fun l p => list_set l (Z.to_nat (fst p)) (Some (snd p))) ws cs) /\
    (forall b, b <> a -> hblk (hp w') b = hblk (hp w) b).
Proof. exact sexp_writes. Qed.
Print Assumptions c21_element_writes_partial.
Theorem c21_destroyed_partial : forall w x a, wraps w x a -> any_destroy (OD x) w = (Done tt, w).
Proof. exact sexp_destroy_keeps. Qed.
Print Assumptions c21_destroyed_partial.
(** Assigning more values than the R object has frees R's memory at once;
    assigning fewer makes the end of the vector free it. *)
Theorem c21_assignment_long_refuted : forall lm w x a e rho us,
  world_shape w -> wraps w x a -> can_assign w x -> env_of w rho e -> wf_expr rho e ->
  1 <= xsize rho e -> fits w (xsize rho e) ->
  sz (ob w (OD x)) < xsize rho e -> cap (ob w (OD x)) < xsize rho e ->
  value_of lm rho (sty (ob w (OD x))) e us ->
  exists w', assign lm x e w = (Undef UB_foreign_free, w').
Proof. exact sexp_assign_long. Qed.
Print Assumptions c21_assignment_long_refuted.
Theorem c21_assignment_short_refuted : forall lm w x a e rho us,
  world_shape w -> wraps w x a -> can_assign w x -> env_of w rho e -> wf_expr rho e ->
  1 <= xsize rho e -> fits w (xsize rho e) -> xsize rho e <= cap (ob w (OD x)) ->
  value_of lm rho (sty (ob w (OD x))) e us ->
  exists w', assign lm x e w = (Done tt, w') /\ ptr (ob w' (OT x)) = Some a /\
    ptr (ob w' (OD x)) <> Some a /\ exists w'', vec_destroy x w' = (Undef UB_foreign_free, w'').
Proof. exact sexp_assign_short. Qed.
Print Assumptions c21_assignment_short_refuted.
Definition ex_rw : world := user_block ex_w OwnR [d1; d1; d2].
Example c21_ex : exists w1 w2, vec_sexp 7 TDouble (Some (hnext (hp ex_w))) 3 mp_none ex_rw = (Done tt, w1) /\
  wraps w1 7 (hnext (hp ex_w)) /\ world_shape w1 /\
  elem_writes 7 [(0, d3); (2, d0)] w1 = (Done tt, w2) /\
  hblk (hp w2) (hnext (hp ex_w)) = Live OwnR (map Some [d3; d1; d0]) /\
  fst (vec_destroy 7 (snd (assign ex_lm 7 (EVar 1) w1))) = Undef UB_foreign_free.
Proof.
  destruct (user_block_ok ex_w OwnR [d1; d1; d2] ex_ok) as [WO [_ B]]; [congruence|vm_compute; congruence|].
  destruct (vec_sexp_done ex_rw 7 TDouble (hnext (hp ex_w)) [d1; d1; d2] mp_none) as
    [w1 [E [WO1 [H [BO [CP [HP [CA [_ [TY _]]]]]]]]]]; auto.
  { apply unborn_ptr. vm_compute. reflexivity. }
  { apply unborn_ptr. vm_compute. reflexivity. }
  destruct (c21_element_writes_partial [(0, d3); (2, d0)] w1 7 (hnext (hp ex_w)) (map Some [d1; d1; d2]))
    as [w2 [E2 [_ [_ [H2 _]]]]]; auto.
  - apply WO1.
  - now rewrite HP.
  - destruct H as [H _]. rewrite H. intros i v [Hi|[Hi|[]]]; injection Hi as <- _; cbn; lia.
  - exists w1, w2. split; [exact E|]. split; [exact BO|]. split; [apply WO1|]. split; [exact E2|]. split; [exact H2|].
    replace w1 with (snd (vec_sexp 7 TDouble (Some (hnext (hp ex_w))) 3 mp_none ex_rw)) by exact (f_equal snd E).
    vm_compute. reflexivity.
Qed.

(* ------------------------------------------------------------------ C51 *)

(** Missing to the full property: subsets, where it is false. *)
Theorem c51_iteration_partial : forall w x l, world_shape w -> vholds w x l -> iterate_vec x w = (Done l, w).
Proof. exact iterate_vec_holds. Qed.
Print Assumptions c51_iteration_partial.
(** Iterating over a subset visits the first elements of the parent instead. *)
Theorem c51_subset_refuted : forall w x l ind, world_shape w -> vholds w x l ->
  (List.length ind <= List.length l)%nat ->
  iterate_sub x ind w = (Done (firstn (List.length ind) l), w).
Proof. exact iterate_sub_holds. Qed.
Print Assumptions c51_subset_refuted.
Example c51_ex : iterate_vec 0 ex_w = (Done [d1; d2; d3], ex_w) /\ iterate_sub 0 [2; 1] ex_w = (Done [d1; d2], ex_w).
Proof.
  split.
  - exact (c51_iteration_partial ex_w 0 [d1; d2; d3] ex_shape ex_holds0).
  - refine (c51_subset_refuted ex_w 0 [d1; d2; d3] [2; 1] ex_shape ex_holds0 _). cbn [List.length]. lia.
Qed.

(* ------------------------------------------------------------------ C53 *)

(** An assignment that fails for want of memory keeps all elements, but the
    end of the target's life frees the scratch buffer twice. *)
Theorem c53_assignment_refuted : forall lm w x e,
  world_shape w -> owning w x -> ptr (ob w (OT x)) <> None ->
  1 <= esize w e <= 2 ^ 62 -> cap (ob w (OT x)) < esize w e -> hlim (hp w) < esize w e ->
  exists w', assign lm x e w = (Thrown BadAlloc, w') /\ (forall y, same_obj w w' (OD y)) /\
    fst (vec_destroy x w') = Undef UB_double_free.
Proof. exact assign_no_memory. Qed.
Print Assumptions c53_assignment_refuted.
Example c53_assignment_ex : exists w1, assign ex_lm 0 (EVar 1) ex_w = (Done tt, w1) /\ ptr (ob w1 (OT 0)) <> None /\
  cap (ob w1 (OT 0)) < 2000 /\ hlim (hp w1) < 2000.
Proof.
  eexists. split; [apply pair_eta; [vm_compute; reflexivity|reflexivity]|]. split; [|split]; vm_compute; congruence.
Qed.

(* ------------------------------------------------------------------ C55 *)

Theorem c55_evaluation_pure : forall lm e i w, snd (elem lm e i w) = w /\ snd (to_scalar lm e w) = w.
Proof. exact reads_pure. Qed.
Print Assumptions c55_evaluation_pure.
Theorem c55_iteration_pure : forall x ind w,
  snd (iterate_vec x w) = w /\ snd (iterate_sub x ind w) = w /\ snd (vec_back x w) = w.
Proof. exact iterate_pure. Qed.
Print Assumptions c55_iteration_pure.
