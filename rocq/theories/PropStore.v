(** Properties C01..C08 and C52..C54: storage and construction of vectors. *)
From Coq Require Import ZArith List String Bool Lia.
From Verif Require Import Base Num StoreModel VecModel Spec SpecExpr SpecHist
  CapProofs StoreProofs StoreOps VecProofs VecAssign StoreThms StoreHist StoreThms2 Examples.
Import ListNotations.
Open Scope Z_scope.

(* ------------------------------------------------------------------ C01 *)

(** The reserve trunc(1.15 n), computed in binary64, is at least n. *)
Theorem c01_reserve : forall n, 1 <= n <= 2 ^ 60 ->
  exists c, cap115 n = Done c /\ n <= c <= 2 * n.
Proof. exact cap115_ok. Qed.
Print Assumptions c01_reserve.
Example c01_reserve_ex : exists c, cap115 (2 ^ 53 + 1) = Done c /\ 2 ^ 53 + 1 <= c <= 2 * (2 ^ 53 + 1).
Proof. apply c01_reserve. lia. Qed.

(** A created vector points to a block with room for its n elements. *)
Theorem c01_room_created : forall w o t n w', world_shape w -> unborn w o -> 0 <= n < 2 ^ 64 ->
  ctor_size o t n w = (Done tt, w') ->
  exists a cs, ptr (ob w' o) = Some a /\ hblk (hp w') a = Live OwnCpp cs /\
    n <= Z.of_nat (List.length cs).
Proof. exact room_ctor. Qed.
Print Assumptions c01_room_created.
Example c01_room_created_ex : exists w', ctor_size (OD 2) TDouble 7 ex_w = (Done tt, w') /\
  world_shape ex_w /\ unborn ex_w (OD 2).
Proof.
  eexists. split; [apply pair_eta; [vm_compute; reflexivity|reflexivity]|].
  split; [exact ex_shape|show_unborn].
Qed.

(** A vector grown by resize points to a block with room for its n elements. *)
Theorem c01_room_grown : forall w o n w', world_shape w -> kd (ob w o) = KBuffer -> n < 2 ^ 64 ->
  resize o n w = (Done tt, w') ->
  exists a cs, ptr (ob w' o) = Some a /\ hblk (hp w') a = Live OwnCpp cs /\
    n <= Z.of_nat (List.length cs).
Proof. exact room_resize. Qed.
Print Assumptions c01_room_grown.
Example c01_room_grown_ex : exists w', resize (OD 0) 17 ex_w = (Done tt, w') /\
  world_shape ex_w /\ kd (ob ex_w (OD 0)) = KBuffer.
Proof.
  eexists. split; [apply pair_eta; [vm_compute; reflexivity|reflexivity]|].
  split; [exact ex_shape|show_kd].
Qed.

(* ------------------------------------------------------------------ C02 *)

(** Length 0 throws and changes nothing; a length the allocator cannot serve
    throws bad_alloc and changes nothing; otherwise the vector holds n zeros,
    is not a matrix, owns its memory alone, and nothing else has changed. *)
Theorem c02_created_with_length : forall w x t n,
  world_ok w -> unborn w (OD x) -> unborn w (OT x) -> 0 <= n <= 2 ^ 60 ->
  (n = 0 /\ exists m, vec_sized x t n w = (Thrown (Ass m), w)) \/
  (1 <= n /\ hlim (hp w) < 2 * n /\ vec_sized x t n w = (Thrown BadAlloc, w)) \/
  (1 <= n /\ exists w', vec_sized x t n w = (Done tt, w') /\ vstep w w' x /\ world_ok w' /\
     vholds w' x (repeat (zero t) (Z.to_nat n)) /\ mp (ob w' (OD x)) = mp_none /\
     exists a, owns (ob w' (OD x)) a /\ forall o, owns (ob w' o) a -> o = OD x).
Proof. exact vec_sized_all. Qed.
Print Assumptions c02_created_with_length.
Example c02_ex : world_ok ex_w /\ unborn ex_w (OD 2) /\ unborn ex_w (OT 2) /\
  fst (vec_sized 2 TInt 5 ex_w) = Done tt.
Proof.
  split; [exact ex_ok|]. split; [show_unborn|]. split; [show_unborn|]. vm_compute. reflexivity.
Qed.

(* ------------------------------------------------------------------ C03 *)

(** Up to 2^30 pushes, as long as the allocator serves twice the doubled
    reserve.  Missing to the full property: more than 2^30 elements, where it
    is false (next theorem). *)
Theorem c03_push_back_appends_partial : forall vs w o t,
  world_ok w -> ob w o = store_default KBuffer t ->
  Z.of_nat (List.length vs) <= 2 ^ 30 ->
  4 * Z.of_nat (List.length vs) + 2 <= hlim (hp w) ->
  exists w', pushes o vs w = (Done tt, w') /\ step1 w w' o /\ world_ok w' /\ holds w' o vs.
Proof. exact pushes_empty. Qed.
Print Assumptions c03_push_back_appends_partial.
Example c03_ex : exists w', pushes (OD 2) [d1; d2; d3; d1; d2] ex_w = (Done tt, w') /\
  holds w' (OD 2) [d1; d2; d3; d1; d2].
Proof.
  destruct (c03_push_back_appends_partial [d1; d2; d3; d1; d2] ex_w (OD 2) TDouble) as [w' [E [_ [_ H]]]].
  - exact ex_ok.
  - vm_compute. reflexivity.
  - cbn. lia.
  - rewrite ex_lim. cbn. lia.
  - eauto.
Qed.

(** Pushing 2^30 elements succeeds; the next push converts 1.15 * 2^31 to int,
    which is undefined. *)
Theorem c03_push_back_limit_refuted : forall vs w o t v,
  world_ok w -> ob w o = store_default KBuffer t ->
  Z.of_nat (List.length vs) = 2 ^ 30 -> 4 * 2 ^ 30 + 2 <= hlim (hp w) ->
  fst (pushes o (vs ++ [v]) w) = Undef UB_cast.
Proof. exact pushes_limit. Qed.
Print Assumptions c03_push_back_limit_refuted.
Example c03_limit_ex : world_ok (empty_world (2 ^ 40)) /\
  ob (empty_world (2 ^ 40)) (OD 0) = store_default KBuffer TDouble /\
  4 * 2 ^ 30 + 2 <= hlim (hp (empty_world (2 ^ 40))).
Proof. split; [apply empty_world_ok; lia|]. split; [reflexivity|]. cbn [hp hlim empty_world]. lia. Qed.

(* ------------------------------------------------------------------ C04 *)

(** Reading, for every storage class. *)
Theorem c04_read_checked : forall w o l i, world_shape w -> holds w o l -> 0 <= i ->
  (i < Z.of_nat (List.length l) -> at_rd o i w = (Done (nth (Z.to_nat i) l (VB false)), w)) /\
  (Z.of_nat (List.length l) <= i -> exists m, at_rd o i w = (Thrown (Ass m), w)).
Proof. exact at_rd_bounds. Qed.
Print Assumptions c04_read_checked.
Example c04_read_ex : world_shape ex_w /\ holds ex_w (OD 0) [d1; d2; d3].
Proof. split; [exact ex_shape|exact ex_holds0]. Qed.

(** Writing in range changes element i of the vector's block and nothing else. *)
Theorem c04_write_checked : forall w o l i v, world_shape w -> holds w o l ->
  0 <= i < Z.of_nat (List.length l) ->
  exists w' a own cs, at_wr o i v w = (Done tt, w') /\ ob w' = ob w /\
    ptr (ob w o) = Some a /\ hblk (hp w) a = Live own cs /\
    hblk (hp w') a = Live own (list_set cs (Z.to_nat i) (Some v)) /\
    (forall b, b <> a -> hblk (hp w') b = hblk (hp w) b) /\
    world_shape w' /\ holds w' o (list_set l (Z.to_nat i) v).
Proof. exact at_wr_any. Qed.
Print Assumptions c04_write_checked.

(** Writing out of range throws and changes nothing. *)
Theorem c04_write_rejected : forall w o i v, sz (ob w o) <= i ->
  exists m, at_wr o i v w = (Thrown (Ass m), w).
Proof. exact at_wr_out. Qed.
Print Assumptions c04_write_rejected.
Example c04_write_ex : exists m, at_wr (OD 0) (2 ^ 64 - 1) d1 ex_w = (Thrown (Ass m), ex_w).
Proof. apply c04_write_rejected. vm_compute. congruence. Qed.

(* ------------------------------------------------------------------ C05 *)

(** From no vectors, any sequence of operations that respects [op_pre] never
    has undefined behaviour; if it runs to its end all memory is accounted
    for; and when all vectors are gone no memory is left.  It stops early only
    when the allocator fails outside a constructor. *)
Theorem c05_histories_safe : forall lim ops, 0 <= lim <= 2 ^ 60 -> allowed ops (empty_world lim) ->
  match exec ops (empty_world lim) with
  | (Done _, w') => world_ok w' /\ no_leak w' /\
      ((forall o, unborn w' o) -> forall a cs, hblk (hp w') a <> Live OwnCpp cs)
  | (Thrown e, _) => e = BadAlloc
  | (Undef _, _) => False
  end.
Proof. exact exec_final. Qed.
Print Assumptions c05_histories_safe.
Definition c05_ops : list sop :=
  [ SNew (OD 0) TDouble 3; SSet (OD 0) 1 d2; SDefault (OD 1) TInt; SPush (OD 1) (VI 7); SPush (OD 1) (VI 8);
    SCopy (OD 2) (OD 0); SResize (OD 2) 40; SSet (OD 2) 39 d1; SAssign (OD 0) (OD 2); SFill (OD 0) d3;
    SNew (OT 0) TDouble 6; SSwap (OD 0) (OT 0); SMove (OD 3) (OD 2); SGet (OD 3) 39;
    SDestroy (OD 0); SDestroy (OT 0); SDestroy (OD 1); SDestroy (OD 2); SDestroy (OD 3) ].
Example c05_ex : allowed c05_ops (empty_world 1000).
Proof. show_allowed. Qed.

(** The precondition on resize is needed: growing inside the reserve exposes
    uninitialised elements. *)
Theorem c05_resize_inside_refuted : exists ops, fst (exec ops (empty_world 1000)) = Undef UB_uninit /\
  ops = [SNewInt (OD 0) TDouble 10; SResize (OD 0) 11; SGet (OD 0) 10].
Proof. eexists. split; [|reflexivity]. vm_compute. reflexivity. Qed.
Print Assumptions c05_resize_inside_refuted.

(* ------------------------------------------------------------------ C06 *)

(** Copy construction of a vector whose reserve covers its size: the copy has
    the elements of the source, and no sequence of element writes to either
    shows in the other.  Missing to the full property: the matrix shape (the
    copy is never a matrix) and sources built from temporaries; both are
    refuted below. *)
Theorem c06_copy_partial : forall w x y l,
  world_ok w -> owning w y -> x <> y -> unborn w (OD x) -> unborn w (OT x) ->
  sz (ob w (OD y)) <= cap (ob w (OD y)) -> sz (ob w (OT y)) <= cap (ob w (OT y)) ->
  vholds w y l ->
  exists w', vec_copy x y w = (Done tt, w') /\ vstep w w' x /\ world_ok w' /\
    vholds w' x l /\ vholds w' y l /\ owning w' x /\ mp (ob w' (OD x)) = mp_none /\
    sty (ob w' (OD x)) = sty (ob w (OD y)).
Proof. exact vec_copy_done. Qed.
Print Assumptions c06_copy_partial.
Theorem c06_independent : forall w x y lx ly ws,
  world_ok w -> x <> y -> owning w x -> vholds w x lx -> vholds w y ly ->
  (forall i v, In (i, v) ws -> 0 <= i < Z.of_nat (List.length lx)) ->
  exists w', writes (OD x) ws w = (Done tt, w') /\ vholds w' y ly /\
    mp (ob w' (OD y)) = mp (ob w (OD y)) /\
    vholds w' x (fold_left (fun l p => list_set l (Z.to_nat (fst p)) (snd p)) ws lx).
Proof. exact writes_other. Qed.
Print Assumptions c06_independent.
Example c06_ex : exists w' w'', vec_copy 5 0 ex_w = (Done tt, w') /\
  writes (OD 5) [(0, d3); (2, d1)] w' = (Done tt, w'') /\
  vholds w'' 0 [d1; d2; d3] /\ vholds w'' 5 [d3; d2; d1].
Proof.
  destruct (c06_copy_partial ex_w 5 0 [d1; d2; d3]) as [w' [E [V [WO [H5 [H0 [OW _]]]]]]].
  - exact ex_ok.
  - show_kd.
  - congruence.
  - show_unborn.
  - show_unborn.
  - vm_compute. congruence.
  - vm_compute. congruence.
  - exact ex_holds0.
  - destruct (c06_independent w' 5 0 [d1; d2; d3] [d1; d2; d3] [(0, d3); (2, d1)]) as [w'' [E2 [A [_ B]]]]; auto.
    + intros i v [Hi|[Hi|[]]]; injection Hi as <- _; cbn; lia.
    + exists w', w''. auto.
Qed.

(** A copy of a matrix is not a matrix. *)
Theorem c06_shape_refuted : exists w1 w2,
  vec_matrix 0 TDouble 2 2 (empty_world 100) = (Done tt, w1) /\ vec_copy 1 0 w1 = (Done tt, w2) /\
  ismat (mp (ob w2 (OD 0))) = true /\ ismat (mp (ob w2 (OD 1))) = false.
Proof.
  eexists. eexists. split; [apply pair_eta; [vm_compute; reflexivity|reflexivity]|].
  split; [apply pair_eta; [vm_compute; reflexivity|reflexivity]|]. split; vm_compute; reflexivity.
Qed.
Print Assumptions c06_shape_refuted.

(** A copy of a vector built from a temporary claims the size of its source
    but has no memory: reading its first element is out of bounds. *)
Theorem c06_temporary_refuted : exists w1 w2,
  vec_of_rvec 0 9 TDouble [d1; d2] mp_none (empty_world 100) = (Done tt, w1) /\
  world_ok w1 /\ vholds w1 0 [d1; d2] /\ vec_copy 1 0 w1 = (Done tt, w2) /\
  sz (ob w2 (OD 1)) = 2 /\ fst (at_rd (OD 1) 0 w2) = Undef UB_oob.
Proof.
  destruct (vec_of_rvec_done (empty_world 100) 0 9 TDouble [d1; d2] mp_none) as [w1 [E [WO [H _]]]].
  - apply empty_world_ok. lia.
  - congruence.
  - apply empty_world_unborn.
  - apply empty_world_unborn.
  - apply empty_world_unborn.
  - apply empty_world_unborn.
  - congruence.
  - unfold fits. cbn. lia.
  - exists w1. eexists. split; [exact E|]. split; [exact WO|]. split; [exact H|].
    replace w1 with (snd (vec_of_rvec 0 9 TDouble [d1; d2] mp_none (empty_world 100))) by now rewrite E.
    split; [apply pair_eta; [vm_compute; reflexivity|reflexivity]|]. split; vm_compute; reflexivity.
Qed.
Print Assumptions c06_temporary_refuted.

(* ------------------------------------------------------------------ C07 *)

(** The source is at least as long as the target.  Missing to the full
    property: shorter sources, where it is false. *)
Theorem c07_storage_assignment_partial : forall w o other l,
  world_ok w -> o <> other -> kd (ob w o) = KBuffer -> kd (ob w other) = KBuffer ->
  holds w other l -> sz (ob w o) <= sz (ob w other) ->
  sz (ob w other) <= 1867000000 -> fits w (sz (ob w other)) ->
  exists w', assign_store o other w = (Done tt, w') /\ step1 w w' o /\ world_ok w' /\
    holds w' o l /\ holds w' other l /\ kd (ob w' o) = KBuffer.
Proof. exact assign_store_done. Qed.
Print Assumptions c07_storage_assignment_partial.
Theorem c07_self : forall w o, assign_store o o w = (Done tt, w).
Proof. intros w o. unfold assign_store. rewrite oid_eqb_refl. reflexivity. Qed.
Print Assumptions c07_self.
Example c07_ex : exists w', assign_store (OD 1) (OD 0) ex_w = (Done tt, w') /\ holds w' (OD 1) [d1; d2; d3].
Proof.
  destruct (c07_storage_assignment_partial ex_w (OD 1) (OD 0) [d1; d2; d3]) as [w' [E [_ [_ [H _]]]]]; [..|eauto].
  - exact ex_ok.
  - congruence.
  - show_kd.
  - show_kd.
  - exact ex_holds0.
  - vm_compute. congruence.
  - vm_compute. congruence.
  - vm_compute. congruence.
Qed.

(** A shorter source: the assignment throws after overwriting a prefix. *)
Theorem c07_shorter_source_refuted : exists w' m,
  world_ok ex_w /\ holds ex_w (OD 0) [d1; d2; d3] /\ holds ex_w (OD 1) [d0; d0] /\
  assign_store (OD 0) (OD 1) ex_w = (Thrown (Ass m), w') /\ holds w' (OD 0) [d0; d0; d3].
Proof.
  eexists. eexists. split; [exact ex_ok|]. split; [exact ex_holds0|]. split; [exact ex_holds1|].
  split; [apply pair_eta; [vm_compute; reflexivity|reflexivity]|]. show_holds.
Qed.
Print Assumptions c07_shorter_source_refuted.

(* ------------------------------------------------------------------ C08 *)

(** Shrinking keeps a prefix; growing beyond the reserve gives zeros; 0 is
    rejected.  Missing to the full property: growing inside the reserve, where
    it is false. *)
Theorem c08_resize_partial : forall w o n l,
  world_ok w -> kd (ob w o) = KBuffer -> holds w o l ->
  1 <= n -> fits w n -> (alloc (ob w o) = true -> ptr (ob w o) <> None) ->
  (n <= sz (ob w o) \/ cap (ob w o) < n) ->
  exists w', resize o n w = (Done tt, w') /\ step1 w w' o /\ world_ok w' /\
    holds w' o (if cap (ob w o) <? n then repeat (zero (sty (ob w o))) (Z.to_nat n)
                else firstn (Z.to_nat n) l).
Proof. exact resize_ok. Qed.
Print Assumptions c08_resize_partial.
Theorem c08_resize_zero : forall w o, exists m, resize o 0 w = (Thrown (Ass m), w).
Proof. exact resize_zero. Qed.
Print Assumptions c08_resize_zero.
Example c08_ex : exists w', resize (OD 0) 2 ex_w = (Done tt, w') /\ holds w' (OD 0) [d1; d2].
Proof.
  destruct (c08_resize_partial ex_w (OD 0) 2 [d1; d2; d3]) as [w' [E [_ [_ H]]]].
  - exact ex_ok.
  - show_kd.
  - exact ex_holds0.
  - lia.
  - vm_compute. congruence.
  - intros _. exact (proj1 ex_ready0).
  - left. vm_compute. congruence.
  - exists w'. split; [exact E|].
    replace (cap (ob ex_w (OD 0)) <? 2) with false in H by (vm_compute; reflexivity). exact H.
Qed.

(** Growing inside the reserve: the new element cannot be read. *)
Theorem c08_resize_refuted : exists w1 w2,
  resize (OD 0) 10 (empty_world 100) = (Done tt, w1) /\ world_ok w1 /\
  resize (OD 0) 11 w1 = (Done tt, w2) /\ sz (ob w2 (OD 0)) = 11 /\
  fst (at_rd (OD 0) 10 w2) = Undef UB_uninit.
Proof.
  destruct (resize_grow (empty_world 100) (OD 0) 10) as [w1 [E [_ [WO _]]]].
  - apply empty_world_ok. lia.
  - reflexivity.
  - cbn. lia.
  - lia.
  - unfold fits. cbn. lia.
  - cbn. congruence.
  - exists w1. eexists. split; [exact E|]. split; [exact WO|].
    replace w1 with (snd (resize (OD 0) 10 (empty_world 100))) by now rewrite E.
    split; [apply pair_eta; [vm_compute; reflexivity|reflexivity]|]. split; vm_compute; reflexivity.
Qed.
Print Assumptions c08_resize_refuted.

(* ------------------------------------------------------------------ C52 *)

(** Construction from a temporary: elements and shape are taken over, the
    temporary is gone, nothing leaked.  Missing to the full property: later
    operations on the result, which misbehave (its reserve is recorded as 0). *)
Theorem c52_from_temporary_partial : forall w x s t l m,
  world_ok w -> x <> s ->
  unborn w (OD x) -> unborn w (OT x) -> unborn w (OD s) -> unborn w (OT s) ->
  l <> [] -> fits w (Z.of_nat (List.length l)) ->
  exists w', vec_of_rvec x s t l m w = (Done tt, w') /\ world_ok w' /\
    vholds w' x l /\ mp (ob w' (OD x)) = mat_or_none m /\ owning w' x /\ ready w' x /\
    cap (ob w' (OD x)) = 0 /\ unborn w' (OD s) /\ unborn w' (OT s) /\
    (no_leak w -> no_leak w') /\
    (forall o, o <> OD x -> o <> OT x -> o <> OD s -> o <> OT s -> same_obj w w' o).
Proof. exact vec_of_rvec_done. Qed.
Print Assumptions c52_from_temporary_partial.
Example c52_ex : exists w', vec_of_rvec 4 5 TDouble [d3; d2; d1; d0] (mkMP true 2 2) ex_w = (Done tt, w') /\
  vholds w' 4 [d3; d2; d1; d0].
Proof.
  destruct (c52_from_temporary_partial ex_w 4 5 TDouble [d3; d2; d1; d0] (mkMP true 2 2)) as [w' [E [_ [H _]]]]; [..|eauto].
  - exact ex_ok.
  - congruence.
  - show_unborn.
  - show_unborn.
  - show_unborn.
  - show_unborn.
  - congruence.
  - vm_compute. congruence.
Qed.

(** push_back on a vector built from a temporary is silently dropped. *)
Theorem c52_push_back_refuted : exists w1 w2,
  vec_of_rvec 0 9 TDouble [d1; d2] mp_none (empty_world 100) = (Done tt, w1) /\
  push_back (OD 0) d3 w1 = (Done tt, w2) /\ holds w2 (OD 0) [d1; d2].
Proof.
  eexists. eexists. split; [apply pair_eta; [vm_compute; reflexivity|reflexivity]|].
  split; [apply pair_eta; [vm_compute; reflexivity|reflexivity]|]. show_holds.
Qed.
Print Assumptions c52_push_back_refuted.

(* ------------------------------------------------------------------ C53 *)

(** A push_back that throws (for want of memory) loses nothing and leaves a
    vector that can be destroyed. *)
Theorem c53_push_back_partial : forall w o v e w',
  world_ok w -> kd (ob w o) = KBuffer -> push_back o v w = (Thrown e, w') ->
  (forall o', o' <> o -> same_obj w w' o') /\
  (forall l, holds w o l -> holds w' o l) /\
  exists w'', destroy o w' = (Done tt, w'') /\ (forall o', o' <> o -> same_obj w w'' o') /\
    unborn w'' o /\ (no_leak w -> no_leak w'').
Proof. exact push_fail_destroy. Qed.
Print Assumptions c53_push_back_partial.
(** A constructor that throws for want of memory leaves the state unchanged. *)
Theorem c53_constructors_partial : forall w op w', is_ctor op = true ->
  (forall o src, op = SCopy o src -> kd (ob w src) = KBuffer) ->
  run_op op w = (Thrown BadAlloc, w') -> world_ok w -> op_pre w op -> w' = w.
Proof. exact ctor_fail_unchanged. Qed.
Print Assumptions c53_constructors_partial.
Example c53_ex : exists w1, exec [SNew (OD 0) TDouble 5; SResize (OD 0) 2] (empty_world 5) = (Done tt, w1) /\
  exists w2, pushes (OD 0) [d1; d2; d3] w1 = (Done tt, w2) /\ fst (push_back (OD 0) d1 w2) = Thrown BadAlloc.
Proof.
  eexists. split; [apply pair_eta; [vm_compute; reflexivity|reflexivity]|].
  eexists. split; [apply pair_eta; [vm_compute; reflexivity|reflexivity]|]. vm_compute. reflexivity.
Qed.

(** A resize that fails for want of memory leaves a vector whose destruction
    frees memory twice, for every vector that had memory. *)
Theorem c53_resize_refuted : forall w o n w', world_shape w -> kd (ob w o) = KBuffer ->
  ptr (ob w o) <> None -> n <= 2 ^ 64 -> resize o n w = (Thrown BadAlloc, w') ->
  fst (destroy o w') = Undef UB_double_free.
Proof. exact resize_fail_then_destroy. Qed.
Print Assumptions c53_resize_refuted.
Example c53_resize_ex : fst (resize (OD 0) 2000 ex_w) = Thrown BadAlloc /\
  fst (destroy (OD 0) (snd (resize (OD 0) 2000 ex_w))) = Undef UB_double_free.
Proof. split; vm_compute; reflexivity. Qed.

(* ------------------------------------------------------------------ C54 *)

(** Assigning any expression of 2^31 or more elements completes, but the
    target gets another length. *)
Theorem c54_large_assignment_refuted : forall lm w x e rho us,
  world_ok w -> owning w x -> can_assign w x -> env_of w rho e -> wf_expr rho e ->
  2 ^ 31 <= xsize rho e -> fits w (xsize rho e) ->
  value_of lm rho (sty (ob w (OD x))) e us ->
  exists w', assign lm x e w = (Done tt, w') /\ sz (ob w' (OD x)) <> xsize rho e.
Proof. exact assign_large. Qed.
Print Assumptions c54_large_assignment_refuted.
Example c54_ex : forall lm, exists w x y w', world_ok w /\ sz (ob w (OD y)) = 2 ^ 31 /\
  assign lm x (EVar y) w = (Done tt, w') /\ sz (ob w' (OD x)) <> sz (ob w (OD y)).
Proof. intros lm. apply assign_large_any; lia. Qed.
