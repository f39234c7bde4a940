(** Properties C57-C65: R objects, wrappers, raw pointers, Rcpp and Armadillo;
    the printing part of C50 that concerns operator<<. *)
From Coq Require Import String ZArith List Bool Lia Arith.
From Verif Require Import Base Num StoreModel VecModel OutModel ForeignModel Spec SpecExpr SpecHist SpecVec SpecSub SpecForeign
  StoreProofs StoreOps VecProofs StoreThms BorrowProofs VecThms
  ForeignProofs ForeignProofs2 ForeignProofs3 ForeignProofs4 ForeignProofs5 ForeignProofs6 Examples PropVec.
Import ListNotations.
Open Scope Z_scope.
Local Notation length := List.length (only parsing).

(* ------------------------------------------------------------------ C57 *)

(** Assigning an R object of the vector's own element type, with elements of
    that type, copies the elements; the shape is that of the R object if it is
    a matrix. *)
Theorem c57_assign_partial : forall w x r xs ys,
  world_ok w -> owning w x -> (alloc (ob w (OD x)) = true -> ptr (ob w (OD x)) <> None) ->
  r_ty r = sty (ob w (OD x)) -> r_has w r xs -> stand_for (r_ty r) xs ys -> Z.of_nat (length xs) <= hlim (hp w) ->
  exists w', assign_R x r w = (Done tt, w') /\ vstep w w' x /\ world_ok w' /\ owning w' x /\ vholds w' x ys /\
    r_has w' r xs /\
    (forall nr nc, r_dim r = Some (nr, nc) -> mp (ob w' (OD x)) = mkMP true nr nc).
Proof.
  intros w x r xs ys WO [K1 K2] HA TY RH PL HL. unfold assign_R.
  destruct (init_sexp_done w (OD x) r xs ys (proj1 WO) K1 HA TY RH) as [w' [E [ST [O H]]]]; auto.
  { rewrite <- TY. now apply converted_plain. }
  exists w'. split; [exact E|]. split; [eapply step1_vstep; [left; reflexivity|exact ST]|].
  split; [eapply step1_ok; eauto; eapply inited_buffer; eauto; [apply ST|now rewrite O]|].
  assert (OTe : ob w' (OT x) = ob w (OT x)) by (apply (s1_other _ _ _ ST); congruence).
  split; [unfold owning; rewrite O, OTe; auto|]. split; [exact H|]. split.
  - destruct RH as [B L]. split; auto. apply (s1_ext _ _ _ ST); auto. discriminate.
  - intros nr nc D. rewrite O. cbn [mp]. unfold r_shape. now rewrite D.
Qed.
Print Assumptions c57_assign_partial.

(** A storage object made of an R object: elements and shape. *)
Theorem c57_construct : forall w o r xs ys,
  world_ok w -> unborn w o -> r_has w r xs -> stand_for (r_ty r) xs ys -> Z.of_nat (length xs) <= hlim (hp w) ->
  exists w', ctor_sexp o (r_ty r) r w = (Done tt, w') /\ step1 w w' o /\ world_ok w' /\ holds w' o ys /\
    mp (ob w' o) = dims_of r /\ sty (ob w' o) = r_ty r.
Proof.
  intros w o r xs ys WO D RH PL HL.
  destruct (ctor_sexp_done w o (r_ty r) r xs ys (proj1 WO) D eq_refl RH) as [w' [E [ST [O H]]]]; auto.
  { now apply converted_plain. }
  exists w'. split; [exact E|]. split; [exact ST|].
  split; [eapply step1_ok; eauto; eapply inited_buffer; eauto; [apply ST|now rewrite O]|].
  split; [exact H|]. rewrite O. auto.
Qed.
Print Assumptions c57_construct.

(** A missing value of a logical R vector becomes TRUE. *)
Theorem c57_missing_refuted : forall w x r xs i,
  world_ok w -> owning w x -> (alloc (ob w (OD x)) = true -> ptr (ob w (OD x)) <> None) ->
  sty (ob w (OD x)) = TBool -> r_ty r = TBool -> r_has w r xs -> Z.of_nat (length xs) <= hlim (hp w) ->
  nth_error xs i = Some (VI int_min) ->
  exists w' ys, assign_R x r w = (Done tt, w') /\ vholds w' x ys /\ nth_error ys i = Some (VB true).
Proof.
  intros w x r xs i WO [K1 K2] HA T1 TY RH HL Ni. unfold assign_R.
  set (tb := fun v => match v with VB b => VB b | VI z => VB (negb (z =? 0)) | VD d => VB (f2b d) end).
  destruct (init_sexp_done w (OD x) r xs (map tb xs) (proj1 WO) K1 HA) as [w' [E [ST [O H]]]]; auto.
  { congruence. }
  { rewrite T1. clear. induction xs as [|v xs IH]; constructor; auto. destruct v; reflexivity. }
  exists w', (map tb xs). split; [exact E|]. split; [exact H|].
  rewrite (map_nth_error tb _ _ Ni). reflexivity.
Qed.
Print Assumptions c57_missing_refuted.

(** A vector that was a matrix stays one when a plain R vector is assigned,
    whatever its length. *)
Theorem c57_shape_refuted : forall w x r xs ys nr nc,
  world_ok w -> owning w x -> (alloc (ob w (OD x)) = true -> ptr (ob w (OD x)) <> None) ->
  r_ty r = sty (ob w (OD x)) -> r_has w r xs -> stand_for (r_ty r) xs ys -> Z.of_nat (length xs) <= hlim (hp w) ->
  r_dim r = None -> mp (ob w (OD x)) = mkMP true nr nc -> nr * nc <> Z.of_nat (length xs) ->
  exists w', assign_R x r w = (Done tt, w') /\ vholds w' x ys /\ mp (ob w' (OD x)) = mkMP true nr nc.
Proof.
  intros w x r xs ys nr nc WO [K1 K2] HA TY RH PL HL ND MP NE. unfold assign_R.
  destruct (init_sexp_done w (OD x) r xs ys (proj1 WO) K1 HA TY RH) as [w' [E [ST [O H]]]]; auto.
  { rewrite <- TY. now apply converted_plain. }
  exists w'. split; [exact E|]. split; [exact H|]. rewrite O. cbn [mp]. unfold r_shape. now rewrite ND.
Qed.
Print Assumptions c57_shape_refuted.

(** An R object of another type is refused, but the vector's memory is gone by
    then: reading any of its elements afterwards reads through a null pointer. *)
Theorem c57_type_refuted : forall w x r a,
  world_ok w -> owning w x -> ptr (ob w (OD x)) = Some a -> r_ty r <> sty (ob w (OD x)) ->
  exists m w', assign_R x r w = (Thrown (Ass m), w') /\ hblk (hp w') a = Freed /\
    forall i, 0 <= i < sz (ob w (OD x)) -> fst (at_rd (OD x) i w') = Undef UB_null.
Proof.
  intros w x r a WO [K1 K2] P TY. pose proof (proj1 WO) as W. pose proof (shape_alloc _ _ _ W P) as A.
  assert (Ow : owner_of (ob w (OD x)) = OwnCpp) by (unfold owner_of; now rewrite K1).
  destruct (give_back w (OD x) W Ow) as [w1 [E1 [O1 [X1 [L1 [N1 [F1 G1]]]]]]]; [congruence|].
  unfold assign_R, init_sexp. rewrite bind_st, (bind_done _ _ _ _ _ E1), r_is_other, bind_ass_false by exact TY.
  eexists _, w1. split; [reflexivity|]. split; [apply F1; split; auto|].
  intros i Hi. unfold at_rd. rewrite bind_st, O1. cbn [kd with_ptr]. rewrite K1.
  unfold get_at. rewrite bind_st, O1. cbn [alloc with_ptr sz ptr]. rewrite A, bind_ass_true.
  replace (i <? sz (ob w (OD x))) with true by (symmetry; apply Z.ltb_lt; lia). rewrite bind_ass_true. reflexivity.
Qed.
Print Assumptions c57_type_refuted.

(** An R vector 1, 1, 2 in a program with vectors 1, 2, 3 and 0, 0. *)
Definition ex_r : robj := mkR TDouble (hnext (hp ex_w)) None.
Definition ex_rm : robj := mkR TDouble (hnext (hp ex_w)) (Some (1, 3)).
Lemma ex_rw_ok : world_ok ex_rw.
Proof. apply (user_block_ok ex_w OwnR [d1; d1; d2] ex_ok); [congruence|vm_compute; congruence]. Qed.
Lemma ex_rw_has dim : r_has ex_rw (mkR TDouble (hnext (hp ex_w)) dim) [d1; d1; d2].
Proof. split; [vm_compute; reflexivity|vm_compute; congruence]. Qed.
Lemma ex_rw_plain : stand_for TDouble [d1; d1; d2] [d1; d1; d2].
Proof. repeat constructor. Qed.
Example c57_ex : exists w', assign_R 0 ex_rm ex_rw = (Done tt, w') /\ vholds w' 0 [d1; d1; d2] /\
  mp (ob w' (OD 0)) = mkMP true 1 3.
Proof.
  destruct (c57_assign_partial ex_rw 0 ex_rm [d1; d1; d2] [d1; d1; d2] ex_rw_ok) as [w' [E [_ [_ [_ [H [_ M]]]]]]].
  - split; vm_compute; reflexivity.
  - intros _. vm_compute. discriminate.
  - reflexivity.
  - apply ex_rw_has.
  - apply ex_rw_plain.
  - vm_compute. congruence.
  - exists w'. split; [exact E|]. split; [exact H|]. now apply M.
Qed.
Example c57_construct_ex : exists w', ctor_sexp (OD 7) TDouble ex_r ex_rw = (Done tt, w') /\ holds w' (OD 7) [d1; d1; d2].
Proof.
  destruct (c57_construct ex_rw (OD 7) ex_r [d1; d1; d2] [d1; d1; d2] ex_rw_ok) as [w' [E [_ [_ [H _]]]]].
  - apply unborn_ptr. vm_compute. reflexivity.
  - apply ex_rw_has.
  - apply ex_rw_plain.
  - vm_compute. congruence.
  - exists w'. auto.
Qed.
(** The wrong type, and a missing value, on concrete worlds. *)
Example c57_type_ex : fst (at_rd (OD 0) 1 (snd (assign_R 0 (mkR TInt (hnext (hp ex_w)) None) ex_rw))) = Undef UB_null.
Proof. vm_compute. reflexivity. Qed.
Example c57_missing_ex :
  let w := snd (ctor_size (OD 3) TBool 2 (user_block ex_w OwnR [VI 0; VI int_min])) in
  fst (at_rd (OD 3) 1 (snd (assign_R 3 (mkR TBool (hnext (hp ex_w)) None) w))) = Done (VB true).
Proof. vm_compute. reflexivity. Qed.
Example c57_shape_ex :
  let w := set_ob ex_rw (OD 0) (with_mp (mkMP true 2 2) (ob ex_rw (OD 0))) in
  let w' := snd (assign_R 0 ex_r w) in
  mp (ob w' (OD 0)) = mkMP true 2 2 /\ sz (ob w' (OD 0)) = 3.
Proof. vm_compute. auto. Qed.

(* ------------------------------------------------------------------ C58 *)

Lemma vec_wrap_sexp : forall w x r xs, r_ty r = TDouble -> r_has w r xs ->
  vec_wrap x r w = vec_sexp x TDouble (Some (r_mem r)) (Z.of_nat (length xs)) (dims_of r) w.
Proof.
  intros w x r xs TY RH. unfold vec_wrap, sexp_wrap, vec_sexp, sexp_ctor.
  rewrite r_is_same by exact TY. rewrite bind_assoc, bind_ass_true, bind_assoc, (bind_done _ _ _ _ _ (r_length_has w r xs RH)).
  rewrite !bind_upd. unfold dims_of, r_shape. destruct (r_dim r) as [[nr nc]|]; reflexivity.
Qed.

(** Wrapping a numeric R object shows its elements and its shape; no memory is
    obtained or written. *)
Theorem c58_wrap : forall w x r xs,
  world_ok w -> unborn w (OD x) -> unborn w (OT x) -> r_ty r = TDouble -> r_has w r xs ->
  exists w', vec_wrap x r w = (Done tt, w') /\ world_ok w' /\ (no_leak w -> no_leak w') /\
    vholds w' x xs /\ wraps w' x (r_mem r) /\ mp (ob w' (OD x)) = dims_of r /\ hp w' = hp w /\
    (forall o, o <> OD x -> o <> OT x -> same_obj w w' o).
Proof.
  intros w x r xs WO D1 D2 TY RH. rewrite (vec_wrap_sexp w x r xs TY RH).
  destruct (vec_sexp_done w x TDouble (r_mem r) xs (dims_of r) WO D1 D2 (proj1 RH)) as
    [w' [E [WO' [H [WR [CP [HP [CA [NL [TY' SO]]]]]]]]]].
  exists w'. split; [exact E|]. split; [exact WO'|]. split; [exact NL|]. split; [exact H|]. split; [exact WR|]. split.
  - unfold vec_sexp, sexp_ctor in E. rewrite bind_upd in E. injection E as <-.
    rewrite ob_set_other, ob_set_same by congruence. cbn [mp]. unfold dims_of. now destruct (r_dim r) as [[nr nc]|].
  - split; [exact HP|exact SO].
Qed.
Print Assumptions c58_wrap.

(** Writes to the wrapper go to the R object, and nowhere else. *)
Theorem c58_writes : forall w x r xs ws,
  world_ok w -> unborn w (OD x) -> unborn w (OT x) -> r_ty r = TDouble -> r_has w r xs ->
  (forall i v, In (i, v) ws -> 0 <= i < Z.of_nat (length xs)) ->
  exists w' w'', vec_wrap x r w = (Done tt, w') /\ elem_writes x ws w' = (Done tt, w'') /\
    hblk (hp w'') (r_mem r) =
      Live OwnR (fold_left (fun l p => list_set l (Z.to_nat (fst p)) (Some (snd p))) ws (map Some xs)) /\
    (forall b, b <> r_mem r -> hblk (hp w'') b = hblk (hp w) b).
Proof.
  intros w x r xs ws WO D1 D2 TY RH HW.
  destruct (c58_wrap w x r xs WO D1 D2 TY RH) as [w' [E [WO' [_ [H [WR [_ [HP _]]]]]]]].
  destruct (sexp_writes ws w' x (r_mem r) (map Some xs) (proj1 WO') WR) as [w'' [E2 [_ [_ [B O]]]]].
  - rewrite HP. apply RH.
  - intros i v Hi. destruct H as [H _]. rewrite H. eauto.
  - exists w', w''. split; [exact E|]. split; [exact E2|]. split; [exact B|]. intros b Nb. rewrite O by auto. now rewrite HP.
Qed.
Print Assumptions c58_writes.

(** Other R objects are refused, and nothing happens. *)
Theorem c58_wrong_type : forall w x r, r_ty r <> TDouble -> exists m, vec_wrap x r w = (Thrown (Ass m), w).
Proof.
  intros w x r TY. unfold vec_wrap, sexp_wrap. rewrite r_is_other, bind_assoc, bind_ass_false by exact TY. eauto.
Qed.
Print Assumptions c58_wrong_type.
Example c58_ex : exists w' w'', vec_wrap 7 ex_rm ex_rw = (Done tt, w') /\ elem_writes 7 [(0, d3); (2, d0)] w' = (Done tt, w'') /\
  hblk (hp w'') (r_mem ex_rm) = Live OwnR (map Some [d3; d1; d0]).
Proof.
  destruct (c58_writes ex_rw 7 ex_rm [d1; d1; d2] [(0, d3); (2, d0)] ex_rw_ok) as [w' [w'' [E [E2 [B _]]]]].
  - apply unborn_ptr. vm_compute. reflexivity.
  - apply unborn_ptr. vm_compute. reflexivity.
  - reflexivity.
  - apply ex_rw_has.
  - intros i v [Hi|[Hi|[]]]; injection Hi as <- _; cbn; lia.
  - exists w', w''. auto.
Qed.

(* ------------------------------------------------------------------ C59 *)

(** A copy of a nonempty wrapper has the same elements and shape in memory of
    its own. *)
Theorem c59_copy_partial : forall w x y l,
  world_shape w -> kd (ob w (OD y)) = KBorrowSEXP -> kd (ob w (OT y)) = KBuffer -> x <> y ->
  unborn w (OD x) -> unborn w (OT x) -> sz (ob w (OT y)) <= cap (ob w (OT y)) ->
  vholds w y l -> l <> [] -> fits w (Z.of_nat (length l)) ->
  exists w', vec_copy_any x y w = (Done tt, w') /\ vstep w w' x /\
    wrapper_own w' x /\ ptr (ob w' (OD x)) <> ptr (ob w' (OD y)) /\ vholds w' x l /\ vholds w' y l /\
    mp (ob w' (OD x)) = mp (ob w (OD y)).
Proof.
  intros w x y l W K1 K2 Ne D1 D2 C2 H NE Ft. apply vec_copy_wrapper; auto. destruct l; [congruence|cbn; lia].
Qed.
Print Assumptions c59_copy_partial.

(** Vectors in different memory do not see each other's element writes. *)
Theorem c59_independent_partial : forall w x y i v w' l,
  ptr (ob w (OD x)) <> ptr (ob w (OD y)) -> vholds w y l ->
  at_wr (OD x) i v w = (Done tt, w') -> vholds w' y l.
Proof.
  intros w x y i v w' l NP H E. eapply holds_same; [|exact H].
  assert (G : forall a own cs, ptr (ob w (OD x)) = Some a -> hblk (hp w) a = Live own cs -> 0 <= i < Z.of_nat (length cs) ->
     wrc (Some a) i (Some v) w = (Done tt, w') -> same_obj w w' (OD y)).
  { intros a own cs P B Hi Ew. destruct (wrc_ok w a i (Some v) own cs B Hi) as [w2 [E2 [U1 [_ [_ [_ U5]]]]]].
    rewrite Ew in E2. injection E2 as <-. split; [now rewrite U1|]. intros b Pb. apply U5. congruence. }
  assert (F : wrc (ptr (ob w (OD x))) i (Some v) w = (Done tt, w')).
  { unfold at_wr, set_at, sexp_set_at, ass, bind, st, wr, ret, throw in E.
    destruct (kd (ob w (OD x)));
    repeat match type of E with context [if ?b then _ else _] => destruct b; try discriminate E; cbv beta iota in E end; exact E. }
  destruct (ptr (ob w (OD x))) as [a|] eqn:P; [|discriminate F].
  pose proof F as F'. unfold wrc in F'. destruct (hblk (hp w) a) as [|own cs|] eqn:B; try discriminate F'.
  destruct ((0 <=? i) && (i <? Z.of_nat (List.length cs))) eqn:Q; [|discriminate F'].
  apply andb_prop in Q. destruct Q as [Q1 Q2]. apply Z.leb_le in Q1. apply Z.ltb_lt in Q2.
  eapply G; eauto.
Qed.
Print Assumptions c59_independent_partial.

(** An empty wrapper cannot be copied. *)
Theorem c59_empty_refuted : forall w x y, kd (ob w (OD y)) = KBorrowSEXP -> vholds w y [] ->
  exists m, fst (vec_copy_any x y w) = Thrown (Ass m).
Proof.
  intros w x y K [Z0 _]. pose proof (sexp_copy_empty w (OD x) (OD y) Z0) as E.
  unfold vec_copy_any. rewrite bind_st, K. unfold bind at 1.
  destruct (sexp_copy (OD x) (OD y) w) as [r w1]. cbn [fst] in E. subst r. eexists. reflexivity.
Qed.
Print Assumptions c59_empty_refuted.
Definition ex_ww : world := snd (vec_wrap 7 ex_rm ex_rw).
Lemma ex_ww_facts : world_ok ex_ww /\ vholds ex_ww 7 [d1; d1; d2] /\ wraps ex_ww 7 (hnext (hp ex_w)).
Proof.
  destruct (c58_wrap ex_rw 7 ex_rm [d1; d1; d2] ex_rw_ok) as [w' [E [WO [_ [H [WR _]]]]]]; try (apply unborn_ptr; vm_compute; reflexivity).
  { reflexivity. }
  { apply ex_rw_has. }
  unfold ex_ww. rewrite E. auto.
Qed.
Example c59_ex : exists w', vec_copy_any 8 7 ex_ww = (Done tt, w') /\ vholds w' 8 [d1; d1; d2] /\ vholds w' 7 [d1; d1; d2].
Proof.
  destruct ex_ww_facts as [WO [H WR]].
  destruct (c59_copy_partial ex_ww 8 7 [d1; d1; d2] (proj1 WO)) as [w' [E [_ [_ [_ [H8 [H7 _]]]]]]];
    try (first [exact H | apply unborn_ptr; vm_compute; reflexivity | vm_compute; congruence]).
  exists w'. auto.
Qed.

(* ------------------------------------------------------------------ C60 *)

(** A wrapper without memory, or with memory of its own, can be bound to an R
    object: it then shows that object, and its own memory is given back. *)
Theorem c60_rebind_partial : forall w x r xs,
  world_ok w -> kd (ob w (OD x)) = KBorrowSEXP -> kd (ob w (OT x)) = KBuffer ->
  (ptr (ob w (OD x)) <> None -> todel (ob w (OD x)) = true) -> (alloc (ob w (OD x)) = true -> ptr (ob w (OD x)) <> None) ->
  r_ty r = TDouble -> r_has w r xs ->
  exists w', sexp_rebind (OD x) r w = (Done tt, w') /\ vstep w w' x /\ world_ok w' /\ wraps w' x (r_mem r) /\
    vholds w' x xs /\ r_has w' r xs /\ (forall a, ptr (ob w (OD x)) = Some a -> hblk (hp w') a = Freed).
Proof.
  intros w x r xs WO K1 K2 TD HA TY RH.
  destruct (sexp_rebind_done w (OD x) r xs (proj1 WO) K1 TD HA TY RH) as [w' [E [ST [IN [O [H [RH' F]]]]]]].
  exists w'. split; [exact E|]. split; [eapply step1_vstep; [left; reflexivity|exact ST]|].
  split; [eapply step1_ok; eauto|]. split; [|auto].
  assert (OTe : ob w' (OT x) = ob w (OT x)) by (apply (s1_other _ _ _ ST); congruence).
  unfold wraps. rewrite O, OTe. auto.
Qed.
Print Assumptions c60_rebind_partial.

(** A wrapper that already shows an R object frees that object's memory. *)
Theorem c60_wrapping_refuted : forall w x r a, world_shape w -> wraps w x a ->
  sexp_rebind (OD x) r w = (Undef UB_foreign_free, w).
Proof.
  intros w x r a W [K [P [TD _]]]. destruct (ptr_live _ _ _ W P) as [cs [B _]]. unfold owner_of in B. rewrite K, TD in B.
  eapply sexp_rebind_wrapping; eauto. eapply shape_alloc; eauto.
Qed.
Print Assumptions c60_wrapping_refuted.
Definition ex_wd : world := snd (sexp_default (OD 7) TDouble ex_rw).
Lemma ex_wd_ok : world_ok ex_wd.
Proof.
  eapply (step1_ok ex_rw ex_wd (OD 7)); [apply (step1_empty ex_rw (OD 7)); try reflexivity|exact ex_rw_ok|].
  - apply ex_rw_ok.
  - apply unborn_ptr. vm_compute. reflexivity.
  - split; [intros a own cs P; discriminate P|]. intros _. split; [vm_compute; congruence|]. intros a own cs P. discriminate P.
Qed.
Example c60_ex : exists w', sexp_rebind (OD 7) ex_r ex_wd = (Done tt, w') /\ vholds w' 7 [d1; d1; d2].
Proof.
  destruct (c60_rebind_partial ex_wd 7 ex_r [d1; d1; d2] ex_wd_ok) as [w' [E [_ [_ [_ [H _]]]]]].
  - vm_compute. reflexivity.
  - vm_compute. reflexivity.
  - vm_compute. congruence.
  - vm_compute. congruence.
  - reflexivity.
  - split; [vm_compute; reflexivity|vm_compute; congruence].
  - exists w'. auto.
Qed.
Example c60_wrapping_ex : fst (sexp_rebind (OD 7) ex_r ex_ww) = Undef UB_foreign_free.
Proof. vm_compute. reflexivity. Qed.

(* ------------------------------------------------------------------ C61 *)

(** push_back on a wrapper without memory or with memory of its own appends the
    element. *)
Theorem c61_push_back_partial : forall w x l v,
  world_shape w -> kd (ob w (OD x)) = KBorrowSEXP -> (ptr (ob w (OD x)) <> None -> todel (ob w (OD x)) = true) ->
  vholds w x l -> sz (ob w (OD x)) <= cap (ob w (OD x)) ->
  Z.of_nat (length l) <= 933500000 -> 4 * Z.of_nat (length l) + 2 <= hlim (hp w) ->
  exists w', sexp_push_back (OD x) v w = (Done tt, w') /\ vstep w w' x /\ vholds w' x (l ++ [v]) /\
    kd (ob w' (OD x)) = KBorrowSEXP /\ todel (ob w' (OD x)) = true /\ mp (ob w' (OD x)) = mp (ob w (OD x)).
Proof.
  intros w x l v W K TD H SC L1 L2. pose proof (proj1 H) as Sz.
  destruct (sexp_push_back_done w (OD x) l v W K TD H SC) as [w' [E [ST [H' [K' [TD' [P' [_ [M' _]]]]]]]]].
  { intros _. rewrite Sz. auto. }
  exists w'. split; [exact E|]. split; [eapply step1_vstep; [left; reflexivity|exact ST]|]. auto.
Qed.
Print Assumptions c61_push_back_partial.

(** On a wrapper that shows an R object it frees R's memory. *)
Theorem c61_wrapping_refuted : forall w x a l v, world_shape w -> wraps w x a -> vholds w x l ->
  cap (ob w (OD x)) = sz (ob w (OD x)) ->
  Z.of_nat (length l) <= 933500000 -> 4 * Z.of_nat (length l) + 2 <= hlim (hp w) ->
  fst (sexp_push_back (OD x) v w) = Undef UB_foreign_free.
Proof. intros w x a l v W [K [P [TD _]]] H C L1 L2. eapply sexp_push_back_wrapping; eauto. Qed.
Print Assumptions c61_wrapping_refuted.
Example c61_ex : exists w', sexp_push_back (OD 7) d3 ex_wd = (Done tt, w') /\ vholds w' 7 [d3].
Proof.
  destruct (c61_push_back_partial ex_wd 7 [] d3 (proj1 ex_wd_ok)) as [w' [E [_ [H _]]]].
  - vm_compute. reflexivity.
  - vm_compute. congruence.
  - split; [vm_compute; reflexivity|]. cbn. lia.
  - vm_compute. congruence.
  - cbn. lia.
  - vm_compute. congruence.
  - exists w'. auto.
Qed.
Example c61_wrapping_ex : fst (sexp_push_back (OD 7) d3 ex_ww) = Undef UB_foreign_free.
Proof.
  destruct ex_ww_facts as [WO [H WR]].
  apply (c61_wrapping_refuted ex_ww 7 (hnext (hp ex_w)) [d1; d1; d2] d3 (proj1 WO) WR H); vm_compute; congruence.
Qed.

(* ------------------------------------------------------------------ C62 *)

(** A copy of a borrowing vector borrows the same memory, with the same
    elements, shape and capacity. *)
Theorem c62_copy : forall w x y a l,
  world_ok w -> borrows w y a -> x <> y -> unborn w (OD x) -> unborn w (OT x) ->
  sz (ob w (OT y)) <= cap (ob w (OT y)) -> vholds w y l ->
  exists w', vec_copy_any x y w = (Done tt, w') /\ vstep w w' x /\ world_ok w' /\
    borrows w' x a /\ borrows w' y a /\ vholds w' x l /\ vholds w' y l /\
    mp (ob w' (OD x)) = mp (ob w (OD y)) /\ cap (ob w' (OD x)) = cap (ob w (OD y)).
Proof. exact vec_copy_borrow. Qed.
Print Assumptions c62_copy.

(** Each of two vectors that borrow the same memory sees the other's writes. *)
Theorem c62_shared : forall w x y a l i v, world_shape w -> borrows w x a -> borrows w y a ->
  vholds w x l -> vholds w y l -> 0 <= i < Z.of_nat (length l) ->
  exists w', at_wr (OD x) i v w = (Done tt, w') /\ world_shape w' /\
    vholds w' x (list_set l (Z.to_nat i) v) /\ vholds w' y (list_set l (Z.to_nat i) v) /\
    forall b, b <> a -> hblk (hp w') b = hblk (hp w) b.
Proof.
  intros w x y a l i v W [_ [P1 _]] [_ [P2 _]] H1 H2 Hi.
  destruct (shared_write w (OD x) (OD y) a l i v W P1 P2 H1 H2 Hi) as [w' [E [W' [_ [A [B C]]]]]]. exists w'. auto.
Qed.
Print Assumptions c62_shared.

(** Moving: the new object has the memory, the old one has none; the shape is
    kept. *)
Theorem c62_move : forall w o o2 a l, world_shape w -> o <> o2 -> kd (ob w o2) = KBorrow -> ptr (ob w o2) = Some a ->
  unborn w o -> holds w o2 l ->
  exists w', borrow_move o o2 w = (Done tt, w') /\ kd (ob w' o) = KBorrow /\ ptr (ob w' o) = Some a /\ holds w' o l /\
    mp (ob w' o) = mp (ob w o2) /\ ptr (ob w' o2) = None /\ holds w' o2 [] /\ hp w' = hp w /\
    (forall o', o' <> o -> o' <> o2 -> same_obj w w' o').
Proof.
  intros w o o2 a l W Ne K P D H. pose proof (proj1 H) as Sz. pose proof (shape_alloc _ _ _ W P) as A.
  destruct (ptr_live _ _ _ W P) as [cs [B [L1 L2]]].
  set (s := ob w o2) in *. eexists. split; [reflexivity|].
  match goal with |- kd (ob ?W' o) = _ /\ _ => set (w' := W') end.
  assert (O' : ob w' o = mkStore KBorrow (sty s) (Some a) (sz s) (cap s) (alloc s) (mp s) false).
  { unfold w'. cbn [ob set_ob]. rewrite !oid_eqb_refl. rewrite (oid_eqb_neq o o2), (oid_eqb_neq o2 o) by congruence.
    fold s. rewrite P. reflexivity. }
  assert (O2' : ob w' o2 = with_ptr None (with_alloc false (with_sz 0 (with_cap 0 s)))).
  { unfold w'. cbn [ob set_ob]. rewrite !oid_eqb_refl. rewrite (oid_eqb_neq o2 o) by congruence. reflexivity. }
  rewrite O', O2'. cbn [kd ptr mp with_ptr]. repeat split; auto.
  - rewrite O'. exact Sz.
  - intros i Hi. unfold at_rd, get_at. rewrite bind_st, O'. cbn [kd]. rewrite bind_st, O'. cbn [alloc sz ptr].
    rewrite A, bind_ass_true. replace (Z.of_nat i <? sz s) with true by (symmetry; apply Z.ltb_lt; lia). rewrite bind_ass_true.
    eapply rd_ok; [exact B|lia|]. rewrite Nat2Z.id. rewrite <- (cells_of_ptr w o2 a _ cs P B). now apply holds_in.
  - now rewrite O2'.
  - intros i Hi. cbn in Hi. lia.
  - unfold w'. cbn [ob set_ob]. rewrite !oid_eqb_neq by auto. reflexivity.
Qed.
Print Assumptions c62_move.
Definition ex_bb : world := snd (vec_borrow 7 TDouble (Some (hnext (hp ex_w))) 4 ex_bw).
Lemma ex_bb_facts : world_ok ex_bb /\ vholds ex_bb 7 [d1; d1; d2; d3] /\ borrows ex_bb 7 (hnext (hp ex_w)).
Proof.
  destruct (user_block_ok ex_w OwnExt [d1; d1; d2; d3] ex_ok) as [WO [_ B]]; [congruence|vm_compute; congruence|].
  destruct (vec_borrow_done ex_bw 7 TDouble (hnext (hp ex_w)) [d1; d1; d2; d3]) as [w1 [E [WO1 [H [BO _]]]]]; auto.
  { apply unborn_ptr. vm_compute. reflexivity. }
  { apply unborn_ptr. vm_compute. reflexivity. }
  unfold ex_bb. change 4 with (Z.of_nat (length [d1; d1; d2; d3])). rewrite E. auto.
Qed.
Example c62_ex : exists w' w'', vec_copy_any 8 7 ex_bb = (Done tt, w') /\ at_wr (OD 8) 1 d0 w' = (Done tt, w'') /\
  vholds w'' 7 [d1; d0; d2; d3].
Proof.
  destruct ex_bb_facts as [WO [H BO]].
  destruct (c62_copy ex_bb 8 7 _ [d1; d1; d2; d3] WO BO) as [w' [E [_ [WO' [B8 [B7 [H8 [H7 _]]]]]]]]; auto.
  - apply unborn_ptr. vm_compute. reflexivity.
  - apply unborn_ptr. vm_compute. reflexivity.
  - vm_compute. congruence.
  - destruct (c62_shared w' 8 7 _ _ 1 d0 (proj1 WO') B8 B7 H8 H7) as [w'' [E2 [_ [_ [H' _]]]]]; [cbn; lia|].
    exists w', w''. auto.
Qed.
Example c62_move_ex : exists w', borrow_move (OD 9) (OD 7) ex_bb = (Done tt, w') /\ holds w' (OD 9) [d1; d1; d2; d3] /\ holds w' (OD 7) [].
Proof.
  destruct ex_bb_facts as [WO [H [K [P _]]]].
  destruct (c62_move ex_bb (OD 9) (OD 7) _ [d1; d1; d2; d3] (proj1 WO) ltac:(congruence) K P)
    as [w' [E [_ [_ [H9 [_ [_ [H7 _]]]]]]]]; auto.
  - apply unborn_ptr. vm_compute. reflexivity.
  - exists w'. auto.
Qed.

(* ------------------------------------------------------------------ C63 *)

(** A vector made of a pointer and a positive number of elements holds those
    elements, converted to its element type. *)
Theorem c63_vector_partial : forall w x t b own xs us,
  world_ok w -> unborn w (OD x) -> unborn w (OT x) -> hblk (hp w) b = Live own (map Some xs) -> own <> OwnCpp ->
  (1 <= length us <= length xs)%nat -> converted t (firstn (length us) xs) us -> fits w (Z.of_nat (length us)) ->
  exists w', vec_of_ptr x t (Some b) (Z.of_nat (length us)) w = (Done tt, w') /\ vstep w w' x /\ world_ok w' /\
    owning w' x /\ ready w' x /\ vholds w' x us /\ mp (ob w' (OD x)) = mkMP false 0 0 /\ sty (ob w' (OD x)) = t.
Proof. exact vec_of_ptr_done. Qed.
Print Assumptions c63_vector_partial.
Theorem c63_matrix_partial : forall w x t b own xs us r c,
  world_ok w -> unborn w (OD x) -> unborn w (OT x) -> hblk (hp w) b = Live own (map Some xs) -> own <> OwnCpp ->
  (1 <= length us <= length xs)%nat -> converted t (firstn (length us) xs) us -> fits w (Z.of_nat (length us)) ->
  r * c = Z.of_nat (length us) ->
  exists w', vec_of_ptr_matrix x t (Some b) r c w = (Done tt, w') /\ vstep w w' x /\ world_ok w' /\
    owning w' x /\ ready w' x /\ vholds w' x us /\ is_matrix w' x r c /\ sty (ob w' (OD x)) = t.
Proof. exact vec_of_ptr_matrix_done. Qed.
Print Assumptions c63_matrix_partial.

(** No elements: the construction throws. *)
Theorem c63_empty_refuted : forall w x t p, exists m, fst (vec_of_ptr x t p 0 w) = Thrown (Ass m).
Proof. intros. eexists. reflexivity. Qed.
Print Assumptions c63_empty_refuted.

(** A borrowing vector made of a pointer and dimensions has no elements, though
    it claims to be an r x c matrix. *)
Theorem c63_borrow_refuted : forall w x t p r c, exists w', borrow_of_ptr_matrix x t p r c w = (Done tt, w') /\
  mp (ob w' (OD x)) = mkMP true r c /\ vholds w' x [] /\ ptr (ob w' (OD x)) = None.
Proof.
  intros w x t p r c. unfold borrow_of_ptr_matrix. rewrite bind_upd.
  unfold ctor_default. rewrite bind_upd, bind_st.
  assert (E : ob (set_ob (set_ob w (OD x) (store_default KBorrow t)) (OT x) (store_default KBuffer t)) (OD x) = store_default KBorrow t).
  { rewrite ob_set_other, ob_set_same by congruence. reflexivity. }
  rewrite E. cbn [sz store_default]. unfold ptr_loop, for_. cbn [Z.to_nat forN]. rewrite bind_ret.
  eexists. split; [reflexivity|]. unfold vholds, holds. rewrite ob_set_same, E. cbn [mp with_mp sz store_default ptr length].
  repeat split. intros i Hi. lia.
Qed.
Print Assumptions c63_borrow_refuted.
Example c63_ex : exists w', vec_of_ptr_matrix 7 TInt (Some (hnext (hp ex_w))) 1 3 ex_bw = (Done tt, w') /\
  vholds w' 7 [VI 1; VI 1; VI 2] /\ is_matrix w' 7 1 3.
Proof.
  destruct (user_block_ok ex_w OwnExt [d1; d1; d2; d3] ex_ok) as [WO [_ B]]; [congruence|vm_compute; congruence|].
  destruct (c63_matrix_partial ex_bw 7 TInt (hnext (hp ex_w)) OwnExt [d1; d1; d2; d3] [VI 1; VI 1; VI 2] 1 3) as
    [w' [E [_ [_ [_ [_ [H [M _]]]]]]]]; auto.
  - apply unborn_ptr. vm_compute. reflexivity.
  - apply unborn_ptr. vm_compute. reflexivity.
  - congruence.
  - cbn; lia.
  - repeat constructor.
  - vm_compute. congruence.
  - exists w'. auto.
Qed.
Example c63_vector_ex : exists w', vec_of_ptr 7 TInt (Some (hnext (hp ex_w))) 3 ex_bw = (Done tt, w') /\ vholds w' 7 [VI 1; VI 1; VI 2].
Proof.
  destruct (user_block_ok ex_w OwnExt [d1; d1; d2; d3] ex_ok) as [WO [_ B]]; [congruence|vm_compute; congruence|].
  destruct (c63_vector_partial ex_bw 7 TInt (hnext (hp ex_w)) OwnExt [d1; d1; d2; d3] [VI 1; VI 1; VI 2]) as
    [w' [E [_ [_ [_ [_ [H _]]]]]]]; auto.
  - apply unborn_ptr. vm_compute. reflexivity.
  - apply unborn_ptr. vm_compute. reflexivity.
  - congruence.
  - cbn; lia.
  - repeat constructor.
  - vm_compute. congruence.
  - exists w'. auto.
Qed.

(* ------------------------------------------------------------------ C64 *)

(** Assigning a nonempty Rcpp or Armadillo vector or matrix to an owning vector
    copies its elements and its shape. *)
Theorem c64_assign_partial : forall w x f us,
  world_ok w -> owning w x -> (alloc (ob w (OD x)) = true -> ptr (ob w (OD x)) <> None) ->
  f_el f <> [] -> fits w (Z.of_nat (length (f_el f))) -> converted (sty (ob w (OD x))) (map VD (f_el f)) us ->
  exists w', assign_foreign x f w = (Done tt, w') /\ vstep w w' x /\ world_ok w' /\ owning w' x /\ vholds w' x us /\
    match f_dim f with
    | Some (r, c) => mp (ob w' (OD x)) = mkMP true r c
    | None => ismat (mp (ob w' (OD x))) = false
    end.
Proof.
  intros w x f us WO OW HA NE Ft CV.
  destruct (assign_foreign_own w x f us WO OW HA NE Ft CV) as [w' [E [V [WO' [OW' [H [M _]]]]]]].
  exists w'. split; [exact E|]. split; [exact V|]. split; [exact WO'|]. split; [exact OW'|]. split; [exact H|].
  rewrite M. unfold f_shape. now destruct (f_dim f) as [[r c]|].
Qed.
Print Assumptions c64_assign_partial.
Theorem c64_construct_partial : forall w x t f us,
  world_ok w -> unborn w (OD x) -> unborn w (OT x) ->
  f_el f <> [] -> fits w (Z.of_nat (length (f_el f))) -> converted t (map VD (f_el f)) us ->
  exists w', vec_of_foreign x t f w = (Done tt, w') /\ vstep w w' x /\ world_ok w' /\ owning w' x /\ ready w' x /\
    vholds w' x us /\ sty (ob w' (OD x)) = t /\
    match f_dim f with
    | Some (r, c) => mp (ob w' (OD x)) = mkMP true r c
    | None => ismat (mp (ob w' (OD x))) = false
    end.
Proof.
  intros w x t f us WO D1 D2 NE Ft CV.
  destruct (vec_of_foreign_done w x t f us WO D1 D2 NE Ft CV) as [w' [E [V [WO' [OW' [RD [H [M TY]]]]]]]].
  exists w'. split; [exact E|]. split; [exact V|]. split; [exact WO'|]. split; [exact OW'|]. split; [exact RD|].
  split; [exact H|]. split; [exact TY|]. rewrite M. unfold f_shape. now destruct (f_dim f) as [[r c]|].
Qed.
Print Assumptions c64_construct_partial.

(** A borrowing vector: the elements go to the user's memory, up to the
    borrowed length; a longer foreign vector is refused and nothing happens. *)
Theorem c64_borrow_partial : forall w x a f us cs,
  world_ok w -> borrows w x a -> hblk (hp w) a = Live OwnExt cs ->
  f_el f <> [] -> Z.of_nat (length (f_el f)) <= cap (ob w (OD x)) -> converted (sty (ob w (OD x))) (map VD (f_el f)) us ->
  exists w', assign_foreign x f w = (Done tt, w') /\ world_ok w' /\ borrows w' x a /\
    vholds w' x us /\ hblk (hp w') a = Live OwnExt (map Some us ++ skipn (length us) cs) /\
    (forall b, b <> a -> hblk (hp w') b = hblk (hp w) b) /\ (forall o, o <> OD x -> ob w' o = ob w o).
Proof.
  intros w x a f us cs WO BO B NE HC CV.
  destruct (assign_foreign_borrow w x a f us cs WO BO B NE HC CV) as [w' [E [A1 [A2 [A3 [_ [A4 [A5 A6]]]]]]]].
  exists w'. auto 10.
Qed.
Print Assumptions c64_borrow_partial.
Theorem c64_borrow_long : forall w x f, kd (ob w (OD x)) = KBorrow ->
  cap (ob w (OD x)) < Z.of_nat (length (f_el f)) -> f_el f <> [] ->
  exists m, assign_foreign x f w = (Thrown (Ass m), w).
Proof. exact assign_foreign_borrow_long. Qed.
Print Assumptions c64_borrow_long.

(** An empty foreign vector cannot be assigned or used for construction. *)
Theorem c64_empty_refuted : forall w x t f, f_el f = [] ->
  (exists m, assign_foreign x f w = (Thrown (Ass m), w)) /\
  (world_ok w -> unborn w (OD x) -> unborn w (OT x) ->
   exists m w', vec_of_foreign x t f w = (Thrown (Ass m), w') /\ vstep w w' x /\ unborn w' (OD x) /\ unborn w' (OT x)).
Proof.
  intros w x t f E. split; [eexists; now apply assign_foreign_empty|].
  intros WO D1 D2. destruct (vec_of_foreign_empty w x t f WO D1 D2 E) as [w' H]. eauto.
Qed.
Print Assumptions c64_empty_refuted.

(** A foreign vector longer than the R object a wrapper shows frees R's memory. *)
Theorem c64_wrapper_refuted : forall w x a f, world_shape w -> wraps w x a ->
  cap (ob w (OD x)) < Z.of_nat (length (f_el f)) -> f_el f <> [] ->
  assign_foreign x f w = (Undef UB_foreign_free, w).
Proof. exact assign_foreign_wrapper_long. Qed.
Print Assumptions c64_wrapper_refuted.
Definition ex_f : fobj := mkF [i2f 3; i2f 1; i2f 2; i2f 0] (Some (2, 2)).
Example c64_ex : exists w', assign_foreign 0 ex_f ex_w = (Done tt, w') /\ vholds w' 0 [d3; d1; d2; d0] /\ mp (ob w' (OD 0)) = mkMP true 2 2.
Proof.
  destruct (c64_assign_partial ex_w 0 ex_f [d3; d1; d2; d0] ex_ok) as [w' [E [_ [_ [_ [H M]]]]]].
  - apply ex_owning.
  - vm_compute. congruence.
  - discriminate.
  - vm_compute. congruence.
  - repeat constructor.
  - exists w'. auto.
Qed.
Example c64_construct_ex : exists w', vec_of_foreign 7 TInt ex_f ex_w = (Done tt, w') /\ vholds w' 7 [VI 3; VI 1; VI 2; VI 0].
Proof.
  destruct (c64_construct_partial ex_w 7 TInt ex_f [VI 3; VI 1; VI 2; VI 0] ex_ok) as [w' [E [_ [_ [_ [_ [H _]]]]]]].
  - show_unborn.
  - show_unborn.
  - discriminate.
  - vm_compute. congruence.
  - repeat constructor.
  - exists w'. auto.
Qed.
Example c64_borrow_ex : exists w', assign_foreign 7 (mkF [i2f 3; i2f 3] None) ex_bb = (Done tt, w') /\
  hblk (hp w') (hnext (hp ex_w)) = Live OwnExt (map Some [d3; d3; d2; d3]).
Proof.
  destruct ex_bb_facts as [WO [H BO]].
  destruct (c64_borrow_partial ex_bb 7 _ (mkF [i2f 3; i2f 3] None) [d3; d3] (map Some [d1; d1; d2; d3]) WO BO) as [w' [E [_ [_ [_ [B _]]]]]].
  - vm_compute. reflexivity.
  - discriminate.
  - vm_compute. congruence.
  - repeat constructor.
  - exists w'. auto.
Qed.
Example c64_wrapper_ex : assign_foreign 7 ex_f ex_ww = (Undef UB_foreign_free, ex_ww).
Proof.
  destruct ex_ww_facts as [WO [H WR]]. apply (c64_wrapper_refuted ex_ww 7 _ ex_f (proj1 WO) WR); [vm_compute; reflexivity|discriminate].
Qed.

(* ------------------------------------------------------------------ C65 *)

(** Converting to a NumericVector or arma::vec gives the elements as doubles. *)
Theorem c65_vector : forall lm w e us fs, yields lm w e us -> converted TDouble us (map VD fs) ->
  to_fvec lm e w = (Done (mkF fs None), w).
Proof. exact to_fvec_done. Qed.
Print Assumptions c65_vector.

(** Converting a matrix gives elements and shape. *)
Theorem c65_matrix_partial : forall lm w rho e us fs r c, env_of w rho e -> shaped w rho r c e ->
  yields lm w e us -> converted TDouble us (map VD fs) -> r * c = Z.of_nat (length us) ->
  0 <= r < 2 ^ 31 -> 0 <= c < 2 ^ 31 -> Z.of_nat (length us) <= 2 ^ 31 - 1 ->
  to_nummat lm e w = (Done (mkF fs (Some (r, c))), w) /\ to_armamat lm e w = (Done (mkF fs (Some (r, c))), w).
Proof.
  intros lm w rho e us fs r c EN Sh Y CV RC Hr Hc Hm. destruct (shaped_facts _ _ _ _ _ EN Sh) as [Im [R [C _]]].
  assert (P : 2 ^ 31 < 2 ^ 64) by now vm_compute.
  split; [eapply to_nummat_done; eauto|eapply to_armamat_done; eauto; lia].
Qed.
Print Assumptions c65_matrix_partial.

(** What is no matrix is refused. *)
Theorem c65_not_matrix : forall lm w e, flat w e ->
  (exists m, to_nummat lm e w = (Thrown (Ass m), w)) /\ (exists m, to_armamat lm e w = (Thrown (Ass m), w)).
Proof. intros lm w e F. apply to_matrix_refused. now apply flat_im. Qed.
Print Assumptions c65_not_matrix.

(** So is any matrix to which a function such as sin or a sign was applied. *)
Theorem c65_unary_refuted : forall lm w op e,
  (exists m, to_nummat lm (EUn op e) w = (Thrown (Ass m), w)) /\ (exists m, to_armamat lm (EUn op e) w = (Thrown (Ass m), w)).
Proof. intros. now apply to_matrix_refused. Qed.
Print Assumptions c65_unary_refuted.

(** A vector of doubles sent to Rcpp or Armadillo and back is the same. *)
Theorem c65_round_trip : forall lm w x y fs,
  world_ok w -> vholds w y (map VD fs) -> fs <> [] ->
  owning w x -> sty (ob w (OD x)) = TDouble -> (alloc (ob w (OD x)) = true -> ptr (ob w (OD x)) <> None) ->
  fits w (Z.of_nat (length fs)) ->
  exists f w', to_fvec lm (EVar y) w = (Done f, w) /\ assign_foreign x f w = (Done tt, w') /\ vholds w' x (map VD fs).
Proof.
  intros lm w x y fs WO H NE OW TY HA Ft.
  assert (CV : converted TDouble (map VD fs) (map VD fs)).
  { apply converted_plain. clear. induction fs; constructor; auto. now split. }
  assert (Y : yields lm w (EVar y) (map VD fs)).
  { destruct H as [Sz El]. split; [exact Sz|]. intros i Hi. cbn [elem]. now apply El. }
  destruct (assign_foreign_own w x (mkF fs None) (map VD fs) WO OW HA) as [w' [E [_ [_ [_ [H' _]]]]]]; auto.
  { rewrite TY. exact CV. }
  exists (mkF fs None), w'. split; [now apply (to_fvec_done lm w (EVar y) (map VD fs))|]. auto.
Qed.
Print Assumptions c65_round_trip.
Example c65_ex : to_nummat ex_lm ex_mat ex_w = (Done (mkF [i2f 3; i2f 2; i2f 1; i2f 0] (Some (2, 2))), ex_w).
Proof.
  apply (c65_matrix_partial ex_lm ex_w ex_rho ex_mat [d3; d2; d1; d0]); try lia.
  - intros x [].
  - apply Sh_tmp. reflexivity.
  - split; [reflexivity|]. intros i Hi. do 4 (destruct i as [|i]; [reflexivity|]). cbn in Hi. lia.
  - repeat constructor.
  - reflexivity.
  - cbn. lia.
Qed.
Example c65_round_ex : exists f w', to_fvec ex_lm (EVar 0) ex_w = (Done f, ex_w) /\ assign_foreign 1 f ex_w = (Done tt, w') /\
  vholds w' 1 [d1; d2; d3].
Proof.
  apply (c65_round_trip ex_lm ex_w 1 0 [i2f 1; i2f 2; i2f 3] ex_ok ex_holds0).
  - discriminate.
  - apply ex_owning.
  - vm_compute. reflexivity.
  - vm_compute. congruence.
  - vm_compute. congruence.
Qed.
Example c65_refused_ex : fst (to_nummat ex_lm (EUn UNeg ex_mat) ex_w) <> fst (to_nummat ex_lm ex_mat ex_w).
Proof. vm_compute. discriminate. Qed.

(* ------------------------------------------------------------ C50, again *)

(** operator<< shows the elements of a vector, in order. *)
Theorem c50_stream : forall w x l, world_shape w -> vholds w x l -> stream_out (OD x) w = (Done l, w).
Proof. exact iterate_vec_holds. Qed.
Print Assumptions c50_stream.
Example c50_stream_ex : stream_out (OD 0) ex_w = (Done [d1; d2; d3], ex_w).
Proof. apply (c50_stream ex_w 0 [d1; d2; d3] ex_shape ex_holds0). Qed.

(* ------------------------------------------------- C18, C19, C21, again *)

(** A vector that borrows a block has the block's elements, no scratch memory,
    and the length of the block as its limit. *)
Theorem c19_borrowed_limit : forall w x t a l,
  world_ok w -> unborn w (OD x) -> unborn w (OT x) -> hblk (hp w) a = Live OwnExt (map Some l) ->
  exists w', vec_borrow x t (Some a) (Z.of_nat (length l)) w = (Done tt, w') /\ world_ok w' /\ vholds w' x l /\
    borrows w' x a /\ hp w' = hp w /\
    forall lm e, Z.of_nat (length l) < esize w' e -> exists m, assign lm x e w' = (Thrown (Ass m), w').
Proof.
  intros w x t a l WO D1 D2 B.
  destruct (vec_borrow_done w x t a l WO D1 D2 B) as [w' [E [WO' [H [BO [CP [HP _]]]]]]].
  exists w'. split; [exact E|]. split; [exact WO'|]. split; [exact H|]. split; [exact BO|]. split; [exact HP|].
  intros lm e Le. apply c19_borrowed_too_long; [apply BO|]. rewrite CP. exact Le.
Qed.
Print Assumptions c19_borrowed_limit.
Example c19_limit_ex : exists w', vec_borrow 7 TDouble (Some (hnext (hp ex_w))) 4 ex_bw = (Done tt, w') /\
  exists m, assign ex_lm 7 (ETmp TDouble [d1; d1; d1; d1; d1] mp_none) w' = (Thrown (Ass m), w').
Proof.
  destruct (user_block_ok ex_w OwnExt [d1; d1; d2; d3] ex_ok) as [WO [_ B]]; [congruence|vm_compute; congruence|].
  destruct (c19_borrowed_limit ex_bw 7 TDouble (hnext (hp ex_w)) [d1; d1; d2; d3] WO) as [w' [E [_ [_ [_ [_ L]]]]]]; auto.
  - apply unborn_ptr. vm_compute. reflexivity.
  - apply unborn_ptr. vm_compute. reflexivity.
  - exists w'. split; [exact E|]. apply L. vm_compute. reflexivity.
Qed.

(** The end of a borrowing vector gives back its scratch memory and touches
    nothing else. *)
Theorem c18_borrowed_end : forall w x a, world_shape w -> borrows w x a ->
  exists w', vec_destroy x w = (Done tt, w') /\ world_shape w' /\
    (forall b own cs, own <> OwnCpp -> hblk (hp w) b = Live own cs -> hblk (hp w') b = Live own cs) /\
    (forall o, o <> OT x -> same_obj w w' o) /\ ptr (ob w' (OT x)) = None /\ (no_leak w -> no_leak w').
Proof.
  intros w x a W [K1 [P1 K2]]. destruct (vec_end_foreign w x W K2) as [w' [E [ST [P OX]]]]; [auto|].
  exists w'. split; [exact E|]. split; [apply ST|]. split; [apply ST|]. split; [apply ST|]. split; [exact P|].
  now apply (step1_no_leak _ _ _ ST).
Qed.
Print Assumptions c18_borrowed_end.
Example c18_end_ex : exists w', vec_destroy 7 ex_bb = (Done tt, w') /\
  hblk (hp w') (hnext (hp ex_w)) = Live OwnExt (map Some [d1; d1; d2; d3]).
Proof.
  destruct ex_bb_facts as [WO [H BO]].
  destruct (c18_borrowed_end ex_bb 7 _ (proj1 WO) BO) as [w' [E [_ [X _]]]].
  exists w'. split; [exact E|]. apply X; [discriminate|]. vm_compute. reflexivity.
Qed.

(** So does the end of a wrapper that shows an R object. *)
Theorem c21_end_partial : forall w x a, world_shape w -> wraps w x a ->
  exists w', vec_destroy x w = (Done tt, w') /\ world_shape w' /\
    (forall b own cs, own <> OwnCpp -> hblk (hp w) b = Live own cs -> hblk (hp w') b = Live own cs) /\
    (forall o, o <> OT x -> same_obj w w' o) /\ ptr (ob w' (OT x)) = None /\ (no_leak w -> no_leak w').
Proof.
  intros w x a W [K1 [P1 [TD K2]]]. destruct (vec_end_foreign w x W K2) as [w' [E [ST [P OX]]]]; [auto|].
  exists w'. split; [exact E|]. split; [apply ST|]. split; [apply ST|]. split; [apply ST|]. split; [exact P|].
  now apply (step1_no_leak _ _ _ ST).
Qed.
Print Assumptions c21_end_partial.
Example c21_end_ex : exists w', vec_destroy 7 ex_ww = (Done tt, w') /\
  hblk (hp w') (hnext (hp ex_w)) = Live OwnR (map Some [d1; d1; d2]).
Proof.
  destruct ex_ww_facts as [WO [H WR]].
  destruct (c21_end_partial ex_ww 7 _ (proj1 WO) WR) as [w' [E [_ [X _]]]].
  exists w'. split; [exact E|]. apply X; [discriminate|]. vm_compute. reflexivity.
Qed.

(** A wrapper without memory or with memory of its own can be assigned to, as
    often as one likes (the conclusion gives the hypotheses again); R's memory
    is not touched, and its end gives its memory back.  Missing to the full
    property: wrappers that show an R object, where it is false. *)
Theorem c21_assignment_own_partial : forall lm w x e rho us,
  world_shape w -> kd (ob w (OD x)) = KBorrowSEXP -> kd (ob w (OT x)) = KBuffer ->
  (ptr (ob w (OD x)) <> None -> todel (ob w (OD x)) = true) -> (alloc (ob w (OD x)) = true -> ptr (ob w (OD x)) <> None) ->
  small w x -> can_assign w x -> env_of w rho e -> wf_expr rho e ->
  1 <= xsize rho e <= max_len -> fits w (xsize rho e) ->
  value_of lm rho (sty (ob w (OD x))) e us ->
  exists w', assign lm x e w = (Done tt, w') /\ vstep w w' x /\ vholds w' x us /\ wrapper_own w' x /\
    can_assign w' x /\ small w' x /\ sty (ob w' (OD x)) = sty (ob w (OD x)) /\
    (forall r c, shaped w rho r c e -> mp (ob w' (OD x)) = mkMP true r c) /\
    (flat w e -> mp (ob w' (OD x)) = mp (ob w (OD x))).
Proof.
  intros lm w x e rho us W K1 K2 TD HA SM CA EN WF N Ft V.
  destruct (assign_wrapper_own lm w x e rho us) as [w' [E [V' [H [WO [CA' [SM' [TY M]]]]]]]]; auto.
  exists w'. do 7 (split; [assumption|]). split.
  - intros r c Sh. destruct (shaped_facts _ _ _ _ _ EN Sh) as [Im [R [C _]]].
    rewrite M. unfold shape_of. now rewrite Im, R, C.
  - intros F. rewrite M. unfold shape_of. now rewrite (flat_im _ _ F).
Qed.
Print Assumptions c21_assignment_own_partial.
Theorem c21_own_end_partial : forall w x, world_shape w -> wrapper_own w x ->
  exists w', vec_destroy x w = (Done tt, w') /\
    (forall a, ptr (ob w (OD x)) = Some a -> hblk (hp w') a = Freed) /\
    (forall o, o <> OD x -> o <> OT x -> same_obj w w' o) /\
    (forall b own cs, own <> OwnCpp -> hblk (hp w) b = Live own cs -> hblk (hp w') b = Live own cs) /\
    (no_leak w -> no_leak w').
Proof.
  intros w x W WO. destruct (vec_end_wrapper w x W WO) as [w' [E [_ [_ H]]]]. exists w'. auto.
Qed.
Print Assumptions c21_own_end_partial.
Example c21_own_ex : exists w' w'', assign ex_lm 7 (EBin OPlus (EVar 0) (EVar 0)) ex_wd = (Done tt, w') /\
  vholds w' 7 [VD (i2f 2); VD (i2f 4); VD (i2f 6)] /\ vec_destroy 7 w' = (Done tt, w'') /\
  hblk (hp w'') (hnext (hp ex_w)) = Live OwnR (map Some [d1; d1; d2]).
Proof.
  pose proof (proj1 ex_wd_ok) as W.
  destruct (c21_assignment_own_partial ex_lm ex_wd 7 (EBin OPlus (EVar 0) (EVar 0)) (fun _ => [d1; d2; d3])
     [VD (i2f 2); VD (i2f 4); VD (i2f 6)] W) as [w' [E [V [H [WO _]]]]];
    [vm_compute; reflexivity|vm_compute; reflexivity|vm_compute; congruence|vm_compute; congruence
    |split; vm_compute; reflexivity|left; vm_compute; reflexivity|intros y [<-|[<-|[]]]; show_holds
    |cbn [wf_expr]; repeat split; vm_compute; congruence|split; vm_compute; congruence|vm_compute; congruence| |].
  - split; [reflexivity|]. intros i Hi.
    do 3 (destruct i as [|i]; [eexists; split; vm_compute; reflexivity|]). simpl in Hi. lia.
  - destruct (c21_own_end_partial w' 7 (vs_shape _ _ _ V) WO) as [w'' [E2 [_ [_ [X _]]]]].
    exists w', w''. split; [exact E|]. split; [exact H|]. split; [exact E2|].
    apply X; [discriminate|]. apply (vs_ext _ _ _ V); [discriminate|]. vm_compute. reflexivity.
Qed.

(* ------------------------------------------------- C18, C58: x = number *)

Lemma first_written w x (v v' : val) s a own c cs :
  ptr s = Some a -> sz s = 1 -> alloc s = true -> hblk (hp w) a = Live own (c :: cs) ->
  at_wr (OD x) 0 v' (set_ob w (OD x) s) = (Done tt, set_hp (set_ob w (OD x) s) (set_blk (hp w) a (Live own (Some v' :: cs)))) /\
  holds (set_hp (set_ob w (OD x) s) (set_blk (hp w) a (Live own (Some v' :: cs)))) (OD x) [v'].
Proof.
  clear v. intros P Z1 AL B. split.
  - unfold at_wr. rewrite bind_st, ob_set_same. destruct (kd s); unfold set_at, sexp_set_at; rewrite bind_st, ob_set_same, P, Z1, ?AL, bind_ass_true, bind_ass_true;
      unfold wr, wrc; cbn [hp set_ob]; rewrite B; cbn [length]; replace ((0 <=? 0) && (0 <? Z.of_nat (S (length cs)))) with true by (symmetry; apply andb_true_intro; split; [reflexivity|apply Z.ltb_lt; lia]); reflexivity.
  - unfold holds. cbn [length]. assert (O1 : ob (set_hp (set_ob w (OD x) s) (set_blk (hp w) a (Live own (Some v' :: cs)))) (OD x) = s) by apply ob_set_same.
    rewrite O1. split; [now rewrite Z1|]. intros i Hi. assert (i = 0%nat) by (cbn [length] in Hi; lia). subst i. cbn [nth]. unfold at_rd. rewrite bind_st, O1.
    destruct (kd s); unfold get_at, sexp_get_at; rewrite bind_st, O1, P, Z1, ?AL, bind_ass_true, bind_ass_true;
      unfold rd; cbn [hp set_hp set_blk hblk]; rewrite Nat.eqb_refl; cbn [length]; replace ((0 <=? Z.of_nat 0) && (Z.of_nat 0 <? Z.of_nat (S (length cs)))) with true by (symmetry; apply andb_true_intro; split; [reflexivity|apply Z.ltb_lt; lia]); reflexivity.
Qed.

(** A number assigned to a vector that borrows memory, or shows an R object, of
    at least one element: the vector has length one, the first element of the
    memory is the number, converted, all others and all other memory are as
    before. *)
Theorem c18_borrowed_scalar : forall w x a own c cs v v', world_shape w -> borrows w x a -> hblk (hp w) a = Live own (c :: cs) ->
  cast (sty (ob w (OD x))) v = Done v' ->
  exists w', assign_scalar x v w = (Done tt, w') /\ vholds w' x [v'] /\ borrows w' x a /\ hblk (hp w') a = Live own (Some v' :: cs) /\
    (forall b, b <> a -> hblk (hp w') b = hblk (hp w) b) /\ (forall o, o <> OD x -> ob w' o = ob w o).
Proof.
  intros w x a own c cs v v' W [K [P K2]] B C. pose proof (ws_store _ W (OD x)) as SS. unfold store_shape in SS. rewrite P in SS.
  destruct SS as [_ [_ [AL _]]].
  destruct (first_written w x v v' (with_sz 1 (ob w (OD x))) a own c cs P eq_refl AL B) as [E H]. eexists. split.
  - unfold assign_scalar. rewrite bind_st, K, bind_upd, C, bind_lift_done. exact E.
  - split; [exact H|]. split; [|split; [|split]].
    + unfold borrows. cbn [ob set_hp]. rewrite ob_set_same, ob_set_other by discriminate. now split.
    + cbn [hp set_hp set_blk hblk]. now rewrite Nat.eqb_refl.
    + intros b Nb. cbn [hp set_hp set_blk hblk]. now destruct (Nat.eqb_spec b a).
    + intros o No. cbn [ob set_hp]. now apply ob_set_other.
Qed.
Print Assumptions c18_borrowed_scalar.
Example c18_scalar_ex : exists w', assign_scalar 7 (VI 5) ex_bb = (Done tt, w') /\ vholds w' 7 [VD (i2f 5)] /\
  hblk (hp w') (hnext (hp ex_w)) = Live OwnExt (map Some [VD (i2f 5); d1; d2; d3]).
Proof.
  destruct ex_bb_facts as [WO [H BO]].
  destruct (c18_borrowed_scalar ex_bb 7 _ OwnExt (Some d1) (map Some [d1; d2; d3]) (VI 5) (VD (i2f 5)) (proj1 WO) BO) as [w' [E [V [_ [X _]]]]].
  - vm_compute. reflexivity.
  - reflexivity.
  - exists w'. auto.
Qed.

Theorem c58_scalar : forall w x a own c cs v v', world_shape w -> wraps w x a -> hblk (hp w) a = Live own (c :: cs) -> 1 <= cap (ob w (OD x)) ->
  cast (sty (ob w (OD x))) v = Done v' ->
  exists w', assign_scalar x v w = (Done tt, w') /\ vholds w' x [v'] /\ wraps w' x a /\ hblk (hp w') a = Live own (Some v' :: cs) /\
    (forall b, b <> a -> hblk (hp w') b = hblk (hp w) b) /\ (forall o, o <> OD x -> ob w' o = ob w o).
Proof.
  intros w x a own c cs v v' W [K [P [TD K2]]] B CP C. pose proof (ws_store _ W (OD x)) as SS. unfold store_shape in SS. rewrite P in SS.
  destruct SS as [_ [_ [AL _]]].
  destruct (first_written w x v v' (with_sz 1 (ob w (OD x))) a own c cs P eq_refl AL B) as [E H]. eexists. split.
  - unfold assign_scalar. rewrite bind_st, K. unfold any_resize. rewrite bind_assoc, bind_st, K. unfold sexp_resize. rewrite bind_assoc, bind_ass_true, bind_assoc, bind_st, AL. cbn [negb].
    replace (cap (ob w (OD x)) <? 1) with false by (symmetry; apply Z.ltb_ge; exact CP). rewrite bind_upd, C, bind_lift_done. exact E.
  - split; [exact H|]. split; [|split; [|split]].
    + unfold wraps. cbn [ob set_hp]. rewrite ob_set_same, ob_set_other by discriminate. now split.
    + cbn [hp set_hp set_blk hblk]. now rewrite Nat.eqb_refl.
    + intros b Nb. cbn [hp set_hp set_blk hblk]. now destruct (Nat.eqb_spec b a).
    + intros o No. cbn [ob set_hp]. now apply ob_set_other.
Qed.
Print Assumptions c58_scalar.
Example c58_scalar_ex : exists w', assign_scalar 7 (VI 5) ex_ww = (Done tt, w') /\ vholds w' 7 [VD (i2f 5)] /\
  hblk (hp w') (hnext (hp ex_w)) = Live OwnR (map Some [VD (i2f 5); d1; d2]).
Proof. eexists. split; [vm_compute; reflexivity|]. split; [split; [reflexivity|]; intros i Hi; cbn in Hi; assert (i = 0%nat) by lia; subst i; vm_compute; reflexivity|]. vm_compute. reflexivity. Qed.
