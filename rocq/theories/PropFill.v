(** Properties C71 to C73: fill with an r-value, back(), and assignment between
    borrowing storage objects. *)
From Coq Require Import String ZArith List Bool Lia.
From Verif Require Import Base Num StoreModel VecModel ForeignModel Spec SpecExpr SpecHist SpecVec StoreProofs StoreOps
  BorrowProofs StoreThms StoreHist FillProofs Examples.
Import ListNotations.
Open Scope Z_scope.
Local Notation length := List.length (only parsing).

(* ------------------------------------------------------------------ C71 *)

(** fill with an r-value vector inp of the same element type: o has the elements
    of the r-value; the memory of o is given back, that of the r-value goes to
    o and is not given back at the end of the r-value; nothing else has changed
    and nothing leaked.  w' is the state after the end of the r-value.  Missing
    to the full property: an o with more room than the memory of the r-value,
    where it is false. *)
Theorem c71_fill_partial : forall w o inp l b cb,
  world_shape w -> o <> inp -> kd (ob w o) = KBuffer -> kd (ob w inp) = KBuffer ->
  ptr (ob w o) <> None -> ptr (ob w inp) = Some b -> hblk (hp w) b = Live OwnCpp cb ->
  holds w inp l -> sz (ob w o) = Z.of_nat (length l) -> cap (ob w o) <= Z.of_nat (length cb) ->
  exists w1 w', fill_rvec o inp w = (Done tt, w1) /\ any_destroy inp w1 = (Done tt, w1) /\
    w' = set_ob w1 inp (store_default KBuffer (sty (ob w inp))) /\
    world_shape w' /\ (world_ok w -> world_ok w') /\ holds w' o l /\
    (forall o', o' <> o -> o' <> inp -> same_obj w w' o') /\ (no_leak w -> no_leak w').
Proof.
  intros w o inp l b cb W N K1 K2 Po Pb Bb H S R.
  destruct (ptr (ob w o)) as [a|] eqn:Pa; [|congruence].
  assert (Oa : owns (ob w o) a) by (split; [exact Pa|]; unfold owner_of; now rewrite K1).
  destruct (owns_live _ _ _ W Oa) as [ca Ba].
  exists (taken w o inp a b), (taken_end w o inp a b).
  split; [apply (fill_rvec_step w o inp a b ca); auto; now rewrite S, (proj1 H)|].
  split. { unfold any_destroy. rewrite bind_st, taken_inp by exact N. cbn [kd with_alloc with_ptr]. rewrite K2.
           unfold destroy. rewrite bind_st, taken_inp by exact N. reflexivity. }
  split; [reflexivity|]. split; [eapply end_shape; eauto|]. split; [eapply end_ok; eauto|]. split; [eapply end_holds; eauto|].
  split; [eapply end_same; eauto|eapply end_leak; eauto].
Qed.
Print Assumptions c71_fill_partial.
(** Vectors 0 and 2 have three elements each. *)
Definition ex_fw : world := snd (ctor_size (OD 2) TDouble 3 ex_w).
Lemma ex_fw_ok : world_ok ex_fw.
Proof.
  destruct (ctor_size_done ex_w (OD 2) TDouble 3 3 ex_shape) as [w' [E [S [O H]]]];
    [apply ex_unbornD; lia|lia|vm_compute; reflexivity|lia|vm_compute; congruence|].
  unfold ex_fw. rewrite E. cbn [snd]. eapply step1_ok; [exact S|exact ex_ok|]. eapply inited_buffer; [apply S|now rewrite O|exact H].
Qed.
Example c71_ex : exists w1 w', fill_rvec (OD 0) (OD 2) ex_fw = (Done tt, w1) /\
  w' = set_ob w1 (OD 2) (store_default KBuffer TDouble) /\ holds w' (OD 0) [d0; d0; d0] /\ world_ok w'.
Proof.
  pose proof ex_fw_ok as WO.
  destruct (c71_fill_partial ex_fw (OD 0) (OD 2) [d0; d0; d0] 2 (map Some [d0; d0; d0])) as [w1 [w' [E [_ [Q [_ [K [H _]]]]]]]].
  - apply WO.
  - discriminate.
  - vm_compute; reflexivity.
  - vm_compute; reflexivity.
  - vm_compute; discriminate.
  - vm_compute; reflexivity.
  - vm_compute; reflexivity.
  - show_holds.
  - vm_compute; reflexivity.
  - vm_compute; discriminate.
  - exists w1, w'. auto.
Qed.

(** A different number of elements: an exception, and nothing has changed. *)
Theorem c71_length_mismatch : forall w o inp, sz (ob w inp) <> sz (ob w o) ->
  fill_rvec o inp w = (Thrown (Ass "cannot use fill with vectors of different lengths"), w).
Proof. exact fill_rvec_mismatch. Qed.
Print Assumptions c71_length_mismatch.
Example c71_mismatch_ex : sz (ob ex_w (OD 1)) <> sz (ob ex_w (OD 0)).
Proof. vm_compute. discriminate. Qed.

(** fill takes over the pointer but not the capacity.  When o had more room than
    the memory of the r-value, o can be resized within its old capacity without
    new memory, and its new elements lie outside its memory: reading and writing
    them through the checked operator[] is undefined. *)
Theorem c71_capacity_refuted : forall w o inp l a b ca cb n,
  world_shape w -> o <> inp -> kd (ob w o) = KBuffer -> ptr (ob w o) = Some a -> ptr (ob w inp) = Some b ->
  hblk (hp w) a = Live OwnCpp ca -> hblk (hp w) b = Live OwnCpp cb -> a <> b ->
  holds w inp l -> sz (ob w o) = Z.of_nat (length l) -> 1 <= n -> Z.of_nat (length cb) < n <= cap (ob w o) ->
  exists w1 w2, fill_rvec o inp w = (Done tt, w1) /\ resize o n w1 = (Done tt, w2) /\
    forall i v, Z.of_nat (length cb) <= i < n ->
      set_at o i v w2 = (Undef UB_oob, w2) /\ get_at o i w2 = (Undef UB_oob, w2).
Proof. exact fill_rvec_overrun. Qed.
Print Assumptions c71_capacity_refuted.
(** A storage object of ten elements, shortened to three. *)
Definition ex_fw2 : world := snd (resize (OD 2) 3 (snd (ctor_size (OD 2) TDouble 10 ex_w))).
Lemma ex_fw2_shape : world_shape ex_fw2.
Proof.
  destruct (ctor_size_done ex_w (OD 2) TDouble 10 11 ex_shape) as [w1 [E [S [O H]]]];
    [apply ex_unbornD; lia|lia|vm_compute; reflexivity|lia|vm_compute; congruence|].
  destruct (resize_done w1 (OD 2) 3 3 (s1_shape _ _ _ S)) as [w2 [E2 [S2 _]]];
    [now rewrite O|lia|vm_compute; reflexivity|lia|rewrite O; cbn [cap]; lia|rewrite O; cbn [cap]; lia|].
  unfold ex_fw2. rewrite E. cbn [snd]. rewrite E2. apply S2.
Qed.
Example c71_refuted_ex : exists w1 w2, fill_rvec (OD 2) (OD 0) ex_fw2 = (Done tt, w1) /\ resize (OD 2) 5 w1 = (Done tt, w2) /\
  set_at (OD 2) 4 d1 w2 = (Undef UB_oob, w2).
Proof.
  destruct (c71_capacity_refuted ex_fw2 (OD 2) (OD 0) [d1; d2; d3] 2 0 (map Some (repeat d0 11)) (map Some [d1; d2; d3]) 5)
    as [w1 [w2 [E1 [E2 U]]]].
  - exact ex_fw2_shape.
  - discriminate.
  - vm_compute; reflexivity.
  - vm_compute; reflexivity.
  - vm_compute; reflexivity.
  - vm_compute; reflexivity.
  - vm_compute; reflexivity.
  - discriminate.
  - show_holds.
  - vm_compute; reflexivity.
  - lia.
  - split; vm_compute; congruence.
  - exists w1, w2. split; [exact E1|]. split; [exact E2|]. apply U. simpl. lia.
Qed.

(** The same function of a borrowing object releases memory that is not its own. *)
Theorem c71_borrow_refuted : forall w o inp a cs, sz (ob w inp) = sz (ob w o) -> ptr (ob w o) = Some a ->
  hblk (hp w) a = Live OwnExt cs -> borrow_fill_rvec o inp w = (Undef UB_foreign_free, w).
Proof. exact borrow_fill_rvec_foreign. Qed.
Print Assumptions c71_borrow_refuted.

(* ------------------------------------------------------------------ C72 *)

(** back() reads the place after the last element.  In memory that is full this
    is outside the memory; in memory with room it is whatever is there. *)
Theorem c72_back_refuted : forall w o a own cs, world_shape w -> ptr (ob w o) = Some a -> hblk (hp w) a = Live own cs ->
  (Z.of_nat (length cs) = sz (ob w o) -> back o w = (Undef UB_oob, w)) /\
  (sz (ob w o) < Z.of_nat (length cs) ->
     (forall v, nth (Z.to_nat (sz (ob w o))) cs None = Some v -> back o w = (Done v, w)) /\
     (nth (Z.to_nat (sz (ob w o))) cs None = None -> back o w = (Undef UB_uninit, w))).
Proof.
  intros w o a own cs W P B. pose proof (proj1 (ws_store _ W o)) as S.
  rewrite (back_reads w o a own cs P B S). split; [intros E|intros E; split; [intros v V|intros V]].
  - now replace (sz (ob w o) <? Z.of_nat (length cs)) with false by (symmetry; apply Z.ltb_ge; lia).
  - replace (sz (ob w o) <? Z.of_nat (length cs)) with true by (symmetry; apply Z.ltb_lt; lia). now rewrite V.
  - replace (sz (ob w o) <? Z.of_nat (length cs)) with true by (symmetry; apply Z.ltb_lt; lia). now rewrite V.
Qed.
Print Assumptions c72_back_refuted.
(** vector 0 holds 1, 2, 3 and its memory has exactly three elements. *)
Example c72_ex : back (OD 0) ex_w = (Undef UB_oob, ex_w) /\ holds ex_w (OD 0) [d1; d2; d3].
Proof.
  split; [|exact ex_holds0].
  apply (c72_back_refuted ex_w (OD 0) 0 OwnCpp (map Some [d1; d2; d3]) ex_shape); vm_compute; reflexivity.
Qed.
(** The same for a vector whose memory is full: back() is undefined, although
    the vector has a last element. *)
Theorem c72_vector_refuted : forall w x l a own cs, world_shape w -> vholds w x l -> l <> [] -> ptr (ob w (OD x)) = Some a ->
  hblk (hp w) a = Live own cs -> length cs = length l -> vec_back x w = (Undef UB_oob, w).
Proof.
  intros w x l a own cs W H _ P B L. apply (proj1 (c72_back_refuted w (OD x) a own cs W P B)). rewrite L. symmetry. apply H.
Qed.
Print Assumptions c72_vector_refuted.

(* ------------------------------------------------------------------ C73 *)

(** Assignment between two Borrow objects copies no element: afterwards both
    show the same memory, and a write through one is seen through the other. *)
Theorem c73_borrow_rebinds : forall w o other l,
  world_shape w -> o <> other -> kd (ob w o) = KBorrow -> kd (ob w other) = KBorrow -> holds w other l -> (1 <= length l)%nat ->
  exists w1, borrow_assign o other w = (Done tt, w1) /\ hp w1 = hp w /\ world_shape w1 /\ holds w1 o l /\ holds w1 other l /\
    (forall o', o' <> o -> ob w1 o' = ob w o') /\
    forall i v, (i < length l)%nat -> exists w2, at_wr o (Z.of_nat i) v w1 = (Done tt, w2) /\
      holds w2 o (list_set l i v) /\ holds w2 other (list_set l i v).
Proof. exact borrow_rebinds. Qed.
Print Assumptions c73_borrow_rebinds.

(** Assignment between two BorrowSEXP objects copies the elements and the shape;
    when the target has no memory or memory of its own this never touches memory
    of R, and a source and a target that are the same object stay as they are.
    Missing to the full property: targets that show an R object (next theorem). *)
Theorem c73_sexp_copies_partial : forall w o other l,
  world_shape w -> o <> other -> kd (ob w o) = KBorrowSEXP -> kd (ob w other) = KBorrowSEXP ->
  (ptr (ob w o) <> None -> todel (ob w o) = true) -> (alloc (ob w o) = true -> ptr (ob w o) <> None) ->
  holds w other l -> (1 <= length l)%nat -> fits w (Z.of_nat (length l)) ->
  exists w', sexp_assign o other w = (Done tt, w') /\ step1 w w' o /\ holds w' o l /\ holds w' other l /\
    mp (ob w' o) = mp (ob w other) /\ sty (ob w' o) = sty (ob w o) /\ todel (ob w' o) = true /\ kd (ob w' o) = KBorrowSEXP.
Proof. exact sexp_assign_own. Qed.
Print Assumptions c73_sexp_copies_partial.
(** A target that shows an R object with less room: memory of R is freed. *)
Theorem c73_wrapping_refuted : forall w o other l a,
  world_shape w -> o <> other -> kd (ob w o) = KBorrowSEXP -> ptr (ob w o) = Some a -> todel (ob w o) = false ->
  holds w other l -> (1 <= length l)%nat -> cap (ob w o) < Z.of_nat (length l) ->
  sexp_assign o other w = (Undef UB_foreign_free, w).
Proof.
  intros w o other l a W N K P TD H L0 L. unfold sexp_assign. rewrite oid_eqb_neq by exact N. rewrite bind_st, (proj1 H).
  destruct (ptr_live _ _ _ W P) as [cs [B [L1 L2]]]. unfold owner_of in B. rewrite K, TD in B.
  pose proof (shape_alloc _ _ _ W P) as A.
  assert (E : sexp_resize o (Z.of_nat (length l)) w = (Undef UB_foreign_free, w)).
  { unfold sexp_resize. replace (1 <=? Z.of_nat (length l)) with true by (symmetry; apply Z.leb_le; lia).
    rewrite bind_ass_true, bind_st, A. cbn [negb].
    replace (cap (ob w o) <? Z.of_nat (length l)) with true by (symmetry; now apply Z.ltb_lt).
    rewrite P, bind_ass_true. unfold bind, del. now rewrite B. }
  unfold bind. now rewrite E.
Qed.
Print Assumptions c73_wrapping_refuted.
Example c73_wrapping_ex : exists w1 w2 w3, vec_sexp 7 TDouble (Some 2%nat) 2 mp_none (user_block ex_w OwnR [d1; d2]) = (Done tt, w1) /\
  vec_sexp 8 TDouble (Some 3%nat) 3 mp_none (user_block w1 OwnR [d1; d2; d3]) = (Done tt, w2) /\
  sexp_assign (OD 7) (OD 8) w2 = (Undef UB_foreign_free, w3).
Proof.
  eexists. eexists. eexists. split; [apply pair_eta; [vm_compute; reflexivity|reflexivity]|].
  split; [apply pair_eta; [vm_compute; reflexivity|reflexivity]|]. apply pair_eta; [vm_compute; reflexivity|reflexivity].
Qed.
Theorem c73_sexp_self : forall w o, sexp_assign o o w = (Done tt, w).
Proof. intros w o. unfold sexp_assign. now rewrite oid_eqb_refl. Qed.
Print Assumptions c73_sexp_self.

(** Borrow::set writes one element, or throws and changes nothing. *)
Theorem c73_borrow_set : forall w o l i v, world_shape w -> kd (ob w o) = KBorrow -> holds w o l -> 0 <= i ->
  if i <? Z.of_nat (length l)
  then exists w', borrow_set o i v w = (Done tt, w') /\ world_shape w' /\ ob w' = ob w /\ holds w' o (list_set l (Z.to_nat i) v)
  else exists m, borrow_set o i v w = (Thrown (Ass m), w).
Proof.
  intros w o l i v W K H Hi. rewrite borrow_set_spec by exact Hi. rewrite (proj1 H).
  destruct (Z.ltb_spec i (Z.of_nat (length l))) as [L|L]; [|eauto].
  destruct (shape_ptr w o W) as [a P]; [rewrite (proj1 H); lia|]. rewrite P.
  pose proof (ws_store _ W o) as S. unfold store_shape in S. rewrite P in S. destruct S as [_ [_ [_ [cs [B [Q _]]]]]].
  rewrite (proj1 H) in Q.
  destruct (wrc_ok w a i (Some v) _ cs B) as [w' [E U]]; [lia|].
  assert (W' : world_shape w') by (eapply (shape_cells w w' a _ cs); eauto; apply list_set_length).
  exists w'. split; [exact E|]. split; [exact W'|]. destruct U as [V1 [_ [_ [V4 _]]]]. split; [exact V1|].
  apply holds_cells; [exact W'|]. rewrite V1, list_set_length. split; [apply H|]. intros j Hj.
  rewrite (cells_of_ptr w' o a (owner_of (ob w o)) (list_set cs (Z.to_nat i) (Some v))); [|now rewrite V1|exact V4].
  rewrite !list_set_nth.
  replace (Nat.ltb (Z.to_nat i) (length cs)) with true by (symmetry; apply Nat.ltb_lt; lia).
  replace (Nat.ltb (Z.to_nat i) (length l)) with true by (symmetry; apply Nat.ltb_lt; lia).
  destruct (Nat.eqb j (Z.to_nat i)); cbn [andb]; auto.
  apply (holds_cells w o l W) in H. destruct H as [_ H]. specialize (H j Hj). now rewrite (cells_of_ptr w o a _ cs P B) in H.
Qed.
Print Assumptions c73_borrow_set.
(** Vectors 7 and 8 borrow user memory with 1, 2 and with 3, 0. *)
Definition ex_b0 : world := user_block (user_block ex_w OwnExt [d1; d2]) OwnExt [d3; d0].
Definition ex_b1 : world := snd ((vec_borrow 7 TDouble (Some 2%nat) 2 ;; vec_borrow 8 TDouble (Some 3%nat) 2) ex_b0).
Example c73_ex : world_ok ex_b1 /\ kd (ob ex_b1 (OD 7)) = KBorrow /\ kd (ob ex_b1 (OD 8)) = KBorrow /\
  holds ex_b1 (OD 8) [d3; d0] /\ holds ex_b1 (OD 7) [d1; d2].
Proof.
  assert (W0 : world_ok ex_b0).
  { apply user_block_ok; [apply user_block_ok; [exact ex_ok|discriminate|simpl; lia]|discriminate|simpl; lia]. }
  destruct (vec_borrow_done ex_b0 7 TDouble 2 [d1; d2] W0) as [w1 [E1 [W1 [H1 [B1 [_ [Hp1 [_ [_ [_ F1]]]]]]]]]];
    try (apply unborn_ptr; vm_compute; reflexivity); [vm_compute; reflexivity|].
  destruct (vec_borrow_done w1 8 TDouble 3 [d3; d0] W1) as [w2 [E2 [W2 [H2 [B2 [_ [Hp2 [_ [_ [_ F2]]]]]]]]]].
  { intros b [P _]. rewrite (proj1 (F1 (OD 8) ltac:(discriminate) ltac:(discriminate))) in P. vm_compute in P. discriminate. }
  { intros b [P _]. rewrite (proj1 (F1 (OT 8) ltac:(discriminate) ltac:(discriminate))) in P. vm_compute in P. discriminate. }
  { rewrite Hp1. vm_compute. reflexivity. }
  assert (Q : ex_b1 = w2).
  { unfold ex_b1. change (Z.of_nat (length [d1; d2])) with 2 in E1.
    change (Z.of_nat (length [d3; d0])) with 2 in E2. rewrite (bind_done _ _ _ _ _ E1), E2. reflexivity. }
  rewrite Q. split; [exact W2|]. split.
  - rewrite (proj1 (F2 (OD 7) ltac:(discriminate) ltac:(discriminate))). apply B1.
  - split; [apply B2|]. split; [exact H2|]. eapply holds_same; [apply F2; discriminate|exact H1].
Qed.
Example c71_borrow_ex : borrow_fill_rvec (OD 7) (OD 1) ex_b1 = (Undef UB_foreign_free, ex_b1).
Proof. apply (c71_borrow_refuted ex_b1 (OD 7) (OD 1) 2 (map Some [d1; d2])); vm_compute; reflexivity. Qed.
Example c73_copy_ex : exists w', sexp_assign (OD 6) (OD 7)
    (snd ((vec_sexp 7 TDouble (Some 2%nat) 2 mp_none ;; sexp_default (OD 6) TDouble) (user_block ex_w OwnR [d1; d2]))) = (Done tt, w') /\
  holds w' (OD 6) [d1; d2].
Proof. eexists. split; [apply pair_eta; [vm_compute; reflexivity|reflexivity]|]. show_holds. Qed.
