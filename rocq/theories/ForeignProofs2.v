(** Copying and rebinding wrappers, copying borrowing vectors, raw pointers and
    foreign vectors. *)
From Coq Require Import ZArith List String Bool Lia.
From Verif Require Import Base Num StoreModel VecModel OutModel ForeignModel Spec SpecExpr SpecHist SpecVec SpecForeign
  CapProofs StoreProofs StoreOps VecProofs VecAssign StoreThms StoreHist StoreThms2 BorrowProofs VecEval ForeignProofs.
Import ListNotations.
Open Scope Z_scope.
Local Notation length := List.length (only parsing).
Arguments Z.mul : simpl never.

Lemma ctor_sexp_done w o t r xs ys :
  world_shape w -> (forall a, ~ owns (ob w o) a) -> r_ty r = t -> r_has w r xs -> converted t xs ys ->
  Z.of_nat (length xs) <= hlim (hp w) ->
  exists w', ctor_sexp o t r w = (Done tt, w') /\ step1 w w' o /\
    ob w' o = mkStore KBuffer t (Some (hnext (hp w))) (Z.of_nat (length xs)) (Z.of_nat (length xs)) true (dims_of r) false /\
    holds w' o ys.
Proof.
  intros W D TY RH CV HL. pose proof RH as [BR LR]. pose proof (live_lt _ _ _ _ W BR) as Lt.
  unfold ctor_sexp. rewrite r_is_same, bind_ass_true by exact TY.
  rewrite (bind_done _ _ _ _ _ (r_length_has w r xs RH)).
  rewrite (bind_done _ _ _ _ _ (new_ok w _ HL)).
  set (n := Z.of_nat (length xs)) in *. set (a := hnext (hp w)) in *.
  assert (B3 : hblk (hp (new_world w n)) a = Live OwnCpp (repeat None (Z.to_nat n))).
  { simpl. fold a. now rewrite Nat.eqb_refl. }
  assert (K3 : forall b, b <> a -> hblk (hp (new_world w n)) b = hblk (hp w) b).
  { intros b Hb. simpl. fold a. now replace (Nat.eqb b a) with false by (symmetry; now apply Nat.eqb_neq). }
  destruct (r_copy_done (new_world w n) r t a xs ys (repeat None (Z.to_nat n)) OwnCpp)
    as [w4 [cs [E4 [[U1 [U2 [U3 [U4 U5]]]] [Len Nth]]]]]; auto.
  { rewrite K3; auto. unfold a; lia. }
  { unfold a. lia. }
  { rewrite repeat_length. unfold n. lia. }
  fold n in E4. rewrite (bind_done _ _ _ _ _ E4). rewrite repeat_length in Len.
  assert (HLC : Z.of_nat (length cs) = n) by (rewrite Len; unfold n; lia).
  eexists. split; [reflexivity|].
  match goal with |- context [set_ob w4 o ?s] => assert (ST : step1 w (set_ob w4 o s) o) end.
  { eapply (step1_ctor w w4 o); eauto; simpl; try lia.
    intros b Hb. rewrite U5, K3; auto. }
  split; [exact ST|]. rewrite ob_set_same. split; [reflexivity|].
  pose proof (converted_length _ _ _ CV) as CL.
  apply holds_cells; [apply ST|]. rewrite ob_set_same. simpl. split; [unfold n; lia|].
  intros i Hi. rewrite (cells_of_ptr _ o a OwnCpp cs); [|now rewrite ob_set_same|exact U4]. apply Nth. lia.
Qed.

(* ------------------------------------------------------ copying a wrapper *)

Lemma sexp_first w o t n c :
  world_shape w -> ob w o = store_default KBorrowSEXP t -> 1 <= n -> cap115 n = Done c -> n <= c -> c <= hlim (hp w) ->
  exists w' cs, sexp_resize o n w = (Done tt, w') /\ step1 w w' o /\
    ob w' o = mkStore KBorrowSEXP t (Some (hnext (hp w))) n c true mp_none true /\
    hblk (hp w') (hnext (hp w)) = Live OwnCpp cs /\ length cs = Z.to_nat c.
Proof.
  intros W O Hn C Hc HL. unfold sexp_resize.
  replace (1 <=? n) with true by (symmetry; now apply Z.leb_le). rewrite bind_ass_true, bind_st, O.
  cbn [alloc store_default negb].
  set (a := hnext (hp w)).
  set (s1 := mkStore KBorrowSEXP t (Some a) n c true mp_none true).
  assert (EI : exists w1, sexp_init o n w = (Done tt, w1) /\ ob w1 o = s1 /\
    (forall o', o' <> o -> ob w1 o' = ob w o') /\ hlim (hp w1) = hlim (hp w) /\ hnext (hp w1) = S a /\
    hblk (hp w1) a = Live OwnCpp (repeat None (Z.to_nat c)) /\
    forall b, b <> a -> hblk (hp w1) b = hblk (hp w) b).
  { unfold sexp_init. rewrite bind_st, O. cbn [alloc store_default andb].
    rewrite (bind_done (ret tt) _ w tt w) by reflexivity. rewrite bind_upd, C, bind_lift_done, bind_upd.
    match goal with |- context [bind (new_ c) _ ?W] => set (w2 := W) end.
    assert (HL2 : c <= hlim (hp w2)) by exact HL.
    rewrite (bind_done _ _ _ _ _ (new_ok w2 c HL2)). rewrite bind_upd.
    eexists. split; [reflexivity|].
    split; [unfold w2; simpl; rewrite !oid_eqb_refl, O; reflexivity|].
    split; [intros o' N; unfold w2; simpl; now rewrite !oid_eqb_neq|].
    split; [reflexivity|]. split; [reflexivity|]. simpl. fold a.
    split; [now rewrite Nat.eqb_refl|].
    intros b Hb. now replace (Nat.eqb b a) with false by (symmetry; now apply Nat.eqb_neq). }
  destruct EI as [w1 [EI [O1 [X1 [L1 [N1 [B1 K1]]]]]]].
  rewrite (bind_done _ _ _ _ _ EI).
  destruct (fill_ok w1 o (zero_of t) a OwnCpp (repeat None (Z.to_nat c))) with (v' := zero_of t)
    as [w2 [cs [E2 [[U1 [U2 [U3 [U4 U5]]]] [Len _]]]]].
  { now rewrite O1. }
  { exact B1. }
  { rewrite O1, repeat_length. simpl. lia. }
  { rewrite O1. simpl. now destruct t. }
  rewrite repeat_length in Len.
  exists w2, cs. split; [exact E2|].
  assert (O2 : ob w2 o = s1) by (rewrite U1; exact O1).
  split; [|split; [exact O2|split; [exact U4|exact Len]]].
  assert (NO : forall b, ~ owns (ob w o) b) by (intros b [P _]; rewrite O in P; discriminate).
  apply (step1_fresh_own w w2 o cs); auto; rewrite ?O2; simpl; auto; try lia.
  - intros o' N. rewrite U1. auto.
  - intros b _ Hb. now apply NO in Hb.
  - intros b Hb _. rewrite U5 by exact Hb. auto.
Qed.

Lemma sexp_copy_done w o other l :
  world_shape w -> (forall a, ~ owns (ob w o) a) -> o <> other -> kd (ob w other) = KBorrowSEXP ->
  holds w other l -> (1 <= length l)%nat -> fits w (Z.of_nat (length l)) ->
  exists w' c, sexp_copy o other w = (Done tt, w') /\ step1 w w' o /\
    ob w' o = mkStore KBorrowSEXP (sty (ob w other)) (Some (hnext (hp w))) (Z.of_nat (length l)) c true
                (mp (ob w other)) true /\
    holds w' o l /\ holds w' other l.
Proof.
  intros W D Ne K H L1 Ft. pose proof (ws_lim _ W) as Lim. unfold fits in Ft.
  destruct (cap115_ok (Z.of_nat (length l))) as [c [C Bc]]; [lia|].
  unfold sexp_copy. rewrite bind_st. unfold sexp_default. rewrite bind_upd.
  set (t := sty (ob w other)). set (w0 := set_ob w o (store_default KBorrowSEXP t)).
  assert (S0 : step1 w w0 o) by (apply step1_empty; auto).
  pose proof (proj1 H) as Sz. rewrite Sz.
  destruct (sexp_first w0 o t (Z.of_nat (length l)) c) as [w1 [cs [E1 [S1 [O1 [B1 Len]]]]]]; try lia; auto.
  { apply S0. }
  { unfold w0. apply ob_set_same. }
  { rewrite (s1_lim _ _ _ S0). lia. }
  change (hnext (hp w0)) with (hnext (hp w)) in *.
  set (a := hnext (hp w)) in *. rewrite (bind_done _ _ _ _ _ E1).
  assert (S01 : step1 w w1 o) by (eapply step1_trans; eauto).
  assert (SO : same_obj w w1 other) by (apply (s1_other _ _ _ S01); congruence).
  assert (Pa : forall p, ptr (ob w other) = Some p -> p <> a).
  { intros p P. destruct (ptr_live _ _ _ W P) as [cs' [B' _]]. pose proof (live_lt _ _ _ _ W B'). unfold a. lia. }
  assert (LP : exists w2 cs2, sexp_copy_loop o other w1 = (Done tt, w2) /\ upd_cells w1 w2 a OwnCpp cs2 /\
    length cs2 = length cs /\ forall j, (j < length l)%nat -> nth j cs2 None = Some (nth j l (VB false))).
  { unfold sexp_copy_loop. rewrite bind_st, O1. cbn [sz ptr]. unfold for_. rewrite Nat2Z.id.
    destruct (for_wr_gen (fun k => Some (nth (Z.to_nat k) l (VB false)))
      (fun i => v <- sexp_get_at other i ;; wr (Some a) i v) w1 a OwnCpp cs 0 (length l) B1)
      as [w2 [cs2 [E2 [U2 [Len2 Nth2]]]]]; [lia|rewrite Len; lia| |].
    - intros k w2 cs2 Hk [V1 [V2 [V3 [V4 V5]]]] _.
      assert (H2 : holds w2 other l).
      { apply (holds_same w w2); auto. destruct SO as [SO1 SO2]. split; [congruence|].
        intros p P. rewrite V5 by auto. auto. }
      destruct H2 as [_ H2]. specialize (H2 (Z.to_nat k) ltac:(lia)). rewrite Z2Nat.id in H2 by lia.
      rewrite (bind_done _ _ _ (nth (Z.to_nat k) l (VB false)) w2); [reflexivity|].
      unfold at_rd in H2. rewrite bind_st in H2. replace (ob w2 other) with (ob w other) in H2.
      + rewrite K in H2. exact H2.
      + rewrite V1. symmetry. apply SO.
    - exists w2, cs2. split; [exact E2|]. split; [exact U2|]. split; [exact Len2|].
      intros j Hj. rewrite Nth2, Nat2Z.id.
      replace ((0 <=? Z.of_nat j) && (Z.of_nat j <? 0 + Z.of_nat (length l))) with true; auto.
      symmetry; apply andb_true_intro; split; [apply Z.leb_le|apply Z.ltb_lt]; lia. }
  destruct LP as [w2 [cs2 [E2 [U2 [Len2 Nth2]]]]].
  rewrite (bind_done _ _ _ _ _ E2).
  assert (S2 : step1 w1 w2 o).
  { eapply step1_cells; eauto; [apply S1|]. split; rewrite O1; reflexivity. }
  destruct U2 as [V1 [V2 [V3 [V4 V5]]]].
  assert (O2 : ob w2 o = ob w1 o) by now rewrite V1.
  set (w' := set_ob w2 o (with_mp (mp (ob w other)) (ob w2 o))).
  exists w', c. split; [reflexivity|].
  assert (S3 : step1 w2 w' o).
  { apply (step1_upd w2 o (with_mp (mp (ob w other)))); auto; [apply S2|].
    exact (ws_store _ (s1_shape _ _ _ S2) o). }
  assert (S4 : step1 w w' o).
  { eapply step1_trans; [exact S01|]. eapply step1_trans; eauto. }
  assert (O' : ob w' o = mkStore KBorrowSEXP t (Some a) (Z.of_nat (length l)) c true (mp (ob w other)) true).
  { unfold w'. rewrite ob_set_same, O2, O1. reflexivity. }
  split; [exact S4|]. split; [exact O'|]. split.
  - apply holds_cells; [apply S4|]. rewrite O'. cbn [sz]. split; [reflexivity|].
    intros i Hi. rewrite (cells_of_ptr w' o a OwnCpp cs2); auto. now rewrite O'.
  - eapply holds_same; [|exact H]. apply (s1_other _ _ _ S4). congruence.
Qed.

(** An empty wrapper cannot be copied. *)
Lemma sexp_copy_empty w o other : sz (ob w other) = 0 ->
  fst (sexp_copy o other w) = Thrown (Ass "Size has to be larger than 0").
Proof. intros Z0. unfold sexp_copy. rewrite bind_st, Z0. reflexivity. Qed.
