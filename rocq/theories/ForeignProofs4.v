(** Copying borrowing vectors and wrappers, raw pointers, Rcpp and Armadillo
    objects. *)
From Coq Require Import ZArith List String Bool Lia.
From Verif Require Import Base Num StoreModel VecModel OutModel ForeignModel Spec SpecExpr SpecHist SpecVec SpecForeign SpecOut
  CapProofs StoreProofs StoreOps VecProofs VecAssign StoreThms StoreHist StoreThms2 BorrowProofs VecEval OutProofs
  ForeignProofs ForeignProofs2 ForeignProofs3.
Import ListNotations.
Open Scope Z_scope.
Local Notation length := List.length (only parsing).
Arguments Z.mul : simpl never.

(** Copying the scratch buffer, the second step of copying a vector. *)
Lemma copy_temp w w1 x y : step1 w w1 (OD x) -> x <> y -> unborn w (OT x) ->
  kd (ob w (OT y)) = KBuffer -> sz (ob w (OT y)) <= cap (ob w (OT y)) ->
  exists w2, (fun w => match ctor_copy (OT x) (OT y) w with
           | (Thrown e, w1) => (_ <- any_destroy (OD x) ;; throw e) w1
           | r => r
           end) w1 = (Done tt, w2) /\ step1 w1 w2 (OT x) /\ vstep w w2 x /\ same_obj w1 w2 (OD x) /\
    kd (ob w2 (OT x)) = KBuffer /\
    forall l, holds w1 (OT y) l -> holds w2 (OT x) l.
Proof.
  intros S1 Ne D2 K2 C2. pose proof (s1_shape _ _ _ S1) as W1.
  assert (EOT : ob w1 (OT y) = ob w (OT y)) by (apply (s1_other _ _ _ S1); congruence).
  assert (EOX : ob w1 (OT x) = ob w (OT x)) by (apply (s1_other _ _ _ S1); congruence).
  destruct (ctor_copy_done w1 (OT x) (OT y) W1) as [w2 [E2 [S2 [Z2 [Cp2 [T2 [M2 [Kd2 H2]]]]]]]].
  { intros a Ha. rewrite EOX in Ha. now apply (D2 a). }
  { congruence. }
  { congruence. }
  { rewrite EOT. exact C2. }
  { apply cap_le_lim; [exact W1|congruence]. }
  { intros _. pose proof (ws_store _ W1 (OT y)) as Sh. unfold store_shape in Sh.
    destruct (ptr (ob w1 (OT y))); [right; congruence|left; lia]. }
  exists w2. cbv beta. rewrite E2. split; [reflexivity|]. split; [exact S2|]. split.
  { eapply vstep_trans; eapply step1_vstep; [left; reflexivity|exact S1|right; reflexivity|exact S2]. }
  split; [apply (s1_other _ _ _ S2); congruence|]. auto.
Qed.

Lemma vec_copy_borrow w x y a l :
  world_ok w -> borrows w y a -> x <> y -> unborn w (OD x) -> unborn w (OT x) ->
  sz (ob w (OT y)) <= cap (ob w (OT y)) -> vholds w y l ->
  exists w', vec_copy_any x y w = (Done tt, w') /\ vstep w w' x /\ world_ok w' /\
    borrows w' x a /\ borrows w' y a /\ vholds w' x l /\ vholds w' y l /\
    mp (ob w' (OD x)) = mp (ob w (OD y)) /\ cap (ob w' (OD x)) = cap (ob w (OD y)).
Proof.
  intros WO [K1 [P1 K2]] Ne D1 D2 C2 H. pose proof WO as [W IN].
  destruct (ptr_live _ _ _ W P1) as [cs [B [L1 L2]]].
  assert (OwE : owner_of (ob w (OD y)) = OwnExt) by (unfold owner_of; now rewrite K1). rewrite OwE in B.
  pose proof (ws_store _ W (OD y)) as [Z0 [Z1 _]].
  set (s := ob w (OD y)) in *.
  set (w1 := set_ob w (OD x) (mkStore KBorrow (sty s) (ptr s) (sz s) (cap s) (alloc s) (mp s) false)).
  assert (O1 : ob w1 (OD x) = mkStore KBorrow (sty s) (ptr s) (sz s) (cap s) (alloc s) (mp s) false) by apply ob_set_same.
  assert (S1 : step1 w w1 (OD x)).
  { eapply (step1_foreign w w1 (OD x) a cs); auto; rewrite ?O1; simpl; auto; try lia; try discriminate.
    - intros o' N. now rewrite oid_eqb_neq.
    - intros b O. exfalso. now apply (D1 b).
    - now apply (shape_alloc w (OD y) a). }
  assert (WO1 : world_ok w1).
  { eapply step1_ok; eauto. destruct (IN (OD y)) as [I1 I2]. fold s in I1, I2. specialize (I2 ltac:(congruence)).
    unfold inited. rewrite O1. cbn [sz cap kd]. split; [exact I1|]. intros _. split; [tauto|]. exact (proj2 I2). }
  assert (HX : holds w1 (OD x) l).
  { pose proof (proj1 H) as Sz. apply holds_cells; [apply S1|]. rewrite O1. simpl. split; [exact Sz|].
    intros i Hi. rewrite (cells_of_ptr w1 (OD x) a OwnExt cs); [|now rewrite O1|exact B].
    rewrite <- (cells_of_ptr w (OD y) a OwnExt cs P1 B). now apply holds_in. }
  destruct (copy_temp w w1 x y S1 Ne D2 K2 C2) as [w2 [E2 [S2 [V [EX [Kd2 H2]]]]]].
  exists w2. unfold vec_copy_any. rewrite bind_st. fold s. rewrite K1.
  rewrite (bind_done _ _ _ tt w1) by reflexivity. split; [exact E2|]. split; [exact V|].
  destruct (inited_ex w1 (OT y) WO1) as [lt Ht]. specialize (H2 lt Ht).
  split; [eapply step1_ok; eauto; eapply inited_buffer; eauto; apply S2|].
  assert (EY : same_obj w w2 (OD y)) by (apply (vs_other _ _ _ V); congruence).
  assert (EYT : same_obj w w2 (OT y)) by (apply (vs_other _ _ _ V); congruence).
  destruct EX as [EX1 EX2]. 
  split. { unfold borrows. rewrite EX1, O1. auto. }
  split. { destruct EY as [EY _], EYT as [EYT _]. unfold borrows. rewrite EY, EYT. auto. }
  split; [eapply holds_same; [split; eauto|exact HX]|]. split; [eapply holds_same; eauto|].
  rewrite EX1, O1. auto.
Qed.

(** A write through one of two objects that share their memory. *)
Lemma shared_write w o1 o2 a l i v : world_shape w -> ptr (ob w o1) = Some a -> ptr (ob w o2) = Some a ->
  holds w o1 l -> holds w o2 l -> 0 <= i < Z.of_nat (length l) ->
  exists w', at_wr o1 i v w = (Done tt, w') /\ world_shape w' /\ ob w' = ob w /\
    holds w' o1 (list_set l (Z.to_nat i) v) /\ holds w' o2 (list_set l (Z.to_nat i) v) /\
    forall b, b <> a -> hblk (hp w') b = hblk (hp w) b.
Proof.
  intros W P1 P2 H1 H2 Hi. destruct (ptr_live _ _ _ W P1) as [cs [B [L1 L2]]].
  pose proof (proj1 H1) as Z1. pose proof (proj1 H2) as Z2.
  destruct (wrc_ok w a i (Some v) _ cs B) as [w' [E U]]; [lia|].
  exists w'. rewrite (at_wr_in w o1 a); auto; [|eapply shape_alloc; eauto|lia].
  assert (W' : world_shape w') by (eapply shape_cells; eauto; apply list_set_length).
  destruct U as [U1 [U2 [U3 [U4 U5]]]].
  split; [exact E|]. split; [exact W'|]. split; [exact U1|].
  assert (G : forall o, ptr (ob w o) = Some a -> holds w o l -> holds w' o (list_set l (Z.to_nat i) v)).
  { intros o P H. pose proof (proj1 H) as Zo. apply holds_cells; auto. rewrite U1, list_set_length. split; [exact Zo|].
    intros j Hj. rewrite (cells_of_ptr w' o a _ _ ltac:(now rewrite U1) U4).
    rewrite !list_set_nth. pose proof (holds_in w o l j W H Hj) as N. rewrite (cells_of_ptr w o a _ cs P B) in N.
    destruct (Nat.eqb_spec j (Z.to_nat i)) as [->|Nj]; cbn [andb]; [|exact N].
    replace (Nat.ltb (Z.to_nat i) (length cs)) with true by (symmetry; apply Nat.ltb_lt; lia).
    replace (Nat.ltb (Z.to_nat i) (length l)) with true by (symmetry; apply Nat.ltb_lt; lia). reflexivity. }
  split; [now apply G|]. split; [now apply G|]. exact U5.
Qed.

Lemma vec_copy_wrapper w x y l :
  world_shape w -> kd (ob w (OD y)) = KBorrowSEXP -> kd (ob w (OT y)) = KBuffer -> x <> y ->
  unborn w (OD x) -> unborn w (OT x) ->
  sz (ob w (OT y)) <= cap (ob w (OT y)) -> vholds w y l -> (1 <= length l)%nat -> fits w (Z.of_nat (length l)) ->
  exists w', vec_copy_any x y w = (Done tt, w') /\ vstep w w' x /\
    wrapper_own w' x /\ ptr (ob w' (OD x)) <> ptr (ob w' (OD y)) /\ vholds w' x l /\ vholds w' y l /\
    mp (ob w' (OD x)) = mp (ob w (OD y)).
Proof.
  intros W K1 K2 Ne D1 D2 C2 H Ln Ft.
  destruct (sexp_copy_done w (OD x) (OD y) l W D1) as [w1 [c [E1 [S1 [O1 [HX HY]]]]]]; auto; try congruence.
  destruct (copy_temp w w1 x y S1 Ne D2 K2 C2) as [w2 [E2 [S2 [V [EX [Kd2 H2]]]]]].
  exists w2. unfold vec_copy_any. rewrite bind_st, K1, (bind_done _ _ _ _ _ E1). split; [exact E2|].
  split; [exact V|].
  assert (EY : same_obj w w2 (OD y)) by (apply (vs_other _ _ _ V); congruence).
  pose proof EX as [EX1 EX2]. pose proof EY as [EY1 _].
  split. { unfold wrapper_own. rewrite EX1, O1. repeat split; auto; discriminate. }
  split. { rewrite EX1, O1, EY1. cbn [ptr]. intros P. symmetry in P. destruct (ptr_live _ _ _ W P) as [cs [B _]].
    pose proof (live_lt _ _ _ _ W B). lia. }
  split; [eapply holds_same; eauto|]. split; [eapply holds_same; eauto|]. rewrite EX1, O1. reflexivity.
Qed.

(* ---------------------------------------------------------- raw pointers *)

Lemma bind_assoc4 {A B} (m : M world A) (f : A -> M world unit) (g : unit -> M world B) w :
  bind (bind m f) g w = bind m (fun a => bind (f a) g) w.
Proof. apply bind_assoc. Qed.

(** The loop of the pointer constructors. *)
Lemma ptr_loop_done w x t b own xs us l :
  world_ok w -> owning w x -> vholds w x l -> length l = length us ->
  hblk (hp w) b = Live own (map Some xs) -> own <> OwnCpp ->
  (length us <= length xs)%nat -> converted t (firstn (length us) xs) us ->
  exists w', ptr_loop x t (Some b) (Z.of_nat (length us)) w = (Done tt, w') /\ step1 w w' (OD x) /\
    world_ok w' /\ ob w' = ob w /\ vholds w' x us.
Proof.
  intros WO [K1 K2] H Ll B NO Lx CV. pose proof WO as [W IN]. pose proof (proj1 H) as Sz.
  destruct (Nat.eq_dec (length us) 0) as [Z0|NZ].
  { exists w. unfold ptr_loop, for_. rewrite Z0. split; [reflexivity|]. split; [now apply step1_refl|]. split; [auto|].
    split; [reflexivity|]. destruct us; [|discriminate]. destruct l; [exact H|discriminate]. }
  destruct (shape_ptr w (OD x) W) as [a P]; [lia|].
  destruct (ptr_live _ _ _ W P) as [cs [Ba [L1 L2]]].
  assert (Ow : owner_of (ob w (OD x)) = OwnCpp) by (unfold owner_of; now rewrite K1). rewrite Ow in Ba.
  assert (Nab : b <> a) by (intros ->; congruence).
  destruct (fill_any w (OD x) OwnCpp a cs us
    (fun i => v <- rd (Some b) i ;; v' <- lift (cast t v) ;; set_at (OD x) i v')) as [w' [cs' [E [U [Len [Nth [W' H']]]]]]]; auto; try lia.
  { intros k w1 cs1 Hk [U1 [U2 [U3 [U4 U5]]]].
    rewrite (bind_done _ _ _ (nth (Z.to_nat k) xs (VB false)) w1).
    - pose proof (converted_nth t _ us (Z.to_nat k) CV) as CN. rewrite firstn_length in CN. specialize (CN ltac:(lia)).
      rewrite <- (firstn_skipn (length us) xs), app_nth1, CN, bind_lift_done by (rewrite firstn_length; lia).
      apply set_at_in; rewrite ?U1; auto; [eapply shape_alloc; eauto|lia].
    - eapply rd_ok; [rewrite U5 by auto; exact B|lia|]. apply map_some_nth. lia. }
  exists w'. unfold ptr_loop, for_. rewrite Nat2Z.id. split; [exact E|].
  assert (ST : step1 w w' (OD x)).
  { eapply step1_cells; eauto. split; auto. }
  split; [exact ST|]. split; [eapply step1_ok; eauto; eapply inited_buffer; eauto; destruct U as [U1 _]; now rewrite U1|].
  split; [apply U|exact H'].
Qed.

Lemma with_mp_step w o m : world_shape w -> step1 w (set_ob w o (with_mp m (ob w o))) o.
Proof. intros W. apply (step1_upd w o (with_mp m)); auto. exact (ws_store _ W o). Qed.

Lemma with_mp_ok w o m : world_ok w -> world_ok (set_ob w o (with_mp m (ob w o))).
Proof.
  intros WO. eapply step1_ok; [apply with_mp_step; apply WO|exact WO|]. unfold inited. rewrite ob_set_same. apply (proj2 WO o).
Qed.

Lemma with_mp_holds w o m l : world_shape w -> holds w o l -> holds (set_ob w o (with_mp m (ob w o))) o l.
Proof.
  intros W H. pose proof (with_mp_step w o m W) as S. apply holds_cells in H; auto. apply holds_cells; [apply S|].
  unfold cells_of. rewrite ob_set_same. exact H.
Qed.

Lemma vec_of_ptr_done w x t b own xs us :
  world_ok w -> unborn w (OD x) -> unborn w (OT x) -> hblk (hp w) b = Live own (map Some xs) -> own <> OwnCpp ->
  (1 <= length us <= length xs)%nat -> converted t (firstn (length us) xs) us -> fits w (Z.of_nat (length us)) ->
  exists w', vec_of_ptr x t (Some b) (Z.of_nat (length us)) w = (Done tt, w') /\ vstep w w' x /\ world_ok w' /\
    owning w' x /\ ready w' x /\ vholds w' x us /\ mp (ob w' (OD x)) = mkMP false 0 0 /\ sty (ob w' (OD x)) = t.
Proof.
  intros WO D1 D2 B NO L CV Ft.
  destruct (vec_sized_done w x t (Z.of_nat (length us)) WO D1 D2) as [w1 [E1 [V1 [WO1 [H1 [M1 [OW1 [R1 [T1 _]]]]]]]]]; auto; [lia|].
  destruct (ptr_loop_done w1 x t b own xs us _ WO1 OW1 H1) as [w2 [E2 [S2 [WO2 [O2 H2]]]]]; auto; try lia.
  { rewrite repeat_length. lia. }
  { apply (vs_ext _ _ _ V1); auto. }
  unfold vec_of_ptr. rewrite (bind_done _ _ _ _ _ E1), (bind_done _ _ _ _ _ E2).
  eexists. split; [reflexivity|].
  match goal with |- vstep w ?W' x /\ _ => set (w' := W') end.
  assert (S3 : step1 w2 w' (OD x)) by (apply with_mp_step; apply WO2).
  split.
  { eapply vstep_trans; [exact V1|]. eapply vstep_trans; (eapply step1_vstep; [left; reflexivity|]); eauto. }
  split; [now apply with_mp_ok|].
  assert (OD' : ob w' (OD x) = with_mp (mkMP false 0 0) (ob w1 (OD x))) by (unfold w'; rewrite ob_set_same, O2; reflexivity).
  assert (OT' : ob w' (OT x) = ob w1 (OT x)) by (unfold w'; rewrite ob_set_other, O2 by congruence; reflexivity).
  split; [unfold owning; rewrite OD', OT'; exact OW1|]. split; [unfold ready, can_assign; rewrite OD', OT'; exact R1|].
  split; [apply with_mp_holds; [apply WO2|exact H2]|]. rewrite OD'. simpl. auto.
Qed.

Lemma vec_of_ptr_matrix_done w x t b own xs us r c :
  world_ok w -> unborn w (OD x) -> unborn w (OT x) -> hblk (hp w) b = Live own (map Some xs) -> own <> OwnCpp ->
  (1 <= length us <= length xs)%nat -> converted t (firstn (length us) xs) us -> fits w (Z.of_nat (length us)) ->
  r * c = Z.of_nat (length us) ->
  exists w', vec_of_ptr_matrix x t (Some b) r c w = (Done tt, w') /\ vstep w w' x /\ world_ok w' /\
    owning w' x /\ ready w' x /\ vholds w' x us /\ is_matrix w' x r c /\ sty (ob w' (OD x)) = t.
Proof.
  intros WO D1 D2 B NO L CV Ft RC. pose proof (ws_lim _ (proj1 WO)) as Lim. unfold fits in Ft.
  destruct (vec_sized_done w x t (Z.of_nat (length us)) WO D1 D2) as [w1 [E1 [V1 [WO1 [H1 [M1 [OW1 [R1 [T1 _]]]]]]]]]; auto; [lia|].
  destruct (ptr_loop_done w1 x t b own xs us _ WO1 OW1 H1) as [w2 [E2 [S2 [WO2 [O2 H2]]]]]; auto; try lia.
  { rewrite repeat_length. lia. }
  { apply (vs_ext _ _ _ V1); auto. }
  assert (P64 : 2 ^ 60 < 2 ^ 64) by now vm_compute.
  pose proof (proj1 H1) as Sz1. rewrite repeat_length, Nat2Z.id in Sz1.
  unfold vec_of_ptr_matrix. rewrite RC, wrap64_id by lia.
  rewrite (bind_done _ _ _ _ _ E1), bind_st, Sz1, (bind_done _ _ _ _ _ E2).
  eexists. split; [reflexivity|].
  match goal with |- vstep w ?W' x /\ _ => set (w' := W') end.
  assert (S3 : step1 w2 w' (OD x)) by (apply with_mp_step; apply WO2).
  split.
  { eapply vstep_trans; [exact V1|]. eapply vstep_trans; (eapply step1_vstep; [left; reflexivity|]); eauto. }
  split; [now apply with_mp_ok|].
  assert (OD' : ob w' (OD x) = with_mp (mkMP true r c) (ob w1 (OD x))) by (unfold w'; rewrite ob_set_same, O2; reflexivity).
  assert (OT' : ob w' (OT x) = ob w1 (OT x)) by (unfold w'; rewrite ob_set_other, O2 by congruence; reflexivity).
  split; [unfold owning; rewrite OD', OT'; exact OW1|]. split; [unfold ready, can_assign; rewrite OD', OT'; exact R1|].
  split; [apply with_mp_holds; [apply WO2|exact H2]|]. split; [|rewrite OD'; exact T1].
  unfold is_matrix. rewrite OD'. simpl. split; [reflexivity|]. lia.
Qed.
