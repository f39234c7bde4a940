(** Property C79: logical indices. *)
From Coq Require Import String ZArith List Bool Lia Reals.
From Flocq Require Import Core.Core.
From Verif Require Import Base Num StoreModel VecModel SubsetModel FloatBridge Spec SpecExpr SpecHist SpecProg SpecVec SpecSub
  StoreProofs StoreOps VecProofs VecAssign VecEval StoreThms SubsetProofs SubsetThms Examples PropVec PropSubset.
Import ListNotations.
Open Scope Z_scope.
Local Notation length := List.length (only parsing).

(** x[FALSE] is rejected. *)
Theorem c79_false_vector : forall lm w e, exists m, subset_vec lm w e (IB false) = Thrown (Ass m).
Proof. intros. eexists. reflexivity. Qed.
Print Assumptions c79_false_vector.

(** Two indices on something that is not a matrix are rejected, whatever they
    are. *)
Theorem c79_not_a_matrix : forall lm w e iL iR, eim w e = false -> exists m, subset_mat lm w e iL iR = Thrown (Ass m).
Proof. intros lm w e iL iR H. eexists. unfold subset_mat, calc_ind_matrix. rewrite H. reflexivity. Qed.
Print Assumptions c79_not_a_matrix.
Example c79_not_a_matrix_ex : eim ex_w (EVar 0) = false.
Proof. reflexivity. Qed.

(** FALSE for the rows, or for the columns, is rejected.  (A double row index
    is converted first.) *)
Theorem c79_false_matrix : forall lm w e iL iR nr nc,
  eim w e = true -> edim rows w e = Done nr -> edim cols w e = Done nc ->
  iL = IB false \/ (iR = IB false /\ forall f, iL = IF f -> exists z, int_part f z /\ 1 <= z <= int_max) ->
  exists m, subset_mat lm w e iL iR = Thrown (Ass m).
Proof.
  intros lm w e iL iR nr nc Im Dr Dc H. unfold subset_mat, calc_ind_matrix. rewrite Im, Dr, Dc. cbn [negb obind].
  destruct H as [->|[-> H]].
  - destruct iR as [| | |[]]; eexists; reflexivity.
  - destruct iL as [b|z|f|t e']; [destruct b; eexists; reflexivity|eexists; reflexivity| |destruct t; eexists; reflexivity].
    destruct (H f eq_refl) as [z [P R]]. unfold int_max in R. rewrite (convert_dbl_ok f z) by (auto; lia). eexists. reflexivity.
Qed.
Print Assumptions c79_false_matrix.
Example c79_false_ex : subset_mat ex_lm ex_w ex_mat (IF f25) (IB false) = Thrown no_false.
Proof. vm_compute. reflexivity. Qed.

(** Beside a single row or column, a logical index with more entries than the
    dimension is rejected. *)
Theorem c79_too_long : forall lm w e iL iR nr nc n,
  eim w e = true -> edim rows w e = Done nr -> edim cols w e = Done nc -> 0 <= nr <= int_max ->
  (single iL = true /\ (exists rs, selects lm w nr iL rs) /\ mask_of_length lm w iR n /\ nc < n) \/
  (single iR = true /\ mask_of_length lm w iL n /\ nr < n) ->
  exists m, subset_mat lm w e iL iR = Thrown (Ass m).
Proof.
  intros lm w e iL iR nr nc n Im Dr Dc B H. unfold int_max in B. unfold subset_mat, calc_ind_matrix. rewrite Im, Dr, Dc. cbn [negb obind].
  destruct H as [[S [[rs Sl] [M Lt]]]|[S [M Lt]]].
  - destruct iR as [| | |[] em]; try contradiction. destruct M as [bs [Y Lb]].
    pose proof (yields_size VB lm w em bs Y) as Sz.
    assert (T : (nc <? esize w em) = true) by (apply Z.ltb_lt; lia).
    destruct iL as [|z|f|]; try discriminate.
    + rewrite T. eexists. reflexivity.
    + inversion Sl as [| |f' z P R| | |]; subst. rewrite (convert_dbl_ok f z) by (auto; lia). cbn [obind]. rewrite T. eexists. reflexivity.
  - destruct iL as [| | |[] em]; try contradiction. destruct M as [bs [Y Lb]].
    pose proof (yields_size VB lm w em bs Y) as Sz.
    assert (T : (nr <? esize w em) = true) by (apply Z.ltb_lt; lia).
    assert (Nb : bs <> []) by (intros ->; simpl in Lb; lia).
    destruct iR as [|z|f|]; try discriminate; rewrite int_loop_ok by lia; cbn [obind];
      rewrite (mask_rec_ok lm w em bs nr Y Nb); cbn [obind]; rewrite T; eexists; reflexivity.
Qed.
Print Assumptions c79_too_long.
Example c79_too_long_ex : mask_of_length ex_lm ex_w (IV TBool (bools [true; false; true])) 3 /\
  edim rows ex_w ex_mat = Done 2 /\ subset_mat ex_lm ex_w ex_mat (IV TBool (bools [true; false; true])) (IZ 1) = Thrown too_long.
Proof.
  split; [exists [true; false; true]; split; [apply yields_tmp|reflexivity]|]. split; vm_compute; reflexivity.
Qed.

(** The elements that all other pairs of indices give, with logical indices of
    any length ([picks]).  Missing to the property that logical indices are
    recycled when too short and rejected when too long: the pairs in which
    neither index is a single row or column, see below. *)
Theorem c79_any_mask_partial : forall lm w e l iL iR nr nc rs cs,
  yields lm w e l -> eim w e = true -> edim rows w e = Done nr -> edim cols w e = Done nc ->
  Z.of_nat (length l) = nr * nc -> 1 <= nr <= int_max -> 1 <= nc <= int_max ->
  picks lm w nr (single iR) iL rs -> picks lm w nc (single iL) iR cs -> good_pair nr nc iL iR ->
  (length rs * length cs <= length l)%nat -> Z.of_nat (length rs) <= int_max -> Z.of_nat (length cs) <= int_max ->
  exists ind m, subset_mat lm w e iL iR = Done (ESub e ind m) /\ column_major nr rs cs ind /\
    (forall a b, (a < length cs)%nat -> (b < length rs)%nat ->
       elem lm (ESub e ind m) (Z.of_nat (a * length rs + b)) w =
       (Done (read e (nth (Z.to_nat (nth a cs 0 * nr + nth b rs 0)) l (VB false))), w)) /\
    (shaped_pair e iL iR = true -> m = mkMP true (Z.of_nat (length rs)) (Z.of_nat (length cs))) /\
    (shaped_pair e iL iR = false -> m = mp_none).
Proof.
  intros lm w e l iL iR nr nc rs cs Y Im Dr Dc S Br Bc SL SR G Ln Lr Lc.
  pose proof (calc_ind_matrix_picks lm w e iL iR nr nc rs cs Im Dr Dc (eq_trans (proj1 Y) S) Br Bc SL SR Lr Lc G) as E.
  eexists. eexists. split; [unfold subset_mat; rewrite E; reflexivity|].
  pose proof (grid_column_major nr rs cs) as CM. split; [exact CM|]. split; [|split].
  - intros a b Ha Hb. destruct CM as [CL CN].
    assert (Ri : forall p, In p (grid nr rs cs) -> 0 <= p < Z.of_nat (length l)).
    { intros p Hp. unfold grid in Hp. apply in_flat_map in Hp. destruct Hp as [c [Ic Hp]].
      apply in_map_iff in Hp. destruct Hp as [r [<- Ir]].
      assert (0 <= r < nr) by (refine (picks_range _ _ _ _ _ _ r _ SL Ir); lia).
      assert (0 <= c < nc) by (refine (picks_range _ _ _ _ _ _ c _ SR Ic); lia). nia. }
    assert (Hab : (a * length rs + b < length rs * length cs)%nat) by nia.
    match goal with |- elem _ (ESub _ _ ?m) _ _ = _ =>
      destruct (yields_sub lm w e l (grid nr rs cs) m Y Ri) as [_ YS] end; [lia|].
    rewrite map_length, CL in YS. rewrite YS by auto.
    rewrite nth_map_in with (a := 0) by (rewrite CL; auto). now rewrite CN.
  - cbn [snd]. intros ->. reflexivity.
  - cbn [snd]. intros ->. reflexivity.
Qed.
Print Assumptions c79_any_mask_partial.
(** m(c(FALSE, TRUE, FALSE, TRUE), TRUE) of a 2 x 2 matrix: the second row
    twice; m(c(TRUE), 2): the whole second column. *)
Example c79_any_mask_ex :
  (exists ind m, subset_mat ex_lm ex_w ex_mat (IV TBool (bools [false; true; false; true])) (IB true) = Done (ESub ex_mat ind m) /\
    ind = [1; 1; 3; 3]) /\ picks ex_lm ex_w 2 false (IV TBool (bools [false; true; false; true])) [1; 1] /\
  (exists ind m, subset_mat ex_lm ex_w ex_mat (IV TBool (bools [true])) (IZ 2) = Done (ESub ex_mat ind m) /\
    ind = [2; 3]) /\ picks ex_lm ex_w 2 true (IV TBool (bools [true])) [0; 1].
Proof.
  split; [eexists; eexists; split; vm_compute; reflexivity|].
  split; [apply (Pick_wrapped ex_lm ex_w 2 false _ [false; true; false; true]); [reflexivity|apply yields_tmp|simpl; auto]|].
  split; [eexists; eexists; split; vm_compute; reflexivity|].
  apply (Pick_recycled ex_lm ex_w 2 true _ [true]); [reflexivity|apply yields_tmp|simpl; lia|reflexivity|easy].
Qed.

(** Where neither index is a single row or column, a logical index with more
    entries than the dimension is not rejected: entry d + i selects what entry
    i selects, so rows come more than once. *)
Theorem c79_long_mask_refuted : forall lm w e l er bs nr nc,
  yields lm w e l -> eim w e = true -> edim rows w e = Done nr -> edim cols w e = Done nc ->
  Z.of_nat (length l) = nr * nc -> 1 <= nr <= int_max -> 1 <= nc <= int_max ->
  yields lm w er (map VB bs) -> In true bs -> Z.of_nat (length bs) <= int_max -> nr < Z.of_nat (length bs) ->
  let rs := map (fun i => Z.of_nat i mod nr) (filter (fun i => nth i bs false) (seq 0 (length bs))) in
  exists ind m, subset_mat lm w e (IV TBool er) (IB true) = Done (ESub e ind m) /\
    column_major nr rs (map Z.of_nat (seq 0 (Z.to_nat nc))) ind.
Proof.
  intros lm w e l er bs nr nc Y Im Dr Dc S Br Bc Yb T Lb Lt rs.
  eexists. eexists. split; [|apply grid_column_major].
  unfold subset_mat. rewrite (calc_ind_matrix_picks lm w e (IV TBool er) (IB true) nr nc rs (map Z.of_nat (seq 0 (Z.to_nat nc)))); [reflexivity|auto|auto|auto| |auto|auto| | | | |].
  - now rewrite (proj1 Y).
  - now apply Pick_wrapped.
  - constructor. apply Sel_all. lia.
  - unfold rs. rewrite map_length. pose proof (filter_len (fun i => nth i bs false) (seq 0 (length bs))) as F. rewrite seq_length in F. lia.
  - rewrite map_length, seq_length. lia.
  - exact I.
Qed.
Print Assumptions c79_long_mask_refuted.
Example c79_long_mask_ex : exists ind m,
  subset_mat ex_lm ex_w ex_mat (IV TBool (bools [true; false; true])) (IB true) = Done (ESub ex_mat ind m) /\ ind = [0; 0; 2; 2].
Proof. eexists. eexists. split; vm_compute; reflexivity. Qed.
