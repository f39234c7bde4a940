(** Lemmas about the conversion to R objects and printing. *)
From Coq Require Import String ZArith List Bool Lia Arith.
From Verif Require Import Base Num StoreModel VecModel OutModel Spec SpecExpr SpecVec SpecSub SpecOut CapProofs StoreProofs StoreOps
  VecProofs SubsetProofs VecThms.
Import ListNotations.
Open Scope Z_scope.
Local Notation length := List.length (only parsing).

(** The world after R handed out a block. *)
Definition r_world (w : world) (n : Z) : world :=
  set_hp w (mkHeap (S (hnext (hp w)))
    (fun a' => if Nat.eqb a' (hnext (hp w)) then Live OwnR (repeat None (Z.to_nat n)) else hblk (hp w) a') (hlim (hp w))).

Lemma r_new_done w n : n <= hlim (hp w) -> r_new n w = (Done (hnext (hp w)), r_world w n).
Proof. intros H. unfold r_new. replace (n <=? hlim (hp w)) with true by (symmetry; now apply Z.leb_le). reflexivity. Qed.

Lemma r_world_same w n o : world_shape w -> same_obj w (r_world w n) o.
Proof.
  intros W. split; [reflexivity|]. intros a P. destruct (ptr_live _ _ _ W P) as [cs [B _]].
  pose proof (live_lt _ _ _ _ W B). simpl.
  replace (Nat.eqb a (hnext (hp w))) with false by (symmetry; apply Nat.eqb_neq; lia). reflexivity.
Qed.

Lemma upd_cells_r w n w1 cs o : world_shape w -> upd_cells (r_world w n) w1 (hnext (hp w)) OwnR cs -> same_obj w w1 o.
Proof.
  intros W [U1 [_ [_ [_ U5]]]]. eapply same_obj_trans; [now apply (r_world_same w n)|].
  split; [now rewrite U1|]. intros a P. apply U5. intros ->.
  change (ob (r_world w n)) with (ob w) in P. destruct (ptr_live _ _ _ W P) as [c [B _]].
  pose proof (live_lt _ _ _ _ W B). lia.
Qed.

(** The memory of the variables of e was handed out before. *)
Definition below (w : world) (e : expr) : Prop :=
  forall x a, In x (vars e) -> ptr (ob w (OD x)) = Some a -> (a < hnext (hp w))%nat.
Lemma below_shape w e : world_shape w -> below w e.
Proof. intros W x a _ P. destruct (ptr_live _ _ _ W P) as [cs [B _]]. exact (live_lt _ _ _ _ W B). Qed.
Lemma upd_cells_b w n w1 cs e x : below w e -> In x (vars e) ->
  upd_cells (r_world w n) w1 (hnext (hp w)) OwnR cs -> same_obj w w1 (OD x).
Proof.
  intros B Ix [U1 [_ [_ [_ U5]]]]. split; [now rewrite U1|]. intros a P. pose proof (B x a Ix P).
  rewrite U5 by lia. simpl. replace (Nat.eqb a (hnext (hp w))) with false by (symmetry; apply Nat.eqb_neq; lia). reflexivity.
Qed.

Definition put_elem (lm : libm) (t : ety) (e : expr) (a : nat) (i : Z) : M world unit :=
  (v <- elem lm e i ;; v' <- lift (cast (r_cell t) v) ;; wr (Some a) i v') ;; _ <- lift (int_res (i + 1)) ;; ret tt.

Lemma put_elem_at lm t e us w k w1 cs1 : below w e ->
  (exists v, elem lm e k w = (Done v, w) /\ cast (r_cell t) v = Done (nth (Z.to_nat k) us (VB false))) ->
  0 <= k < Z.of_nat (length us) -> k < int_max ->
  upd_cells (r_world w (Z.of_nat (length us))) w1 (hnext (hp w)) OwnR cs1 -> length cs1 = length us ->
  put_elem lm t e (hnext (hp w)) k w1 = wrc (Some (hnext (hp w))) k (Some (nth (Z.to_nat k) us (VB false))) w1.
Proof.
  intros W H Hk Hm U L. destruct H as [v [Ev Cv]].
  assert (E1 : elem lm e k w1 = (Done v, w1)).
  { apply pair_eta; [|apply elem_pure]. rewrite (elem_same lm w w1); [now rewrite Ev|].
    intros x Ix. eapply upd_cells_b; eauto. }
  unfold put_elem. rewrite bind_assoc, (bind_done _ _ _ _ _ E1), Cv, bind_assoc, bind_lift_done. unfold wr.
  destruct U as [_ [_ [_ [U4 _]]]].
  destruct (wrc_ok w1 (hnext (hp w)) k (Some (nth (Z.to_nat k) us (VB false))) _ _ U4) as [w2 [E2 _]]; [lia|].
  rewrite (bind_done _ _ _ _ _ E2), E2. rewrite int_res_ok by (unfold int_max in *; lia). reflexivity.
Qed.

Lemma copy_loop lm t e us w n : below w e ->
  (forall i, (i < n)%nat -> exists v,
      elem lm e (Z.of_nat i) w = (Done v, w) /\ cast (r_cell t) v = Done (nth i us (VB false))) ->
  (n <= length us)%nat -> Z.of_nat n <= int_max ->
  exists w' cs, forN n 0 (put_elem lm t e (hnext (hp w))) (r_world w (Z.of_nat (length us))) = (Done tt, w') /\
    upd_cells (r_world w (Z.of_nat (length us))) w' (hnext (hp w)) OwnR cs /\ length cs = length us /\
    (n = length us -> cs = map Some us).
Proof.
  intros W H Hn Hm.
  destruct (for_wr_gen (fun k => Some (nth (Z.to_nat k) us (VB false))) (put_elem lm t e (hnext (hp w)))
    (r_world w (Z.of_nat (length us))) (hnext (hp w)) OwnR (repeat None (length us)) 0 n) as [w' [cs [E [U [L N]]]]].
  - simpl. now rewrite Nat.eqb_refl, Nat2Z.id.
  - lia.
  - rewrite repeat_length. lia.
  - intros k w1 cs1 Hk U L. rewrite repeat_length in L. apply (put_elem_at lm t e us w k w1 cs1); auto; try lia.
    destruct (H (Z.to_nat k)) as [v Hv]; [lia|]. rewrite Z2Nat.id in Hv by lia. now exists v.
  - rewrite repeat_length in L. exists w', cs. split; [exact E|]. split; [exact U|]. split; [exact L|]. intros En.
    apply nth_ext with (d := None) (d' := None); [now rewrite map_length|]. intros i Hi. rewrite N.
    replace ((0 <=? Z.of_nat i) && (Z.of_nat i <? 0 + Z.of_nat n)) with true
      by (symmetry; apply andb_true_intro; split; [apply Z.leb_le|apply Z.ltb_lt]; lia).
    rewrite Nat2Z.id. rewrite (nth_indep _ None (Some (VB false))) by (rewrite map_length; lia). now rewrite map_nth.
Qed.

Lemma r_cell_in t : r_cell t = in_R t.
Proof. now destruct t. Qed.

Lemma value_elems lm rho t e us w : world_shape w -> env_of w rho e -> wf_expr rho e -> value_of lm rho (in_R t) e us ->
  esize w e = Z.of_nat (length us) /\
  forall i, (i < length us)%nat -> exists v, elem lm e (Z.of_nat i) w = (Done v, w) /\ cast (r_cell t) v = Done (nth i us (VB false)).
Proof.
  intros W EN F [L V]. split; [rewrite (esize_xsize w rho e EN F); now rewrite L|].
  intros i Hi. destruct (V i Hi) as [v [E C]]. exists v. rewrite r_cell_in. split; auto.
  rewrite (elem_xval lm w rho e W EN F); [now rewrite E|lia|left; lia].
Qed.

Lemma cpp2R_from lm t e us w dim :
  below w e -> hblk (hp w) (hnext (hp w)) = Unused -> esize w e = Z.of_nat (length us) ->
  (forall i, (i < length us)%nat -> exists v,
      elem lm e (Z.of_nat i) w = (Done v, w) /\ cast (r_cell t) v = Done (nth i us (VB false))) ->
  Z.of_nat (length us) <= int_max ->
  exists w', (for_int (esize w e) (fun i => v <- elem lm e i ;; v' <- lift (cast (r_cell t) v) ;; wr (Some (hnext (hp w))) i v') ;;
      ret (mkR t (hnext (hp w)) dim)) (r_world w (Z.of_nat (length us))) = (Done (mkR t (hnext (hp w)) dim), w') /\
    r_got w w' (mkR t (hnext (hp w)) dim) t us dim /\ hnext (hp w') = S (hnext (hp w)) /\ hlim (hp w') = hlim (hp w).
Proof.
  intros W Fr Sz H Hm. destruct (copy_loop lm t e us w (length us) W H (le_n _) Hm) as [w' [cs [E [U [_ C]]]]].
  rewrite (C eq_refl) in U. exists w'. rewrite Sz. unfold for_int. rewrite Nat2Z.id.
  change (fun i : Z => _) with (put_elem lm t e (hnext (hp w))) at 1.
  rewrite (bind_done _ _ _ _ _ E). split; [reflexivity|].
  destruct U as [U1 [U2 [U3 [U4 U5]]]]. split; [|split; [exact U2|exact U3]]. unfold r_got. cbn [r_ty r_dim r_mem].
  split; [reflexivity|]. split; [reflexivity|]. split; [exact U4|]. split; [exact Fr|].
  split; [exact U1|]. intros a Ha. rewrite U5 by exact Ha. simpl.
  now replace (Nat.eqb a (hnext (hp w))) with false by (symmetry; now apply Nat.eqb_neq).
Qed.

Lemma cpp2R_flat lm t e rho us w : world_shape w -> env_of w rho e -> wf_expr rho e -> value_of lm rho (in_R t) e us ->
  eim w e = false -> Z.of_nat (length us) <= int_max -> Z.of_nat (length us) <= hlim (hp w) ->
  exists o w', cpp2R lm t e w = (Done o, w') /\ r_got w w' o t us None.
Proof.
  intros W EN F V Fl Hm HL. destruct (value_elems _ _ _ _ _ _ W EN F V) as [Sz El].
  destruct (cpp2R_from lm t e us w None (below_shape w e W) (ws_fresh _ W _ (le_n _)) Sz El Hm) as [w' [E [G _]]].
  exists (mkR t (hnext (hp w)) None), w'. split; [|exact G].
  unfold cpp2R. rewrite bind_get, Fl. unfold r_vector. rewrite bind_assoc. rewrite Sz at 1.
  rewrite (bind_done _ _ _ _ _ (r_new_done w _ HL)). exact E.
Qed.

Lemma to_int_id z : 0 <= z < 2 ^ 31 -> to_int z = z.
Proof.
  intros H. unfold to_int. rewrite Z.mod_small by lia. replace (z <? 2 ^ 31) with true; auto. symmetry. apply Z.ltb_lt. lia.
Qed.

Lemma cpp2R_matrix lm t e rho us w r c : world_shape w -> env_of w rho e -> wf_expr rho e -> value_of lm rho (in_R t) e us ->
  shaped w rho r c e -> 0 <= r < 2 ^ 31 -> 0 <= c < 2 ^ 31 ->
  Z.of_nat (length us) <= int_max -> Z.of_nat (length us) <= hlim (hp w) ->
  exists o w', cpp2R lm t e w = (Done o, w') /\ r_got w w' o t us (Some (r, c)).
Proof.
  intros W EN F V Sh Hr Hc Hm HL. destruct (value_elems _ _ _ _ _ _ W EN F V) as [Sz El].
  destruct (shaped_facts _ _ _ _ _ EN Sh) as [Im [R [C [Xs _]]]].
  assert (RC : r * c = Z.of_nat (length us)) by (destruct V as [L _]; lia).
  destruct (cpp2R_from lm t e us w (Some (r, c)) (below_shape w e W) (ws_fresh _ W _ (le_n _)) Sz El Hm) as [w' [E [G _]]].
  exists (mkR t (hnext (hp w)) (Some (r, c))), w'. split; [|exact G].
  unfold cpp2R. rewrite bind_get, Im, R, C. rewrite bind_assoc, bind_lift_done, bind_assoc, bind_lift_done.
  rewrite RC, wrap64_small by (unfold int_max in Hm; lia). rewrite Sz at 1. rewrite Z.eqb_refl.
  rewrite bind_assoc, bind_ass_true. unfold r_matrix. rewrite !to_int_id by auto.
  replace ((0 <=? r) && (0 <=? c)) with true by (symmetry; apply andb_true_intro; split; apply Z.leb_le; lia).
  rewrite bind_assoc, bind_ass_true, RC.
  replace (Z.of_nat (length us) <=? int_max) with true by (symmetry; now apply Z.leb_le).
  rewrite bind_assoc, bind_ass_true, bind_assoc. rewrite (bind_done _ _ _ _ _ (r_new_done w _ HL)). exact E.
Qed.

Lemma cpp2R_mismatch lm t e w r c : eim w e = true -> edim rows w e = Done r -> edim cols w e = Done c ->
  esize w e <> wrap64 (r * c) -> exists m, cpp2R lm t e w = (Thrown (Ass m), w).
Proof.
  intros Im R C N. unfold cpp2R. rewrite bind_get, Im, R, C. rewrite bind_assoc, bind_lift_done, bind_assoc, bind_lift_done.
  replace (esize w e =? wrap64 (r * c)) with false by (symmetry; now apply Z.eqb_neq).
  rewrite bind_assoc, bind_ass_false. eauto.
Qed.

Lemma forN_app {W} (f : Z -> M W unit) a : forall b i w w1, forN a i f w = (Done tt, w1) ->
  forN (a + b) i f w = forN b (i + Z.of_nat a) f w1.
Proof.
  induction a as [|a IH]; intros b i w w1 E; cbn [forN Nat.add] in *.
  - injection E as <-. now rewrite Z.add_0_r.
  - unfold bind in *. destruct (f i w) as [[[]| |] w2]; try discriminate.
    rewrite (IH b _ _ _ E). f_equal. lia.
Qed.

Lemma cpp2R_long lm t e rho us w : world_shape w -> env_of w rho e -> wf_expr rho e -> value_of lm rho (in_R t) e us ->
  eim w e = false -> int_max < Z.of_nat (length us) -> Z.of_nat (length us) <= hlim (hp w) ->
  fst (cpp2R lm t e w) = Undef UB_overflow.
Proof.
  intros W EN F V Fl Hm HL. destruct (value_elems _ _ _ _ _ _ W EN F V) as [Sz El].
  unfold cpp2R. rewrite bind_get, Fl. unfold r_vector. rewrite bind_assoc. rewrite Sz at 1.
  rewrite (bind_done _ _ _ _ _ (r_new_done w _ HL)). cbn [r_mem]. unfold bind at 1, ret at 1. cbn [r_mem].
  rewrite Sz. unfold for_int. rewrite Nat2Z.id.
  assert (Ex : exists k, Z.of_nat k = int_max) by (exists (Z.to_nat int_max); apply Z2Nat.id; unfold int_max; lia).
  destruct Ex as [k Hk].
  destruct (copy_loop lm t e us w k (below_shape w e W) ltac:(intros; apply El; lia) ltac:(lia) ltac:(lia)) as [w1 [cs [E1 [U [Lc _]]]]].
  assert (Sp : exists j, length us = (k + S j)%nat) by (exists (length us - k - 1)%nat; lia).
  destruct Sp as [j Hj].
  assert (Ef : fst (forN (length us) 0 (put_elem lm t e (hnext (hp w))) (r_world w (Z.of_nat (length us)))) = Undef UB_overflow).
  { rewrite Hj at 1. rewrite (forN_app _ k (S j) _ _ _ E1). cbn [forN]. rewrite Z.add_0_l.
    destruct (El k ltac:(lia)) as [v [Ev Cv]].
    assert (E2 : elem lm e (Z.of_nat k) w1 = (Done v, w1)).
    { apply pair_eta; [|apply elem_pure]. rewrite (elem_same lm w w1); [now rewrite Ev|].
      intros x Ix. eapply (upd_cells_b w _ w1 cs e); eauto using below_shape. }
    unfold put_elem at 1. rewrite bind_assoc. rewrite bind_assoc, (bind_done _ _ _ _ _ E2), Cv, bind_assoc, bind_lift_done.
    destruct U as [_ [_ [_ [U4 _]]]]. unfold wr.
    destruct (wrc_ok w1 (hnext (hp w)) (Z.of_nat k) (Some (nth k us (VB false))) _ _ U4) as [w2 [E3 _]]; [lia|].
    rewrite (bind_done _ _ _ _ _ E3), Hk. reflexivity. }
  unfold bind at 1.
  change (fun i : Z => _) with (put_elem lm t e (hnext (hp w))) at 1.
  destruct (forN (length us) 0 _ _) as [[]]; cbn in Ef |- *; congruence.
Qed.

(* ---------------------------------------------------------------- printing *)

Lemma show_done (f : Z -> M world val) (g : nat -> val) w : forall n i,
  (forall k, (i <= k < i + n)%nat -> f (Z.of_nat k) w = (Done (g k), w)) ->
  show_from n (Z.of_nat i) f w = (Done (map g (seq i n)), w).
Proof.
  induction n as [|n IH]; intros i H; [reflexivity|]. cbn [show_from seq map].
  rewrite (bind_done _ _ _ _ _ (H i ltac:(lia))).
  replace (Z.of_nat i + 1) with (Z.of_nat (S i)) by lia.
  rewrite (bind_done _ _ _ _ _ (IH (S i) ltac:(intros; apply H; lia))). reflexivity.
Qed.
Lemma lines_done (f : Z -> M world (list val)) (g : nat -> list val) w : forall n i,
  (forall k, (i <= k < i + n)%nat -> f (Z.of_nat k) w = (Done (g k), w)) ->
  lines_from n (Z.of_nat i) f w = (Done (map g (seq i n)), w).
Proof.
  induction n as [|n IH]; intros i H; [reflexivity|]. cbn [lines_from seq map].
  rewrite (bind_done _ _ _ _ _ (H i ltac:(lia))).
  replace (Z.of_nat i + 1) with (Z.of_nat (S i)) by lia.
  rewrite (bind_done _ _ _ _ _ (IH (S i) ltac:(intros; apply H; lia))). reflexivity.
Qed.
Lemma seq_nth_all {A} (l : list A) d : map (fun i => nth i l d) (seq 0 (length l)) = l.
Proof.
  apply nth_ext with (d := d) (d' := d); [now rewrite map_length, seq_length|]. intros i Hi.
  rewrite map_length, seq_length in Hi.
  rewrite (nth_indep _ d (nth 0 l d)) by (now rewrite map_length, seq_length).
  rewrite (map_nth (fun i => nth i l d) (seq 0 (length l)) 0%nat). now rewrite seq_nth.
Qed.

Lemma print_flat lm w e us : eim w e = false -> yields lm w e us -> print_ lm e w = (Done [map (read e) us], w).
Proof.
  intros Fl [Sz El]. unfold print_. rewrite bind_get, Fl, Sz, Nat2Z.id.
  rewrite (bind_done _ _ _ _ _ (show_done (vat lm e) (fun i => read e (nth i us (VB false))) w (length us) 0 ltac:(intros; apply vat_done, El; lia))).
  now rewrite <- (map_map (fun i => nth i us (VB false)) (read e)), seq_nth_all.
Qed.

Lemma print_matrix lm w e us (r c : nat) : eim w e = true -> edim rows w e = Done (Z.of_nat r) -> edim cols w e = Done (Z.of_nat c) ->
  yields lm w e us -> length us = (r * c)%nat -> Z.of_nat (length us) < 2 ^ 64 ->
  print_ lm e w = (Done (map (fun i => map (fun j => read e (nth (j * r + i) us (VB false))) (seq 0 c)) (seq 0 r)), w).
Proof.
  intros Im R C [Sz El] L B. unfold print_. rewrite bind_get, Im, R, bind_lift_done, Nat2Z.id.
  apply (lines_done _ _ w r 0). intros i Hi. rewrite C, bind_lift_done, Nat2Z.id.
  apply (show_done _ _ w c 0). intros j Hj.
  assert (Hx : (j * r + i < length us)%nat) by (rewrite L; nia).
  rewrite wrap64_small by nia. replace (Z.of_nat j * Z.of_nat r + Z.of_nat i) with (Z.of_nat (j * r + i)) by lia.
  now apply vat_done, El.
Qed.

Lemma concat_nth {A} (d : A) r : forall (ls : list (list A)) j i, Forall (fun l => length l = r) ls -> (i < r)%nat ->
  (j < length ls)%nat -> nth (j * r + i) (List.concat ls) d = nth i (nth j ls []) d.
Proof.
  induction ls as [|l ls IH]; intros j i F Hi Hj; [cbn in Hj; lia|]. inversion F; subst.
  cbn [List.concat]. destruct j as [|j].
  - cbn [Nat.mul Nat.add nth]. now apply app_nth1.
  - rewrite app_nth2 by nia. replace (S j * length l + i - length l)%nat with (j * length l + i)%nat by nia.
    cbn [nth]. apply IH; auto. cbn in Hj. lia.
Qed.
Lemma concat_len {A} r : forall (ls : list (list A)), Forall (fun l => length l = r) ls -> length (List.concat ls) = (r * length ls)%nat.
Proof. induction 1 as [|l ls H _ IH]; cbn [List.concat length]; [lia|]. rewrite app_length, H, IH. nia. Qed.

Lemma rows_cols {A} (d : A) r (cols : list (list A)) : Forall (fun l => length l = r) cols ->
  map (fun i => map (fun j => nth (j * r + i) (List.concat cols) d) (seq 0 (length cols))) (seq 0 r) =
  map (fun i => map (fun col => nth i col d) cols) (seq 0 r).
Proof.
  intros F. apply map_ext_in. intros i Hi. apply in_seq in Hi.
  transitivity (map (fun j => nth i (nth j cols []) d) (seq 0 (length cols))).
  - apply map_ext_in. intros j Hj. apply in_seq in Hj. apply concat_nth; auto; lia.
  - rewrite <- (seq_nth_all cols []) at 2. rewrite map_map. reflexivity.
Qed.
