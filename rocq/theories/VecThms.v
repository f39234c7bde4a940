From Coq Require Import ZArith List String Bool Lia.
From Verif Require Import Base Num StoreModel VecModel Spec SpecExpr SpecHist SpecProg SpecVec CapProofs
  StoreProofs StoreOps VecProofs VecAssign VecEval.
Import ListNotations.
Open Scope Z_scope.

(* ------------------------------------------------------------- shapes *)

Lemma flat_im w e : flat w e -> eim w e = false.
Proof.
  induction 1; cbn [eim]; auto.
  rewrite IHflat1, IHflat2. destruct (is_sca l), (is_sca r); reflexivity.
Qed.

Lemma shaped_facts w rho r c e : env_of w rho e -> shaped w rho r c e ->
  eim w e = true /\ edim rows w e = Done r /\ edim cols w e = Done c /\ xsize rho e = r * c /\ is_sca e = false.
Proof.
  intros EN H. induction H; cbn [eim edim xsize is_sca]; auto.
  - destruct H as [M Z]. rewrite M. simpl. repeat split; auto.
    destruct (EN x) as [S _]; [now left|]. congruence.
  - assert (E1 : env_of w rho l) by (intros y Hy; apply EN; simpl; apply in_or_app; auto).
    assert (E2 : env_of w rho e) by (intros y Hy; apply EN; simpl; apply in_or_app; auto).
    destruct (IHshaped1 E1) as [A1 [A2 [A3 [A4 A5]]]], (IHshaped2 E2) as [B1 [B2 [B3 [B4 B5]]]].
    rewrite A1, B1, A2, B2, A3, B3, A5, B5. cbn [orb andb obind].
    rewrite !Z.ltb_irrefl. repeat split; auto. lia.
  - assert (E1 : env_of w rho l) by (intros y Hy; apply EN; simpl; apply in_or_app; auto).
    destruct (IHshaped E1) as [A1 [A2 [A3 [A4 A5]]]]. pose proof (flat_im _ _ H0) as F.
    rewrite A1, F, A2, A3, A5. cbn [orb andb negb]. destruct (is_sca e); repeat split; auto; lia.
  - assert (E2 : env_of w rho e) by (intros y Hy; apply EN; simpl; apply in_or_app; auto).
    destruct (IHshaped E2) as [A1 [A2 [A3 [A4 A5]]]]. pose proof (flat_im _ _ H) as F.
    rewrite A1, F, A2, A3, A5. cbn [orb andb negb]. destruct (is_sca l); repeat split; auto; lia.
Qed.

Lemma shape_shaped w rho r c e old : env_of w rho e -> shaped w rho r c e -> shape_of w e old = mkMP true r c.
Proof.
  intros EN H. destruct (shaped_facts _ _ _ _ _ EN H) as [A [B [C _]]]. unfold shape_of. now rewrite A, B, C.
Qed.
Lemma shape_flat w e old : flat w e -> shape_of w e old = old.
Proof. intros H. unfold shape_of. now rewrite (flat_im _ _ H). Qed.

Lemma assign_matrix lm w x e rho us r c :
  world_ok w -> owning w x -> small w x -> can_assign w x -> env_of w rho e -> wf_expr rho e ->
  1 <= xsize rho e <= max_len -> fits w (xsize rho e) ->
  value_of lm rho (sty (ob w (OD x))) e us -> shaped w rho r c e ->
  exists w', assign lm x e w = (Done tt, w') /\ vholds w' x us /\ is_matrix w' x r c.
Proof.
  intros WO OW SM CA EN WF N Ft V SH.
  destruct (assign_buffer_done lm w x e rho us WO OW SM CA EN WF N Ft V) as
    [w' [E [VS [WO' [H [OW' [P1 [P2 [T [M S']]]]]]]]]].
  exists w'. split; [exact E|]. split; [exact H|]. split.
  - rewrite M. eapply shape_shaped; eauto.
  - destruct (shaped_facts _ _ _ _ _ EN SH) as [_ [_ [_ [X _]]]].
    destruct H as [S _]. destruct V as [L _]. lia.
Qed.

Lemma assign_flat lm w x e rho us :
  world_ok w -> owning w x -> small w x -> can_assign w x -> env_of w rho e -> wf_expr rho e ->
  1 <= xsize rho e <= max_len -> fits w (xsize rho e) ->
  value_of lm rho (sty (ob w (OD x))) e us -> flat w e ->
  exists w', assign lm x e w = (Done tt, w') /\ vholds w' x us /\ mp (ob w' (OD x)) = mp (ob w (OD x)).
Proof.
  intros WO OW SM CA EN WF N Ft V SH.
  destruct (assign_buffer_done lm w x e rho us WO OW SM CA EN WF N Ft V) as
    [w' [E [VS [WO' [H [OW' [P1 [P2 [T [M S']]]]]]]]]].
  exists w'. split; [exact E|]. split; [exact H|]. rewrite M. now apply shape_flat.
Qed.

(** A mathematical function never makes its target a matrix. *)
Lemma assign_unary lm w x op e rho us :
  world_ok w -> owning w x -> small w x -> can_assign w x -> env_of w rho e -> wf_expr rho e ->
  1 <= xsize rho e <= max_len -> fits w (xsize rho e) ->
  value_of lm rho (sty (ob w (OD x))) (EUn op e) us ->
  exists w', assign lm x (EUn op e) w = (Done tt, w') /\ vholds w' x us /\
    mp (ob w' (OD x)) = mp (ob w (OD x)).
Proof.
  intros WO OW SM CA EN WF N Ft V.
  destruct (assign_buffer_done lm w x (EUn op e) rho us WO OW SM CA EN) as
    [w' [E [VS [WO' [H [OW' [P1 [P2 [T [M S']]]]]]]]]]; auto.
  { split; [exact WF|]. cbn [xsize] in *. lia. }
  exists w'. split; [exact E|]. split; [exact H|]. rewrite M. reflexivity.
Qed.

(* ----------------------------------------------------------- operations *)

Lemma elem_eq lm e i w : elem lm e i w = (fst (elem lm e i w), w).
Proof. rewrite <- (elem_pure lm e i w) at 3. destruct (elem lm e i w); reflexivity. Qed.

Lemma elem_sca lm e i j w : is_sca e = true -> elem lm e i w = elem lm e j w.
Proof. destruct e; simpl; congruence. Qed.

Lemma recycle lm w op l r : 1 <= esize w l -> 1 <= esize w r ->
  esize w (EBin op l r) = Z.max (esize w l) (esize w r) /\
  forall i, 0 <= i -> elem lm (EBin op l r) i w =
    (a <-o fst (elem lm l (i mod esize w l) w) ;; b <-o fst (elem lm r (i mod esize w r) w) ;; bin_f lm op a b, w).
Proof.
  intros L R. split.
  - cbn [esize]. assert (S1 : is_sca l = true -> esize w l = 1) by (destruct l; simpl; congruence).
    assert (S2 : is_sca r = true -> esize w r = 1) by (destruct r; simpl; congruence).
    destruct (is_sca l), (is_sca r); cbn [andb]; try specialize (S1 eq_refl); try specialize (S2 eq_refl); try lia.
    destruct (Z.ltb_spec (esize w r) (esize w l)); lia.
  - intros i Hi. cbn [elem]. rewrite bind_get.
    assert (G : forall e, 1 <= esize w e -> (if is_sca e then elem lm e 0
            else k <- lift (modz i (esize w e)) ;; elem lm e k) w = (fst (elem lm e (i mod esize w e) w), w)).
    { intros e He. destruct (is_sca e) eqn:S.
      - rewrite (elem_sca lm e 0 (i mod esize w e)) by auto. apply elem_eq.
      - rewrite modz_pos, bind_lift_done by lia. apply elem_eq. }
    unfold bind at 1. rewrite (G l L).
    destruct (fst (elem lm l (i mod esize w l) w)); simpl; auto.
    unfold bind at 1. rewrite (G r R).
    destruct (fst (elem lm r (i mod esize w r) w)); simpl; auto.
Qed.

(* ------------------------------------------------------------ iteration *)

Lemma walk_cells w a own cs l : hblk (hp w) a = Live own cs ->
  forall i, 0 <= i -> (forall k, (k < List.length l)%nat -> nth (Z.to_nat i + k) cs None = Some (nth k l (VB false))) ->
  walk (Some a) i (List.length l) w = (Done l, w).
Proof.
  intros B. induction l as [|v l IH]; intros i Hi H; cbn [walk List.length]; [reflexivity|].
  assert (R : rd (Some a) i w = (Done v, w)).
  { eapply rd_ok; eauto. specialize (H 0%nat). rewrite Nat.add_0_r in H. apply H. simpl. lia. }
  rewrite (bind_done _ _ _ _ _ R). erewrite bind_done; [reflexivity|]. apply IH; [lia|].
  intros k Hk. specialize (H (S k)). cbn [nth] in H. rewrite <- H by (simpl; lia). f_equal. lia.
Qed.

Lemma iterate_vec_holds w x l : world_shape w -> vholds w x l -> iterate_vec x w = (Done l, w).
Proof.
  intros W H. unfold iterate_vec. rewrite bind_st. pose proof (proj1 H) as S. rewrite S, Nat2Z.id.
  destruct l as [|v l]; [reflexivity|].
  destruct (shape_ptr w (OD x) W) as [a P]; [simpl in S; lia|]. rewrite P.
  destruct (ptr_live _ _ _ W P) as [cs [B _]].
  apply (walk_cells w a _ cs (v :: l) B); [lia|]. intros k Hk. simpl Z.to_nat. rewrite Nat.add_0_l.
  rewrite <- (cells_of_ptr w (OD x) a _ cs P B). now apply holds_in.
Qed.

Lemma nth_first {A} (d : A) l n k : (k < n)%nat -> nth k (firstn n l) d = nth k l d.
Proof. revert n k; induction l as [|b l IH]; intros [|n] [|k]; simpl; auto; try lia. intros. apply IH. lia. Qed.

Lemma iterate_sub_holds w x l ind : world_shape w -> vholds w x l -> (List.length ind <= List.length l)%nat ->
  iterate_sub x ind w = (Done (firstn (List.length ind) l), w).
Proof.
  intros W H L. unfold iterate_sub. rewrite bind_st. pose proof (proj1 H) as S.
  destruct ind as [|j ind]; [reflexivity|].
  destruct (shape_ptr w (OD x) W) as [a P]; [simpl in *; lia|]. rewrite P.
  destruct (ptr_live _ _ _ W P) as [cs [B _]].
  set (n := List.length (j :: ind)) in *.
  assert (LF : List.length (firstn n l) = n) by (rewrite firstn_length; lia).
  rewrite <- LF at 1.
  apply (walk_cells w a _ cs _ B); [lia|]. intros k Hk. rewrite LF in Hk. simpl Z.to_nat. rewrite Nat.add_0_l.
  rewrite <- (cells_of_ptr w (OD x) a _ cs P B).
  rewrite (holds_in w (OD x) l k W H) by lia. f_equal.
  symmetry. now apply nth_first.
Qed.

Lemma reads_pure lm e i w : snd (elem lm e i w) = w /\ snd (to_scalar lm e w) = w.
Proof.
  split; [apply elem_pure|]. unfold to_scalar, vat, bind. pose proof (elem_pure lm e 0 w) as P.
  destruct (elem lm e 0 w) as [[v|x|u] w1]; exact P.
Qed.
Lemma walk_pure p n : forall i w, snd (walk p i n w) = w.
Proof.
  induction n as [|n IH]; intros i w; cbn [walk]; [reflexivity|].
  assert (R : snd (rd p i w) = w).
  { unfold rd. destruct p as [a|]; [|reflexivity]. destruct (hblk (hp w) a); try reflexivity.
    repeat match goal with |- context [if ?b then _ else _] => destruct b end; try reflexivity.
    destruct (nth _ _ _); reflexivity. }
  unfold bind at 1. destruct (rd p i w) as [[v| |] w1]; simpl in R; subst w1; auto.
  unfold bind at 1. specialize (IH (i + 1) w). destruct (walk p (i + 1) n w) as [[vs| |] w2]; simpl in *; auto.
Qed.
Lemma iterate_pure x ind w : snd (iterate_vec x w) = w /\ snd (iterate_sub x ind w) = w /\ snd (vec_back x w) = w.
Proof.
  unfold iterate_vec, iterate_sub, vec_back. rewrite !bind_st. split; [|split]; try apply walk_pure.
  unfold rd. destruct (ptr (ob w (OD x))) as [a|]; [|reflexivity]. destruct (hblk (hp w) a); try reflexivity.
  repeat match goal with |- context [if ?b then _ else _] => destruct b end; try reflexivity.
  destruct (nth _ _ _); reflexivity.
Qed.

(* ----------------------------------------------------------------- frame *)

(** Whatever the expression and however the assignment ends (short of
    undefined behaviour), no other vector changes. *)
Lemma assign_frame lm w x e r w' : world_shape w -> owning w x -> esize w e <= 2 ^ 64 ->
  assign lm x e w = (r, w') -> (forall u, r <> Undef u) ->
  forall o, o <> OD x -> o <> OT x -> same_obj w w' o.
Proof.
  intros W [K1 K2] Hs H NU o N1 N2.
  unfold assign in H. rewrite bind_st, K1 in H. unfold assign_buffer in H. rewrite bind_get in H.
  destruct (resize_cases w (OT x) (esize w e) W K2 Hs) as
    [c w1 E1 N C Bc R|m E1 _|m E1 _ _ _|w1 E1 _ _ Oth _ _ _ _|w1 E1 _].
  - rewrite (bind_done _ _ _ _ _ E1) in H.
    destruct R as [ST1 [Kt [Tt [Mt [Dt [St [At [Pt [Ct Rest]]]]]]]]].
    destruct (ptr (ob w1 (OT x))) as [a|] eqn:Pa; [clear Pt|congruence].
    destruct (ptr_live _ _ _ (s1_shape _ _ _ ST1) Pa) as [cs [B _]].
    assert (Ow : owner_of (ob w1 (OT x)) = OwnCpp) by (unfold owner_of; now rewrite Kt).
    rewrite Ow in B.
    destruct (fill_temp_any lm (OT x) (sty (ob w (OD x))) e (esize w e) w1 a cs Pa B) as [cs' [U L]].
    assert (S2 : same_obj w (snd (fill_temp lm (OT x) (sty (ob w (OD x))) e (esize w e) w1)) o).
    { eapply same_obj_trans; [apply (s1_other _ _ _ ST1); congruence|].
      apply (upd_cells_other w1 _ (OT x) a cs cs'); auto; [apply ST1|split; auto]. }
    unfold bind at 1 in H.
    destruct (fill_temp lm (OT x) (sty (ob w (OD x))) e (esize w e) w1) as [[[]|ex'|u] w2]; simpl in S2.
    + unfold moveit in H. rewrite bind_assoc, bind_st, bind_assoc, bind_st, bind_assoc, !bind_upd in H.
      rewrite take_shape_done in H.
      eapply same_obj_trans; [exact S2|]. injection H as _ <-.
      match goal with |- same_obj _ (if ?b then _ else _) _ => destruct b end; split; simpl; auto;
        rewrite ?oid_eqb_neq by auto; auto.
    + injection H as _ <-. exact S2.
    + injection H as <- _. now destruct (NU u).
  - rewrite (bind_thrown _ _ _ _ _ E1) in H. injection H as _ <-. apply same_obj_refl.
  - rewrite (bind_thrown _ _ _ _ _ E1) in H. injection H as _ <-. apply same_obj_refl.
  - rewrite (bind_thrown _ _ _ _ _ E1) in H. injection H as _ <-. apply Oth. congruence.
  - rewrite (bind_undef _ _ _ _ _ E1) in H. injection H as <- _. now destruct (NU UB_cast).
Qed.

Lemma same_holds w w' o l : same_obj w w' o -> holds w o l -> holds w' o l.
Proof. apply holds_same. Qed.

(** Out of memory in an assignment. *)
Lemma assign_no_memory lm w x e : world_shape w -> owning w x -> ptr (ob w (OT x)) <> None ->
  1 <= esize w e <= 2 ^ 62 -> cap (ob w (OT x)) < esize w e -> hlim (hp w) < esize w e ->
  exists w', assign lm x e w = (Thrown BadAlloc, w') /\ (forall y, same_obj w w' (OD y)) /\
    fst (vec_destroy x w') = Undef UB_double_free.
Proof.
  intros W [K1 K2] P N C L.
  pose proof (ws_store _ W (OT x)) as S. unfold store_shape in S.
  destruct (ptr (ob w (OT x))) as [a|] eqn:Pa; [|congruence]. destruct S as [_ [_ [A _]]].
  destruct (resize_cases w (OT x) (esize w e) W K2) as
    [c w1 E1 N1 C1 Bc R|m E1 X|m E1 _ _ X|w1 E1 _ _ Oth Pq Kq Aq Fr|w1 E1 X]; try lia; try congruence.
  - exfalso. destruct R as [ST1 [Kt [Tt [Mt [Dt [St [At [Pt [Ct Rest]]]]]]]]].
    destruct (ptr (ob w1 (OT x))) as [b|] eqn:Pb; [|congruence].
    destruct (ptr_live _ _ _ (s1_shape _ _ _ ST1) Pb) as [cs [B [B1 B2]]].
    assert (Ow : owner_of (ob w1 (OT x)) = OwnCpp) by (unfold owner_of; now rewrite Kt).
    rewrite Ow in B. destruct (ws_len _ (s1_shape _ _ _ ST1) _ _ _ B) as [_ L2].
    specialize (L2 eq_refl). rewrite (s1_lim _ _ _ ST1) in L2. lia.
  - exists w1. split; [|split].
    + unfold assign. rewrite bind_st, K1. unfold assign_buffer. rewrite bind_get.
      apply bind_thrown. exact E1.
    + intros y. apply Oth. congruence.
    + unfold vec_destroy, any_destroy, bind, st. cbn. rewrite Kq.
      unfold destroy, bind, st. cbn. rewrite Pq, Aq, A, Pa. cbn. unfold del. rewrite (Fr a Pa). reflexivity.
Qed.
