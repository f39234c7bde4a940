(** Derivative mode: evaluation of right-hand sides and assignments. *)
From Coq Require Import ZArith List String Bool Lia Arith.
From Verif Require Import Base Num StoreModel VecModel Spec CapProofs StoreProofs StoreOps SpecExpr
  VecProofs VecAssign FloatBridge DerivModel SpecDeriv DerivProofs.
Import ListNotations.
Open Scope Z_scope.
Local Notation length := List.length (only parsing).

(** What getDeriv computes, on lists. *)
Fixpoint lder (lm : libm) (i : nat) (env : senv) (e : dexpr) : flt :=
  match e with
  | DVar x => lane i (ders env x)
  | DCon _ _ _ => fzero
  | DPlus l r => fadd (lder lm i env l) (lder lm i env r)
  | DMinus l r => fsub (lder lm i env l) (lder lm i env r)
  | DTimes l r => fadd (fmul (lder lm i env l) (lval lm i env r)) (fmul (lder lm i env r) (lval lm i env l))
  | DDivide l r =>
      if is_const_type r then fdiv (lder lm i env l) (lval lm i env r)
      else fdiv (fsub (fmul (lder lm i env l) (lval lm i env r)) (fmul (lval lm i env l) (lder lm i env r)))
             (lm_pow lm (lder lm i env r) (i2f 2))
  | DCmp _ _ _ => fzero
  | DSin e => if is_leaf e then lm_un lm FCos (lval lm i env e) else lm_un lm FCos (lder lm i env e)
  end.

Lemma ring_lder lm i env e : ringx e -> lder lm i env e = fwd lm i env e.
Proof.
  induction e; cbn [ringx lder fwd]; intros H; auto.
  - destruct H as [H1 [H2 _]]. now rewrite IHe1, IHe2.
  - destruct H as [H1 [H2 _]]. now rewrite IHe1, IHe2.
  - destruct H as [H1 [H2 _]]. now rewrite IHe1, IHe2.
  - destruct e2; try contradiction. destruct ct; [|contradiction]. cbn [is_const_type lval]. now rewrite IHe1.
  - contradiction.
Qed.
Lemma ring_plain e : ringx e -> plainx e.
Proof.
  induction e; cbn [ringx plainx]; intros H; auto; try tauto.
  destruct e2; try contradiction. destruct ct; [|contradiction]. split; auto. split; [exact I|]. apply andb_false_r.
Qed.

(** The value of a right-hand side: comparisons have the type bool. *)
Definition dv (lm : libm) (i : nat) (env : senv) (e : dexpr) : val :=
  match e with
  | DCmp op l r => VB (says op (lval lm i env l) (lval lm i env r))
  | _ => VD (lval lm i env e)
  end.
Lemma dv_f lm i env e : v2f (dv lm i env e) = lval lm i env e.
Proof. destruct e; try reflexivity. cbn [dv lval v2f]. now destruct (says _ _ _). Qed.
Lemma dv_cast lm i env e : cast TDouble (dv lm i env e) = Done (VD (lval lm i env e)).
Proof. rewrite <- dv_f. now destruct (dv lm i env e). Qed.
Lemma dv_num lm i env e : cmpx e = false -> dv lm i env e = VD (lval lm i env e).
Proof. now destruct e. Qed.
Lemma dv_arith lm i env l r zop fop : cmpx l && cmpx r = false ->
  arith zop fop (dv lm i env l) (dv lm i env r) = Done (VD (fop (lval lm i env l) (lval lm i env r))).
Proof.
  intros H. rewrite <- !dv_f. apply andb_false_iff in H. destruct H as [H|H].
  - rewrite (dv_num _ _ _ _ H). reflexivity.
  - rewrite (dv_num _ _ _ _ H). unfold arith. now destruct (v2z _).
Qed.
Lemma dv_common lm i env l r : cmpx l && cmpx r = false ->
  common (ty_of (dv lm i env l)) (ty_of (dv lm i env r)) = TDouble.
Proof.
  intros H. apply andb_false_iff in H. destruct H as [H|H]; rewrite (dv_num _ _ _ _ H); [reflexivity|].
  now destruct l.
Qed.
Lemma dv_bin lm i env op l r : cmpx l && cmpx r = false ->
  match op with
  | OPlus => bin_f lm op (dv lm i env l) (dv lm i env r) = Done (VD (fadd (lval lm i env l) (lval lm i env r)))
  | OMinus => bin_f lm op (dv lm i env l) (dv lm i env r) = Done (VD (fsub (lval lm i env l) (lval lm i env r)))
  | OTimes => bin_f lm op (dv lm i env l) (dv lm i env r) = Done (VD (fmul (lval lm i env l) (lval lm i env r)))
  | ODiv => bin_f lm op (dv lm i env l) (dv lm i env r) = Done (VD (fdiv (lval lm i env l) (lval lm i env r)))
  | OPow => True
  | _ => bin_f lm op (dv lm i env l) (dv lm i env r) = Done (VB (says op (lval lm i env l) (lval lm i env r)))
  end.
Proof.
  intros H. destruct op; auto; cbn [bin_f].
  1-3: unfold trait_arith; rewrite (dv_arith _ _ _ _ _ _ _ H), (dv_common _ _ _ _ _ H); reflexivity.
  - unfold trait_div. now rewrite !dv_f.
  - unfold trait_eq. now rewrite (dv_arith _ _ _ _ _ _ _ H).
  - unfold compare_vals. rewrite !dv_f. apply andb_false_iff in H. destruct H as [H|H]; rewrite (dv_num _ _ _ _ H); cbn [v2z says]; auto. now destruct (v2z _).
  - unfold compare_vals. rewrite !dv_f. apply andb_false_iff in H. destruct H as [H|H]; rewrite (dv_num _ _ _ _ H); cbn [v2z says]; auto. now destruct (v2z _).
  - unfold compare_vals. rewrite !dv_f. apply andb_false_iff in H. destruct H as [H|H]; rewrite (dv_num _ _ _ _ H); cbn [v2z says]; auto. now destruct (v2z _).
  - unfold compare_vals. rewrite !dv_f. apply andb_false_iff in H. destruct H as [H|H]; rewrite (dv_num _ _ _ _ H); cbn [v2z says]; auto. now destruct (v2z _).
  - unfold trait_ne. now rewrite (dv_arith _ _ _ _ _ _ _ H).
Qed.
Lemma dv_times lm i env l r a b : cmpx l && cmpx r = false ->
  times_der (dv lm i env l) (dv lm i env r) (VD a) (VD b)
  = Done (VD (fadd (fmul a (lval lm i env r)) (fmul b (lval lm i env l)))).
Proof.
  intros H. unfold times_der. rewrite (dv_common _ _ _ _ _ H). rewrite <- !dv_f.
  unfold ar_mul, ar_add, arith. cbn [v2z v2f]. reflexivity.
Qed.
Lemma dv_divide lm i env l r a b : cmpx l && cmpx r = false ->
  divide_der lm (dv lm i env l) (dv lm i env r) (VD a) (VD b)
  = Done (VD (fdiv (fsub (fmul a (lval lm i env r)) (fmul (lval lm i env l) b)) (lm_pow lm b (i2f 2)))).
Proof.
  intros H. unfold divide_der. rewrite (dv_common _ _ _ _ _ H). rewrite <- !dv_f.
  unfold ar_mul, ar_sub, arith. cbn [v2z v2f]. destruct (v2z (dv lm i env l)); reflexivity.
Qed.
Lemma dv_divide_const lm i env l r a b : cmpx l && cmpx r = false ->
  divide_const_der (dv lm i env l) (dv lm i env r) (VD a) (VD b) = Done (VD (fdiv a (lval lm i env r))).
Proof.
  intros H. unfold divide_const_der. rewrite (dv_common _ _ _ _ _ H). now rewrite <- !dv_f.
Qed.

(** The operands of e hold what env says. *)
Definition reads (w : world) (env : senv) (e : dexpr) : Prop :=
  (forall x, In x (dvars e) -> vals env x <> [] /\ holds w (OD (vslot x)) (map VD (vals env x))) /\
  (forall k l, In (k, l) (dcons e) -> l <> [] /\ holds w (OD (kslot k)) (map VD l)).

Lemma reads_two w env (l r : dexpr) :
  (forall x, In x (dvars l ++ dvars r) -> vals env x <> [] /\ holds w (OD (vslot x)) (map VD (vals env x))) /\
  (forall k c, In (k, c) (dcons l ++ dcons r) -> c <> [] /\ holds w (OD (kslot k)) (map VD c)) ->
  reads w env l /\ reads w env r.
Proof.
  intros [A B]. split; split.
  - intros x H. apply A. apply in_or_app. auto.
  - intros k c H. apply (B k c). apply in_or_app. auto.
  - intros x H. apply A. apply in_or_app. auto.
  - intros k c H. apply (B k c). apply in_or_app. auto.
Qed.

Lemma at_rd_lane w o l i : holds w o (map VD l) -> l <> [] ->
  at_rd o (Z.of_nat (i mod length l)) w = (Done (VD (lane i l)), w).
Proof.
  intros [A B] Ne.
  assert (L : (i mod length l < length l)%nat) by (apply Nat.mod_upper_bound; destruct l; [congruence|simpl; lia]).
  rewrite B by now rewrite map_length. rewrite nth_vd by exact L. reflexivity.
Qed.

Lemma leaf_val_done d s l i : holds (dw d) (OD s) (map VD l) -> l <> [] ->
  leaf_val s (Z.of_nat i) d = (Done (VD (lane i l)), d).
Proof.
  intros H Ne. pose proof (proj1 H) as Sz. rewrite map_length in Sz.
  assert (0 < length l)%nat by (destruct l; [congruence|simpl; lia]).
  unfold leaf_val. rewrite dbind_get, Sz. rewrite modz_pos by lia. rewrite dbind_lift.
  rewrite <- Nat2Z.inj_mod. unfold inw. rewrite at_rd_lane by auto. now destruct d.
Qed.

Lemma dval_done lm env e i d : plainx e -> reads (dw d) env e ->
  dval lm e (Z.of_nat i) d = (Done (dv lm i env e), d).
Proof.
  induction e; cbn [plainx dval]; intros P H.
  - destruct (proj1 H x) as [Ne Hx]; [now left|]. now apply leaf_val_done.
  - destruct (proj2 H k l) as [Ne Hx]; [now left|]. now apply leaf_val_done.
  - apply reads_two in H. destruct P as [P1 [P2 N]], H as [H1 H2].
    rewrite (bind_done _ _ _ _ _ (IHe1 P1 H1)), (bind_done _ _ _ _ _ (IHe2 P2 H2)). now rewrite (dv_bin lm i env OPlus _ _ N).
  - apply reads_two in H. destruct P as [P1 [P2 N]], H as [H1 H2].
    rewrite (bind_done _ _ _ _ _ (IHe1 P1 H1)), (bind_done _ _ _ _ _ (IHe2 P2 H2)). now rewrite (dv_bin lm i env OMinus _ _ N).
  - apply reads_two in H. destruct P as [P1 [P2 N]], H as [H1 H2].
    rewrite (bind_done _ _ _ _ _ (IHe1 P1 H1)), (bind_done _ _ _ _ _ (IHe2 P2 H2)). now rewrite (dv_bin lm i env OTimes _ _ N).
  - apply reads_two in H. destruct P as [P1 [P2 N]], H as [H1 H2].
    rewrite (bind_done _ _ _ _ _ (IHe1 P1 H1)), (bind_done _ _ _ _ _ (IHe2 P2 H2)). now rewrite (dv_bin lm i env ODiv _ _ N).
  - apply reads_two in H. destruct P as [P1 [P2 [N C]]], H as [H1 H2].
    rewrite (bind_done _ _ _ _ _ (IHe1 P1 H1)), (bind_done _ _ _ _ _ (IHe2 P2 H2)).
    pose proof (dv_bin lm i env op _ _ N) as B. destruct op; try discriminate; now rewrite B.
  - destruct P as [P N]. rewrite (bind_done _ _ _ _ _ (IHe P H)). now rewrite (dv_num _ _ _ _ N).
Qed.

(** Sizes. *)
Lemma not_sca e : is_sca (to_expr e) = false.
Proof. now destruct e. Qed.

Lemma esize_dlen w env e : plainx e -> reads w env e ->
  esize w (to_expr e) = Z.of_nat (dlen env e) /\ dsize w e = Z.of_nat (dlen env e).
Proof.
  assert (Two : forall l r, (esize w (to_expr l) = Z.of_nat (dlen env l) /\ dsize w l = Z.of_nat (dlen env l)) ->
    (esize w (to_expr r) = Z.of_nat (dlen env r) /\ dsize w r = Z.of_nat (dlen env r)) ->
    (if esize w (to_expr r) <? esize w (to_expr l) then esize w (to_expr l) else esize w (to_expr r))
      = Z.of_nat (Nat.max (dlen env l) (dlen env r)) /\
    (if dsize w r <? dsize w l then dsize w l else dsize w r) = Z.of_nat (Nat.max (dlen env l) (dlen env r))).
  { intros l r [-> ->] [-> ->]. destruct (Z.ltb_spec (Z.of_nat (dlen env r)) (Z.of_nat (dlen env l))); split; lia. }
  induction e; cbn [plainx dlen dsize to_expr esize]; intros P H; rewrite ?not_sca; cbn [andb];
    try (apply reads_two in H; destruct P as [P1 [P2 _]], H; apply Two; now auto); try tauto.
  - destruct (proj1 H x) as [Ne Hx]; [now left|]. destruct Hx as [E _]. rewrite map_length in E. auto.
  - destruct (proj2 H k l) as [Ne Hx]; [now left|]. destruct Hx as [E _]. rewrite map_length in E. auto.
Qed.

Lemma dlen_aligned env n e : (1 <= n)%nat -> aligned env n e -> dlen env e = 1%nat \/ dlen env e = n.
Proof.
  intros Hn. assert (Two : forall a b, (a = 1 \/ a = n)%nat -> (b = 1 \/ b = n)%nat ->
    (Nat.max a b = 1 \/ Nat.max a b = n)%nat) by (intros; lia).
  induction e; intros [A B]; cbn [dlen dvars dcons] in *.
  - apply A. now left.
  - apply (B k). now left.
  - apply Two; [apply IHe1|apply IHe2]; split; intros; [apply A|apply (B k)|apply A|apply (B k)]; apply in_or_app; auto.
  - apply Two; [apply IHe1|apply IHe2]; split; intros; [apply A|apply (B k)|apply A|apply (B k)]; apply in_or_app; auto.
  - apply Two; [apply IHe1|apply IHe2]; split; intros; [apply A|apply (B k)|apply A|apply (B k)]; apply in_or_app; auto.
  - apply Two; [apply IHe1|apply IHe2]; split; intros; [apply A|apply (B k)|apply A|apply (B k)]; apply in_or_app; auto.
  - apply Two; [apply IHe1|apply IHe2]; split; intros; [apply A|apply (B k)|apply A|apply (B k)]; apply in_or_app; auto.
  - apply IHe. split; auto.
Qed.

Lemma aligned_two env n (l r : dexpr) :
  (forall x, In x (dvars l ++ dvars r) -> length (vals env x) = 1%nat \/ length (vals env x) = n) /\
  (forall k c, In (k, c) (dcons l ++ dcons r) -> length c = 1%nat \/ length c = n) ->
  aligned env n l /\ aligned env n r.
Proof.
  intros [A B]. split; split.
  - intros x H. apply A. apply in_or_app. auto.
  - intros k c H. apply (B k c). apply in_or_app. auto.
  - intros x H. apply A. apply in_or_app. auto.
  - intros k c H. apply (B k c). apply in_or_app. auto.
Qed.

Lemma mod_one i : (i mod 1 = 0)%nat.
Proof. now rewrite Nat.mod_1_r. Qed.

Lemma elem_done lm w env n e i : (1 <= n)%nat -> plainx e -> reads w env e -> aligned env n e ->
  elem lm (to_expr e) (Z.of_nat (i mod dlen env e)) w = (Done (dv lm i env e), w).
Proof.
  intros Hn.
  assert (Ix : forall a b, (a = 1 \/ a = n)%nat -> (b = 1 \/ b = n)%nat ->
    Z.of_nat (i mod Nat.max a b) mod Z.of_nat a = Z.of_nat (i mod a) /\
    Z.of_nat (i mod Nat.max a b) mod Z.of_nat b = Z.of_nat (i mod b)).
  { intros a b Ha Hb. rewrite <- !Nat2Z.inj_mod.
    assert (X : forall m, (m = 1 \/ m = Nat.max a b)%nat -> ((i mod Nat.max a b) mod m = i mod m)%nat).
    { intros m [-> | ->]; [now rewrite !mod_one|]. apply Nat.mod_mod. lia. }
    split; f_equal; apply X; lia. }
  assert (Two : forall op l r v,
    bin_f lm op (dv lm i env l) (dv lm i env r) = Done v ->
    plainx l /\ plainx r -> reads w env l /\ reads w env r -> aligned env n l /\ aligned env n r ->
    elem lm (to_expr l) (Z.of_nat (i mod dlen env l)) w = (Done (dv lm i env l), w) ->
    elem lm (to_expr r) (Z.of_nat (i mod dlen env r)) w = (Done (dv lm i env r), w) ->
    elem lm (EBin op (to_expr l) (to_expr r)) (Z.of_nat (i mod Nat.max (dlen env l) (dlen env r))) w
      = (Done v, w)).
  { intros op l r v F [P1 P2] [R1 R2] [A1 A2] El Er. cbn [elem]. rewrite bind_get, !not_sca.
    destruct (esize_dlen w env l P1 R1) as [-> _]. destruct (esize_dlen w env r P2 R2) as [-> _].
    pose proof (dlen_aligned _ _ _ Hn A1) as D1. pose proof (dlen_aligned _ _ _ Hn A2) as D2.
    destruct (Ix _ _ D1 D2) as [I1 I2].
    rewrite !modz_pos by lia. rewrite I1, I2.
    rewrite bind_assoc, bind_lift_done, (bind_done _ _ _ _ _ El).
    rewrite bind_assoc, bind_lift_done, (bind_done _ _ _ _ _ Er). now rewrite F. }
  induction e; cbn [plainx]; intros P H A; cbn [to_expr dlen].
  - cbn [elem]. destruct (proj1 H x) as [Ne Hx]; [now left|]. now apply at_rd_lane.
  - cbn [elem]. destruct (proj2 H k l) as [Ne Hx]; [now left|]. now apply at_rd_lane.
  - apply reads_two in H. apply aligned_two in A. destruct P as [P1 [P2 N]], H, A. apply Two; auto. exact (dv_bin lm i env OPlus _ _ N).
  - apply reads_two in H. apply aligned_two in A. destruct P as [P1 [P2 N]], H, A. apply Two; auto. exact (dv_bin lm i env OMinus _ _ N).
  - apply reads_two in H. apply aligned_two in A. destruct P as [P1 [P2 N]], H, A. apply Two; auto. exact (dv_bin lm i env OTimes _ _ N).
  - apply reads_two in H. apply aligned_two in A. destruct P as [P1 [P2 N]], H, A. apply Two; auto. exact (dv_bin lm i env ODiv _ _ N).
  - apply reads_two in H. apply aligned_two in A. destruct P as [P1 [P2 [N C]]], H, A. apply Two; auto.
    pose proof (dv_bin lm i env op _ _ N) as B. destruct op; try discriminate; exact B.
  - destruct P as [P N]. cbn [elem]. rewrite bind_get, not_sca. destruct (esize_dlen w env e P H) as [-> _].
    pose proof (dlen_aligned _ _ _ Hn A) as D. cbn [dlen] in D. rewrite modz_pos by lia.
    rewrite bind_assoc, bind_lift_done. rewrite <- Nat2Z.inj_mod, Nat.mod_mod by lia.
    rewrite (bind_done _ _ _ _ _ (IHe P H A)). unfold lift, un_f. now rewrite dv_f.
Qed.

(** Derivatives of the variables of e at index i. *)
Definition reads_der (w : world) (env : senv) (i : nat) (x : dvar) : Prop :=
  let n := length (vals env x) in
  length (ders env x) = n /\ (0 < n)%nat /\
  sz (ob w (OD (dslot x))) = Z.of_nat n /\ sz (ob w (OD (vslot x))) = Z.of_nat n /\
  nth (i mod n) (cells_of w (OD (dslot x))) None = Some (VD (lane i (ders env x))).

Lemma get_at_cells w o i v : world_shape w -> 0 <= i < sz (ob w o) ->
  nth (Z.to_nat i) (cells_of w o) None = Some v -> get_at o i w = (Done v, w).
Proof.
  intros W Hi Hn. unfold get_at. rewrite bind_st.
  destruct (shape_ptr w o W) as [a P]; [lia|]. rewrite (shape_alloc _ _ _ W P), bind_ass_true.
  replace (i <? sz (ob w o)) with true by (symmetry; apply Z.ltb_lt; lia). rewrite bind_ass_true, P.
  destruct (ptr_live _ _ _ W P) as [cs [B _]]. eapply rd_ok; [exact B|lia|].
  rewrite (cells_of_ptr w o a _ cs P B) in Hn. exact Hn.
Qed.

Lemma leaf_der_done c env d i x : world_shape (dw d) -> reads_der (dw d) env i x ->
  leaf_der c x (Z.of_nat i) d = (Done (VD (lane i (ders env x))), d).
Proof.
  intros W [L [Hn [S1 [S2 N]]]]. unfold leaf_der.
  rewrite (bind_done _ _ d tt d) by (unfold der_init; rewrite dbind_get, S1, S2, Z.eqb_refl; reflexivity). rewrite dbind_get, S1.
  rewrite modz_pos by lia. rewrite dbind_lift. unfold inw.
  rewrite <- Nat2Z.inj_mod.
  rewrite (get_at_cells _ _ _ (VD (lane i (ders env x))) W).
  - now destruct d.
  - rewrite S1. split; [lia|]. apply inj_lt. apply Nat.mod_upper_bound. lia.
  - now rewrite Nat2Z.id.
Qed.

(** The variables whose derivatives are read. *)
Fixpoint dlv (e : dexpr) : list dvar :=
  match e with
  | DVar x => [x]
  | DCon _ _ _ => []
  | DPlus l r | DMinus l r | DTimes l r | DDivide l r | DCmp _ l r => dlv l ++ dlv r
  | DSin e => if is_leaf e then [] else dlv e
  end.
Lemma dlv_vars e x : In x (dlv e) -> In x (dvars e).
Proof.
  induction e; cbn [dlv dvars]; auto; try (rewrite !in_app_iff; tauto).
  destruct (is_leaf e); [intros []|exact IHe].
Qed.

Lemma dder_done lm c env e i d : world_shape (dw d) -> plainx e -> reads (dw d) env e ->
  (forall x, In x (dlv e) -> reads_der (dw d) env i x) ->
  dder lm c e (Z.of_nat i) d = (Done (VD (lder lm i env e)), d).
Proof.
  intros W. induction e; cbn [plainx dder lder dlv]; intros P H D.
  - apply leaf_der_done; auto. apply D. now left.
  - reflexivity.
  - apply reads_two in H. destruct P as [P1 [P2 N]], H as [H1 H2].
    rewrite (bind_done _ _ _ _ _ (IHe1 P1 H1 (fun x Hx => D x (in_or_app _ _ _ (or_introl Hx))))).
    rewrite (bind_done _ _ _ _ _ (IHe2 P2 H2 (fun x Hx => D x (in_or_app _ _ _ (or_intror Hx))))).
    reflexivity.
  - apply reads_two in H. destruct P as [P1 [P2 N]], H as [H1 H2].
    rewrite (bind_done _ _ _ _ _ (IHe1 P1 H1 (fun x Hx => D x (in_or_app _ _ _ (or_introl Hx))))).
    rewrite (bind_done _ _ _ _ _ (IHe2 P2 H2 (fun x Hx => D x (in_or_app _ _ _ (or_intror Hx))))).
    reflexivity.
  - apply reads_two in H. destruct P as [P1 [P2 N]], H as [H1 H2].
    rewrite (bind_done _ _ _ _ _ (dval_done lm env e1 i d P1 H1)).
    rewrite (bind_done _ _ _ _ _ (dval_done lm env e2 i d P2 H2)).
    rewrite (bind_done _ _ _ _ _ (IHe1 P1 H1 (fun x Hx => D x (in_or_app _ _ _ (or_introl Hx))))).
    rewrite (bind_done _ _ _ _ _ (IHe2 P2 H2 (fun x Hx => D x (in_or_app _ _ _ (or_intror Hx))))).
    unfold lift. now rewrite (dv_times lm i env _ _ _ _ N).
  - apply reads_two in H. destruct P as [P1 [P2 N]], H as [H1 H2].
    rewrite (bind_done _ _ _ _ _ (dval_done lm env e1 i d P1 H1)).
    rewrite (bind_done _ _ _ _ _ (dval_done lm env e2 i d P2 H2)).
    rewrite (bind_done _ _ _ _ _ (IHe1 P1 H1 (fun x Hx => D x (in_or_app _ _ _ (or_introl Hx))))).
    rewrite (bind_done _ _ _ _ _ (IHe2 P2 H2 (fun x Hx => D x (in_or_app _ _ _ (or_intror Hx))))).
    unfold lift. destruct (is_const_type e2); [now rewrite (dv_divide_const lm i env _ _ _ _ N)|now rewrite (dv_divide lm i env _ _ _ _ N)].
  - apply reads_two in H. destruct P as [P1 [P2 N]], H as [H1 H2].
    rewrite (bind_done _ _ _ _ _ (IHe1 P1 H1 (fun x Hx => D x (in_or_app _ _ _ (or_introl Hx))))).
    rewrite (bind_done _ _ _ _ _ (IHe2 P2 H2 (fun x Hx => D x (in_or_app _ _ _ (or_intror Hx))))).
    reflexivity.
  - destruct P as [P N], (is_leaf e) eqn:Lf.
    + rewrite (bind_done _ _ _ _ _ (dval_done lm env e i d P H)). now rewrite (dv_num _ _ _ _ N).
    + rewrite (bind_done _ _ _ _ _ (IHe P H D)). reflexivity.
Qed.

(** No matrix anywhere. *)
Lemma eim_good w e : (forall o, good o (ob w o)) -> eim w (to_expr e) = false.
Proof.
  intros G. induction e; cbn [to_expr eim]; rewrite ?not_sca; auto;
    try (rewrite IHe1, IHe2; reflexivity).
  - destruct (G (OD (vslot x))) as [_ [-> _]]. reflexivity.
  - destruct (G (OD (kslot k))) as [_ [-> _]]. reflexivity.
Qed.
