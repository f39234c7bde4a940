(** Derivative mode: the derivatives of inputs are made when they are read first. *)
From Coq Require Import ZArith List String Bool Lia Arith.
From Verif Require Import Base Num StoreModel VecModel Spec CapProofs StoreProofs StoreOps SpecExpr
  VecProofs VecAssign FloatBridge DerivModel SpecDeriv DerivProofs DerivProofs2.
Import ListNotations.
Open Scope Z_scope.
Local Notation length := List.length (only parsing).

Local Opaque vslot dslot kslot.

Lemma same_cells w w' o : same_obj w w' o -> cells_of w' o = cells_of w o.
Proof. intros [E B]. unfold cells_of. rewrite E. destruct (ptr (ob w o)) as [a|]; auto. now rewrite (B a eq_refl). Qed.

Lemma reads_der_same w w' env i y : same_obj w w' (OD (dslot y)) -> same_obj w w' (OD (vslot y)) ->
  reads_der w env i y -> reads_der w' env i y.
Proof.
  intros D V [A [B [C [E F]]]]. unfold reads_der.
  rewrite (same_cells _ _ _ D), (proj1 D), (proj1 V). auto.
Qed.

(** The derivatives of an input that were not read yet. *)
Definition fresh (c : avconf) (env : senv) (d : dworld) (y : dvar) : Prop :=
  knd y <> KBuffer /\ ob (dw d) (OD (dslot y)) = store_default KBuffer TDouble /\
  sz (ob (dw d) (OD (vslot y))) = Z.of_nat (length (vals env y)) /\ (0 < length (vals env y))%nat /\
  2 * Z.of_nat (length (vals env y)) <= hlim (hp (dw d)) /\
  ders env y = repeat (seed c y) (length (vals env y)) /\
  (indep c = Z.of_nat (num y) -> dinit d = false).

Lemma fill_d d o f n : sane d -> ~ inp o -> sz (ob (dw d) o) = Z.of_nat n -> (0 < n)%nat ->
  exists d', inw (fill o (VD f)) d = (Done tt, d') /\ chg (eq o) d d' /\
    ob (dw d') = ob (dw d) /\ holds (dw d') o (map VD (repeat f n)).
Proof.
  intros S NI Sz Hn. pose proof S as [W G]. destruct (G o) as [T [Mp Own]]. destruct (Own NI) as [K [Sc Al]].
  destruct (shape_ptr (dw d) o W) as [a P]; [lia|].
  pose proof (shape_alloc _ _ _ W P) as A.
  destruct (ptr_live _ _ _ W P) as [cs [B [L1 L2]]].
  assert (Ow : owner_of (ob (dw d) o) = OwnCpp) by (unfold owner_of; now rewrite K).
  rewrite Ow in B. assert (OO : owns (ob (dw d) o) a) by (split; auto).
  destruct (fill_ok (dw d) o (VD f) a OwnCpp cs P B) with (v' := VD f) as [w' [cs' [E [U [L N]]]]]; [lia|now rewrite T|].
  exists (mkDw w' (dinit d)). split; [now apply inw_done|].
  assert (ST : step1 (dw d) w' o) by (eapply step1_cells; eauto).
  destruct U as [U1 [U2 [U3 [U4 U5]]]]. split; [split|split]; cbn [dw dinit]; auto.
  - apply (sane_step d (mkDw w' (dinit d)) o S ST). cbn [dw]. rewrite U1. apply G.
  - intros o' No. apply (s1_other _ _ _ ST). congruence.
  - apply holds_cells; [apply ST|]. rewrite U1, map_length, repeat_length. split; [lia|].
    intros i Hi. rewrite (cells_of_ptr w' o a OwnCpp cs'); [|now rewrite U1|exact U4].
    rewrite N, Sz. replace (Z.of_nat i <? Z.of_nat n) with true by (symmetry; apply Z.ltb_lt; lia).
    f_equal. symmetry. rewrite (nth_indep _ _ (VD f)) by (rewrite map_length, repeat_length; lia).
    rewrite map_nth. f_equal. clear. revert i. induction n; intros [|i]; cbn; auto.
Qed.

Lemma der_init_fresh c env d y : sane d -> fresh c env d y ->
  exists d', der_init c y d = (Done tt, d') /\ sane d' /\ hlim (hp (dw d')) = hlim (hp (dw d)) /\
    (forall o, o <> OD (dslot y) -> same_obj (dw d) (dw d') o) /\
    (dinit d' = dinit d \/ indep c = Z.of_nat (num y)) /\
    holds (dw d') (OD (dslot y)) (map VD (ders env y)).
Proof.
  intros S [Ki [D0 [Vs [Hn [Hl [De In]]]]]]. set (n := length (vals env y)) in *.
  unfold der_init. rewrite dbind_get, Vs, D0. cbn [store_default sz].
  replace (0 =? Z.of_nat n) with false by (symmetry; apply Z.eqb_neq; lia).
  destruct (resize_d d (OD (dslot y)) (Z.of_nat n) S (inp_d y)) as [d1 [E1 [C1 [Z1 [P1 [_ Nw]]]]]]; [lia|exact Hl|].
  rewrite (bind_done _ _ _ _ _ E1), dbind_get. rewrite (ch_init _ _ _ C1).
  assert (C0 : cap (ob (dw d) (OD (dslot y))) < Z.of_nat n) by (rewrite D0; cbn [store_default cap]; lia).
  specialize (Nw C0). rewrite Nat2Z.id in Nw. unfold seed in De.
  destruct (Z.eqb_spec (Z.of_nat (num y)) (indep c)) as [I|I].
  - rewrite (In (eq_sym I)). cbn [negb andb].
    destruct (fill_d d1 (OD (dslot y)) fone n (ch_sane _ _ _ C1) (inp_d y) Z1 Hn) as [d2 [E2 [C2 [O2 H2]]]].
    rewrite (bind_done _ _ _ _ _ E2). eexists. split; [reflexivity|]. cbn [dw dinit].
    split; [exact (ch_sane _ _ _ C2)|]. split; [now rewrite (ch_lim _ _ _ C2), (ch_lim _ _ _ C1)|].
    split; [|split; [now right|]].
    + intros o No. eapply same_obj_trans; [apply (ch_same _ _ _ C1)|apply (ch_same _ _ _ C2)]; congruence.
    + rewrite De. rewrite <- I, Z.eqb_refl. exact H2.
  - cbn [andb]. exists d1. split; [reflexivity|]. split; [apply C1|]. split; [apply C1|]. split; [|split].
    + intros o No. apply (ch_same _ _ _ C1). congruence.
    + left. apply C1.
    + rewrite De. destruct (Z.eqb_spec (indep c) (Z.of_nat (num y))); [congruence|exact Nw].
Qed.

(** Only derivatives of inputs changed. *)
Record mild (d d' : dworld) : Prop := {
  ml_sane : sane d';
  ml_lim : hlim (hp (dw d')) = hlim (hp (dw d));
  ml_same : forall o, (forall x, knd x <> KBuffer -> o <> OD (dslot x)) -> same_obj (dw d) (dw d') o }.
Lemma mild_refl d : sane d -> mild d d.
Proof. intros S. split; auto. intros. apply same_obj_refl. Qed.
Lemma mild_trans d d1 d2 : mild d d1 -> mild d1 d2 -> mild d d2.
Proof.
  intros A B. split; [apply B|rewrite (ml_lim _ _ B); apply A|].
  intros o N. eapply same_obj_trans; [apply A|apply B]; auto.
Qed.
Lemma mild_holds d d' o l : mild d d' -> (forall x, knd x <> KBuffer -> o <> OD (dslot x)) ->
  holds (dw d) o l -> holds (dw d') o l.
Proof. intros M N. apply holds_same. now apply (ml_same _ _ M). Qed.
Lemma mild_v d d' y : mild d d' -> same_obj (dw d) (dw d') (OD (vslot y)).
Proof. intros M. apply (ml_same _ _ M). intros x _ E. apply od_inj in E. now apply slots_vd in E. Qed.
Lemma mild_k d d' k : mild d d' -> same_obj (dw d) (dw d') (OD (kslot k)).
Proof. intros M. apply (ml_same _ _ M). intros x _ E. apply od_inj in E. symmetry in E. now apply slots_dk in E. Qed.
Lemma mild_t d d' k : mild d d' -> same_obj (dw d) (dw d') (OT k).
Proof. intros M. apply (ml_same _ _ M). discriminate. Qed.
Lemma mild_reads d d' env e : mild d d' -> reads (dw d) env e -> reads (dw d') env e.
Proof.
  intros M [A B]. split.
  - intros x Hx. destruct (A x Hx) as [Ne H]. split; auto. eapply holds_same; [exact (mild_v d d' x M)|exact H].
  - intros k l Hk. destruct (B k l Hk) as [Ne H]. split; auto. eapply holds_same; [exact (mild_k d d' k M)|exact H].
Qed.

Section Eval.
Variables (lm : libm) (c : avconf) (env : senv) (n : nat) (V : dvar -> Prop).
Hypothesis One : forall y z, V y -> V z -> knd y <> KBuffer -> knd z <> KBuffer ->
  indep c = Z.of_nat (num y) -> num z = num y -> y = z.

Definition made (d : dworld) (y : dvar) : Prop := forall i, (i < n)%nat -> reads_der (dw d) env i y.
Definition St (d : dworld) : Prop := sane d /\ forall y, V y -> made d y \/ fresh c env d y.
Definition has (d : dworld) (y : dvar) : Prop := holds (dw d) (OD (dslot y)) (map VD (ders env y)).
(** [d'] comes from [d] by reading derivatives. *)
Definition to (d d' : dworld) : Prop :=
  mild d d' /\ St d' /\ (forall y, V y -> made d y -> made d' y) /\
  forall y, V y -> has d y \/ fresh c env d y -> has d' y \/ fresh c env d' y.
Lemma to_refl d : St d -> to d d.
Proof. intros S. split; [apply mild_refl, S|]. auto. Qed.
Lemma to_trans d d1 d2 : to d d1 -> to d1 d2 -> to d d2.
Proof. intros [A [B [C D]]] [A' [B' [C' D']]]. split; [eapply mild_trans; eauto|]. auto. Qed.

Lemma made_init d y : (0 < n)%nat -> made d y -> der_init c y d = (Done tt, d).
Proof.
  intros Hn M. destruct (M O Hn) as [_ [_ [A [B _]]]].
  unfold der_init. now rewrite dbind_get, A, B, Z.eqb_refl.
Qed.

Lemma init_to d y : (0 < n)%nat -> St d -> V y ->
  exists d', der_init c y d = (Done tt, d') /\ to d d' /\ made d' y.
Proof.
  intros Hn [S O] Hy. destruct (O y Hy) as [M|F].
  - exists d. split; [now apply made_init|]. split; [now apply to_refl|exact M].
  - destruct (der_init_fresh c env d y S F) as [d' [E [S' [L [Sm [Di H]]]]]].
    pose proof F as [Ki [D0 [Vs [Hl [_ [De In]]]]]].
    assert (SV : forall z, same_obj (dw d) (dw d') (OD (vslot z))).
    { intros z. apply Sm. intros X. apply od_inj in X. now apply slots_vd in X. }
    assert (SD : forall z, z <> y -> same_obj (dw d) (dw d') (OD (dslot z))).
    { intros z Nz. apply Sm. intros X. apply od_inj in X. now apply slots_d in X. }
    assert (My : made d' y).
    { intros i _. unfold reads_der. set (m := length (vals env y)) in *.
      assert (Ld : length (ders env y) = m) by (now rewrite De, repeat_length).
      assert (Hm : (i mod m < m)%nat) by (apply Nat.mod_upper_bound; lia).
      split; [exact Ld|]. split; [exact Hl|]. split; [rewrite (proj1 H), map_length; lia|].
      split; [rewrite (proj1 (SV y)); exact Vs|].
      rewrite (holds_in _ _ _ _ (proj1 S') H) by (rewrite map_length; lia).
      rewrite nth_vd by lia. unfold lane. now rewrite Ld. }
    assert (Fr : forall z, V z -> z <> y -> fresh c env d z -> fresh c env d' z).
    { intros z Hz Nz Fz. destruct Fz as [F1 [F2 [F3 [F4 [F5 [F6 F7]]]]]].
      split; [exact F1|]. split; [rewrite (proj1 (SD z Nz)); exact F2|].
      split; [rewrite (proj1 (SV z)); exact F3|]. split; [exact F4|]. split; [rewrite L; exact F5|].
      split; [exact F6|]. intros I. destruct Di as [->|I']; [auto|].
      exfalso. apply Nz. symmetry. apply One; auto. lia. }
    exists d'. split; [exact E|]. split; [|exact My].
    split; [split; auto|split; [split; [exact S'|]|split]].
    + intros z Hz. destruct (dvar_dec z y) as [->|Nz]; [now left|].
      destruct (O z Hz) as [Mz|Fz].
      * left. intros i Hi. apply (reads_der_same (dw d)); auto.
      * right. now apply Fr.
    + intros z Hz Mz. destruct (dvar_dec z y) as [->|Nz]; [exact My|].
      intros i Hi. apply (reads_der_same (dw d)); auto.
    + intros z Hz Q. destruct (dvar_dec z y) as [->|Nz]; [left; exact H|].
      destruct Q as [Q|Q]; [left|right; now apply Fr].
      apply (holds_same (dw d)); auto.
Qed.

Lemma leaf_to d y : (0 < n)%nat -> St d -> V y ->
  exists d', (forall i, (i < n)%nat -> leaf_der c y (Z.of_nat i) d = (Done (VD (lane i (ders env y))), d')) /\
    to d d' /\ made d' y.
Proof.
  intros Hn S Hy. destruct (init_to d y Hn S Hy) as [d' [E [T M]]]. exists d'. split; auto.
  intros i Hi. pose proof (leaf_der_done c env d' i y (proj1 (ml_sane _ _ (proj1 T))) (M i Hi)) as L.
  unfold leaf_der in *. rewrite (bind_done _ _ _ _ _ E).
  rewrite (bind_done _ _ _ _ _ (made_init d' y Hn M)) in L. exact L.
Qed.

Lemma dder_to e : (0 < n)%nat -> plainx e -> (forall y, In y (dvars e) -> V y) ->
  forall d, St d -> reads (dw d) env e ->
  exists d', (forall i, (i < n)%nat -> dder lm c e (Z.of_nat i) d = (Done (VD (lder lm i env e)), d')) /\
    to d d' /\ forall y, In y (dlv e) -> made d' y.
Proof.
  intros Hn. induction e; cbn [plainx dvars dder lder dlv]; intros P I d S R.
  - destruct (leaf_to d x Hn S (I x (or_introl eq_refl))) as [d' [E [T M]]].
    exists d'. split; [exact E|]. split; [exact T|]. intros y [<-|[]]. exact M.
  - exists d. split; [reflexivity|]. split; [now apply to_refl|]. intros y [].
  - apply reads_two in R. destruct P as [P1 [P2 N]], R as [R1 R2].
    destruct (IHe1 P1 (fun y Hy => I y (in_or_app _ _ _ (or_introl Hy))) d S R1) as [d1 [E1 [T1 M1]]].
    destruct (IHe2 P2 (fun y Hy => I y (in_or_app _ _ _ (or_intror Hy))) d1 (proj1 (proj2 T1)) (mild_reads _ _ _ _ (proj1 T1) R2)) as [d2 [E2 [T2 M2]]].
    exists d2. split; [|split; [now apply (to_trans _ d1)|]].
    + intros i Hi. rewrite (bind_done _ _ _ _ _ (E1 i Hi)), (bind_done _ _ _ _ _ (E2 i Hi)). reflexivity.
    + intros y Hy. apply in_app_or in Hy. destruct Hy as [Hy|Hy]; [|now apply M2].
      apply T2; [|now apply M1]. apply I, in_or_app. left. now apply dlv_vars.
  - apply reads_two in R. destruct P as [P1 [P2 N]], R as [R1 R2].
    destruct (IHe1 P1 (fun y Hy => I y (in_or_app _ _ _ (or_introl Hy))) d S R1) as [d1 [E1 [T1 M1]]].
    destruct (IHe2 P2 (fun y Hy => I y (in_or_app _ _ _ (or_intror Hy))) d1 (proj1 (proj2 T1)) (mild_reads _ _ _ _ (proj1 T1) R2)) as [d2 [E2 [T2 M2]]].
    exists d2. split; [|split; [now apply (to_trans _ d1)|]].
    + intros i Hi. rewrite (bind_done _ _ _ _ _ (E1 i Hi)), (bind_done _ _ _ _ _ (E2 i Hi)). reflexivity.
    + intros y Hy. apply in_app_or in Hy. destruct Hy as [Hy|Hy]; [|now apply M2].
      apply T2; [|now apply M1]. apply I, in_or_app. left. now apply dlv_vars.
  - apply reads_two in R. destruct P as [P1 [P2 N]], R as [R1 R2].
    destruct (IHe1 P1 (fun y Hy => I y (in_or_app _ _ _ (or_introl Hy))) d S R1) as [d1 [E1 [T1 M1]]].
    destruct (IHe2 P2 (fun y Hy => I y (in_or_app _ _ _ (or_intror Hy))) d1 (proj1 (proj2 T1)) (mild_reads _ _ _ _ (proj1 T1) R2)) as [d2 [E2 [T2 M2]]].
    exists d2. split; [|split; [now apply (to_trans _ d1)|]].
    + intros i Hi. rewrite (bind_done _ _ _ _ _ (dval_done lm env e1 i d P1 R1)).
      rewrite (bind_done _ _ _ _ _ (dval_done lm env e2 i d P2 R2)).
      rewrite (bind_done _ _ _ _ _ (E1 i Hi)), (bind_done _ _ _ _ _ (E2 i Hi)). unfold lift. now rewrite (dv_times lm i env _ _ _ _ N).
    + intros y Hy. apply in_app_or in Hy. destruct Hy as [Hy|Hy]; [|now apply M2].
      apply T2; [|now apply M1]. apply I, in_or_app. left. now apply dlv_vars.
  - apply reads_two in R. destruct P as [P1 [P2 N]], R as [R1 R2].
    destruct (IHe1 P1 (fun y Hy => I y (in_or_app _ _ _ (or_introl Hy))) d S R1) as [d1 [E1 [T1 M1]]].
    destruct (IHe2 P2 (fun y Hy => I y (in_or_app _ _ _ (or_intror Hy))) d1 (proj1 (proj2 T1)) (mild_reads _ _ _ _ (proj1 T1) R2)) as [d2 [E2 [T2 M2]]].
    exists d2. split; [|split; [now apply (to_trans _ d1)|]].
    + intros i Hi. rewrite (bind_done _ _ _ _ _ (dval_done lm env e1 i d P1 R1)).
      rewrite (bind_done _ _ _ _ _ (dval_done lm env e2 i d P2 R2)).
      rewrite (bind_done _ _ _ _ _ (E1 i Hi)), (bind_done _ _ _ _ _ (E2 i Hi)).
      unfold lift. destruct (is_const_type e2); [now rewrite (dv_divide_const lm i env _ _ _ _ N)|now rewrite (dv_divide lm i env _ _ _ _ N)].
    + intros y Hy. apply in_app_or in Hy. destruct Hy as [Hy|Hy]; [|now apply M2].
      apply T2; [|now apply M1]. apply I, in_or_app. left. now apply dlv_vars.
  - apply reads_two in R. destruct P as [P1 [P2 N]], R as [R1 R2].
    destruct (IHe1 P1 (fun y Hy => I y (in_or_app _ _ _ (or_introl Hy))) d S R1) as [d1 [E1 [T1 M1]]].
    destruct (IHe2 P2 (fun y Hy => I y (in_or_app _ _ _ (or_intror Hy))) d1 (proj1 (proj2 T1)) (mild_reads _ _ _ _ (proj1 T1) R2)) as [d2 [E2 [T2 M2]]].
    exists d2. split; [|split; [now apply (to_trans _ d1)|]].
    + intros i Hi. rewrite (bind_done _ _ _ _ _ (E1 i Hi)), (bind_done _ _ _ _ _ (E2 i Hi)). reflexivity.
    + intros y Hy. apply in_app_or in Hy. destruct Hy as [Hy|Hy]; [|now apply M2].
      apply T2; [|now apply M1]. apply I, in_or_app. left. now apply dlv_vars.
  - destruct P as [P N], (is_leaf e).
    + exists d. split; [|split; [now apply to_refl|intros y []]].
      intros i Hi. rewrite (bind_done _ _ _ _ _ (dval_done lm env e i d P R)). now rewrite (dv_num _ _ _ _ N).
    + destruct (IHe P I d S R) as [d1 [E1 [T1 M1]]]. exists d1. split; [|split; auto].
      intros i Hi. rewrite (bind_done _ _ _ _ _ (E1 i Hi)). reflexivity.
Qed.
End Eval.

(** A loop whose body starts with a read that prepares the state. *)
Lemma dfor_first n body d d' : 1 <= n -> body 0 d = body 0 d' -> dfor n body d = dfor n body d'.
Proof.
  intros Hn E. unfold dfor. destruct (Z.to_nat n) as [|m] eqn:Em; [lia|]. cbn [forN]. unfold bind. now rewrite E.
Qed.
