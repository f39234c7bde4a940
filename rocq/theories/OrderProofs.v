(** The order of evaluation: proofs. *)
From Coq Require Import ZArith List String Bool Lia Arith Permutation.
From Verif Require Import Base Num StoreModel VecModel Spec CapProofs StoreProofs StoreOps SpecExpr
  VecProofs VecAssign FloatBridge DerivModel SpecDeriv DerivProofs DerivProofs2 DerivPrime DerivProofs3 DerivProofs5 OrderModel.
Import ListNotations.
Open Scope Z_scope.
Local Notation length := List.length (only parsing).

Lemma turn2 p k : Permutation p (seq 0 2) -> In k p <-> (k = 0 \/ k = 1)%nat.
Proof.
  intros H. split.
  - intros I. apply (Permutation_in _ H) in I. cbn in I. lia.
  - intros I. apply (Permutation_in _ (Permutation_sym H)). cbn. lia.
Qed.
Lemma turn4 p k : Permutation p (seq 0 4) -> In k p <-> (k = 0 \/ k = 1 \/ k = 2 \/ k = 3)%nat.
Proof.
  intros H. split.
  - intros I. apply (Permutation_in _ H) in I. cbn in I. lia.
  - intros I. apply (Permutation_in _ (Permutation_sym H)). cbn. lia.
Qed.

(** Arguments with effects: a relation between the states before and after. *)
Lemma turn_rel {W A} (I : W -> Prop) (R : W -> W -> Prop) (m : nat -> M W A) (f : nat -> A) (Q : nat -> W -> Prop) :
  (forall d, I d -> R d d) -> (forall d d1 d2, R d d1 -> R d1 d2 -> R d d2) ->
  (forall k d d', Q k d -> R d d' -> Q k d') ->
  forall p v d, I d ->
  (forall k d, In k p -> I d -> exists d', m k d = (Done (f k), d') /\ I d' /\ R d d' /\ Q k d') ->
  exists u d', in_turn p m v d = (Done u, d') /\ I d' /\ R d d' /\
    (forall k, In k p -> u k = f k /\ Q k d') /\ (forall k, v k = f k -> u k = f k).
Proof.
  intros Rr Rt Qm p. induction p as [|k p IH]; intros v d Id H; cbn [in_turn].
  - exists v, d. split; [reflexivity|]. split; [exact Id|]. split; [now apply Rr|]. split; [intros k []|auto].
  - destruct (H k d (or_introl eq_refl) Id) as [d1 [E1 [I1 [R1 Q1]]]]. rewrite (bind_done _ _ _ _ _ E1).
    destruct (IH (fun j => if (j =? k)%nat then f k else v j) d1 I1) as [u [d2 [E2 [I2 [R2 [U2 V2]]]]]].
    { intros j e Hj. apply H. now right. }
    exists u, d2. split; [exact E2|]. split; [exact I2|]. split; [eapply Rt; eauto|]. split.
    + intros j [<-|Hj]; [|now apply U2]. split; [|eapply Qm; eauto]. apply V2. now rewrite Nat.eqb_refl.
    + intros j Hj. apply V2. destruct (Nat.eqb_spec j k) as [->|_]; auto.
Qed.

(** Arguments without effects. *)
Lemma turn_pure {W A} (m : nat -> M W A) w : (forall k, snd (m k w) = w) ->
  forall p v, snd (in_turn p m v w) = w.
Proof.
  intros H p. induction p as [|k p IH]; intros v; cbn [in_turn]; [reflexivity|].
  unfold bind. pose proof (H k) as E. destruct (m k w) as [[a|x|u] w1]; cbn [snd] in E; subst w1; auto.
Qed.
Lemma turn_done {W A} (m : nat -> M W A) f w p v : (forall k, In k p -> m k w = (Done (f k), w)) ->
  exists u, in_turn p m v w = (Done u, w) /\ forall k, In k p -> u k = f k.
Proof.
  intros H. destruct (turn_rel (fun d => d = w) (fun _ _ => True) m f (fun _ _ => True)) with (p := p) (v := v) (d := w)
    as [u [d' [E [-> [_ [U _]]]]]]; auto.
  { intros k d Hk ->. exists w. auto. }
  exists u. split; [exact E|]. intros k Hk. now apply U.
Qed.
Lemma turn_inv {W A} (m : nat -> M W A) w : (forall k, snd (m k w) = w) ->
  forall p v u w', in_turn p m v w = (Done u, w') -> forall k, In k p -> exists a, m k w = (Done a, w).
Proof.
  intros H p. induction p as [|k p IH]; intros v u w' E j Hj; [destruct Hj|]. cbn [in_turn] in E.
  unfold bind in E. pose proof (H k) as Ek. destruct (m k w) as [[a|x|y] w1] eqn:Em; try discriminate.
  cbn [snd] in Ek. subst w1. destruct Hj as [<-|Hj]; [eauto|]. eapply IH; eauto.
Qed.

(** Plain expressions *)
Lemma operand_pure (m : Z -> M world val) (b : bool) n i w : (forall j, snd (m j w) = w) ->
  snd ((if b then m 0 else k <- lift (modz i n) ;; m k) w) = w.
Proof. intros H. destruct b; [apply H|]. unfold bind, lift. destruct (modz i n); [apply H|reflexivity|reflexivity]. Qed.
Lemma elem_by_pure s lm e : forall i w, snd (elem_by s lm e i w) = w.
Proof.
  induction e as [x|t l m|v|e IH ind m|op l IHl r IHr|op e IH]; intros i w; cbn [elem_by].
  - exact (elem_pure lm (EVar x) i w).
  - now destruct (_ <? _).
  - reflexivity.
  - rewrite bind_get. unfold bind, lift. destruct (modz i (esize w e)) as [k|?|?]; try reflexivity.
    destruct (ind_at ind k) as [j|?|?]; try reflexivity.
    pose proof (IH j w) as P. destruct (elem_by s lm e j w) as [[v|?|?] w1]; cbn [snd] in P; now subst.
  - rewrite bind_get. unfold bind at 1.
    match goal with |- context [in_turn ?p ?m ?v w] => pose proof (turn_pure m w) as P end.
    match type of P with ?A -> _ => assert (X : A) end.
    { intros [|k]; apply (operand_pure (elem_by s lm _)); auto. }
    match goal with |- context [in_turn ?p ?m ?v w] => specialize (P X p v); destruct (in_turn p m v w) as [[u|?|?] w1] end;
      cbn [snd] in P; subst w1; reflexivity.
  - rewrite bind_get. unfold bind at 1.
    assert (X : snd ((if is_sca e then elem_by s lm e 0 else k <- lift (modz i (esize w e)) ;; elem_by s lm e k) w) = w).
    { apply (operand_pure (elem_by s lm e)). auto. }
    destruct ((if is_sca e then elem_by s lm e 0 else k <- lift (modz i (esize w e)) ;; elem_by s lm e k) w) as [[v|?|?] w1];
      cbn [snd] in X; subst w1; reflexivity.
Qed.

Section Elem.
Variables (s : schedule) (lm : libm).
Hypothesis O : each_once s.

Lemma operand_by e i w a :
  (forall i w v, elem_by s lm e i w = (Done v, w) <-> elem lm e i w = (Done v, w)) ->
  (if is_sca e then elem_by s lm e 0 else k <- lift (modz i (esize w e)) ;; elem_by s lm e k) w = (Done a, w) <->
  (if is_sca e then elem lm e 0 else k <- lift (modz i (esize w e)) ;; elem lm e k) w = (Done a, w).
Proof.
  intros H. destruct (is_sca e); [apply H|]. unfold bind, lift. destruct (modz i (esize w e)); [apply H|tauto|tauto].
Qed.

Lemma elem_by_iff e : forall i w v, elem_by s lm e i w = (Done v, w) <-> elem lm e i w = (Done v, w).
Proof.
  induction e as [x|t l m|x|e IH ind m|op l IHl r IHr|op e IH]; intros i w v; cbn [elem_by elem]; try tauto.
  - rewrite !bind_get. unfold bind, lift. destruct (modz i (esize w e)) as [k|?|?]; try tauto.
    destruct (ind_at ind k) as [j|?|?]; try tauto.
    pose proof (elem_by_pure s lm e j w) as P1. pose proof (elem_pure lm e j w) as P2.
    specialize (IH j w).
    destruct (elem_by s lm e j w) as [[a|?|?] w1], (elem lm e j w) as [[b|?|?] w2]; cbn [snd] in P1, P2; subst w1 w2;
      try (discriminate (proj1 (IH _) eq_refl)); try (discriminate (proj2 (IH _) eq_refl));
      try (split; discriminate).
    pose proof (proj1 (IH a) eq_refl) as Q. injection Q as ->. tauto.
  - rewrite !bind_get.
    set (ml := if is_sca l then elem_by s lm l 0 else k <- lift (modz i (esize w l)) ;; elem_by s lm l k).
    set (mr := if is_sca r then elem_by s lm r 0 else k <- lift (modz i (esize w r)) ;; elem_by s lm r k).
    set (nl := if is_sca l then elem lm l 0 else k <- lift (modz i (esize w l)) ;; elem lm l k).
    set (nr := if is_sca r then elem lm r 0 else k <- lift (modz i (esize w r)) ;; elem lm r k).
    assert (Hl : forall a, ml w = (Done a, w) <-> nl w = (Done a, w)) by (intros; now apply operand_by).
    assert (Hr : forall a, mr w = (Done a, w) <-> nr w = (Done a, w)) by (intros; now apply operand_by).
    assert (Pnl : snd (nl w) = w).
    { apply (operand_pure (elem lm l)). intros. apply elem_pure. }
    assert (Pnr : snd (nr w) = w).
    { apply (operand_pure (elem lm r)). intros. apply elem_pure. }
    set (m := fun k : nat => match k with 0%nat => ml | _ => mr end).
    assert (Pm : forall k, snd (m k w) = w).
    { intros [|k]; apply (operand_pure (elem_by s lm _)); intros; apply elem_by_pure. }
    pose proof (eo_elem _ O w (EBin op l r) i) as Pr. set (p := so_elem s w (EBin op l r) i) in *.
    split; intros E.
    + unfold bind at 1 in E. destruct (in_turn p m (fun _ => VB false) w) as [[u|?|?] w1] eqn:Et; try discriminate.
      pose proof (turn_pure m w Pm p (fun _ => VB false)) as Pt. rewrite Et in Pt. cbn [snd] in Pt. subst w1.
      destruct (turn_inv m w Pm _ _ _ _ Et 0%nat) as [a Ea]; [apply (turn2 _ _ Pr); lia|].
      destruct (turn_inv m w Pm _ _ _ _ Et 1%nat) as [b Eb]; [apply (turn2 _ _ Pr); lia|].
      destruct (turn_done m (fun k => match k with 0%nat => a | _ => b end) w p (fun _ => VB false)) as [u' [Eu Hu]].
      { intros k Hk. apply (turn2 _ _ Pr) in Hk. destruct Hk as [-> | ->]; assumption. }
      rewrite Et in Eu. injection Eu as <-.
      rewrite (Hu 0%nat), (Hu 1%nat) in E by (apply (turn2 _ _ Pr); lia).
      apply Hl in Ea. apply Hr in Eb. now rewrite (bind_done _ _ _ _ _ Ea), (bind_done _ _ _ _ _ Eb).
    + unfold bind at 1 in E. destruct (nl w) as [[a|?|?] w1] eqn:Ea; try discriminate. cbn [snd] in Pnl. subst w1.
      unfold bind at 1 in E. destruct (nr w) as [[b|?|?] w1] eqn:Eb; try discriminate. cbn [snd] in Pnr. subst w1.
      destruct (turn_done m (fun k => match k with 0%nat => a | _ => b end) w p (fun _ => VB false)) as [u' [Eu Hu]].
      { intros k Hk. apply (turn2 _ _ Pr) in Hk. destruct Hk as [-> | ->]; [now apply Hl|now apply Hr]. }
      rewrite (bind_done _ _ _ _ _ Eu). rewrite (Hu 0%nat), (Hu 1%nat) by (apply (turn2 _ _ Pr); lia). exact E.
  - rewrite !bind_get.
    set (ml := if is_sca e then elem_by s lm e 0 else k <- lift (modz i (esize w e)) ;; elem_by s lm e k).
    set (nl := if is_sca e then elem lm e 0 else k <- lift (modz i (esize w e)) ;; elem lm e k).
    assert (Hl : forall a, ml w = (Done a, w) <-> nl w = (Done a, w)) by (intros; now apply operand_by).
    assert (Pml : snd (ml w) = w).
    { apply (operand_pure (elem_by s lm e)). intros. apply elem_by_pure. }
    assert (Pnl : snd (nl w) = w).
    { apply (operand_pure (elem lm e)). intros. apply elem_pure. }
    split; intros E; unfold bind at 1 in E.
    + destruct (ml w) as [[a|?|?] w1] eqn:Ea; try discriminate. cbn [snd] in Pml. subst w1.
      now rewrite (bind_done _ _ _ _ _ (proj1 (Hl a) eq_refl)).
    + destruct (nl w) as [[a|?|?] w1] eqn:Ea; try discriminate. cbn [snd] in Pnl. subst w1.
      now rewrite (bind_done _ _ _ _ _ (proj2 (Hl a) eq_refl)).
Qed.
End Elem.

(** Derivative programs: values *)
Section Run.
Variable s : schedule.
Hypothesis O : each_once s.
Variable lm : libm.

Lemma two_by (f : val -> val -> outcome val) (a b c : val) (ml mr : M dworld val) p d d' (v : nat -> val) :
  Permutation p (seq 0 2) -> ml d = (Done a, d) -> mr d = (Done b, d) -> f a b = Done c -> d' = d ->
  (v <- in_turn p (fun k => match k with 0%nat => ml | _ => mr end) v ;; lift (f (v 0%nat) (v 1%nat))) d' = (Done c, d).
Proof.
  intros P El Er F ->.
  destruct (turn_done (fun k => match k with 0%nat => ml | _ => mr end) (fun k => match k with 0%nat => a | _ => b end) d p v) as [u [E U]].
  { intros k Hk. apply (turn2 _ _ P) in Hk. destruct Hk as [-> | ->]; assumption. }
  rewrite (bind_done _ _ _ _ _ E), (U 0%nat), (U 1%nat) by (apply (turn2 _ _ P); lia). unfold lift. now rewrite F.
Qed.

Lemma dval_by_done env e i d : plainx e -> reads (dw d) env e ->
  dval_by s lm e (Z.of_nat i) d = (Done (dv lm i env e), d).
Proof.
  induction e; cbn [plainx dval_by]; intros P H;
    try (apply reads_two in H; destruct P as [P1 [P2 N]], H as [H1 H2]; rewrite dbind_get;
         apply (two_by (bin_f lm _) (dv lm i env e1) (dv lm i env e2)); auto; [apply (eo_val _ O)|]).
  - destruct (proj1 H x) as [Ne Hx]; [now left|]. now apply leaf_val_done.
  - destruct (proj2 H k l) as [Ne Hx]; [now left|]. now apply leaf_val_done.
  - exact (dv_bin lm i env OPlus _ _ N).
  - exact (dv_bin lm i env OMinus _ _ N).
  - exact (dv_bin lm i env OTimes _ _ N).
  - exact (dv_bin lm i env ODiv _ _ N).
  - destruct N as [N C]. pose proof (dv_bin lm i env op _ _ N) as B. destruct op; try discriminate; exact B.
  - destruct P as [P N]. rewrite (bind_done _ _ _ _ _ (IHe P H)). now rewrite (dv_num _ _ _ _ N).
Qed.

Lemma elem_by_done w env n e i : (1 <= n)%nat -> plainx e -> reads w env e -> aligned env n e ->
  elem_by s lm (to_expr e) (Z.of_nat (i mod dlen env e)) w = (Done (dv lm i env e), w).
Proof. intros Hn P R A. apply (elem_by_iff s lm O). now apply (elem_done lm w env n). Qed.

(** Derivatives *)
Definition four_m (a b c d : M dworld val) : nat -> M dworld val :=
  fun k => match k with 0%nat => a | 1%nat => b | 2%nat => c | _ => d end.
Definition four_v (a b c d : val) : nat -> val :=
  fun k => match k with 0%nat => a | 1%nat => b | 2%nat => c | _ => d end.

Lemma dder_by_done c env e i d : world_shape (dw d) -> plainx e -> reads (dw d) env e ->
  (forall x, In x (dlv e) -> reads_der (dw d) env i x) ->
  dder_by s lm c e (Z.of_nat i) d = (Done (VD (lder lm i env e)), d).
Proof.
  intros W.
  assert (Two : forall (f : val -> val -> outcome val) (e1 e2 e : dexpr) (r : val),
    plainx e1 -> plainx e2 -> reads (dw d) env e1 -> reads (dw d) env e2 ->
    (forall x, In x (dlv e1 ++ dlv e2) -> reads_der (dw d) env i x) -> nargs e = 2%nat ->
    (plainx e1 -> reads (dw d) env e1 -> (forall x, In x (dlv e1) -> reads_der (dw d) env i x) ->
      dder_by s lm c e1 (Z.of_nat i) d = (Done (VD (lder lm i env e1)), d)) ->
    (plainx e2 -> reads (dw d) env e2 -> (forall x, In x (dlv e2) -> reads_der (dw d) env i x) ->
      dder_by s lm c e2 (Z.of_nat i) d = (Done (VD (lder lm i env e2)), d)) ->
    f (VD (lder lm i env e1)) (VD (lder lm i env e2)) = Done r ->
    (d0 <- get ;; v <- in_turn (so_der s d0 e (Z.of_nat i))
      (fun k => match k with 0%nat => dder_by s lm c e1 (Z.of_nat i) | _ => dder_by s lm c e2 (Z.of_nat i) end) (fun _ => VB false) ;;
      lift (f (v 0%nat) (v 1%nat))) d = (Done r, d)).
  { intros f e1 e2 e' r P1 P2 R1 R2 D Na I1 I2 F. rewrite dbind_get.
    apply (two_by f (VD (lder lm i env e1)) (VD (lder lm i env e2))); auto.
    - rewrite <- Na. apply (eo_der _ O).
    - apply I1; auto. intros. apply D, in_or_app. auto.
    - apply I2; auto. intros. apply D, in_or_app. auto. }
  assert (Four : forall (f : val -> val -> val -> val -> outcome val) (e1 e2 e : dexpr) (r : val),
    plainx e1 -> plainx e2 -> reads (dw d) env e1 -> reads (dw d) env e2 ->
    (forall x, In x (dlv e1 ++ dlv e2) -> reads_der (dw d) env i x) -> nargs e = 4%nat ->
    (plainx e1 -> reads (dw d) env e1 -> (forall x, In x (dlv e1) -> reads_der (dw d) env i x) ->
      dder_by s lm c e1 (Z.of_nat i) d = (Done (VD (lder lm i env e1)), d)) ->
    (plainx e2 -> reads (dw d) env e2 -> (forall x, In x (dlv e2) -> reads_der (dw d) env i x) ->
      dder_by s lm c e2 (Z.of_nat i) d = (Done (VD (lder lm i env e2)), d)) ->
    f (dv lm i env e1) (dv lm i env e2) (VD (lder lm i env e1)) (VD (lder lm i env e2)) = Done r ->
    (d0 <- get ;; v <- in_turn (so_der s d0 e (Z.of_nat i))
      (four_m (dval_by s lm e1 (Z.of_nat i)) (dval_by s lm e2 (Z.of_nat i))
              (dder_by s lm c e1 (Z.of_nat i)) (dder_by s lm c e2 (Z.of_nat i))) (fun _ => VB false) ;;
      lift (f (v 0%nat) (v 1%nat) (v 2%nat) (v 3%nat))) d = (Done r, d)).
  { intros f e1 e2 e' r P1 P2 R1 R2 D Na I1 I2 F. rewrite dbind_get.
    pose proof (eo_der _ O d e' (Z.of_nat i)) as Pr. rewrite Na in Pr.
    match goal with |- context [in_turn ?p ?m ?v0] =>
      destruct (turn_done m (four_v (dv lm i env e1) (dv lm i env e2) (VD (lder lm i env e1)) (VD (lder lm i env e2))) d p v0) as [u [E U]] end.
    { intros k Hk. apply (turn4 _ _ Pr) in Hk. destruct Hk as [-> | [-> | [-> | ->]]]; cbn [four_m four_v];
        [now apply dval_by_done|now apply dval_by_done|apply I1; auto; intros; apply D, in_or_app; auto|apply I2; auto; intros; apply D, in_or_app; auto]. }
    rewrite (bind_done _ _ _ _ _ E), (U 0%nat), (U 1%nat), (U 2%nat), (U 3%nat) by (apply (turn4 _ _ Pr); lia).
    cbn [four_v]. unfold lift. now rewrite F. }
  induction e; cbn [plainx dder_by lder dlv]; intros P H D;
    try (apply reads_two in H; destruct P as [P1 [P2 N]], H as [H1 H2]; apply (Two _ e1 e2); auto; reflexivity).
  - apply leaf_der_done; auto. apply D. now left.
  - reflexivity.
  - apply reads_two in H. destruct P as [P1 [P2 N]], H as [H1 H2]. apply (Four times_der e1 e2); auto.
    now rewrite (dv_times lm i env _ _ _ _ N).
  - apply reads_two in H. destruct P as [P1 [P2 N]], H as [H1 H2]. apply (Four (if is_const_type e2 then divide_const_der else divide_der lm) e1 e2); auto.
    destruct (is_const_type e2); [now rewrite (dv_divide_const lm i env _ _ _ _ N)|now rewrite (dv_divide lm i env _ _ _ _ N)].
  - destruct P as [P N], (is_leaf e) eqn:Lf.
    + rewrite (bind_done _ _ _ _ _ (dval_by_done env e i d P H)). now rewrite (dv_num _ _ _ _ N).
    + rewrite (bind_done _ _ _ _ _ (IHe P H D)). reflexivity.
Qed.

Lemma dder_by_to c env n (V : dvar -> Prop) e i :
  (forall y z, V y -> V z -> knd y <> KBuffer -> knd z <> KBuffer ->
    indep c = Z.of_nat (num y) -> num z = num y -> y = z) ->
  (i < n)%nat -> plainx e -> (forall y, In y (dvars e) -> V y) ->
  forall d, St c env n V d -> reads (dw d) env e ->
  exists d', dder_by s lm c e (Z.of_nat i) d = (Done (VD (lder lm i env e)), d') /\
    to c env n V d d' /\ forall y, In y (dlv e) -> made env n d' y.
Proof.
  intros One Hi. assert (Hn : (0 < n)%nat) by lia.
  assert (Tr : forall d d1 d2, to c env n V d d1 -> to c env n V d1 d2 -> to c env n V d d2).
  { intros d d1 d2. apply to_trans. }
  assert (Two : forall (f : val -> val -> outcome val) (e1 e2 e : dexpr) (r : val) (d : dworld),
    plainx e1 -> plainx e2 -> reads (dw d) env e1 -> reads (dw d) env e2 ->
    (forall y, In y (dvars e1 ++ dvars e2) -> V y) -> St c env n V d -> nargs e = 2%nat ->
    (plainx e1 -> (forall y, In y (dvars e1) -> V y) -> forall d, St c env n V d -> reads (dw d) env e1 ->
      exists d', dder_by s lm c e1 (Z.of_nat i) d = (Done (VD (lder lm i env e1)), d') /\
        to c env n V d d' /\ forall y, In y (dlv e1) -> made env n d' y) ->
    (plainx e2 -> (forall y, In y (dvars e2) -> V y) -> forall d, St c env n V d -> reads (dw d) env e2 ->
      exists d', dder_by s lm c e2 (Z.of_nat i) d = (Done (VD (lder lm i env e2)), d') /\
        to c env n V d d' /\ forall y, In y (dlv e2) -> made env n d' y) ->
    f (VD (lder lm i env e1)) (VD (lder lm i env e2)) = Done r ->
    exists d', (d0 <- get ;; v <- in_turn (so_der s d0 e (Z.of_nat i))
      (fun k => match k with 0%nat => dder_by s lm c e1 (Z.of_nat i) | _ => dder_by s lm c e2 (Z.of_nat i) end) (fun _ => VB false) ;;
      lift (f (v 0%nat) (v 1%nat))) d = (Done r, d') /\ to c env n V d d' /\ forall y, In y (dlv e1 ++ dlv e2) -> made env n d' y).
  { intros f e1 e2 e' r d P1 P2 R1 R2 Iv S Na I1 I2 F. rewrite dbind_get.
    assert (V1 : forall y, In y (dvars e1) -> V y) by (intros; apply Iv, in_or_app; auto).
    assert (V2 : forall y, In y (dvars e2) -> V y) by (intros; apply Iv, in_or_app; auto).
    pose proof (eo_der _ O d e' (Z.of_nat i)) as Pr. rewrite Na in Pr.
    match goal with |- context [in_turn ?pp ?mm ?vv] =>
      destruct (turn_rel (fun d => St c env n V d /\ reads (dw d) env e1 /\ reads (dw d) env e2) (to c env n V) mm
        (fun k => match k with 0%nat => VD (lder lm i env e1) | _ => VD (lder lm i env e2) end)
        (fun k d => forall y, In y (dlv (match k with 0%nat => e1 | _ => e2 end)) -> made env n d y)) with (p := pp) (v := vv) (d := d)
      as [u [d' [E [_ [T [U _]]]]]] end; auto.
    - intros d0 [S0 _]. now apply to_refl.
    - intros k d0 d1 Q T y Hy. apply T; [|now apply Q]. destruct k; [apply V1|apply V2]; now apply dlv_vars.
    - intros k d0 Hk [S0 [A0 B0]]. apply (turn2 _ _ Pr) in Hk. destruct Hk as [-> | ->]; cbn beta iota.
      + destruct (I1 P1 V1 d0 S0 A0) as [d1 [E1 [T1 M1]]]. exists d1. split; [exact E1|].
        split; [split; [apply T1|split; eapply mild_reads; eauto; apply T1]|]. auto.
      + destruct (I2 P2 V2 d0 S0 B0) as [d1 [E1 [T1 M1]]]. exists d1. split; [exact E1|].
        split; [split; [apply T1|split; eapply mild_reads; eauto; apply T1]|]. auto.
    - exists d'. rewrite (bind_done _ _ _ _ _ E).
      destruct (U 0%nat) as [-> M0]; [apply (turn2 _ _ Pr); lia|]. destruct (U 1%nat) as [-> M1]; [apply (turn2 _ _ Pr); lia|].
      unfold lift. rewrite F. split; [reflexivity|]. split; [exact T|].
      intros y Hy. apply in_app_or in Hy. destruct Hy; auto. }
  assert (Four : forall (f : val -> val -> val -> val -> outcome val) (e1 e2 e : dexpr) (r : val) (d : dworld),
    plainx e1 -> plainx e2 -> reads (dw d) env e1 -> reads (dw d) env e2 ->
    (forall y, In y (dvars e1 ++ dvars e2) -> V y) -> St c env n V d -> nargs e = 4%nat ->
    (plainx e1 -> (forall y, In y (dvars e1) -> V y) -> forall d, St c env n V d -> reads (dw d) env e1 ->
      exists d', dder_by s lm c e1 (Z.of_nat i) d = (Done (VD (lder lm i env e1)), d') /\
        to c env n V d d' /\ forall y, In y (dlv e1) -> made env n d' y) ->
    (plainx e2 -> (forall y, In y (dvars e2) -> V y) -> forall d, St c env n V d -> reads (dw d) env e2 ->
      exists d', dder_by s lm c e2 (Z.of_nat i) d = (Done (VD (lder lm i env e2)), d') /\
        to c env n V d d' /\ forall y, In y (dlv e2) -> made env n d' y) ->
    f (dv lm i env e1) (dv lm i env e2) (VD (lder lm i env e1)) (VD (lder lm i env e2)) = Done r ->
    exists d', (d0 <- get ;; v <- in_turn (so_der s d0 e (Z.of_nat i))
      (four_m (dval_by s lm e1 (Z.of_nat i)) (dval_by s lm e2 (Z.of_nat i))
              (dder_by s lm c e1 (Z.of_nat i)) (dder_by s lm c e2 (Z.of_nat i))) (fun _ => VB false) ;;
      lift (f (v 0%nat) (v 1%nat) (v 2%nat) (v 3%nat))) d = (Done r, d') /\ to c env n V d d' /\ forall y, In y (dlv e1 ++ dlv e2) -> made env n d' y).
  { intros f e1 e2 e' r d P1 P2 R1 R2 Iv S Na I1 I2 F. rewrite dbind_get.
    assert (V1 : forall y, In y (dvars e1) -> V y) by (intros; apply Iv, in_or_app; auto).
    assert (V2 : forall y, In y (dvars e2) -> V y) by (intros; apply Iv, in_or_app; auto).
    pose proof (eo_der _ O d e' (Z.of_nat i)) as Pr. rewrite Na in Pr.
    match goal with |- context [in_turn ?pp ?mm ?vv] =>
      destruct (turn_rel (fun d => St c env n V d /\ reads (dw d) env e1 /\ reads (dw d) env e2) (to c env n V) mm
        (four_v (dv lm i env e1) (dv lm i env e2) (VD (lder lm i env e1)) (VD (lder lm i env e2)))
        (fun k d => match k with
          | 2%nat => forall y, In y (dlv e1) -> made env n d y
          | 3%nat => forall y, In y (dlv e2) -> made env n d y
          | _ => True end)) with (p := pp) (v := vv) (d := d)
      as [u [d' [E [_ [T [U _]]]]]] end; auto.
    - intros d0 [S0 _]. now apply to_refl.
    - intros k d0 d1 Q T. destruct k as [|[|[|[|k]]]]; auto; intros y Hy; (apply T; [|now apply Q]); [apply V1|apply V2]; now apply dlv_vars.
    - intros k d0 Hk [S0 [A0 B0]]. apply (turn4 _ _ Pr) in Hk. destruct Hk as [-> | [-> | [-> | ->]]]; cbn [four_m four_v].
      + exists d0. rewrite (dval_by_done env e1 i d0 P1 A0). split; [reflexivity|]. split; [auto|]. split; [now apply to_refl|exact I].
      + exists d0. rewrite (dval_by_done env e2 i d0 P2 B0). split; [reflexivity|]. split; [auto|]. split; [now apply to_refl|exact I].
      + destruct (I1 P1 V1 d0 S0 A0) as [d1 [E1 [T1 M1]]]. exists d1. split; [exact E1|].
        split; [split; [apply T1|split; eapply mild_reads; eauto; apply T1]|]. auto.
      + destruct (I2 P2 V2 d0 S0 B0) as [d1 [E1 [T1 M1]]]. exists d1. split; [exact E1|].
        split; [split; [apply T1|split; eapply mild_reads; eauto; apply T1]|]. auto.
    - exists d'. rewrite (bind_done _ _ _ _ _ E).
      destruct (U 0%nat) as [-> _]; [apply (turn4 _ _ Pr); lia|]. destruct (U 1%nat) as [-> _]; [apply (turn4 _ _ Pr); lia|].
      destruct (U 2%nat) as [-> M0]; [apply (turn4 _ _ Pr); lia|]. destruct (U 3%nat) as [-> M1]; [apply (turn4 _ _ Pr); lia|].
      cbn [four_v]. unfold lift. rewrite F. split; [reflexivity|]. split; [exact T|].
      intros y Hy. apply in_app_or in Hy. destruct Hy; auto. }
  induction e; cbn [plainx dvars dder_by lder dlv]; intros P Iv d S R;
    try (apply reads_two in R; destruct P as [P1 [P2 N]], R as [R1 R2]; apply (Two _ e1 e2); auto; reflexivity).
  - destruct (leaf_to c env n V One d x Hn S (Iv x (or_introl eq_refl))) as [d' [E [T M]]].
    exists d'. split; [now apply E|]. split; [exact T|]. intros y [<-|[]]. exact M.
  - exists d. split; [reflexivity|]. split; [now apply to_refl|]. intros y [].
  - apply reads_two in R. destruct P as [P1 [P2 N]], R as [R1 R2]. apply (Four times_der e1 e2); auto.
    now rewrite (dv_times lm i env _ _ _ _ N).
  - apply reads_two in R. destruct P as [P1 [P2 N]], R as [R1 R2]. apply (Four (if is_const_type e2 then divide_const_der else divide_der lm) e1 e2); auto.
    destruct (is_const_type e2); [now rewrite (dv_divide_const lm i env _ _ _ _ N)|now rewrite (dv_divide lm i env _ _ _ _ N)].
  - destruct P as [P N], (is_leaf e).
    + exists d. split; [|split; [now apply to_refl|intros y []]].
      rewrite (bind_done _ _ _ _ _ (dval_by_done env e i d P R)). now rewrite (dv_num _ _ _ _ N).
    + destruct (IHe P Iv d S R) as [d1 [E1 [T1 M1]]]. exists d1. split; [|split; auto].
      rewrite (bind_done _ _ _ _ _ E1). reflexivity.
Qed.

Lemma turn2_cases p : Permutation p (seq 0 2) -> p = [0%nat; 1%nat] \/ p = [1%nat; 0%nat].
Proof.
  intros H. pose proof (Permutation_length H) as L. cbn in L.
  destruct p as [|a [|b [|? ?]]]; try discriminate.
  assert (Ha : (a = 0 \/ a = 1)%nat) by (apply (turn2 _ _ H); now left).
  assert (Hb : (b = 0 \/ b = 1)%nat) by (apply (turn2 _ _ H); right; now left).
  assert (N : NoDup [a; b]) by (eapply Permutation_NoDup; [exact (Permutation_sym H)|apply seq_NoDup]).
  inversion N as [|? ? N1 _]; subst.
  destruct Ha as [-> | ->], Hb as [-> | ->]; auto; exfalso; apply N1; now left.
Qed.

Lemma mk_cons_by_done e : forall d, sane d ->
  (forall k l, In (k, l) (dcons e) -> l <> [] /\ 2 * Z.of_nat (length l) <= hlim (hp (dw d))) ->
  NoDup (map fst (dcons e)) ->
  exists d', mk_cons_by s e d = (Done tt, d') /\ chg (con_slot e) d d' /\
    forall k l, In (k, l) (dcons e) -> holds (dw d') (OD (kslot k)) (map VD l).
Proof.
  assert (Two : forall l r : dexpr,
    (forall d, sane d ->
      (forall k c, In (k, c) (dcons l) -> c <> [] /\ 2 * Z.of_nat (length c) <= hlim (hp (dw d))) ->
      NoDup (map fst (dcons l)) ->
      exists d', mk_cons_by s l d = (Done tt, d') /\ chg (con_slot l) d d' /\
        forall k c, In (k, c) (dcons l) -> holds (dw d') (OD (kslot k)) (map VD c)) ->
    (forall d, sane d ->
      (forall k c, In (k, c) (dcons r) -> c <> [] /\ 2 * Z.of_nat (length c) <= hlim (hp (dw d))) ->
      NoDup (map fst (dcons r)) ->
      exists d', mk_cons_by s r d = (Done tt, d') /\ chg (con_slot r) d d' /\
        forall k c, In (k, c) (dcons r) -> holds (dw d') (OD (kslot k)) (map VD c)) ->
    forall d, sane d ->
      (forall k c, In (k, c) (dcons l ++ dcons r) -> c <> [] /\ 2 * Z.of_nat (length c) <= hlim (hp (dw d))) ->
      NoDup (map fst (dcons l ++ dcons r)) ->
      exists d', (_ <- mk_cons_by s l ;; mk_cons_by s r) d = (Done tt, d') /\
        chg (fun o => exists k c, In (k, c) (dcons l ++ dcons r) /\ o = OD (kslot k)) d d' /\
        forall k c, In (k, c) (dcons l ++ dcons r) -> holds (dw d') (OD (kslot k)) (map VD c)).
  { intros l r IHl IHr d S HL ND. rewrite map_app in ND.
    pose proof (proj1 (NoDup_parts _ _ ND)) as NDl.
    pose proof (proj2 (NoDup_parts _ _ ND)) as NDr.
    destruct (IHl d S) as [d1 [E1 [C1 H1]]]; auto.
    { intros k c Hk. apply (HL k c). apply in_or_app. auto. }
    destruct (IHr d1 (ch_sane _ _ _ C1)) as [d2 [E2 [C2 H2]]]; auto.
    { intros k c Hk. rewrite (ch_lim _ _ _ C1). apply (HL k c). apply in_or_app. auto. }
    exists d2. split; [rewrite (bind_done _ _ _ _ _ E1); exact E2|]. split.
    - eapply chg_trans; eapply chg_weak; [|exact C1| |exact C2];
        intros o [k [c [Hk ->]]]; exists k, c; split; auto; apply in_or_app; auto.
    - intros k c Hk. apply in_app_or in Hk. destruct Hk as [Hk|Hk]; [|now apply H2].
      apply (chg_holds _ _ _ _ _ C2); [|now apply H1].
      intros [k' [c' [Hk' E]]]. injection E as E. apply slots_k in E. subst k'.
      revert ND. assert (I1 := in_map fst _ _ Hk). assert (I2 := in_map fst _ _ Hk'). simpl in I1, I2.
      intros ND. clear - ND I1 I2. induction (map fst (dcons l)) as [|a m IH]; [easy|].
      simpl in ND. inversion ND as [|? ? N1 N2]; subst. destruct I1 as [->|I1]; [|auto].
      apply N1. apply in_or_app. auto. }
  assert (Any : forall e l r : dexpr,
    (forall d, sane d ->
      (forall k c, In (k, c) (dcons l) -> c <> [] /\ 2 * Z.of_nat (length c) <= hlim (hp (dw d))) ->
      NoDup (map fst (dcons l)) ->
      exists d', mk_cons_by s l d = (Done tt, d') /\ chg (con_slot l) d d' /\
        forall k c, In (k, c) (dcons l) -> holds (dw d') (OD (kslot k)) (map VD c)) ->
    (forall d, sane d ->
      (forall k c, In (k, c) (dcons r) -> c <> [] /\ 2 * Z.of_nat (length c) <= hlim (hp (dw d))) ->
      NoDup (map fst (dcons r)) ->
      exists d', mk_cons_by s r d = (Done tt, d') /\ chg (con_slot r) d d' /\
        forall k c, In (k, c) (dcons r) -> holds (dw d') (OD (kslot k)) (map VD c)) ->
    forall d, sane d ->
      (forall k c, In (k, c) (dcons l ++ dcons r) -> c <> [] /\ 2 * Z.of_nat (length c) <= hlim (hp (dw d))) ->
      NoDup (map fst (dcons l ++ dcons r)) ->
      exists d', (d0 <- get ;; _ <- in_turn (so_con s d0 e) (fun k => match k with 0%nat => mk_cons_by s l | _ => mk_cons_by s r end) (fun _ => tt) ;; ret tt) d = (Done tt, d') /\
        chg (fun o => exists k c, In (k, c) (dcons l ++ dcons r) /\ o = OD (kslot k)) d d' /\
        forall k c, In (k, c) (dcons l ++ dcons r) -> holds (dw d') (OD (kslot k)) (map VD c)).
  { intros e0 l r IHl IHr d S HL ND. rewrite dbind_get.
    destruct (turn2_cases _ (eo_con _ O d e0)) as [-> | ->]; cbn [in_turn].
    - destruct (Two l r IHl IHr d S HL ND) as [d' [E R]]. exists d'. split; [|exact R].
      revert E. unfold bind. destruct (mk_cons_by s l d) as [[[]|?|?] d1]; try discriminate.
      destruct (mk_cons_by s r d1) as [[[]|?|?] d2]; try discriminate. intros E. injection E as <-. reflexivity.
    - assert (Sw : forall k (c : list flt), In (k, c) (dcons r ++ dcons l) <-> In (k, c) (dcons l ++ dcons r)).
      { intros k c. rewrite !in_app_iff. tauto. }
      destruct (Two r l IHr IHl d S) as [d' [E [C H]]].
      { intros k c Hk. apply (HL k c). now apply Sw. }
      { eapply Permutation_NoDup; [|exact ND]. apply Permutation_map, Permutation_app_comm. }
      exists d'. split; [|split].
      + revert E. unfold bind. destruct (mk_cons_by s r d) as [[[]|?|?] d1]; try discriminate.
        destruct (mk_cons_by s l d1) as [[[]|?|?] d2]; try discriminate. intros E. injection E as <-. reflexivity.
      + eapply chg_weak; [|exact C]. intros o [k [c [Hk ->]]]. exists k, c. split; [now apply Sw|reflexivity].
      + intros k c Hk. apply H. now apply Sw. }
  induction e; cbn [mk_cons_by dcons]; intros d S HL ND;
    try (now apply (Any _ e1 e2 IHe1 IHe2)).
  - exists d. split; [reflexivity|]. split; [now apply chg_refl|]. intros k l [].
  - destruct (HL k l) as [Ne H2]; [now left|].
    destruct (mk_con_done d k l S Ne H2) as [d' [E [C H]]].
    exists d'. split; [exact E|]. split.
    + eapply chg_weak; [|exact C]. intros o <-. exists k, l. split; [now left|reflexivity].
    + intros k' l' [X|[]]. injection X as <- <-. exact H.
  - now apply IHe.
Qed.

Lemma dassign_exp_by_done c d env x e :
  rep c d env -> knd x = KBuffer -> (num x < nbuf c)%nat -> plainx e -> reads (dw d) env e ->
  (forall y, In y (dvars e) -> env y <> None) ->
  (1 <= dlen env e)%nat -> aligned env (dlen env e) e ->
  (In x (dvars e) -> length (vals env x) = dlen env e) ->
  2 * Z.of_nat (dlen env e) <= hlim (hp (dw d)) ->
  exists d', dassign_exp_by s lm c x e d = (Done tt, d') /\ keeps c env x d' /\
    hlim (hp (dw d')) = hlim (hp (dw d)) /\
    holds (dw d') (OD (vslot x)) (map VD (map (fun i => lval lm i env e) (seq 0 (dlen env e)))) /\
    holds (dw d') (OD (dslot x)) (map VD (map (fun i => lder lm i env e) (seq 0 (dlen env e)))).
Proof.
  intros R Kx Hx P Rd As Hn Al Own HL. pose proof R as [S [One RV]].
  set (n := dlen env e) in *.
  set (us := map VD (map (fun i => lval lm i env e) (seq 0 n))).
  set (us' := map VD (map (fun i => lder lm i env e) (seq 0 n))).
  assert (Lu : length us = n) by (unfold us; now rewrite !map_length, seq_length).
  assert (Lu' : length us' = n) by (unfold us'; now rewrite !map_length, seq_length).
  assert (Nu : us <> []) by (intros X; rewrite X in Lu; simpl in Lu; lia).
  assert (Nu' : us' <> []) by (intros X; rewrite X in Lu'; simpl in Lu'; lia).
  unfold dassign_exp_by. rewrite dbind_get.
  destruct (esize_dlen _ _ _ P Rd) as [-> _]. fold n.
  (* the scratch buffer *)
  destruct (write_all d (OT (vslot x)) us
    (fun i => v <- inw (elem_by s lm (to_expr e) i) ;; v' <- lift (cast TDouble v) ;;
              inw (set_at (OT (vslot x)) i v'))) as [d1 [E1 [C1 H1]]]; auto.
  { rewrite Lu. exact HL. }
  { intros d0 _ C0 k d2 Hk Pt. rewrite Lu in Hk.
    assert (Rd2 : reads (dw d2) env e).
    { apply (reads_same (dw d)); auto. intros o Ho. eapply same_obj_trans.
      - apply (ch_same _ _ _ C0). intros <-. exact (e_slot_t e _ (vslot x) Ho eq_refl).
      - apply (part_same _ _ _ _ _ _ Pt). now apply (e_slot_t e). }
    pose proof (elem_by_done (dw d2) env n e (Z.to_nat k) Hn P Rd2 Al) as El. fold n in El.
    rewrite Nat.mod_small in El by lia. rewrite Z2Nat.id in El by lia.
    rewrite (bind_done _ _ _ _ _ (inw_pure _ _ _ El)). rewrite dv_cast, dbind_lift.
    unfold us. rewrite map_seq_nth by lia. reflexivity. }
  rewrite Lu in E1. rewrite (seq2 _ _ _ _ _ E1).
  (* derivatives *)
  assert (HL1 : 2 * Z.of_nat n <= hlim (hp (dw d1))) by (now rewrite (ch_lim _ _ _ C1)).
  destruct (resize_d d1 (OD (dslot x)) (Z.of_nat n) (ch_sane _ _ _ C1) (inp_d x)) as [d2 [E2 [C2 [Z2 [P2 [Keep _]]]]]]; [lia|exact HL1|].
  rewrite (bind_done _ _ _ _ _ E2). rewrite dbind_get.
  assert (Rd2 : reads (dw d2) env e).
  { apply (reads_same (dw d)); auto. intros o Ho. eapply same_obj_trans.
    - apply (ch_same _ _ _ C1). intros <-. exact (e_slot_t e _ (vslot x) Ho eq_refl).
    - apply (ch_same _ _ _ C2). intros <-. exact (e_slot_d e _ x Ho eq_refl). }
  destruct (esize_dlen _ _ _ P Rd2) as [_ ->]. fold n.
  (* reading the derivatives of inputs for the first time *)
  assert (Kp2 : keeps c env x d2).
  { apply (keeps_chg _ _ _ d1); [eapply chg_weak; [|exact C2]; intros o <-; unfold of_var; auto|].
    apply (keeps_chg _ _ _ d); [eapply chg_weak; [|exact C1]; intros o <-; unfold of_var; auto|].
    now apply rep_keeps. }
  assert (HasX : In x (dvars e) -> has env d x).
  { intros Hy. destruct (RV x (As x Hy)) as [_ [_ [_ [V4|V4]]]]; [exact V4|].
    destruct V4 as [V4 _]. congruence. }
  assert (MX : forall d4 k, part (OD (dslot x)) us' (Z.of_nat k) d2 d4 -> (k < n)%nat -> In x (dvars e) ->
    forall j, (k <= j < n)%nat -> reads_der (dw d4) env j x).
  { intros d4 k Pt Hk Hy j Hj. specialize (Own Hy). destruct (RV x (As x Hy)) as [V1 [V2 [V3 _]]].
    assert (K1 : holds (dw d1) (OD (dslot x)) (map VD (ders env x))).
    { apply (chg_holds _ _ _ _ _ C1); [discriminate|now apply HasX]. }
    assert (SZ1 : sz (ob (dw d1) (OD (dslot x))) = Z.of_nat n).
    { rewrite (proj1 K1), map_length. lia. }
    unfold reads_der. rewrite V2, Own. split; [reflexivity|]. split; [lia|].
    rewrite (pt_ob _ _ _ _ _ Pt). split; [exact Z2|]. split.
    { rewrite (chg_ob _ _ _ _ C2), (chg_ob _ _ _ _ C1).
      - rewrite (proj1 V3), map_length. lia.
      - discriminate.
      - intros X. apply od_inj in X. symmetry in X. now apply slots_vd in X. }
    rewrite Nat.mod_small by lia. rewrite (pt_old _ _ _ _ _ Pt) by lia. rewrite (Keep SZ1).
    rewrite (holds_in _ _ _ _ (proj1 (ch_sane _ _ _ C1)) K1) by (rewrite map_length; lia).
    rewrite nth_vd by lia. unfold lane. rewrite V2, Own, Nat.mod_small by lia. reflexivity. }
  set (V := fun y => env y <> None /\ (y = x -> In x (dvars e))).
  assert (St2 : St c env n V d2).
  { split; [apply C2|]. intros y [Hy Hyx]. destruct (dvar_dec y x) as [->|Ny].
    - left. intros i Hi. apply (MX d2 0%nat); auto; [|lia].
      split; auto; [apply step1_refl; apply C2|intros; lia].
    - apply var_made; [apply C2|]. now apply Kp2. }
  destruct (dder_by_to c env n V e 0) with (d := d2) as [dp [Ep [Tp Mp]]]; auto.
  { intros y z [Hy _] [Hz _]. now apply One. }
  { intros y Hy. split; auto. now intros ->. }
  pose proof (keeps_to _ _ _ _ x _ _ Tp (fun y Ny Hy => conj Hy (fun E => False_ind _ (Ny E))) Kp2) as Kpp.
  destruct Tp as [Ml [Stp [Mono _]]].
  assert (Rdp : reads (dw dp) env e) by (now apply (mild_reads d2)).
  assert (Sxp : same_obj (dw d2) (dw dp) (OD (dslot x))).
  { apply (ml_same _ _ Ml). intros y Ky X. apply od_inj in X. apply slots_d in X. congruence. }
  destruct (dloop dp (OD (dslot x)) us' (fun i => v <- dder_by s lm c e i ;; der_wr x i v))
    as [d3 [E3 [C3 [O3 H3]]]]; auto.
  { apply Ml. }
  { rewrite (proj1 Sxp). now rewrite Lu'. }
  { intros k d4 Hk Pt. rewrite Lu' in Hk.
    assert (Rd4 : reads (dw d4) env e).
    { apply (reads_same (dw dp)); auto. intros o Ho. apply (part_same _ _ _ _ _ _ Pt).
      now apply (e_slot_d e). }
    pose proof (part_sane _ _ _ _ _ (ml_sane _ _ Ml) Pt) as [W4 G4].
    assert (D4 : forall y, In y (dlv e) -> reads_der (dw d4) env (Z.to_nat k) y).
    { intros y Hy. destruct (dvar_dec y x) as [->|Ny].
      - pose proof (Mp x Hy (Z.to_nat k) ltac:(lia)) as [A1 [A2 [A3 [A4 A5]]]].
        unfold reads_der. rewrite (pt_ob _ _ _ _ _ Pt). split; [exact A1|]. split; [exact A2|].
        split; [exact A3|]. split; [exact A4|]. specialize (Own (dlv_vars _ _ Hy)).
        rewrite Own in A5 |- *. rewrite Nat.mod_small in A5 |- * by lia.
        rewrite (pt_old _ _ _ _ _ Pt) by lia. exact A5.
      - apply (reads_der_same (dw dp)).
        + apply (part_same _ _ _ _ _ _ Pt). intros X. apply od_inj in X. now apply slots_d in X.
        + apply (part_same _ _ _ _ _ _ Pt). intros X. apply od_inj in X. now apply slots_vd in X.
        + apply (Mp y Hy). lia. }
    pose proof (dder_by_done c env e (Z.to_nat k) d4 W4 P Rd4 D4) as Ed.
    rewrite Z2Nat.id in Ed by lia. rewrite (bind_done _ _ _ _ _ Ed), der_wr_d.
    unfold us'. rewrite map_seq_nth by lia. reflexivity. }
  rewrite Lu' in E3.
  assert (E3' : dfor (Z.of_nat n) (fun i => v <- dder_by s lm c e i ;; der_wr x i v) d2 = (Done tt, d3)).
  { rewrite <- E3. apply dfor_first; [lia|].
    pose proof Ep as Q. cbn [Z.of_nat] in Q. rewrite (bind_done _ _ _ _ _ Q).
    pose proof (dder_by_done c env e 0%nat dp (proj1 (ml_sane _ _ Ml)) P Rdp (fun y Hy => Mp y Hy 0%nat ltac:(lia))) as Q'.
    cbn [Z.of_nat] in Q'. rewrite (bind_done _ _ _ _ _ Q'). reflexivity. }
  rewrite (bind_done _ _ _ _ _ E3').
  (* the value *)
  assert (H3t : holds (dw d3) (OT (vslot x)) us).
  { apply (chg_holds _ _ _ _ _ C3); [discriminate|]. apply (holds_same (dw d2)); [now apply mild_t|].
    apply (chg_holds _ _ _ _ _ C2); [discriminate|exact H1]. }
  assert (L3 : hlim (hp (dw d3)) = hlim (hp (dw d))).
  { now rewrite (ch_lim _ _ _ C3), (ml_lim _ _ Ml), (ch_lim _ _ _ C2), (ch_lim _ _ _ C1). }
  destruct (write_all d3 (OD (vslot x)) us
    (fun i => v <- inw (get_at (OT (vslot x)) i) ;; buf_wr c (num x) i v)) as [d5 [E5 [C5 H5]]]; auto.
  { apply C3. }
  { now rewrite Lu, L3. }
  { intros d0 _ C0 k d6 Hk Pt. rewrite Lu in Hk.
    pose proof (part_sane _ _ _ _ _ (ch_sane _ _ _ C0) Pt) as S6.
    assert (H6 : holds (dw d6) (OT (vslot x)) us).
    { eapply holds_same; [apply (part_same _ _ _ _ _ _ Pt); discriminate|].
      apply (chg_holds _ _ _ _ _ C0); [discriminate|exact H3t]. }
    pose proof (get_at_holds _ _ _ (Z.to_nat k) (proj1 S6) H6) as G6.
    rewrite Z2Nat.id in G6 by lia. specialize (G6 ltac:(lia)).
    rewrite (bind_done _ _ _ _ _ (inw_pure _ _ _ G6)).
    unfold us. rewrite map_seq_nth by lia. now apply buf_wr_d. }
  rewrite Lu in E5. rewrite <- (dbind_assoc (inw (any_resize (OD (vslot x)) (Z.of_nat n)))).
  assert (E5' : (_ <- inw (any_resize (OD (vslot x)) (Z.of_nat n)) ;;
    dfor (Z.of_nat n) (fun i => v <- inw (get_at (OT (vslot x)) i) ;; buf_wr c (num x) i v)) d3 = (Done tt, d5)).
  { rewrite <- E5. unfold bind at 1 3. rewrite any_resize_d by (auto; apply C3). reflexivity. }
  rewrite (bind_done _ _ _ _ _ E5').
  (* the shape *)
  exists d5. split.
  - unfold dshape, inw. rewrite take_shape_done, eim_good by (apply C5). now destruct d5.
  - split; [|split; [|split]].
    + apply (keeps_chg _ _ _ d3); [eapply chg_weak; [|exact C5]; intros o <-; unfold of_var; auto|].
      apply (keeps_chg _ _ _ dp); [eapply chg_weak; [|exact C3]; intros o <-; unfold of_var; auto|exact Kpp].
    + now rewrite (ch_lim _ _ _ C5).
    + exact H5.
    + apply (chg_holds _ _ _ _ _ C5); [|exact H3].
      intros X. apply od_inj in X. now apply slots_vd in X.
Qed.

Lemma dexec_by_done c d env t : rep c d env -> wf_stmt c (hlim (hp (dw d))) env t ->
  exists d', dexec_by s lm c t d = (Done tt, d') /\ rep c d' (sexec (lder lm) lm c env t) /\
    hlim (hp (dw d')) = hlim (hp (dw d)).
Proof.
  destruct t as [x e]. cbn [wf_stmt dexec_by]. intros R [Kx [Hx [P [As [ND [Hn [Al [Own [Self HL]]]]]]]]].
  assert (Kl : forall k l, In (k, l) (dcons e) -> l <> [] /\ 2 * Z.of_nat (length l) <= hlim (hp (dw d))).
  { intros k l Hk. destruct (proj2 Al k l Hk) as [E|E].
    - split; [now destruct l|]. rewrite E. lia.
    - split; [intros ->; simpl in E; lia|]. rewrite E. exact HL. }
  destruct (mk_cons_by_done e d (proj1 R) Kl ND) as [d1 [E1 [C1 H1]]].
  pose proof (rep_cons _ _ _ _ _ R C1) as R1. pose proof R1 as [_ [One RV]].
  assert (Rd : reads (dw d1) env e).
  { split.
    - intros y Hy. destruct (RV y (As y Hy)) as [V1 [_ [V3 _]]]. auto.
    - intros k l Hk. split; [now apply (Kl k)|now apply H1]. }
  assert (HL1 : 2 * Z.of_nat (dlen env e) <= hlim (hp (dw d1))) by (now rewrite (ch_lim _ _ _ C1)).
  rewrite (bind_done _ _ _ _ _ E1).
  assert (Ex : (forall z, e <> DVar z) -> (forall ct k l, e <> DCon ct k l) ->
    exists d', dassign_exp_by s lm c x e d1 = (Done tt, d') /\
      rep c d' (fun y => if dvar_dec y x then
        Some (map (fun i => lval lm i env e) (seq 0 (dlen env e)), map (fun i => lder lm i env e) (seq 0 (dlen env e)))
        else env y) /\ hlim (hp (dw d')) = hlim (hp (dw d))).
  { intros _ _.
    destruct (dassign_exp_by_done c d1 env x e R1 Kx Hx P Rd As Hn Al Own HL1) as [d2 [E2 [K2 [L2 [A2 B2]]]]].
    exists d2. split; [exact E2|]. split.
    - apply keeps_set; auto; [|now rewrite !map_length, !seq_length].
      intros X. apply (f_equal (@List.length flt)) in X. rewrite map_length, seq_length in X. simpl in X. lia.
    - rewrite L2. apply C1. }
  destruct e; cbn [sexec]; try (apply Ex; congruence).
  - (* variable *)
    assert (Ny : x0 <> x) by (intros ->; now apply Self).
    assert (Ay : env x0 <> None) by (apply As; now left).
    destruct (dassign_var_done c d1 env x x0 R1 Kx Hx Ny Ay HL1) as [d2 [E2 [K2 [L2 [A2 B2]]]]].
    exists d2. split; [exact E2|]. split.
    + destruct (RV x0 Ay) as [V1 [V2 _]].
      pose proof (keeps_set _ _ _ _ _ _ K2 One Kx V1 V2 A2 B2) as RR. unfold upd_env in RR.
      assert (Ee : Some (vals env x0, ders env x0) = env x0).
      { unfold vals, ders. destruct (env x0) as [[? ?]|]; [reflexivity|congruence]. }
      rewrite Ee in RR. exact RR.
    + rewrite L2. apply C1.
  - (* constant *)
    destruct (Kl k l) as [Nl _]; [now left|].
    destruct (dassign_con_done c d1 env x k l R1 Kx Hx Nl) as [d2 [E2 [K2 [L2 [A2 B2]]]]]; auto.
    { apply H1. now left. }
    exists d2. split; [exact E2|]. split.
    + apply keeps_set; auto. now rewrite repeat_length.
    + rewrite L2. apply C1.
Qed.

Lemma drun_by_done c p : forall d env, rep c d env -> wf_prog (lder lm) lm c (hlim (hp (dw d))) env p ->
  exists d', drun_by s lm c p d = (Done tt, d') /\ rep c d' (srun (lder lm) lm c env p) /\
    hlim (hp (dw d')) = hlim (hp (dw d)).
Proof.
  induction p as [|t p IH]; cbn [wf_prog drun_by srun]; intros d env R W.
  - exists d. auto.
  - destruct W as [W1 W2].
    destruct (dexec_by_done c d env t R W1) as [d1 [E1 [R1 L1]]].
    rewrite (bind_done _ _ _ _ _ E1).
    rewrite <- L1 in W2. destruct (IH d1 _ R1 W2) as [d2 [E2 [R2 L2]]].
    exists d2. split; [exact E2|]. split; [exact R2|]. congruence.
Qed.

(** Any well-formed program runs; the environment does not depend on the
    order. *)
Lemma run_any_by c ins d0 p : started c ins d0 -> wf_prog (fwd lm) lm c (hlim (hp (dw d0))) (env0 c ins) p ->
  exists d, drun_by s lm c p d0 = (Done tt, d) /\ rep c d (srun (lder lm) lm c (env0 c ins) p).
Proof.
  intros HS W.
  destruct (drun_by_done c p d0 _ (start_rep c ins d0 HS)) as [d [E [R L]]].
  { apply (alike_wfp (fwd lm) _ _ _ _ _ _ _ (alike_refl _) W). }
  exists d. auto.
Qed.
End Run.

(** From left to right: the other model files *)
Lemma bind_cong {W A B} (m m' : M W A) (f g : A -> M W B) w : m w = m' w -> (forall a w', f a w' = g a w') ->
  bind m f w = bind m' g w.
Proof. intros E H. unfold bind. rewrite E. destruct (m' w) as [[a|x|u] w1]; auto. Qed.
Lemma bind_assoc {W A B C} (m : M W A) (f : A -> M W B) (g : B -> M W C) w :
  bind (bind m f) g w = bind m (fun a => bind (f a) g) w.
Proof. unfold bind. destruct (m w) as [[a|x|u] w1]; reflexivity. Qed.
Lemma bind_retl {W A B} (a : A) (f : A -> M W B) w : bind (ret a) f w = f a w.
Proof. reflexivity. Qed.

Lemma left_elem lm e : forall i w, elem_by left_first lm e i w = elem lm e i w.
Proof.
  induction e as [x|t l m|v|e IH ind m|op l IHl r IHr|op e IH]; intros i w; cbn [elem_by elem]; try reflexivity.
  - apply bind_cong; [reflexivity|]. intros w1 w2. apply bind_cong; [reflexivity|]. intros k w3.
    apply bind_cong; [reflexivity|]. intros j w4. apply bind_cong; [apply IH|reflexivity].
  - apply bind_cong; [reflexivity|]. intros w1 w2. cbn [left_first so_elem seq in_turn].
    rewrite bind_assoc. apply bind_cong.
    { destruct (is_sca l); [apply IHl|]. apply bind_cong; [reflexivity|]. intros k w3. apply IHl. }
    intros a w3. rewrite bind_assoc. apply bind_cong; [|reflexivity].
    destruct (is_sca r); [apply IHr|]. apply bind_cong; [reflexivity|]. intros k w4. apply IHr.
  - apply bind_cong; [reflexivity|]. intros w1 w2. apply bind_cong; [|reflexivity].
    destruct (is_sca e); [apply IH|]. apply bind_cong; [reflexivity|]. intros k w3. apply IH.
Qed.
Lemma left_dval lm e : forall i d, dval_by left_first lm e i d = dval lm e i d.
Proof.
  induction e as [x|ct k l|l IHl r IHr|l IHl r IHr|l IHl r IHr|l IHl r IHr|op l IHl r IHr|e IH]; intros i d;
    cbn [dval_by dval]; try reflexivity.
  all: try (rewrite dbind_get; cbn [left_first so_val seq in_turn]; rewrite bind_assoc; apply bind_cong; [apply IHl|];
            intros a d1; rewrite bind_assoc; apply bind_cong; [apply IHr|reflexivity]).
  apply bind_cong; [apply IH|reflexivity].
Qed.
Lemma left_dder lm c e : forall i d, dder_by left_first lm c e i d = dder lm c e i d.
Proof.
  induction e as [x|ct k l|l IHl r IHr|l IHl r IHr|l IHl r IHr|l IHl r IHr|op l IHl r IHr|e IH]; intros i d;
    cbn [dder_by dder]; try reflexivity.
  all: try (rewrite dbind_get; cbn [left_first so_der seq in_turn nargs]; rewrite bind_assoc; apply bind_cong; [apply IHl|];
            intros a d1; rewrite bind_assoc; apply bind_cong; [apply IHr|reflexivity]).
  1,2: rewrite dbind_get; cbn [left_first so_der seq in_turn nargs];
    rewrite bind_assoc; apply bind_cong; [apply left_dval|]; intros a d1;
    rewrite bind_assoc; apply bind_cong; [apply left_dval|]; intros b d2;
    rewrite bind_assoc; apply bind_cong; [apply IHl|]; intros a' d3;
    rewrite bind_assoc; apply bind_cong; [apply IHr|]; intros b' d4; try reflexivity.
  - rewrite bind_retl. cbn [Nat.eqb]. now destruct (is_const_type r).
  - destruct (is_leaf e); apply bind_cong; auto using left_dval.
Qed.
Lemma left_cons e : forall d, mk_cons_by left_first e d = mk_cons e d.
Proof.
  induction e as [x|ct k l|l IHl r IHr|l IHl r IHr|l IHl r IHr|l IHl r IHr|op l IHl r IHr|e IH]; intros d;
    cbn [mk_cons_by mk_cons]; try reflexivity.
  all: try (rewrite dbind_get; cbn [left_first so_con seq in_turn]; rewrite bind_assoc; apply bind_cong; [apply IHl|];
            intros a d1; rewrite bind_assoc; rewrite <- IHr; unfold bind; destruct (mk_cons_by left_first r d1) as [[[]|?|?] ?]; reflexivity).
  apply IH.
Qed.
Lemma forN_cong {W} (f g : Z -> M W unit) : (forall i w, f i w = g i w) -> forall n i w, forN n i f w = forN n i g w.
Proof.
  intros H n. induction n as [|n IH]; intros i w; cbn [forN]; [reflexivity|]. apply bind_cong; [apply H|]. intros a w'. apply IH.
Qed.
Lemma left_assign lm c x e d : dassign_exp_by left_first lm c x e d = dassign_exp lm c x e d.
Proof.
  unfold dassign_exp_by, dassign_exp, dfor. rewrite !dbind_get. cbv zeta.
  apply bind_cong; [reflexivity|]. intros _ d1. apply bind_cong.
  { apply forN_cong. intros i d2. apply bind_cong; [|reflexivity]. unfold inw. now rewrite left_elem. }
  intros _ d2. apply bind_cong; [reflexivity|]. intros _ d3. rewrite !dbind_get. apply bind_cong; [|reflexivity].
  apply forN_cong. intros i d4. apply bind_cong; [apply left_dder|reflexivity].
Qed.
Lemma left_exec lm c t d : dexec_by left_first lm c t d = dexec lm c t d.
Proof.
  destruct t as [x e]. cbn [dexec_by dexec]. apply bind_cong; [apply left_cons|]. intros _ d1.
  destruct e; try reflexivity; apply left_assign.
Qed.
Lemma left_run lm c p : forall d, drun_by left_first lm c p d = drun lm c p d.
Proof.
  induction p as [|t p IH]; intros d; cbn [drun_by drun]; [reflexivity|]. apply bind_cong; [apply left_exec|]. intros _ d1. apply IH.
Qed.
