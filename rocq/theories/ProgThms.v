(** The refinement theorem for structured programs. *)
From Coq Require Import ZArith List String Bool Lia.
From Verif Require Import Base Num StoreModel VecModel SubsetModel AllocModel ProgModel
  Spec SpecExpr SpecHist SpecProg SpecSub SpecAlloc SpecStmt
  StoreProofs StoreOps VecProofs VecThms VecEval SubsetThms ProgProofs ProgProofs2.
Import ListNotations.
Open Scope Z_scope.
Local Notation length := List.length (only parsing).

Section Run.
Variables (N : nat) (lm : libm) (ty : nat -> ety) (lim : Z).

(** Execution m does what relation S says, on the live vectors H, V. *)
Definition follows (H V : list nat) (m : M world bool) (S : state -> res -> state -> Prop) : Prop :=
  forall w rho r rho', alive w lim ty H V rho -> S rho r rho' ->
  exists w', m w = (of_res r, w') /\ reached w' lim ty H V r rho' /\ (no_leak w -> no_leak w').

Lemma reached_alive w H V rho r : alive w lim ty H V rho -> reached w lim ty H V r rho.
Proof. intros A. destruct r; simpl; auto. exists H, V. split; [apply incl_refl|exact A]. Qed.

Lemma follows_andthen H V a b S1 S2 : follows H V a S1 -> follows H V b S2 ->
  follows H V (andthen a b) (fun rho r rho' => exists r1 rho1, S1 rho r1 rho1 /\ after r1 rho1 S2 r rho').
Proof.
  intros Fa Fb w rho r rho' A [r1 [rho1 [X1 X2]]].
  destruct (Fa w rho r1 rho1 A X1) as [w1 [E1 [R1 L1]]]. unfold andthen.
  destruct r1 as [| |e]; cbn [after of_res reached] in *.
  - rewrite (bind_done _ _ _ _ _ E1). destruct (Fb w1 rho1 r rho' R1 X2) as [w2 [E2 [R2 L2]]].
    exists w2. auto.
  - destruct X2 as [-> ->]. rewrite (bind_done _ _ _ _ _ E1). exists w1. auto.
  - destruct X2 as [-> ->]. unfold bind. rewrite E1. exists w1. auto.
Qed.

Lemma follows_rounds H V cond body (C : state -> outcome bool -> Prop) B : (forall w rho b, alive w lim ty H V rho -> C rho b -> cond w = (b, w)) ->
  follows H V body B -> forall k, follows H V (rounds_of k cond body) (while_spec k C B).
Proof.
  intros Fc Fb. induction k as [|k IH]; intros w rho r rho' A X; cbn [while_spec rounds_of] in *.
  - destruct X as [-> ->]. exists w. split; [reflexivity|]. split; [now apply reached_alive|auto].
  - destruct X as [b [Cb X]]. pose proof (Fc w rho b A Cb) as E. destruct b as [[]|e|u]; [| | |contradiction].
    + rewrite (bind_done _ _ _ _ _ E).
      apply (follows_andthen H V body (rounds_of k cond body) B (while_spec k C B) Fb IH w rho r rho' A X).
    + destruct X as [-> ->]. rewrite (bind_done _ _ _ _ _ E). exists w. split; [reflexivity|]. split; [exact A|auto].
    + destruct X as [-> ->]. unfold bind. rewrite E. exists w. split; [reflexivity|]. split; [exact A|auto].
Qed.

Lemma follows_each H V body B : (forall v, follows H V (body v) (B v)) ->
  forall vs, follows H V (each vs body) (each_spec vs B).
Proof.
  intros F. induction vs as [|v vs IH]; cbn [each each_spec].
  - intros w rho r rho' A [-> ->]. exists w. split; [reflexivity|]. split; [exact A|auto].
  - apply follows_andthen; auto.
Qed.

Lemma cmd_follows w H V rho s c r rho' : alive w lim ty H V rho -> single_cmd lm H V rho s c -> cmd_wf lim V rho c ->
  rho' = snd (spec_cmd lm ty c rho) ->
  match fst (spec_cmd lm ty c rho) with Done _ => r = Ended | Thrown e => r = Raised e | Undef _ => False end ->
  exists w', (run_cmd lm c ;; ret true) w = (of_res r, w') /\ reached w' lim ty H V r rho' /\ (no_leak w -> no_leak w').
Proof.
  intros A Sc WF -> X.
  destruct (alive_cmd lim ty lm w H V rho c A WF) as [w' [E [A' L]]].
  - intros s' x ind same e ->. destruct s; simpl in Sc; try contradiction;
      repeat match goal with H : exists _, _ |- _ => destruct H end;
      repeat match goal with H : _ /\ _ |- _ => destruct H end; try congruence.
  - intros u Eu. rewrite Eu in X. exact X.
  - exists w'. unfold bind. rewrite E. destruct (fst (spec_cmd lm ty c rho)) as [[]|e|u]; [subst r|subst r|contradiction];
      cbn [of_res reached ret]; auto.
Qed.

Lemma run_follows s : forall H V, follows H V (run N lm s) (sem N lm ty lim H V s).
Proof.
  induction s as [ | x e | x v | s x i same e | x i v | x i v | a IHa b IHb | c a IHa b IHb | c a IHa
    | col m body IH | x s t m body IH ]; intros H V w rho r rho' A X; cbn [run sem] in *.
  - destruct X as [-> ->]. exists w. split; [reflexivity|]. split; [exact A|auto].
  - destruct X as [c [Sc [WF [E1 E2]]]].
    destruct (cmd_follows w H V rho _ c r rho' A Sc WF E1 E2) as [w' [E [Q L]]].
    simpl in Sc. destruct Sc as [e' [M ->]]. exists w'. split; [|auto]. rewrite bind_get.
    rewrite (proj1 (build_means lm lim ty V w rho (proj1 A)) _ _ M), bind_lift_done. exact E.
  - destruct X as [c [Sc [WF [E1 E2]]]].
    destruct (cmd_follows w H V rho _ c r rho' A Sc WF E1 E2) as [w' [E [Q L]]].
    simpl in Sc. subst c. exists w'. auto.
  - destruct X as [c [Sc [WF [E1 E2]]]].
    destruct (cmd_follows w H V rho _ c r rho' A Sc WF E1 E2) as [w' [E [Q L]]].
    simpl in Sc. destruct Sc as [i' [ps [e' [Ns [Mi [P [M ->]]]]]]]. exists w'. split; [|auto]. rewrite bind_get.
    pose proof (proj1 A) as R.
    rewrite (proj2 (build_means lm lim ty V w rho R) _ _ Mi), bind_lift_done.
    pose proof (proj1 (proj2 WF)) as Vx.
    replace (esize w (EVar x)) with (Z.of_nat (length (rho x))) by (symmetry; apply (re_holds _ _ _ _ _ R x Vx)).
    rewrite (picks_calc lm lim ty V w rho R _ i' ps) by (auto; try lia; now apply (proj2 (means_vars lm V rho)) in Mi).
    rewrite bind_lift_done, (proj1 (build_means lm lim ty V w rho R) _ _ M), bind_lift_done. exact E.
  - destruct X as [c [Sc [WF [E1 E2]]]].
    destruct (cmd_follows w H V rho _ c r rho' A Sc WF E1 E2) as [w' [E [Q L]]].
    simpl in Sc. destruct Sc as [i' [ps [Mi [P ->]]]]. exists w'. split; [|auto]. rewrite bind_get.
    pose proof (proj1 A) as R.
    rewrite (proj2 (build_means lm lim ty V w rho R) _ _ Mi), bind_lift_done.
    pose proof (proj1 WF) as Vx.
    replace (esize w (EVar x)) with (Z.of_nat (length (rho x))) by (symmetry; apply (re_holds _ _ _ _ _ R x Vx)).
    rewrite (picks_calc lm lim ty V w rho R _ i' ps) by (auto; try lia; now apply (proj2 (means_vars lm V rho)) in Mi).
    rewrite bind_lift_done. exact E.
  - destruct X as [c [Sc [WF [E1 E2]]]].
    destruct (cmd_follows w H V rho _ c r rho' A Sc WF E1 E2) as [w' [E [Q L]]].
    simpl in Sc. destruct Sc as [z [Pz [Bz [Sz ->]]]]. exists w'. split; [|auto]. rewrite bind_get.
    pose proof (proj1 A) as R. pose proof (proj1 WF) as Vx.
    rewrite <- E. cbn [run_cmd]. rewrite bind_assoc, bind_st, bind_assoc.
    destruct (cast (sty (ob w (OD x))) v) as [v'|ex|u]; [|reflexivity|reflexivity].
    rewrite !bind_lift_done. unfold bind.
    rewrite (at_vec_set_in w x (rho x) (re_shape _ _ _ _ _ R) (re_holds _ _ _ _ _ R x Vx) i z v') by auto.
    reflexivity.
  - apply (follows_andthen H V _ _ _ _ (IHa H V) (IHb H V) w rho r rho' A X).
  - destruct X as [o [D X]]. pose proof (condition_decides lm lim ty V w rho (proj1 A) c o D) as E.
    destruct o as [[]|e|u]; [| | |contradiction].
    + rewrite (bind_done _ _ _ _ _ E). apply (IHa H V w rho r rho' A X).
    + rewrite (bind_done _ _ _ _ _ E). apply (IHb H V w rho r rho' A X).
    + destruct X as [-> ->]. unfold bind. rewrite E. exists w. split; [reflexivity|]. split; [exact A|auto].
  - refine (follows_rounds H V _ _ (fun rho => decides lm V rho c) (sem N lm ty lim H V a) _ (IHa H V) N w rho r rho' A X).
    intros w1 rho1 b A1 D. apply (condition_decides lm lim ty V w1 rho1 (proj1 A1) c b D).
  - destruct X as [t [l [Nc [Cr X]]]].
    destruct (make_creates lm lim ty w H V rho col m t l A Nc Cr) as [w1 [E1 Md]].
    rewrite (bind_done _ _ _ _ _ E1).
    destruct (alive_made lim ty w w1 H V rho col t l _ A Nc Md) as [A1 L1].
    pose proof (follows_each (col :: H) V (fun v => run N lm (body v)) _ (fun v => IH v (col :: H) V) l w1 rho r rho' A1 X) as [w2 [E2 [Q2 L2]]].
    unfold scope.
    rewrite (bind_done _ _ _ _ _ (iterate_vec_holds w1 col l (re_shape _ _ _ _ _ (proj1 A1)) (md_holds _ _ _ _ _ _ Md))).
    rewrite E2. destruct r as [| |e]; cbn [of_res reached] in *.
    + destruct (alive_end lim ty w2 H V rho' col Q2 Nc) as [w3 [E3 [A3 L3]]].
      exists w3. rewrite (bind_done _ _ _ _ _ E3). split; [reflexivity|auto].
    + exists w2. auto.
    + destruct (alive_end lim ty w2 H V rho' col Q2 Nc) as [w3 [E3 [A3 L3]]].
      exists w3. rewrite (bind_done _ _ _ _ _ E3). split; [reflexivity|auto].
  - destruct X as [l [Nx [Ns [Ne [Tx [Cr X]]]]]].
    destruct (make_creates lm lim ty w H V rho s m t l A Ns Cr) as [w1 [E1 Md]].
    rewrite (bind_done _ _ _ _ _ E1).
    destruct (alive_declared lim ty w w1 H V rho x s t l _ A Nx Ns Ne Tx Md) as [w2 [E2 [A2 L2]]].
    destruct (IH H (x :: V) w2 (setl rho x l) r rho' A2 X) as [w3 [E3 [Q3 L3]]].
    rewrite <- bind_assoc, (bind_done _ _ _ _ _ E2). unfold scope. rewrite E3.
    destruct r as [| |e]; cbn [of_res reached] in *.
    + destruct (alive_end_var lim ty w3 H V rho' x Q3 Nx) as [w4 [E4 [A4 L4]]].
      exists w4. rewrite (bind_done _ _ _ _ _ E4). split; [reflexivity|auto].
    + exists w3. split; [reflexivity|]. split; [|auto]. destruct Q3 as [H' [V' [I A3]]]. exists H', V'. split; [|exact A3].
      intros y Hy. apply I. now right.
    + destruct (alive_end_var lim ty w3 H V rho' x Q3 Nx) as [w4 [E4 [A4 L4]]].
      exists w4. rewrite (bind_done _ _ _ _ _ E4). split; [reflexivity|auto].
Qed.
End Run.

(* --------------------------------------------------- more rounds of loops *)

(** m' ends as m does whenever m ends. *)
Definition more (m m' : M world bool) : Prop :=
  forall w o w', m w = (o, w') -> o <> Done false -> m' w = (o, w').

Lemma more_refl m : more m m.
Proof. intros w o w' E _. exact E. Qed.
Lemma more_bind {A} (m : M world A) (f f' : A -> M world bool) : (forall x, more (f x) (f' x)) ->
  more (x <- m ;; f x) (x <- m ;; f' x).
Proof.
  intros F w o w'. unfold bind. destruct (m w) as [[x|e|u] w1]; [apply F|auto|auto].
Qed.
Lemma more_andthen a a' b b' : more a a' -> more b b' -> more (andthen a b) (andthen a' b').
Proof.
  intros Fa Fb w o w'. unfold andthen, bind. specialize (Fa w). destruct (a w) as [[[]|e|u] w1].
  - rewrite (Fa _ _ eq_refl) by discriminate. apply Fb.
  - intros [= <- <-] X. contradiction.
  - rewrite (Fa _ _ eq_refl) by discriminate. auto.
  - rewrite (Fa _ _ eq_refl) by discriminate. auto.
Qed.
Lemma more_scope x m m' : more m m' -> more (scope x m) (scope x m').
Proof.
  intros F w o w'. unfold scope. specialize (F w). destruct (m w) as [[[]|e|u] w1].
  - rewrite (F _ _ eq_refl) by discriminate. auto.
  - intros [= <- <-] X. contradiction.
  - rewrite (F _ _ eq_refl) by discriminate. auto.
  - rewrite (F _ _ eq_refl) by discriminate. auto.
Qed.
Lemma more_rounds c body body' : more body body' -> forall k k', (k <= k')%nat ->
  more (rounds_of k c body) (rounds_of k' c body').
Proof.
  intros F. induction k as [|k IH]; intros k' L.
  - intros w o w' [= <- <-] X. contradiction.
  - destruct k' as [|k']; [lia|]. cbn [rounds_of]. apply more_bind. intros [].
    + apply more_andthen; [exact F|]. apply IH. lia.
    + apply more_refl.
Qed.
Lemma more_each vs b b' : (forall v, more (b v) (b' v)) -> more (each vs b) (each vs b').
Proof.
  intros F. induction vs as [|v vs IH]; cbn [each]; [apply more_refl|]. apply more_andthen; auto.
Qed.

Lemma run_more lm s : forall N N', (N <= N')%nat -> more (run N lm s) (run N' lm s).
Proof.
  induction s as [ | x e | x v | s x i same e | x i v | x i v | a IHa b IHb | c a IHa b IHb | c a IHa
    | col m body IH | x s t m body IH ]; intros N N' L; cbn [run]; try apply more_refl.
  - apply more_andthen; auto.
  - apply more_bind. intros []; auto.
  - apply more_rounds; auto.
  - apply more_bind. intros _. apply more_scope, more_bind. intros vs. apply more_each. intros v. now apply IH.
  - apply more_bind. intros _. apply more_bind. intros _. apply more_bind. intros _. apply more_scope. now apply IH.
Qed.
