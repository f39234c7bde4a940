(** The refinement theorem for programs with matrices. *)
From Coq Require Import ZArith List String Bool Lia.
From Verif Require Import Base Num StoreModel VecModel SubsetModel AllocModel ProgModel LangModel
  Spec SpecExpr SpecVec SpecHist SpecProg SpecSub SpecAlloc SpecCons SpecStmt SpecMat
  CapProofs StoreProofs StoreOps StoreThms StoreThms2 VecProofs VecThms VecAssign VecEval SubsetProofs SubsetThms
  AllocProofs AllocProofs2 ConsProofs ConsProofs2 ProgProofs ProgProofs2 ProgThms LangProofs MatProofs.
Import ListNotations.
Open Scope Z_scope.
Local Notation length := List.length (only parsing).

Section Live.
Variables (lim : Z) (ty : nat -> ety).

Lemma lalive_made w w' H V s c t l m : lalive w lim ty H V s -> ~ In c (H ++ V) -> made w w' c t l m ->
  lalive w' lim ty (c :: H) V s /\ (no_leak w -> no_leak w').
Proof.
  intros [A D] N M. destruct (alive_made lim ty w w' H V (fst s) c t l m A N M) as [A' L]. split; [|exact L].
  split; [exact A'|]. intros x Hx. assert (x <> c) by (intros ->; apply N, in_or_app; auto).
  rewrite <- D by auto. unfold dims_in. destruct (vs_other _ _ _ (md_step _ _ _ _ _ _ M) (OD x)) as [-> _]; congruence.
Qed.

Lemma lalive_end w H V s c : lalive w lim ty (c :: H) V s -> ~ In c (H ++ V) ->
  exists w', vec_end c w = (Done tt, w') /\ lalive w' lim ty H V s /\ (no_leak w -> no_leak w').
Proof.
  intros [A D] N. destruct (alive_end lim ty w H V (fst s) c A N) as [w' [E [A' L]]]. exists w'. split; [exact E|].
  split; [|exact L]. split; [exact A'|]. intros x Hx. assert (x <> c) by (intros ->; apply N, in_or_app; auto).
  rewrite (vec_end_dims _ _ _ _ E) by auto. auto.
Qed.

Lemma lalive_end_var w H V s x : lalive w lim ty H (x :: V) s -> ~ In x (H ++ V) ->
  exists w', vec_end x w = (Done tt, w') /\ lalive w' lim ty H V s /\ (no_leak w -> no_leak w').
Proof.
  intros [A D] N. destruct (alive_end_var lim ty w H V (fst s) x A N) as [w' [E [A' L]]]. exists w'. split; [exact E|].
  split; [|exact L]. split; [exact A'|]. intros y Hy. assert (y <> x) by (intros ->; apply N, in_or_app; auto).
  rewrite (vec_end_dims _ _ _ _ E) by auto. apply D. now right.
Qed.

Lemma setd_same sh x d : setd sh x d x = d.
Proof. unfold setd. now rewrite Nat.eqb_refl. Qed.
Lemma setd_other sh x d y : y <> x -> setd sh x d y = sh y.
Proof. intros N. unfold setd. now replace (y =? x)%nat with false by (symmetry; now apply Nat.eqb_neq). Qed.

Lemma lalive_declared w w1 H V s x t ety l d : lalive w lim ty H V s -> ~ In x (H ++ V) -> ~ In t (H ++ V) -> x <> t ->
  ty x = ety -> made w w1 t ety l (to_mp d) ->
  exists w', (vec_steal x t ety ;; vec_end t) w1 = (Done tt, w') /\
    lalive w' lim ty H (x :: V) (setl (fst s) x l, setd (snd s) x d) /\ (no_leak w -> no_leak w').
Proof.
  intros [A D] Nx Nt Ne Tx M. destruct (alive_declared lim ty w w1 H V (fst s) x t ety l _ A Nx Nt Ne Tx M) as [w' [E [A' L]]].
  exists w'. split; [exact E|]. split; [|exact L]. split; [exact A'|].
  destruct (steal_end_dims x t ety w1 w' _ Ne E) as [S1 S2]. intros y Hy. cbn [snd]. destruct (Nat.eq_dec y x) as [->|Ny].
  - rewrite setd_same, S1. unfold dims_in. rewrite (md_shape _ _ _ _ _ _ M). apply dims_of_to_mp.
  - destruct Hy as [Hy|Hy]; [congruence|]. assert (y <> t) by (intros ->; apply Nt, in_or_app; auto).
    rewrite setd_other, S2 by auto. rewrite <- D by auto. unfold dims_in.
    destruct (vs_other _ _ _ (md_step _ _ _ _ _ _ M) (OD y)) as [-> _]; congruence.
Qed.

(** A vector constructed in place. *)
Lemma alive_var w w' H V rho x t l m : alive w lim ty H V rho -> ~ In x (H ++ V) -> ty x = t -> made w w' x t l m ->
  cap (ob w' (OD x)) < 2 ^ 31 -> alive w' lim ty H (x :: V) (setl rho x l).
Proof.
  intros [R [O U]] N Tx [S _ Hd _ Ow Rd Ty _ [t' T]] Sm.
  assert (Nv : ~ In x V) by (intros X; apply N, in_or_app; auto).
  assert (Nh : ~ In x H) by (intros X; apply N, in_or_app; auto).
  assert (Sd : forall y, In y V -> same_obj w w' (OD y)) by (intros y Hy; apply (vs_other _ _ _ S); congruence).
  assert (St : forall y, In y V -> same_obj w w' (OT y)) by (intros y Hy; apply (vs_other _ _ _ S); congruence).
  destruct R as [Q1 Q2 Q3 Q4 Q5 Q6 Q7 Q8]. split; [|split].
  - split.
    + apply S.
    + now rewrite (vs_lim _ _ _ S).
    + intros y [<-|Hy]; [now rewrite setl_same|]. rewrite setl_other by congruence.
      eapply holds_same; [now apply Sd|]. now apply Q3.
    + intros y [<-|Hy]; [exact Ow|]. destruct (Sd y Hy) as [Ed _], (St y Hy) as [Et _]. unfold owning. rewrite Ed, Et. now apply Q4.
    + intros y [<-|Hy]; [exact Rd|]. destruct (Sd y Hy) as [Ed _], (St y Hy) as [Et _]. unfold ready, can_assign. rewrite Ed, Et. now apply Q5.
    + intros y [<-|Hy]; [split; [exact Sm|rewrite T; reflexivity]|]. destruct (Sd y Hy) as [Ed _], (St y Hy) as [Et _]. unfold small. rewrite Ed, Et. now apply Q6.
    + intros y [<-|Hy]; [congruence|]. destruct (Sd y Hy) as [Ed _]. rewrite Ed. now apply Q7.
    + intros y Hy. simpl in Hy. destruct (vs_other _ _ _ S (OT y)) as [E' _]; try congruence; [intuition congruence|].
      intros a Ha. rewrite E' in Ha. revert Ha. apply Q8. tauto.
  - intros y Hy. assert (y <> x) by congruence. destruct (O y Hy) as [Oy Ny]. split; [|simpl; intuition congruence].
    eapply owning_kept; [exact Oy| |]; apply (vs_other _ _ _ S); congruence.
  - intros y Hy. assert (Nyx : y <> x) by (intros ->; apply Hy; apply in_or_app; right; now left).
    destruct (vs_other _ _ _ S (OD y)) as [E' _]; try congruence. intros a Ha. rewrite E' in Ha. revert Ha. apply U.
    intros X. apply Hy. apply in_app_or in X. apply in_or_app. simpl. tauto.
Qed.

Lemma lalive_var w w' H V s x t l m d : lalive w lim ty H V s -> ~ In x (H ++ V) -> ty x = t -> made w w' x t l m ->
  dims_of m = d -> cap (ob w' (OD x)) < 2 ^ 31 ->
  lalive w' lim ty H (x :: V) (setl (fst s) x l, setd (snd s) x d) /\ (no_leak w -> no_leak w').
Proof.
  intros [A D] N Tx M Dm Sm. split; [split|].
  - eapply alive_var; eauto.
  - intros y Hy. cbn [snd]. destruct (Nat.eq_dec y x) as [->|Ny].
    + rewrite setd_same. unfold dims_in. now rewrite (md_shape _ _ _ _ _ _ M).
    + destruct Hy as [Hy|Hy]; [congruence|]. rewrite setd_other by auto. rewrite <- D by auto. unfold dims_in.
      destruct (vs_other _ _ _ (md_step _ _ _ _ _ _ M) (OD y)) as [-> _]; congruence.
  - apply (vstep_no_leak _ _ _ (md_step _ _ _ _ _ _ M)).
Qed.

(** A constructor that threw left nothing behind. *)
Lemma lalive_not w w' H V s x : lalive w lim ty H V s -> ~ In x (H ++ V) -> not_made w w' x ->
  lalive w' lim ty H V s /\ (no_leak w -> no_leak w').
Proof.
  intros [[R [O U]] D] N [S [_ [U1 U2]]].
  assert (Nv : ~ In x V) by (intros X; apply N, in_or_app; auto).
  assert (Nh : ~ In x H) by (intros X; apply N, in_or_app; auto).
  split; [|now apply (vstep_no_leak _ _ _ S)]. split; [split; [|split]|].
  - eapply repr_other; eauto.
  - intros y Hy. assert (y <> x) by congruence. destruct (O y Hy) as [Oy Ny]. split; [|exact Ny].
    eapply owning_kept; [exact Oy| |]; apply (vs_other _ _ _ S); congruence.
  - intros y Hy. destruct (Nat.eq_dec y x) as [->|Ny]; [exact U1|].
    destruct (vs_other _ _ _ S (OD y)) as [E' _]; try congruence. intros a Ha. rewrite E' in Ha. revert Ha. now apply U.
  - intros y Hy. assert (y <> x) by congruence. rewrite <- D by auto. unfold dims_in.
    destruct (vs_other _ _ _ S (OD y)) as [-> _]; congruence.
Qed.

(** fill(). *)
Lemma lalive_fill w H V s x v v' : lalive w lim ty H V s -> In x V -> cast (ty x) v = Done v' ->
  exists w', fill (OD x) v w = (Done tt, w') /\
    lalive w' lim ty H V (setl (fst s) x (repeat v' (length (fst s x))), snd s) /\ (no_leak w -> no_leak w').
Proof.
  intros [[R [O U]] D] Hx Cv. pose proof (re_shape _ _ _ _ _ R) as W.
  pose proof (re_holds _ _ _ _ _ R x Hx) as Hh. pose proof (re_own _ _ _ _ _ R x Hx) as [K _].
  pose proof (re_ready _ _ _ _ _ R x Hx) as [P _]. destruct (ptr (ob w (OD x))) as [a|] eqn:Pa; [|congruence].
  pose proof (shape_alloc _ _ _ W Pa) as Al. destruct (ptr_live _ _ _ W Pa) as [cs [B [L1 L2]]].
  assert (Ow : owner_of (ob w (OD x)) = OwnCpp) by (unfold owner_of; now rewrite K). rewrite Ow in B.
  pose proof (proj1 Hh) as Sz.
  destruct (fill_ok w (OD x) v a OwnCpp cs Pa B) with (v' := v') as [w' [cs' [E [Uc [L N]]]]];
    [lia|now rewrite (re_type _ _ _ _ _ R x Hx)|].
  exists w'. split; [exact E|].
  assert (ST : step1 w w' (OD x)) by (eapply step1_cells; eauto; split; auto).
  destruct Uc as [U1 [U2 [U3 [U4 U5]]]].
  assert (H' : vholds w' x (repeat v' (length (fst s x)))).
  { apply holds_cells; [apply ST|]. rewrite U1, repeat_length. split; [exact Sz|].
    intros i Hi. rewrite (cells_of_ptr w' (OD x) a OwnCpp cs'); [|now rewrite U1|exact U4].
    rewrite N, Sz. replace (Z.of_nat i <? _) with true by (symmetry; apply Z.ltb_lt; lia).
    now rewrite nth_rep by lia. }
  destruct (repr_elems w w' lim ty V (fst s) x _ R Hx ST U1 H') as [R' NL]. split; [|exact NL].
  split; [split; [exact R'|split]|].
  - intros y Hy. destruct (O y Hy) as [Oy Ny]. split; [|exact Ny]. unfold owning. now rewrite U1.
  - intros y Hy. unfold unborn. rewrite U1. now apply U.
  - intros y Hy. unfold dims_in. rewrite U1. now apply D.
Qed.
End Live.

Section LRun.
Variables (N : nat) (lm : libm) (ty : nat -> ety) (lim : Z).

Definition lfollows (H V : list nat) (m : M world bool) (S : mstate -> res -> mstate -> Prop) : Prop :=
  forall w s r s', lalive w lim ty H V s -> S s r s' ->
  exists w', m w = (of_res r, w') /\ lreached w' lim ty H V r s' /\ (no_leak w -> no_leak w').

Lemma lreached_alive w H V s r : lalive w lim ty H V s -> lreached w lim ty H V r s.
Proof. intros A. destruct r; simpl; auto. exists H, V. split; [apply incl_refl|exact A]. Qed.

Lemma lfollows_andthen H V a b S1 S2 : lfollows H V a S1 -> lfollows H V b S2 ->
  lfollows H V (andthen a b) (fun s r s' => exists r1 s1, S1 s r1 s1 /\ after r1 s1 S2 r s').
Proof.
  intros Fa Fb w s r s' A [r1 [s1 [X1 X2]]].
  destruct (Fa w s r1 s1 A X1) as [w1 [E1 [R1 L1]]]. unfold andthen.
  destruct r1 as [| |e]; cbn [after of_res lreached] in *.
  - rewrite (bind_done _ _ _ _ _ E1). destruct (Fb w1 s1 r s' R1 X2) as [w2 [E2 [R2 L2]]].
    exists w2. auto.
  - destruct X2 as [-> ->]. rewrite (bind_done _ _ _ _ _ E1). exists w1. auto.
  - destruct X2 as [-> ->]. unfold bind. rewrite E1. exists w1. auto.
Qed.

Lemma lfollows_rounds H V cond body (C : mstate -> outcome bool -> Prop) B :
  (forall w s b, lalive w lim ty H V s -> C s b -> cond w = (b, w)) ->
  lfollows H V body B -> forall k, lfollows H V (rounds_of k cond body) (while_spec k C B).
Proof.
  intros Fc Fb. induction k as [|k IH]; intros w s r s' A X; cbn [while_spec rounds_of] in *.
  - destruct X as [-> ->]. exists w. split; [reflexivity|]. split; [now apply lreached_alive|auto].
  - destruct X as [b [Cb X]]. pose proof (Fc w s b A Cb) as E. destruct b as [[]|e|u]; [| | |contradiction].
    + rewrite (bind_done _ _ _ _ _ E).
      apply (lfollows_andthen H V body (rounds_of k cond body) B (while_spec k C B) Fb IH w s r s' A X).
    + destruct X as [-> ->]. rewrite (bind_done _ _ _ _ _ E). exists w. split; [reflexivity|]. split; [exact A|auto].
    + destruct X as [-> ->]. unfold bind. rewrite E. exists w. split; [reflexivity|]. split; [exact A|auto].
Qed.

Lemma lfollows_each H V body B : (forall v, lfollows H V (body v) (B v)) ->
  forall vs, lfollows H V (each vs body) (each_spec vs B).
Proof.
  intros F. induction vs as [|v vs IH]; cbn [each each_spec].
  - intros w s r s' A [-> ->]. exists w. split; [reflexivity|]. split; [exact A|auto].
  - apply lfollows_andthen; auto.
Qed.

(* only exceptions of the library are raised *)
Definition tame (S : mstate -> res -> mstate -> Prop) : Prop := forall s e s', S s (Raised e) s' -> e <> BadAlloc.

Lemma tame_after r1 s1 S r s' : tame S -> (forall e, r1 = Raised e -> e <> BadAlloc) -> after r1 s1 S r s' ->
  forall e, r = Raised e -> e <> BadAlloc.
Proof.
  intros T T1 X e ->. destruct r1; cbn [after] in X; [now apply T in X|now destruct X|destruct X as [X _]; eapply T1; eauto].
Qed.
Lemma tame_each vs B : (forall v, tame (B v)) -> tame (each_spec vs B).
Proof.
  intros F. induction vs as [|v vs IH]; cbn [each_spec]; intros s e s' X; [destruct X; discriminate|].
  destruct X as [r1 [s1 [X1 X2]]]. eapply tame_after in X2; eauto. intros e' ->. eapply F; eauto.
Qed.
Lemma tame_while (C : mstate -> outcome bool -> Prop) B : (forall s e, C s (Thrown e) -> e <> BadAlloc) -> tame B -> forall k, tame (while_spec k C B).
Proof.
  intros FC FB. induction k as [|k IH]; intros s e s' X; cbn [while_spec] in X; [destruct X; discriminate|].
  destruct X as [b [Cb X]]. destruct b as [[]|e'|u]; [| | |contradiction].
  - destruct X as [r1 [s1 [X1 X2]]]. eapply tame_after in X2; eauto. intros e' ->. eapply FB; eauto.
  - destruct X; discriminate.
  - destruct X as [[= ->] _]. eapply FC; eauto.
Qed.
Lemma tame_does V c : tame (does lm ty lim V c).
Proof.
  intros s e s' [_ [X _]]. unfold ends_as in X. destruct (fst _) as [?|[m|]|?]; try contradiction; congruence.
Qed.
Lemma tame_given {A} (o : outcome A) k : (forall a, tame (k a)) -> tame (given o k).
Proof.
  intros T s e s' X. unfold given in X. destruct o as [a|[m|]|u]; try contradiction; [eapply T; eauto|]. destruct X as [[= ->] _]. discriminate.
Qed.
Ltac tames := repeat match goal with
  | H : exists _, _ |- _ => destruct H
  | H : _ /\ _ |- _ => destruct H
  | H : does _ _ _ _ _ _ (Raised _) _ |- _ => apply tame_does in H; exact H
  | H : Ended = Raised _ |- _ => discriminate H
  | H : Raised _ = Ended |- _ => discriminate H
  | H : Raised _ = Raised _ |- _ => injection H as H; subst
  | H : False |- _ => contradiction
  end.

Lemma lsem_tame p : forall H V, tame (lsem N lm ty lim H V p).
Proof.
  induction p; intros H0 V s0 ex s' X; cbn [lsem] in X.
  - now tames.
  - destruct X as [a [_ X]]. revert X. apply tame_given. intros e'. apply tame_does.
  - tames.
  - destruct X as [_ [_ [a [b [_ [_ X]]]]]]. revert X. apply tame_given. intros i' s1 e1 s1' [ps [_ X]]. revert X. apply tame_given. intros. apply tame_does.
  - destruct X as [_ [a [_ X]]]. revert X. apply tame_given. intros i' s1 e1 s1' [ps [_ X]]. revert X. apply tame_does.
  - destruct X as [_ [_ [a [b [c [_ [_ [_ X]]]]]]]]. revert X. apply tame_given. intros i'. apply tame_given.
    intros j' s1 e1 s1' [ps [d [_ X]]]. revert X. apply tame_given. intros. apply tame_does.
  - destruct X as [_ [a [b [_ [_ X]]]]]. revert X. apply tame_given. intros i'. apply tame_given.
    intros j' s1 e1 s1' [ps [d [_ X]]]. revert X. apply tame_does.
  - tames.
  - destruct X as [z [_ [_ [_ [_ X]]]]]. destruct (_ && _); [now apply tame_does in X|]. tames. destruct (z <? 1); discriminate.
  - destruct X as [_ [_ X]]. destruct (snd s0 x) as [[nr nc]|].
    + destruct X as [a [b [k [ins [_ [_ [_ X]]]]]]]. destruct ins; [now apply tame_does in X|]. tames. discriminate.
    + tames. discriminate.
  - tames.
  - tames.
  - destruct X as [r1 [s1 [X1 X2]]]. refine (tame_after _ _ _ _ _ (IHp2 H0 V) _ X2 _ eq_refl). intros e' ->. eapply IHp1; eauto.
  - destruct X as [o [_ X]]. revert X. apply tame_given. intros v. destruct (truth v); auto.
  - revert X. apply tame_while; [|apply IHp]. intros s1 e1 [v [_ [F E]]]. destruct v as [v|e2|u]; try discriminate.
    injection E as ->. now apply F.
  - destruct X as [o [_ X]]. revert X. apply tame_given. intros v. apply H.
  - destruct X as [t [l [d [_ [_ X]]]]]. revert X. apply tame_each. intros v. apply H.
  - destruct X as [l [d [_ [_ [_ [_ [_ X]]]]]]]. eapply IHp; eauto.
  - destruct X as [_ [_ [a [_ X]]]]. revert X. apply tame_given. intros e' s1 e1 s1' [_ [_ [_ X]]]. revert X. apply tame_given.
    intros us s2 e2 s2' X. eapply IHp; eauto.
  - destruct X as [_ [_ [_ [_ [_ X]]]]]. destruct (n =? 0); [destruct X as [X _]; injection X as ->; discriminate|]. eapply IHp; eauto.
  - destruct X as [r1 [s1 [X1 X2]]]. destruct r1 as [| |[m|]].
    + destruct X2; discriminate.
    + destruct X2; discriminate.
    + eapply IHp2; eauto.
    + now apply IHp1 in X1.
Qed.

Lemma does_follows w H V s c r s' : lalive w lim ty H V s ->
  (forall t x ind same e, c = CSub t x ind same e -> ~ In t H) -> does lm ty lim V c s r s' ->
  exists w', (run_cmd lm c ;; ret true) w = (of_res r, w') /\ lreached w' lim ty H V r s' /\ (no_leak w -> no_leak w').
Proof.
  intros [A D] Nt [WF [E1 ->]].
  destruct (alive_cmd lim ty lm w H V (fst s) c A WF Nt) as [w' [E [A' L]]].
  { intros u Hu. rewrite Hu in E1. exact E1. }
  exists w'. pose proof (cmd_shapes lm ty w lim V H (fst s) (snd s) c A WF D _ _ E) as D'.
  assert (LA : lalive w' lim ty H V (snd (spec_cmd lm ty c (fst s)), shapes_after (snd s) c (fst (spec_cmd lm ty c (fst s)))))
    by (split; [exact A'|exact D']).
  unfold ends_as in E1. destruct (fst (spec_cmd lm ty c (fst s))) as [[]|[m|]|u] eqn:F; try contradiction; subst r.
  - split; [now rewrite (bind_done _ _ _ _ _ E)|]. split; [exact LA|exact L].
  - split; [unfold bind; now rewrite E|]. split; [exact LA|exact L].
Qed.

Lemma scope_col m w H V c r s : ~ In c (H ++ V) -> (forall e, r = Raised e -> e <> BadAlloc) ->
  (exists w1, m w = (of_res r, w1) /\ lreached w1 lim ty (c :: H) V r s /\ (no_leak w -> no_leak w1)) ->
  exists w', lscope c m w = (of_res r, w') /\ lreached w' lim ty H V r s /\ (no_leak w -> no_leak w').
Proof.
  intros Nc T [w1 [E [Q L]]]. unfold lscope. rewrite E. destruct r as [| |[e|]]; cbn [of_res lreached] in *.
  - destruct (lalive_end lim ty w1 H V s c Q Nc) as [w2 [E2 [A2 L2]]]. exists w2. rewrite (bind_done _ _ _ _ _ E2). split; [reflexivity|auto].
  - exists w1. auto.
  - destruct (lalive_end lim ty w1 H V s c Q Nc) as [w2 [E2 [A2 L2]]]. exists w2. rewrite (bind_done _ _ _ _ _ E2). split; [reflexivity|auto].
  - now destruct (T _ eq_refl).
Qed.

Lemma scope_var m w H V x r s : ~ In x (H ++ V) -> (forall e, r = Raised e -> e <> BadAlloc) ->
  (exists w1, m w = (of_res r, w1) /\ lreached w1 lim ty H (x :: V) r s /\ (no_leak w -> no_leak w1)) ->
  exists w', lscope x m w = (of_res r, w') /\ lreached w' lim ty H V r s /\ (no_leak w -> no_leak w').
Proof.
  intros Nc T [w1 [E [Q L]]]. unfold lscope. rewrite E. destruct r as [| |[e|]]; cbn [of_res lreached] in *.
  - destruct (lalive_end_var lim ty w1 H V s x Q Nc) as [w2 [E2 [A2 L2]]]. exists w2. rewrite (bind_done _ _ _ _ _ E2). split; [reflexivity|auto].
  - exists w1. split; [reflexivity|]. split; [|auto]. destruct Q as [H' [V' [I A]]]. exists H', V'. split; [|exact A].
    intros y Hy. apply I. now right.
  - destruct (lalive_end_var lim ty w1 H V s x Q Nc) as [w2 [E2 [A2 L2]]]. exists w2. rewrite (bind_done _ _ _ _ _ E2). split; [reflexivity|auto].
  - now destruct (T _ eq_refl).
Qed.

Lemma vec_sized_made w x t n : world_shape w -> unborn w (OD x) -> unborn w (OT x) -> 1 <= n <= max_len -> fits w n ->
  exists w', vec_sized x t n w = (Done tt, w') /\ made w w' x t (repeat (zero_of t) (Z.to_nat n)) mp_none /\
    cap (ob w' (OD x)) < 2 ^ 31.
Proof.
  intros W U1 U2 B F. destruct (vec_sized_gen w x t n W U1 U2) as [w' [E [S [K [Hh [M [Ow [Rd [Ty [Ca Tp]]]]]]]]]]; [lia|exact F|].
  exists w'. split; [exact E|]. split.
  - split; auto; [rewrite repeat_length; lia|eauto].
  - unfold max_len in B. destruct (cap115_ok n) as [c [C Bc]]; [lia|]. unfold fits in F.
    destruct (ctor_size_done w (OD x) t n c W U1) as [w1 [E1 [S1 [O1 H1]]]]; auto; try lia.
    unfold vec_sized in E. rewrite (bind_done _ _ _ _ _ E1) in E.
    unfold ctor_default, upd in E. injection E as <-. rewrite ob_set_other by congruence. rewrite O1. cbn [cap]. apply (cap115_small n); [unfold max_len; lia|exact C].
Qed.

Ltac raised A w := match goal with X : _ = Raised _ /\ _ = _ |- _ => destruct X as [-> ->] end;
  exists w; split; [reflexivity|]; split; [exact A|auto].

Lemma lrun_follows p : forall H V, lfollows H V (lrun N lm p) (lsem N lm ty lim H V p).
Proof.
  induction p as [ | x e | x v | t x i same e | x i v | t x i j same e | x i j v | x k v | x i v | x i j v | x v | x n
    | a IHa b IHb | c a IHa b IHb | c a IHa | e body IH | col m body IH | x t et m body IH | x t e body IH | x t n body IH
    | a IHa b IHb ]; intros H V w s r s' A X; cbn [lrun lsem] in *;
    pose proof (proj1 (proj1 A)) as R; pose proof (proj2 A) as D;
    pose proof (lbuild_lmeans lm lim ty V w (fst s) (snd s) R D) as [LB LI];
    pose proof (lmeans_vars lm V (fst s) (snd s)) as [MV MI].
  - destruct X as [-> ->]. exists w. split; [reflexivity|]. split; [exact A|auto].
  - destruct X as [a [M X]]. rewrite bind_get, (LB _ _ M). destruct a as [e'|[m|]|u]; try contradiction; cbn [given] in X; [|raised A w].
    rewrite bind_lift_done. eapply (does_follows w H V s (CAssign x e')); eauto. discriminate.
  - eapply (does_follows w H V s (CScalar x v)); eauto. discriminate.
  - destruct X as [Nt [Vx [a [b [M1 [M2 X]]]]]]. rewrite bind_get, (LI _ _ M1), (LB _ _ M2).
    destruct a as [i'|[m|]|u]; try contradiction; cbn [given] in X; [|raised A w]. destruct X as [ps [P X]]. rewrite bind_lift_done.
    replace (esize w (EVar x)) with (Z.of_nat (length (fst s x))) by (symmetry; apply (re_holds _ _ _ _ _ R x Vx)).
    rewrite (picks_calc lm lim ty V w (fst s) R _ i' ps) by (eauto; lia). rewrite bind_lift_done.
    destruct b as [e'|[m|]|u]; try contradiction; cbn [given] in X; [|raised A w]. rewrite bind_lift_done.
    eapply (does_follows w H V s (CSub t x ps same e')); eauto. congruence.
  - destruct X as [Vx [a [M1 X]]]. rewrite bind_get, (LI _ _ M1).
    destruct a as [i'|[m|]|u]; try contradiction; cbn [given] in X; [|raised A w]. destruct X as [ps [P X]]. rewrite bind_lift_done.
    replace (esize w (EVar x)) with (Z.of_nat (length (fst s x))) by (symmetry; apply (re_holds _ _ _ _ _ R x Vx)).
    rewrite (picks_calc lm lim ty V w (fst s) R _ i' ps) by (eauto; lia). rewrite bind_lift_done.
    eapply (does_follows w H V s (CSubScalar x ps v)); eauto. discriminate.
  - destruct X as [Nt [Vx [a [b [c [M1 [M2 [M3 X]]]]]]]]. rewrite bind_get, (LI _ _ M1), (LI _ _ M2), (LB _ _ M3).
    destruct a as [i'|[m|]|u]; try contradiction; cbn [given] in X; [|raised A w]. rewrite bind_lift_done.
    destruct b as [j'|[m|]|u]; try contradiction; cbn [given] in X; [|raised A w]. destruct X as [ps [d [P X]]]. rewrite bind_lift_done.
    rewrite (cells_calc lm lim ty V w (fst s) (snd s) R D (EVar x) i' j' ps d); eauto; [|intros y [<-|[]]; exact Vx|exact I].
    rewrite bind_lift_done.
    destruct c as [e'|[m|]|u]; try contradiction; cbn [given] in X; [|raised A w]. rewrite bind_lift_done.
    eapply (does_follows w H V s (CSub t x ps same e')); eauto. congruence.
  - destruct X as [Vx [a [b [M1 [M2 X]]]]]. rewrite bind_get, (LI _ _ M1), (LI _ _ M2).
    destruct a as [i'|[m|]|u]; try contradiction; cbn [given] in X; [|raised A w]. rewrite bind_lift_done.
    destruct b as [j'|[m|]|u]; try contradiction; cbn [given] in X; [|raised A w]. destruct X as [ps [d [P X]]]. rewrite bind_lift_done.
    rewrite (cells_calc lm lim ty V w (fst s) (snd s) R D (EVar x) i' j' ps d); eauto; [|intros y [<-|[]]; exact Vx|exact I].
    rewrite bind_lift_done.
    eapply (does_follows w H V s (CSubScalar x ps v)); eauto. discriminate.
  - destruct X as [Bk X]. destruct (does_follows w H V s (CElem x k v) r s' A ltac:(discriminate) X) as [w' [E Q]].
    exists w'. split; [|exact Q]. rewrite wrap64_small by exact Bk. rewrite <- E. cbn [run_cmd].
    rewrite bind_get, bind_assoc, bind_st, bind_assoc. reflexivity.
  - destruct X as [z [Pz [Bz [Nn [Vx X]]]]]. destruct ((1 <=? z) && (z <=? Z.of_nat (length (fst s x)))) eqn:In.
    + apply andb_prop in In. destruct In as [I1 I2]. apply Z.leb_le in I1. apply Z.leb_le in I2.
      destruct (does_follows w H V s (CElem x (z - 1) v) r s' A ltac:(discriminate) X) as [w' [E Q]].
      exists w'. split; [|exact Q]. rewrite <- E. cbn [run_cmd]. rewrite bind_get, bind_assoc, bind_st, bind_assoc.
      destruct (cast (sty (ob w (OD x))) v) as [v'|ex|u]; [|reflexivity|reflexivity].
      rewrite !bind_lift_done. unfold bind.
      rewrite (at_vec_set_in w x (fst s x) (re_shape _ _ _ _ _ R) (re_holds _ _ _ _ _ R x Vx) i z v') by (auto; lia). reflexivity.
    + destruct X as [[v' Cv] X]. rewrite bind_get, (re_type _ _ _ _ _ R x Vx), Cv, bind_lift_done.
      unfold at_vec_set. rewrite bind_assoc, bind_get, bind_assoc.
      rewrite (at_pos_out w x (fst s x) (re_shape _ _ _ _ _ R) (re_holds _ _ _ _ _ R x Vx) i z Pz Bz); [|intros [I1 I2]|exact Nn].
      * raised A w.
      * apply Z.leb_le in I1. apply Z.leb_le in I2. rewrite I1, I2 in In. discriminate.
  - destruct X as [Vx [Nn X]]. rewrite bind_get. destruct (snd s x) as [[nr nc]|] eqn:Sx.
    + destruct X as [a [b [k [ins [P1 [P2 [C X]]]]]]].
      destruct (at_mat_pos_cell lim ty V w (fst s) (snd s) R D x i j a b nr nc k ins Vx Nn Sx P1 P2 C) as [Bk Em].
      destruct ins.
      * destruct (does_follows w H V s (CElem x k v) r s' A ltac:(discriminate) X) as [w' [E Q]].
        exists w'. split; [|exact Q]. rewrite <- E. cbn [run_cmd]. rewrite bind_assoc, bind_st, bind_assoc.
        destruct (cast (sty (ob w (OD x))) v) as [v'|ex|u]; [|reflexivity|reflexivity].
        rewrite !bind_lift_done. unfold at_mat_set. rewrite bind_assoc, bind_get, bind_assoc, Em, bind_lift_done. unfold bind.
        rewrite (wr_elem w x (fst s x) (re_shape _ _ _ _ _ R) (re_holds _ _ _ _ _ R x Vx)); [reflexivity|].
        destruct C as [_ [_ [_ [_ Ci]]]]. symmetry in Ci. apply Z.ltb_lt in Ci. lia.
      * destruct X as [[v' Cv] X]. rewrite (re_type _ _ _ _ _ R x Vx), Cv, bind_lift_done.
        unfold at_mat_set. rewrite bind_assoc, bind_get, bind_assoc, Em. raised A w.
    + destruct X as [[v' Cv] X]. rewrite (re_type _ _ _ _ _ R x Vx), Cv, bind_lift_done.
      unfold at_mat_set. rewrite bind_assoc, bind_get, bind_assoc, (at_mat_pos_none V w (snd s) D x i j Vx Sx). raised A w.
  - destruct X as [Vx [v' [Cv [-> ->]]]]. destruct (lalive_fill lim ty w H V s x v v' A Vx Cv) as [w' [E [A' L]]].
    exists w'. rewrite (bind_done _ _ _ _ _ E). split; [reflexivity|]. split; [exact A'|exact L].
  - contradiction.
  - apply (lfollows_andthen H V _ _ _ _ (IHa H V) (IHb H V) w s r s' A X).
  - destruct X as [o [Dv X]]. destruct s as [rho sh]. pose proof (lvalue_here lm lim ty V w rho sh R D c o Dv) as E.
    destruct o as [v|[m|]|u]; try contradiction; cbn [given] in X.
    + rewrite (bind_done _ _ _ _ _ E). destruct (truth v); [apply (IHa H V w _ r s' A X)|apply (IHb H V w _ r s' A X)].
    + unfold bind. rewrite E. raised A w.
  - refine (lfollows_rounds H V _ _ _ _ _ (IHa H V) N w s r s' A X).
    intros w1 [rho1 sh1] b [A1 D1] [v [Dv [_ ->]]]. pose proof (lvalue_here lm lim ty V w1 rho1 sh1 (proj1 A1) D1 c v Dv) as E.
    unfold bind. rewrite E. destruct v; reflexivity.
  - destruct X as [o [Dv X]]. destruct s as [rho sh]. pose proof (lvalue_here lm lim ty V w rho sh R D e o Dv) as E.
    destruct o as [v|[m|]|u]; try contradiction; cbn [given] in X.
    + rewrite (bind_done _ _ _ _ _ E). apply (IH v H V w _ r s' A X).
    + unfold bind. rewrite E. raised A w.
  - destruct X as [t [l [d [Nc [Cr X]]]]].
    destruct (lmake_creates lm lim ty w H V (fst s) (snd s) col m t l d (proj1 A) D Nc Cr) as [w1 [E1 Md]].
    rewrite (bind_done _ _ _ _ _ E1).
    destruct (lalive_made lim ty w w1 H V s col t l _ A Nc Md) as [A1 L1].
    pose proof (lfollows_each (col :: H) V (fun v => lrun N lm (body v)) _ (fun v => IH v (col :: H) V) l w1 s r s' A1 X) as [w2 [E2 [Q2 L2]]].
    destruct (scope_col (vs <- iterate_vec col ;; each vs (fun v => lrun N lm (body v))) w1 H V col r s' Nc) as [w3 [E3 [Q3 L3]]].
    + intros e ->. revert X. apply tame_each. intros v. apply lsem_tame.
    + exists w2. split; [|auto].
      now rewrite (bind_done _ _ _ _ _ (iterate_vec_holds w1 col l (re_shape _ _ _ _ _ (proj1 (proj1 A1))) (md_holds _ _ _ _ _ _ Md))).
    + exists w3. auto.
  - destruct X as [l [d [Nx [Nt [Ne [Tx [Cr X]]]]]]].
    destruct (lmake_creates lm lim ty w H V (fst s) (snd s) t m et l d (proj1 A) D Nt Cr) as [w1 [E1 Md]].
    rewrite (bind_done _ _ _ _ _ E1).
    destruct (lalive_declared lim ty w w1 H V s x t et l d A Nx Nt Ne Tx Md) as [w2 [E2 [A2 L2]]].
    rewrite <- bind_assoc, (bind_done _ _ _ _ _ E2).
    destruct (scope_var (lrun N lm body) w2 H V x r s' Nx) as [w3 [E3 [Q3 L3]]].
    + intros e ->. revert X. apply lsem_tame.
    + apply (IH H (x :: V) w2 _ r s' A2 X).
    + exists w3. auto.
  - destruct X as [Nx [Tx [a [M X]]]]. rewrite bind_get, (LB _ _ M).
    destruct a as [e'|[m|]|u]; try contradiction; cbn [given] in X; [|raised A w]. rewrite bind_lift_done.
    destruct X as [WF [Bs [Fl X]]]. pose proof (MV _ _ M) as Vs.
    assert (Nv : ~ In x V) by (intros Hx; apply Nx, in_or_app; auto).
    pose proof (vec_of_expr_run lm w x t e' (fst s) (re_shape _ _ _ _ _ R)) as CR.
    unfold cons_result in CR. specialize (CR (proj2 (proj2 (proj1 A)) x Nx) (re_temp _ _ _ _ _ R x Nv)).
    assert (Nve : ~ In x (vars e')) by (intros Hx; apply Nv, Vs, Hx).
    specialize (CR Nve (fun y Hy => re_holds _ _ _ _ _ R y (Vs y Hy)) WF (proj1 Bs)).
    assert (Ft : fits w (xsize (fst s) e')) by (unfold fits; rewrite (re_lim _ _ _ _ _ R); lia). specialize (CR Ft).
    destruct (value lm (fst s) t e') as [us|[m|]|u]; try contradiction; cbn [given] in X.
    + destruct CR as [w1 [E1 Md]]. rewrite (bind_done _ _ _ _ _ E1).
      destruct (lalive_var lim ty w w1 H V s x t us _ (xdims (snd s) e') A Nx Tx Md) as [A1 L1].
      { rewrite shape_dims, (xdims_here V w (snd s) D e' Vs). cbn. unfold received. now destruct (xdims (dims_in w) e'). }
      { eapply vec_of_expr_cap; [|exact E1]. rewrite (size_here lim ty V w (fst s) R); auto. }
      destruct (scope_var (lrun N lm body) w1 H V x r s' Nx) as [w3 [E3 [Q3 L3]]].
      * intros ex ->. revert X. apply lsem_tame.
      * apply (IH H (x :: V) w1 _ r s' A1 X).
      * exists w3. auto.
    + destruct CR as [w1 [E1 Md]]. unfold bind. rewrite E1. destruct X as [-> ->].
      destruct (lalive_not lim ty w w1 H V s x A Nx Md) as [A1 L1]. exists w1. split; [reflexivity|]. split; [exact A1|exact L1].
  - destruct X as [Nx [Tx [Bn [Fl [Ml X]]]]]. rewrite wrap64_small by exact Bn. destruct (n =? 0) eqn:Zn.
    + apply Z.eqb_eq in Zn. subst n. raised A w.
    + apply Z.eqb_neq in Zn. assert (Nv : ~ In x V) by (intros Hx; apply Nx, in_or_app; auto).
      destruct (vec_sized_made w x t n (re_shape _ _ _ _ _ R) (proj2 (proj2 (proj1 A)) x Nx) (re_temp _ _ _ _ _ R x Nv)) as [w1 [E1 [Md Ca]]];
        [lia|unfold fits; rewrite (re_lim _ _ _ _ _ R); lia|].
      rewrite (bind_done _ _ _ _ _ E1).
      destruct (lalive_var lim ty w w1 H V s x t _ _ None A Nx Tx Md eq_refl Ca) as [A1 L1].
      destruct (scope_var (lrun N lm body) w1 H V x r s' Nx) as [w3 [E3 [Q3 L3]]].
      * intros ex ->. revert X. apply lsem_tame.
      * apply (IH H (x :: V) w1 _ r s' A1 X).
      * exists w3. auto.
  - destruct X as [r1 [s1 [X1 X2]]]. destruct (IHa H V w s r1 s1 A X1) as [w1 [E1 [Q1 L1]]]. rewrite E1.
    destruct r1 as [| |[m|]]; cbn [of_res].
    + destruct X2 as [-> ->]. exists w1. auto.
    + destruct X2 as [-> ->]. exists w1. auto.
    + destruct (IHb H V w1 s1 r s' Q1 X2) as [w2 [E2 [Q2 L2]]]. exists w2. auto.
    + destruct X2 as [-> ->]. exists w1. auto.
Qed.
End LRun.

(* --------------------------------------------------- more rounds of loops *)

Lemma more_lscope x m m' : more m m' -> more (lscope x m) (lscope x m').
Proof.
  intros F w o w'. unfold lscope. specialize (F w). destruct (m w) as [[[]|[e|]|u] w1].
  - rewrite (F _ _ eq_refl) by discriminate. auto.
  - intros [= <- <-] X. contradiction.
  - rewrite (F _ _ eq_refl) by discriminate. auto.
  - rewrite (F _ _ eq_refl) by discriminate. auto.
  - rewrite (F _ _ eq_refl) by discriminate. auto.
Qed.

Lemma lrun_more lm p : forall N N', (N <= N')%nat -> more (lrun N lm p) (lrun N' lm p).
Proof.
  induction p as [ | x e | x v | t x i same e | x i v | t x i j same e | x i j v | x k v | x i v | x i j v | x v | x n
    | a IHa b IHb | c a IHa b IHb | c a IHa | e body IH | col m body IH | x t et m body IH | x t e body IH | x t n body IH
    | a IHa b IHb ]; intros N N' L; cbn [lrun]; try apply more_refl.
  - apply more_andthen; auto.
  - apply more_bind. intros v. destruct (truth v); auto.
  - apply more_rounds; auto.
  - apply more_bind. intros v. now apply IH.
  - apply more_bind. intros _. apply more_lscope, more_bind. intros vs. apply more_each. intros v. now apply IH.
  - apply more_bind. intros _. apply more_bind. intros _. apply more_bind. intros _. apply more_lscope. now apply IH.
  - apply more_bind. intros w. apply more_bind. intros e'. apply more_bind. intros _. apply more_lscope. now apply IH.
  - apply more_bind. intros _. apply more_lscope. now apply IH.
  - intros w o w'. pose proof (IHa N N' L w) as Ma. destruct (lrun N lm a w) as [[[]|[e|]|u] w1].
    + rewrite (Ma _ _ eq_refl) by discriminate. auto.
    + intros [= <- <-] X. contradiction.
    + rewrite (Ma _ _ eq_refl) by discriminate. apply (IHb N N' L).
    + rewrite (Ma _ _ eq_refl) by discriminate. auto.
    + rewrite (Ma _ _ eq_refl) by discriminate. auto.
Qed.
