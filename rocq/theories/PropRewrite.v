(** Property C103: programs may be rewritten. *)
From Coq Require Import String ZArith List Bool Lia Permutation.
From Verif Require Import Base Num StoreModel VecModel SubsetModel AllocModel ProgModel LangModel OutModel CallModel JumpModel FloatBridge
  Spec SpecExpr SpecVec SpecHist SpecProg SpecSub SpecAlloc SpecCons SpecStmt SpecMat SpecLang SpecRewrite
  StoreProofs StoreThms VecProofs VecAssign ProgProofs ProgThms MatProofs MatThms CallProofs RewriteProofs VecEval SubsetThms ConsProofs2 Examples PropArith PropMat.
Import ListNotations.
Open Scope Z_scope.
Local Notation length := List.length (only parsing).

(** Statements that do not change what the others mention may be executed in
    any order: when one order runs to its end so does every other, and all
    vectors have the same elements and shapes afterwards. *)
Theorem c103_any_order : forall N lm ty lim H V l l' w s s', lalive w lim ty H V s ->
  Permutation l l' -> Forall part_ok l -> ForallOrdPairs independent l ->
  lsem N lm ty lim H V (in_order l) s Ended s' ->
  exists w1 w2, lrun N lm (in_order l) w = (Done true, w1) /\ lrun N lm (in_order l') w = (Done true, w2) /\
    lalive w1 lim ty H V s' /\ lalive w2 lim ty H V s' /\ (no_leak w -> no_leak w1 /\ no_leak w2).
Proof.
  intros N lm ty lim H V l l' w s s' A Pm Ok F X.
  destruct (in_order_perm N lm ty lim H V l l' Pm Ok F s s' X) as [t' [Y E]].
  destruct (c81_programs N lm ty lim H V _ w s Ended s' A X) as [w1 [E1 [Q1 L1]]].
  destruct (c81_programs N lm ty lim H V _ w s Ended t' A Y) as [w2 [E2 [Q2 L2]]].
  exists w1, w2. split; [exact E1|]. split; [exact E2|]. split; [exact Q1|]. split; [|auto].
  apply (lalive_ext w2 lim ty H V t'); [exact Q2|]. intros x _. destruct (E x) as [-> ->]. auto.
Qed.
Print Assumptions c103_any_order.

(** A statement changes no vectors but those its text assigns to. *)
Theorem c103_only_sets : forall N lm ty lim H V P Q p w s r s', lalive w lim ty H V s ->
  touches P Q p -> lsem N lm ty lim H V p s r s' -> r <> Running ->
  exists w', lrun N lm p w = (of_res r, w') /\
    forall x, In x V -> ~ In x Q -> vholds w' x (fst s x) /\ dims_in w' x = dims_in w x.
Proof.
  intros N lm ty lim H V P Q p w s r s' A T X NR.
  destruct (c81_programs N lm ty lim H V p w s r s' A X) as [w' [E [R _]]]. exists w'. split; [exact E|]. intros x Hx Nx.
  destruct (lsem_stays N lm ty lim P Q p T H V s r s' X x Nx) as [E1 E2].
  assert (A' : lalive w' lim ty H V s') by (destruct r; [exact R|contradiction|exact R]).
  rewrite <- E1, (proj2 A' x Hx), E2, (proj2 A x Hx). split; [|reflexivity]. apply (re_holds _ _ _ _ _ (proj1 (proj1 A'))). exact Hx.
Qed.
Print Assumptions c103_only_sets.

(** A statement that ends, followed by one that does not mention what it
    changes, may be left out: the rest ends as before, be it by an exception,
    and the vectors the statement did not change are the same. *)
Theorem c103_unused : forall N lm ty lim H V P1 Q1 P2 Q2 p q w s s1 r s', lalive w lim ty H V s ->
  touches P1 Q1 p -> incl Q2 P2 -> touches P2 Q2 q -> apart Q1 P2 ->
  lsem N lm ty lim H V p s Ended s1 -> lsem N lm ty lim H V q s1 r s' -> r <> Running ->
  exists w1 w2 t', lrun N lm (LSeq p q) w = (of_res r, w1) /\ lrun N lm q w = (of_res r, w2) /\
    lalive w1 lim ty H V s' /\ lalive w2 lim ty H V t' /\
    forall x, ~ In x Q1 -> fst t' x = fst s' x /\ snd t' x = snd s' x.
Proof.
  intros N lm ty lim H V P1 Q1 P2 Q2 p q w s s1 r s' A T1 I2 T2 D X1 X2 NR.
  pose proof (lsem_stays N lm ty lim P1 Q1 p T1 H V s Ended s1 X1) as F1.
  destruct (lsem_all N lm ty lim H V P2 Q2 q s1 s r s' I2 T2 X2) as [t' [Y E]].
  { intros x Hx. destruct (F1 x) as [-> ->]; [|auto]. intros Hq. now apply (D x). }
  destruct (c81_programs N lm ty lim H V (LSeq p q) w s r s' A) as [w1 [E1 [R1 _]]]; [now exists Ended, s1|].
  destruct (c81_programs N lm ty lim H V q w s r t' A Y) as [w2 [E2 [R2 _]]].
  exists w1, w2, t'. split; [exact E1|]. split; [exact E2|].
  split; [destruct r; [exact R1|contradiction|exact R1]|]. split; [destruct r; [exact R2|contradiction|exact R2]|].
  intros x Nx. apply E. left. destruct (F1 x Nx) as [-> ->]. auto.
Qed.
Print Assumptions c103_unused.

(** One round of a loop may be written in front of it: the program ends in the
    same way and in the very same state of memory. *)
Theorem c103_unroll : forall lm c a w o w', o <> Done false ->
  (exists N, lrun N lm (LWhile c a) w = (o, w')) <-> (exists N, lrun N lm (LIf c (LSeq a (LWhile c a)) LSkip) w = (o, w')).
Proof.
  intros lm c a w o w' NR. split; intros [N E].
  - exists N. now apply unroll_there.
  - exists (S N). now apply unroll_back.
Qed.
Print Assumptions c103_unroll.

(** Sequences may be grouped as one likes, empty statements dropped, a common
    continuation moved into both branches, a handler of a handler moved into
    it: same end, same memory, for all states. *)
Theorem c103_laws : forall N lm a b c e w,
  lrun N lm (LSeq a (LSeq b c)) w = lrun N lm (LSeq (LSeq a b) c) w /\
  lrun N lm (LSeq LSkip a) w = lrun N lm a w /\ lrun N lm (LSeq a LSkip) w = lrun N lm a w /\
  lrun N lm (LSeq (LIf e a b) c) w = lrun N lm (LIf e (LSeq a c) (LSeq b c)) w /\
  lrun N lm (LTry (LTry a b) c) w = lrun N lm (LTry a (LTry b c)) w /\
  lrun N lm (LTry LSkip a) w = lrun N lm LSkip w.
Proof.
  intros N lm a b c e w. cbn [lrun]. unfold andthen, bind, ret. split; [|split; [|split; [|split; [|split]]]].
  - destruct (lrun N lm a w) as [[[]|?|?] w1]; auto. 
  - reflexivity.
  - destruct (lrun N lm a w) as [[[]|?|?] w1]; auto.
  - destruct (lcondition lm e w) as [[v|?|?] w1]; auto. now destruct (truth v).
  - destruct (lrun N lm a w) as [[[]|[m|]|?] w1]; auto.
  - reflexivity.
Qed.
Print Assumptions c103_laws.

(** Any number of such steps, anywhere in a program, in loops, scopes and
    handlers, in both directions: a program that ends, by an exception or by
    undefined behaviour for that matter, ends after rewriting in the same way
    and with the same memory. *)
Theorem c103_rewrites : forall k p q lm N w o w', rewrites k p q -> lrun N lm p w = (o, w') -> o <> Done false ->
  lrun (N + k) lm q w = (o, w').
Proof. intros k p q lm N w o w' R E NR. now apply (rewrites_more lm k p q R N). Qed.
Print Assumptions c103_rewrites.

(** Bodies of functions: what follows break, continue or return is not
    executed, continue at the end of a round changes nothing, statements
    without jumps may be put together. *)
Theorem c103_function : forall N lm a b c t e p q w,
  jrun N lm (JSeq a (JSeq b c)) w = jrun N lm (JSeq (JSeq a b) c) w /\
  jrun N lm (JSeq JBreak a) w = jrun N lm JBreak w /\ jrun N lm (JSeq JContinue a) w = jrun N lm JContinue w /\
  jrun N lm (JSeq (JRet t e) a) w = jrun N lm (JRet t e) w /\
  jrun N lm (JSeq (JIf e a b) c) w = jrun N lm (JIf e (JSeq a c) (JSeq b c)) w /\
  jrun N lm (JTry (JTry a b) c) w = jrun N lm (JTry a (JTry b c)) w /\
  jrun N lm (JWhile e (JSeq a JContinue)) w = jrun N lm (JWhile e a) w /\
  jrun N lm (JWhile e JBreak) w = jrun N lm (JWhile e (JSeq JBreak a)) w /\
  jrun N lm (JSeq (JDo p) (JDo q)) w = jrun N lm (JDo (LSeq p q)) w /\
  jrun N lm (JIf e (JDo p) (JDo q)) w = jrun N lm (JDo (LIf e p q)) w /\
  jrun N lm (JWhile e (JDo p)) w = jrun N lm (JDo (LWhile e p)) w.
Proof.
  intros N lm a b c t e p q w. cbn [jrun lrun].
  split; [|split; [|split; [|split; [|split; [|split; [|split; [|split; [|split; [|split]]]]]]]]].
  - unfold jthen, bind, ret. destruct (jrun N lm a w) as [[[]|?|?] w1]; auto.
  - reflexivity.
  - reflexivity.
  - unfold jthen, get, lift, bind, ret. destruct (lbuild lm w e) as [e'|?|?]; auto. destruct (cpp2R lm t e' w) as [[o|?|?] w1]; auto.
  - unfold jthen, bind, ret. destruct (lcondition lm e w) as [[v|?|?] w1]; auto. now destruct (truth v).
  - destruct (jrun N lm a w) as [[f|[m|]|?] w1]; auto.
  - set (C := v <- lcondition lm e ;; ret (truth v)). generalize N at 1 3 as n. intros n. revert w.
    induction n as [|n IH]; intros w; cbn [jrounds]; [reflexivity|]. unfold bind at 1 3. destruct (C w) as [[[]|?|?] w1]; auto.
    unfold jthen. unfold bind. destruct (jrun N lm a w1) as [[[]|?|?] w2]; cbn [ret jround]; auto.
  - reflexivity.
  - unfold jthen, andthen, bind, ret. destruct (lrun N lm p w) as [[[]|?|?] w1]; auto.
  - unfold bind, ret. destruct (lcondition lm e w) as [[v|?|?] w1]; auto. now destruct (truth v).
  - set (C := v <- lcondition lm e ;; ret (truth v)). generalize N at 1 3 as n. intros n. revert w.
    induction n as [|n IH]; intros w; cbn [jrounds rounds_of]; [reflexivity|]. unfold andthen, bind, ret in *.
    destruct (C w) as [[[]|?|?] w1]; auto. destruct (lrun N lm p w1) as [[[]|?|?] w2]; cbn [jround]; auto.
Qed.
Print Assumptions c103_function.

(** An assignment that is overwritten at once may be left out, as far as the
    elements of all vectors and the shapes of all others are concerned. *)
Theorem c103_overwrite_partial : forall N lm ty lim H V x e1 e2 w s s', lalive w lim ty H V s -> ~ In x (lvars e2) ->
  lsem N lm ty lim H V (LSeq (LAssign x e1) (LAssign x e2)) s Ended s' ->
  exists w1 w2 t', lrun N lm (LSeq (LAssign x e1) (LAssign x e2)) w = (Done true, w1) /\ lrun N lm (LAssign x e2) w = (Done true, w2) /\
    lalive w1 lim ty H V s' /\ lalive w2 lim ty H V t' /\
    (forall y, fst t' y = fst s' y) /\ (forall y, y <> x -> snd t' y = snd s' y).
Proof.
  intros N lm ty lim H V x e1 e2 w s s' A Nx X.
  assert (Y : exists t', lsem N lm ty lim H V (LAssign x e2) s Ended t' /\ (forall y, fst t' y = fst s' y) /\ (forall y, y <> x -> snd t' y = snd s' y)).
  { destruct X as [r1 [s1 [X1 X2]]]. destruct r1; try (destruct X2; discriminate). cbn [after lsem] in X2.
    assert (F : forall y, ~ In y [x] -> fst s1 y = fst s y /\ snd s1 y = snd s y).
    { apply (lsem_stays N lm ty lim (lvars e1) [x] (LAssign x e1)) with (H := H) (V := V) (r := Ended); [split; [now left|apply incl_refl]|exact X1]. }
    assert (Al : alike (lvars e2) s1 s) by (intros y Hy; destruct (F y) as [-> ->]; [intros [->|[]]; contradiction|auto]).
    destruct X2 as [a [M X2]]. destruct a as [e'|ex|u]; cbn [given] in X2; [|destruct ex; [destruct X2; discriminate|contradiction]|contradiction].
    assert (I : incl (vars e') (lvars e2)) by (eapply lmeans_in; [exact M|apply incl_refl]).
    destruct X2 as [W [En ->]]. cbn [spec_cmd] in En |- *.
    assert (Sz : xsize (fst s1) e' = xsize (fst s) e') by (symmetry; apply (xsize_alike (lvars e2) _ _ _ _ Al e' I)).
    assert (Vl : value lm (fst s1) (ty x) e' = value lm (fst s) (ty x) e') by (symmetry; apply (value_alike lm (lvars e2) _ _ _ _ Al _ e' I)).
    rewrite Sz, Vl in *. destruct (xsize (fst s) e' =? 0) eqn:Z0; [discriminate|].
    destruct (value lm (fst s) (ty x) e') as [us|ex|u] eqn:Ev; [|destruct ex; cbn in En; [discriminate|contradiction]|contradiction].
    eexists. split; [|split].
    - cbn [lsem]. exists (Done e'). split; [apply (means_alike lm (lvars e2) V s1 s e2 (Done e') Al (incl_refl _) M)|]. cbn [given].
      split; [|split; [cbn [spec_cmd]; rewrite Z0, Ev; reflexivity|reflexivity]].
      cbn [cmd_wf] in W |- *. rewrite Sz in W. destruct W as [W1 [W2 [W3 W4]]]. split; [exact W1|]. split; [exact W2|]. split; [|exact W4].
      now apply (wf_alike (lvars e2) (fst s1) (fst s) _ _ Al).
    - intros y. cbn [spec_cmd fst snd]. rewrite Z0, Ev. cbn [fst snd]. rewrite !setl_at. destruct (Nat.eqb y x) eqn:Ey; [reflexivity|].
      apply Nat.eqb_neq in Ey. destruct (F y) as [-> _]; [intros [->|[]]; contradiction|reflexivity].
    - intros y Ny. cbn [spec_cmd fst snd]. rewrite Z0, Ev. cbn [fst snd shapes_after]. unfold setd. apply Nat.eqb_neq in Ny as Ey. rewrite Ey.
      destruct (F y) as [_ ->]; [intros [->|[]]; contradiction|reflexivity]. }
  destruct Y as [t' [Y [E1 E2]]].
  destruct (c81_programs N lm ty lim H V _ w s Ended s' A X) as [w1 [R1 [Q1 _]]].
  destruct (c81_programs N lm ty lim H V _ w s Ended t' A Y) as [w2 [R2 [Q2 _]]].
  exists w1, w2, t'. auto 10.
Qed.
Print Assumptions c103_overwrite_partial.

(** The value that was assigned to x may be read from x instead of being
    computed again, as far as elements and the shapes of other vectors are
    concerned. *)
Theorem c103_copy_partial : forall N lm ty lim H V x y e w s s', lalive w lim ty H V s -> ~ In x (lvars e) -> x <> y -> ty x = ty y ->
  lsem N lm ty lim H V (LSeq (LAssign x e) (LAssign y e)) s Ended s' ->
  exists w1 w2 t', lrun N lm (LSeq (LAssign x e) (LAssign y e)) w = (Done true, w1) /\
    lrun N lm (LSeq (LAssign x e) (LAssign y (LVar x))) w = (Done true, w2) /\
    lalive w1 lim ty H V s' /\ lalive w2 lim ty H V t' /\
    (forall z, fst t' z = fst s' z) /\ (forall z, z <> y -> snd t' z = snd s' z).
Proof.
  intros N lm ty lim H V x y e w s s' A Nx Nxy Ty X.
  assert (Y : exists t', lsem N lm ty lim H V (LSeq (LAssign x e) (LAssign y (LVar x))) s Ended t' /\ (forall z, fst t' z = fst s' z) /\ (forall z, z <> y -> snd t' z = snd s' z)).
  { destruct X as [r1 [s1 [X1 X2]]]. destruct r1; try (destruct X2; discriminate). cbn [after lsem] in X2.
    assert (F : forall z, ~ In z [x] -> fst s1 z = fst s z /\ snd s1 z = snd s z).
    { apply (lsem_stays N lm ty lim (lvars e) [x] (LAssign x e)) with (H := H) (V := V) (r := Ended); [split; [now left|apply incl_refl]|exact X1]. }
    assert (Al : alike (lvars e) s1 s) by (intros z Hz; destruct (F z) as [-> ->]; [intros [->|[]]; contradiction|auto]).
    pose proof X1 as X1'. cbn [lsem] in X1. destruct X1 as [b [M1 X1]].
    destruct X2 as [a [M X2]].
    assert (Ms : lmeans lm V (fst s) (snd s) e a) by apply (means_alike lm (lvars e) V s1 s e a Al (incl_refl _) M).
    destruct a as [e2|ex|u]; cbn [given] in X2; [|destruct ex; [destruct X2; discriminate|contradiction]|contradiction].
    destruct b as [e1|ex|u]; cbn [given] in X1; [|destruct ex; [destruct X1; discriminate|contradiction]|contradiction].
    assert (e1 = e2).
    { pose proof (lbuild_lmeans lm lim ty V w (fst s) (snd s) (proj1 (proj1 A)) (proj2 A)) as [LB _].
      pose proof (LB _ _ M1) as B1. rewrite (LB _ _ Ms) in B1. congruence. }
    subst e1. assert (I : incl (vars e2) (lvars e)) by (eapply lmeans_in; [exact M|apply incl_refl]).
    assert (Sz : xsize (fst s1) e2 = xsize (fst s) e2) by (symmetry; apply (xsize_alike (lvars e) _ _ _ _ Al e2 I)).
    assert (Vl : value lm (fst s1) (ty y) e2 = value lm (fst s) (ty x) e2) by (rewrite Ty; symmetry; apply (value_alike lm (lvars e) _ _ _ _ Al _ e2 I)).
    destruct X1 as [W1 [En1 Es1]]. destruct X2 as [W2 [En2 Es']]. cbn [spec_cmd cmd_wf] in *. rewrite Sz, Vl in *.
    destruct (xsize (fst s) e2 =? 0) eqn:Z0; [discriminate|].
    destruct (value lm (fst s) (ty x) e2) as [us|ex|u] eqn:Ev; [|destruct ex; cbn in En2; [discriminate|contradiction]|contradiction].
    cbn [fst snd shapes_after] in Es1, Es'. apply value_done in Ev. destruct Ev as [Lu Eu].
    assert (Ux : fst s1 x = us) by (rewrite Es1; cbn [fst]; rewrite setl_at, Nat.eqb_refl; reflexivity).
    assert (Vx : value lm (fst s1) (ty y) (EVar x) = Done us).
    { apply value_of_done. split; [cbn [xsize]; now rewrite Ux|]. intros i Hi. destruct (Eu i Hi) as [v [_ C]].
      exists (nth i us (VB false)). split; [|rewrite <- Ty; eapply cast_idem; exact C].
      cbn [xval]. rewrite Ux. unfold pick_val. rewrite Nat2Z.id, (nth_error_nth' us (VB false) Hi). reflexivity. }
    assert (Sx : xsize (fst s1) (EVar x) = xsize (fst s) e2) by (cbn [xsize]; now rewrite Ux).
    eexists. split; [exists Ended, s1; split; [exact X1'|]; cbn [after lsem]; exists (Done (EVar x))|].
    - split; [split; [exact (proj1 W1)|reflexivity]|].
      cbn [given]. unfold does.
      split; [|split; [cbn [spec_cmd]; rewrite Sx, Z0, Vx; reflexivity|reflexivity]].
      cbn [cmd_wf]. rewrite Sx. split; [exact (proj1 W2)|]. split; [intros z [<-|[]]; exact (proj1 W1)|]. split; [exact Logic.I|exact (proj2 (proj2 (proj2 W2)))].
    - cbn [spec_cmd]. rewrite Sx, Z0, Vx. cbn [fst snd shapes_after]. rewrite Es'. cbn [fst snd]. split; [reflexivity|].
      intros z Nz. unfold setd. apply Nat.eqb_neq in Nz. now rewrite Nz. }
  destruct Y as [t' [Y [E1 E2]]].
  destruct (c81_programs N lm ty lim H V _ w s Ended s' A X) as [w1 [R1 [Q1 _]]].
  destruct (c81_programs N lm ty lim H V _ w s Ended t' A Y) as [w2 [R2 [Q2 _]]].
  exists w1, w2, t'. auto 10.
Qed.
Print Assumptions c103_copy_partial.

(** Not for the shape of the vector itself: without  x = m;  the program
      m = matrix(7.0, 2, 2); x = vector(numeric, 4); x = m; x = 1 + 2; at(x, 1, 1) = 5;
    throws, with it it does not, because x still counts as a matrix
    (c16_stale_shape_refuted). *)
Definition c103_prog (b : lstmt) : lstmt :=
  LLet 0 1 TDouble (LMMatrix (LS (VD (i2f 7))) (LS (VI 2)) (LS (VI 2)))
    (LLet 2 3 TDouble (LMVector TDouble (LS (VI 4))) (LSeq b (LAt2Set 2 (PZ 1) (PZ 1) (VI 5)))).
Theorem c103_overwrite_refuted : exists x e1 e2, ~ In x (lvars e2) /\ forall N lm,
  fst (lrun N lm (c103_prog (LSeq (LAssign x e1) (LAssign x e2))) (empty_world 1000)) = Done true /\
  fst (lrun N lm (c103_prog (LAssign x e2)) (empty_world 1000)) = Thrown msg_nomat.
Proof.
  exists 2%nat, (LVar 0), (LBin OPlus (LLit (VI 1)) (LLit (VI 2))). split; [intros []|]. intros N lm. split; vm_compute; reflexivity.
Qed.
Print Assumptions c103_overwrite_refuted.

(** Nor can the value be read from x with its shape:
      m = matrix(7.0, 2, 2); x = m; x = 1 + 2; y = 1 + 2; at(y, 1, 1) = 5;
    throws, with  y = x;  it does not. *)
Theorem c103_copy_refuted : exists x y e, ~ In x (lvars e) /\ x <> y /\ forall N lm,
  let prog b := LLet 0 1 TDouble (LMMatrix (LS (VD (i2f 7))) (LS (VI 2)) (LS (VI 2)))
    (LLet 2 3 TDouble (LMVector TDouble (LS (VI 4))) (LLet 4 5 TDouble (LMVector TDouble (LS (VI 4)))
       (LSeq (LAssign 2 (LVar 0)) (LSeq (LSeq (LAssign x e) b) (LAt2Set 4 (PZ 1) (PZ 1) (VI 5)))))) in
  fst (lrun N lm (prog (LAssign y e)) (empty_world 1000)) = Thrown msg_nomat /\
  fst (lrun N lm (prog (LAssign y (LVar x))) (empty_world 1000)) = Done true.
Proof.
  exists 2%nat, 4%nat, (LBin OPlus (LLit (VI 1)) (LLit (VI 2))). split; [intros []|]. split; [discriminate|]. intros N lm. split; vm_compute; reflexivity.
Qed.
Print Assumptions c103_copy_refuted.

(* --------------------------------------------------------------- examples *)

Lemma lalive_empty lim ty s : 0 <= lim <= 2 ^ 60 -> lalive (empty_world lim) lim ty [] [] s.
Proof.
  intros B. split; [|intros x []]. split; [|split; [intros y []|intros y _ a [P _]; discriminate]].
  pose proof (world_ok_shape _ (empty_world_ok lim B)) as W.
  constructor; [exact W|reflexivity|intros x []|intros x []|intros x []|intros x []|intros x []|intros y _ a [P _]; discriminate].
Qed.
Lemma lalive_sized w lim ty V s x n : lalive w lim ty [] V s -> ~ In x V -> 1 <= n <= max_len -> 2 * n <= lim ->
  exists w1, lalive w1 lim ty [] (x :: V) (setl (fst s) x (repeat (zero (ty x)) (Z.to_nat n)), setd (snd s) x None).
Proof.
  intros [[R [O U]] D] Nx B1 B2.
  destruct (vec_sized_made w x (ty x) n (re_shape _ _ _ _ _ R) (U x Nx) (re_temp _ _ _ _ _ R x Nx)) as [w1 [E1 [Md Ca]]];
    [lia|unfold fits; rewrite (re_lim _ _ _ _ _ R); lia|].
  exists w1. apply (lalive_var lim ty w w1 [] V s x (ty x) _ _ None (conj (conj R (conj O U)) D) Nx eq_refl Md eq_refl Ca).
Qed.

(** Three vectors of three doubles. *)
Definition c103_ty (x : nat) : ety := TDouble.
Definition c103_s : mstate :=
  (setl (setl (setl (fun _ => []) 0 (repeat (VD fzero) 3)) 1 (repeat (VD fzero) 3)) 2 (repeat (VD fzero) 3), fun _ => None).
Example c103_alive_ex : exists w, lalive w 1000 c103_ty [] [2; 1; 0]%nat c103_s.
Proof.
  pose proof (lalive_empty 1000 c103_ty (fun _ => [], fun _ => None) ltac:(lia)) as A0.
  destruct (lalive_sized _ _ _ _ _ 0%nat 3 A0) as [w1 A1]; [intros []|vm_compute; split; discriminate|lia|].
  destruct (lalive_sized _ _ _ _ _ 1%nat 3 A1) as [w2 A2]; [intros [X|[]]; discriminate|vm_compute; split; discriminate|lia|].
  destruct (lalive_sized _ _ _ _ _ 2%nat 3 A2) as [w3 A3]; [intros [X|[X|[]]]; discriminate|vm_compute; split; discriminate|lia|].
  exists w3. apply (lalive_ext _ _ _ _ _ _ c103_s A3). intros x [<-|[<-|[<-|[]]]]; vm_compute; auto.
Qed.

(** x0 = x2 + 1;   try { at(x1, 9) = 1; } catch (...) { x1 = x2 + 4; } *)
Definition c103_p : part := mkPart (LAssign 0 (LBin OPlus (LVar 2) (LLit (VI 1)))) [0; 2]%nat [0]%nat.
Definition c103_q : part := mkPart (LTry (LAtSet 1 (PZ 9) (VI 1)) (LAssign 1 (LBin OPlus (LVar 2) (LLit (VI 4))))) [1; 2]%nat [1]%nat.
Ltac do_assign e := exists (Done e); split; [eexists _, _; split; [split; [cbn; tauto|reflexivity]|]; split; reflexivity|]; cbn [given];
  split; [cbn [cmd_wf]; split; [cbn; tauto|]; split; [intros y [<-|[]]; cbn; tauto|]; split; [vm_compute; auto; repeat split; discriminate|split; vm_compute; discriminate]|];
  split; [vm_compute; reflexivity|reflexivity].
Example c103_any_order_ex : Permutation [c103_p; c103_q] [c103_q; c103_p] /\ Forall part_ok [c103_p; c103_q] /\
  ForallOrdPairs independent [c103_p; c103_q] /\
  exists s', lsem 0 square_lm c103_ty 1000 [] [2; 1; 0]%nat (in_order [c103_p; c103_q]) c103_s Ended s' /\
    fst s' 0%nat = repeat (VD (i2f 1)) 3 /\ fst s' 1%nat = repeat (VD (i2f 4)) 3.
Proof.
  split; [apply perm_swap|]. split.
  - constructor; [|constructor; [|constructor]]; (split; [intros y Hy; cbn in *; tauto|]); cbn [c103_p c103_q code names sets touches].
    + split; [now left|]. intros y [<-|[]]; cbn; tauto.
    + split; [now left|]. split; [now left|]. intros y [<-|[]]; cbn; tauto.
  - split.
    + constructor; [constructor; [|constructor]|constructor; constructor]. split; intros x [<-|[]]; cbn; intuition discriminate.
    + eexists. split; [|split].
      * cbn [in_order code c103_p c103_q lsem]. eexists Ended, _. split; [do_assign (EBin OPlus (EVar 2) (ESca (VI 1)))|]. cbn [after].
        eexists Ended, _. split; [|cbn [after]; split; reflexivity].
        exists (Raised msg_oob). eexists. split.
        { exists 9. split; [reflexivity|]. split; [lia|]. split; [discriminate|]. split; [cbn; tauto|]. split; [eexists; reflexivity|]. split; reflexivity. }
        cbn iota. do_assign (EBin OPlus (EVar 2) (ESca (VI 4))).
      * vm_compute. reflexivity.
      * vm_compute. reflexivity.
Qed.
(** x0 = x1 + 4; after x0 = x2 + 1: the first one is overwritten. *)
Example c103_overwrite_ex : ~ In 0%nat (lvars (LBin OPlus (LVar 1) (LLit (VI 4)))) /\
  exists s', lsem 0 square_lm c103_ty 1000 [] [2; 1; 0]%nat
    (LSeq (LAssign 0 (LBin OPlus (LVar 2) (LLit (VI 1)))) (LAssign 0 (LBin OPlus (LVar 1) (LLit (VI 4))))) c103_s Ended s' /\
    fst s' 0%nat = repeat (VD (i2f 4)) 3.
Proof.
  split; [cbn; intuition discriminate|]. eexists. split.
  - cbn [lsem]. eexists Ended, _. split; [do_assign (EBin OPlus (EVar 2) (ESca (VI 1)))|]. cbn [after]. do_assign (EBin OPlus (EVar 1) (ESca (VI 4))).
  - vm_compute. reflexivity.
Qed.
(** at(x1, 9) = 1; ends by an exception with or without x0 = x2 + 1; in front. *)
Example c103_unused_ex : touches [0; 2]%nat [0]%nat (code c103_p) /\ touches [1]%nat [1]%nat (LAtSet 1 (PZ 9) (VI 1)) /\ apart [0]%nat [1]%nat /\
  exists s1, lsem 0 square_lm c103_ty 1000 [] [2; 1; 0]%nat (code c103_p) c103_s Ended s1 /\
    lsem 0 square_lm c103_ty 1000 [] [2; 1; 0]%nat (LAtSet 1 (PZ 9) (VI 1)) s1 (Raised msg_oob) s1.
Proof.
  split; [split; [now left|intros y [<-|[]]; cbn; tauto]|]. split; [now left|]. split; [intros x [<-|[]]; cbn; intuition discriminate|].
  eexists. split; [cbn [code c103_p lsem]; do_assign (EBin OPlus (EVar 2) (ESca (VI 1)))|].
  exists 9. split; [reflexivity|]. split; [lia|]. split; [discriminate|]. split; [cbn; tauto|]. split; [eexists; reflexivity|]. split; reflexivity.
Qed.
(** while (at(x, 1) < 10) x = x + x; *)
Definition c103_loop : lstmt := LWhile (LBin OLt (LAt 0 (PZ 1)) (LLit (VI 10))) (LAssign 0 (LBin OPlus (LVar 0) (LVar 0))).
Example c103_unroll_ex : fst (lrun 9 square_lm c103_loop ex_w) = Done true /\ fst (lrun 2 square_lm c103_loop ex_w) = Done false.
Proof. split; vm_compute; reflexivity. Qed.
(** x0 = x2 + 1; x1 = x2 + 1; *)
Example c103_copy_ex : ~ In 0%nat (lvars (LBin OPlus (LVar 2) (LLit (VI 1)))) /\ c103_ty 0 = c103_ty 1 /\
  exists s', lsem 0 square_lm c103_ty 1000 [] [2; 1; 0]%nat
    (LSeq (LAssign 0 (LBin OPlus (LVar 2) (LLit (VI 1)))) (LAssign 1 (LBin OPlus (LVar 2) (LLit (VI 1))))) c103_s Ended s' /\
    fst s' 1%nat = repeat (VD (i2f 1)) 3.
Proof.
  split; [cbn; intuition discriminate|]. split; [reflexivity|]. eexists. split.
  - cbn [lsem]. eexists Ended, _. split; [do_assign (EBin OPlus (EVar 2) (ESca (VI 1)))|]. cbn [after]. do_assign (EBin OPlus (EVar 2) (ESca (VI 1))).
  - vm_compute. reflexivity.
Qed.
(** try { while (c) b; ; x[0] = 1; } catch ...: the loop is unrolled and what
    follows is moved into both branches. *)
Example c103_rewrites_ex : forall h d, let b := LAssign 0 (LBin OPlus (LVar 0) (LVar 0)) in
  rewrites 0 (LTry (LSeq c103_loop (LSeq LSkip d)) h)
    (LTry (LIf (LBin OLt (LAt 0 (PZ 1)) (LLit (VI 10))) (LSeq b (LSeq c103_loop d)) d) h) /\
  rewrites 1 (LTry (LIf (LBin OLt (LAt 0 (PZ 1)) (LLit (VI 10))) (LSeq b (LSeq c103_loop d)) d) h) (LTry (LSeq c103_loop d) h).
Proof.
  intros h d b. split.
  - apply Rw_try; [|apply Rw_refl]. apply (Rw_trans 0 0 _ (LSeq c103_loop d)).
    + apply Rw_seq; [apply Rw_refl|apply Rw_step, St_skip_l].
    + apply Rw_step, St_while_seq.
  - apply Rw_try; [apply Rw_back, St_while_seq|apply (Rw_weak 0); [repeat constructor|apply Rw_refl]].
Qed.
