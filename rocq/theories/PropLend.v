(** Property C86: what programs do to the memory of others. *)
From Coq Require Import String ZArith List Bool Lia.
From Verif Require Import Base Num StoreModel VecModel SubsetModel AllocModel ProgModel LangModel Spec SpecExpr SpecHist SpecVec SpecSafe SpecLang
  StoreProofs LendProofs SafeProofs LangProofs LendThms Examples PropVec PropSafe.
Import ListNotations.
Open Scope Z_scope.
Local Notation length := List.length (only parsing).

(** C86: whatever statements run, a block of the caller or of R (owner own, not
    the library) is still there afterwards, of the same length, all cells that
    were written are written, and those that no vector in scope reaches are
    unchanged, whether or not statements throw. *)
Theorem c86_foreign_kept : forall lm cs R V w V' w', sound_at (Mode false R []) V w -> Forall cmd_ok cs -> Forall (cmd_keeps R) cs ->
  history lm cs V w = (Finished, V', w') ->
  forall b own cells, own <> OwnCpp -> hblk (hp w) b = Live own cells ->
  exists cells', hblk (hp w') b = Live own cells' /\ length cells' = length cells /\
    (forall i v, nth i cells None = Some v -> exists v', nth i cells' None = Some v') /\
    (forall i, (forall x, In x V -> ptr (ob w (OD x)) = Some b -> cap (ob w (OD x)) <= Z.of_nat i) -> nth i cells' None = nth i cells None).
Proof.
  intros lm cs R V w V' w' S F K H b own cells NO B. apply (watched_kept R); auto. intros m Sm. exists V'.
  pose proof (c76_addresses lm cs R [(b, own, cells, m)] V w Sm F K) as G. now rewrite H in G.
Qed.
Print Assumptions c86_foreign_kept.

(** The same for nested programs with loops, scopes, exceptions and matrices,
    also when they end by an exception. *)
Theorem c86_programs_keep : forall N lm s R L V w r w', incl V L -> scoped L V s -> keeps R s -> sound_at (Mode false R []) L w ->
  lrun N lm s w = (r, w') -> (exists f, r = Done f) \/ (exists m, r = Thrown (Ass m)) ->
  forall b own cells, own <> OwnCpp -> hblk (hp w) b = Live own cells ->
  exists cells', hblk (hp w') b = Live own cells' /\ length cells' = length cells /\
    (forall i v, nth i cells None = Some v -> exists v', nth i cells' None = Some v') /\
    (forall i, (forall x, In x L -> ptr (ob w (OD x)) = Some b -> cap (ob w (OD x)) <= Z.of_nat i) -> nth i cells' None = nth i cells None).
Proof.
  intros N lm s R L V w r w' I Sc K S H E b own cells NO B. apply (watched_kept R); auto. intros m Sm.
  pose proof (lrun_ends (Mode false R [(b, own, cells, m)]) N lm s L V w I Sc ltac:(discriminate) K Sm) as G. rewrite H in G.
  destruct E as [[f ->]|[q ->]]; [destruct f|]; cbn [ends_well] in G; eauto. destruct G as [L' [_ G]]; eauto.
Qed.
Print Assumptions c86_programs_keep.

(** Several vectors may borrow the same array, or parts of it: a further one
    leaves the state sound, so that C76 and C80 hold of programs with aliases. *)
Theorem c86_borrow_again : forall i R V w x t b cells n, sound_at (Mode i R []) V w -> ~ In x V -> ~ In x R ->
  hblk (hp w) b = Live OwnExt cells -> 1 <= n < 2 ^ 31 -> n <= Z.of_nat (length cells) ->
  (forall j, 0 <= j < n -> exists v, nth (Z.to_nat j) cells None = Some v) ->
  exists w', vec_borrow x t (Some b) n w = (Done tt, w') /\ sound_at (Mode i R []) (x :: V) w' /\ hp w' = hp w.
Proof.
  intros i R V w x t b cells n S Nx NR B N1 N2 W. eexists. split; [reflexivity|]. split; [|reflexivity].
  eapply (foreign_old (Mode i R []) V w x b OwnExt cells (mkStore KBorrow t (Some b) n n true mp_none false)); auto; try discriminate.
  intros o c m [].
Qed.
Print Assumptions c86_borrow_again.

(** And the same R object may be wrapped several times. *)
Theorem c86_wrap_again : forall i R V w x t b cells n m, sound_at (Mode i R []) V w -> ~ In x V -> In x R ->
  hblk (hp w) b = Live OwnR cells -> 1 <= n < 2 ^ 31 -> n <= Z.of_nat (length cells) ->
  (forall j, 0 <= j < n -> exists v, nth (Z.to_nat j) cells None = Some v) ->
  exists w', vec_sexp x t (Some b) n m w = (Done tt, w') /\ sound_at (Mode i R []) (x :: V) w' /\ hp w' = hp w.
Proof.
  intros i R V w x t b cells n m S Nx NR B N1 N2 W. eexists. split; [reflexivity|]. split; [|reflexivity].
  eapply (foreign_old (Mode i R []) V w x b OwnR cells (mkStore KBorrowSEXP t (Some b) n n true (if ismat m then m else mp_none) false)); auto; try discriminate.
  intros o c q [].
Qed.
Print Assumptions c86_wrap_again.

(** A history on an array of four elements, an R object and vectors of its own;
    some statements throw. *)
Definition ex_lend : list scmd :=
  [QArray 0 TDouble [d1; d2; d3; d1]; QWrap 1 TDouble [d1; d2; d1] mp_none; QSized 2 TDouble 7;
   QAssign 0 (EBin OPlus (EVar 1) (ESca d1)); QAssign 0 (EVar 2); QElement 0 3 d1; QElement 1 2 d3;
   QSubset 5 1 [2; 0] false (EVar 0); QAssign 2 (EBin OTimes (EVar 0) (EVar 1)); QSubsetScalar 0 [1; 9] d1; QScalar 0 d2; QIterate 0; QEnd 0].
Definition ex_lend_w : world := snd (history ex_lm (firstn 3 ex_lend) [] (empty_world 100)).

Lemma ex_lend_sound : sound_at (Mode true [1%nat] []) [2; 1; 0]%nat ex_lend_w.
Proof.
  assert (F : Forall cmd_ok (firstn 3 ex_lend)) by (repeat constructor; cbn; lia).
  assert (K : Forall (cmd_keeps [1%nat]) (firstn 3 ex_lend)).
  { repeat constructor; cbn; try tauto; intros [H|[]]; discriminate. }
  assert (O : Forall other_rhs (firstn 3 ex_lend)) by (repeat constructor).
  pose proof (c76_memory_safe_partial ex_lm (firstn 3 ex_lend) [1%nat] [] [] (empty_world 100) (sound_empty (Mode true [1%nat] []) 100 eq_refl ltac:(lia)) F K O) as G.
  unfold ex_lend_w. destruct (history ex_lm (firstn 3 ex_lend) [] (empty_world 100)) as [[r V'] w'] eqn:Q.
  assert (Q1 : fst (history ex_lm (firstn 3 ex_lend) [] (empty_world 100)) = (Finished, [2; 1; 0]%nat)) by (vm_compute; reflexivity).
  rewrite Q in Q1. cbn [fst] in Q1. injection Q1 as -> ->. exact G.
Qed.

Lemma sound_unwritten R D V w : sound_at (Mode true R D) V w -> sound_at (Mode false R D) V w.
Proof.
  intros [A B C D' E F]. split; auto. intros x Hx. destruct (C x Hx) as [[K L] I]. split; [|discriminate].
  split; [exact K|]. destruct L as [L|[L1 [L2 [L3 [L4 L5]]]]]; [now left|right].
  split; [exact L1|]. split; [exact L2|]. split; [exact L3|]. split; [discriminate|exact L5].
Qed.

Example c86_ex : sound_at (Mode false [1%nat] []) [2; 1; 0]%nat ex_lend_w /\ Forall cmd_ok (skipn 3 ex_lend) /\ Forall (cmd_keeps [1%nat]) (skipn 3 ex_lend) /\
  fst (history ex_lm (skipn 3 ex_lend) [2; 1; 0]%nat ex_lend_w) = (Finished, [2; 1]%nat) /\
  hblk (hp ex_lend_w) 0 = Live OwnExt [Some d1; Some d2; Some d3; Some d1] /\
  hblk (hp ex_lend_w) 1 = Live OwnR [Some d1; Some d2; Some d1] /\
  hblk (hp (snd (history ex_lm (skipn 3 ex_lend) [2; 1; 0]%nat ex_lend_w))) 1 <> Live OwnR [Some d1; Some d2; Some d1].
Proof.
  split; [apply sound_unwritten, ex_lend_sound|]. split; [|split; [|split; [|split; [|split]]]].
  - repeat (constructor; [cbn [cmd_ok sizes_ok]|]); try constructor; repeat split; repeat constructor; simpl; try lia.
  - repeat constructor; cbn; try tauto; try (intros [H|[]]; discriminate); discriminate.
  - vm_compute; reflexivity.
  - vm_compute; reflexivity.
  - vm_compute; reflexivity.
  - vm_compute; discriminate.
Qed.

(** Vector 3 borrows the first two elements of the array of vector 0, vector 4
    all of them: what is written through one is seen through the others. *)
Definition ex_alias_w : world := snd ((vec_borrow 3 TDouble (Some 0%nat) 2 ;; vec_borrow 4 TDouble (Some 0%nat) 4) ex_lend_w).
Example c86_alias_ex : hblk (hp ex_lend_w) 0 = Live OwnExt [Some d1; Some d2; Some d3; Some d1] /\
  sound_at (Mode true [1%nat] []) [4; 3; 2; 1; 0]%nat ex_alias_w /\
  fst (history ex_lm [QElement 3 1 d3; QAssign 4 (EBin OPlus (EVar 0) (EVar 3)); QEnd 0; QEnd 4; QRead (EVar 3) 1] [4; 3; 2; 1; 0]%nat ex_alias_w) = (Finished, [3; 2; 1]%nat).
Proof.
  assert (B : hblk (hp ex_lend_w) 0 = Live OwnExt [Some d1; Some d2; Some d3; Some d1]) by (vm_compute; reflexivity).
  split; [exact B|]. split; [|vm_compute; reflexivity].
  assert (W : forall n, n <= 4 -> forall j, 0 <= j < n -> exists v, nth (Z.to_nat j) [Some d1; Some d2; Some d3; Some d1] None = Some v).
  { intros n Hn j Hj. assert (j = 0 \/ j = 1 \/ j = 2 \/ j = 3) as [-> | [-> | [-> | ->]]] by lia; eexists; reflexivity. }
  destruct (c86_borrow_again true [1%nat] _ _ 3 TDouble 0 [Some d1; Some d2; Some d3; Some d1] 2 ex_lend_sound) as [w1 [R1 [S1 H1]]]; [| |exact B|lia|simpl; lia|apply W; lia|].
  { intros [|[|[|[]]]]; discriminate. } { intros [|[]]; discriminate. }
  rewrite <- H1 in B.
  destruct (c86_borrow_again true [1%nat] _ _ 4 TDouble 0 [Some d1; Some d2; Some d3; Some d1] 4 S1) as [w2 [R2 [S2 _]]]; [| |exact B|lia|simpl; lia|apply W; lia|].
  { intros [|[|[|[|[]]]]]; discriminate. } { intros [|[]]; discriminate. }
  unfold ex_alias_w, bind. rewrite R1, R2. exact S2.
Qed.

(** A program: the wrapped object is written, an exception ends it. *)
Definition ex_lend_prog : lstmt := LSeq (LAtSet 1 (PZ 1) d3) (LSeq (LAssign 0 (LBin OPlus (LVar 1) (LLit d1))) (LSeq (LAssign 0 (LVar 2)) LSkip)).
Example c86_programs_ex : scoped [2; 1; 0]%nat [2; 1; 0]%nat ex_lend_prog /\ keeps [1%nat] ex_lend_prog /\
  exists m, fst (lrun 3 ex_lm ex_lend_prog ex_lend_w) = Thrown (Ass m).
Proof.
  split; [cbn; unfold incl; cbn; intuition|]. split; [cbn; intuition; discriminate|]. eexists. vm_compute. reflexivity.
Qed.

(** The condition that a borrowed array has an element is needed: a scalar
    assigned to a vector that borrows an array of no elements is written outside
    the array. *)
Theorem c86_empty_refuted : exists w x b v, sound_at (Mode true [] []) [] w /\ hblk (hp w) b = Live OwnExt [] /\
  fst (vec_borrow x TDouble (Some b) 0 w) = Done tt /\
  exists u, fst ((vec_borrow x TDouble (Some b) 0 ;; assign_scalar x v) w) = Undef u /\ ~ arithmetic u /\ u <> UB_uninit.
Proof.
  exists (user_block (empty_world 100) OwnExt []), 0%nat, 0%nat, d1. split.
  - split.
    + split.
      * intros b Hb. simpl in *. destruct b; [lia|reflexivity].
      * intros o. unfold store_shape. simpl. repeat split; lia.
      * intros o1 o2 a [H _]. discriminate.
      * simpl. lia.
      * intros a own cs H. simpl in H. destruct a; simpl in H; [|discriminate]. injection H as <- <-. split; [simpl; lia|discriminate].
    + simpl; lia.
    + intros x [].
    + intros x _. split; intros a [H _]; discriminate.
    + intros a cells H. simpl in H. destruct a; simpl in H; discriminate.
    + intros b own cs m [].
  - split; [reflexivity|]. split; [reflexivity|]. eexists. split; [vm_compute; reflexivity|]. unfold arithmetic. intuition discriminate.
Qed.
Print Assumptions c86_empty_refuted.
