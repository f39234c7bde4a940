(** Properties C81 and C82: programs with matrices; transposition and
    multiplication. *)
From Coq Require Import ZArith List String Bool Lia Reals.
From Verif Require Import Base Num FloatBridge StoreModel VecModel SubsetModel AllocModel ProgModel LangModel
  Spec SpecExpr SpecHist SpecProg SpecSub SpecAlloc SpecCons SpecStmt SpecMat SpecMul
  StoreProofs StoreHist StoreThms VecProofs VecAssign ProgProofs ProgProofs2 ProgThms MatProofs MatThms MulProofs Examples.
Import ListNotations.
Open Scope Z_scope.
Local Notation length := List.length (only parsing).

(* ------------------------------------------------------------------ C81 *)

(** A program with vectors and matrices, subset and at() of both, run-time
    scalars, local vectors, if, while, range-based for and try/catch does to the
    memory what its meaning on lists with shapes says: same ending (normal, by
    the same exception, or not yet), every vector in scope holds its list and has
    its shape, all vectors of scopes that were left are gone, nothing leaks. *)
Theorem c81_programs : forall N lm ty lim H V p w s r s', lalive w lim ty H V s ->
  lsem N lm ty lim H V p s r s' ->
  exists w', lrun N lm p w = (of_res r, w') /\ lreached w' lim ty H V r s' /\ (no_leak w -> no_leak w').
Proof. intros N lm ty lim H V p w s r s'. apply lrun_follows. Qed.
Print Assumptions c81_programs.

(** With more rounds a program that has ended ends in the same way. *)
Theorem c81_rounds : forall N N' lm p w o w', (N <= N')%nat -> lrun N lm p w = (o, w') -> o <> Done false ->
  lrun N' lm p w = (o, w').
Proof. intros N N' lm p w o w' L. now apply lrun_more. Qed.
Print Assumptions c81_rounds.

(** The meaning leaves no choice: the ending and, for the vectors in scope, the
    elements and the shapes are determined. *)
Theorem c81_determined : forall N lm ty lim H V p w s r1 s1 r2 s2, lalive w lim ty H V s ->
  lsem N lm ty lim H V p s r1 s1 -> lsem N lm ty lim H V p s r2 s2 ->
  r1 = r2 /\ (r1 <> Running -> forall x, In x V -> fst s1 x = fst s2 x /\ snd s1 x = snd s2 x).
Proof.
  intros N lm ty lim H V p w s r1 s1 r2 s2 A X1 X2.
  destruct (c81_programs N lm ty lim H V p w s r1 s1 A X1) as [w1 [E1 [Q1 _]]].
  destruct (c81_programs N lm ty lim H V p w s r2 s2 A X2) as [w2 [E2 [Q2 _]]].
  rewrite E1 in E2. injection E2 as Er Ew. subst w2.
  assert (R : r1 = r2) by (destruct r1, r2; cbn in Er; congruence). subst r2. split; [reflexivity|]. intros NR x Hx.
  assert (G : forall q, lreached w1 lim ty H V r1 q -> lalive w1 lim ty H V q) by (intros q; destruct r1; cbn; [auto|contradiction|auto]).
  destruct (G _ Q1) as [A1 D1], (G _ Q2) as [A2 D2]. split; [|now rewrite <- D1, <- D2].
  apply (holds_unique w1 (OD x)); [apply (re_holds _ _ _ _ _ (proj1 A1))|apply (re_holds _ _ _ _ _ (proj1 A2))]; exact Hx.
Qed.
Print Assumptions c81_determined.

(** A whole program that starts without any vectors: when it is over, be it by
    an exception, all its memory has been released. *)
Theorem c81_all_released : forall N lm ty lim p s r s', 0 <= lim <= 2 ^ 60 -> r <> Running ->
  lsem N lm ty lim [] [] p s r s' ->
  exists w', lrun N lm p (empty_world lim) = (of_res r, w') /\ forall a cs, hblk (hp w') a <> Live OwnCpp cs.
Proof.
  intros N lm ty lim p s r s' B NR X.
  destruct (c81_programs N lm ty lim [] [] p (empty_world lim) s r s') as [w' [E [Q L]]]; [|exact X|].
  - split; [|intros x []]. split; [|split; [intros y []|intros y _ a [P _]; discriminate]].
    pose proof (world_ok_shape _ (empty_world_ok lim B)) as W.
    constructor; [exact W|reflexivity|intros x []|intros x []|intros x []|intros x []|intros x []|intros y _ a [P _]; discriminate].
  - exists w'. split; [exact E|]. intros a cs Y.
    assert (NL : no_leak (empty_world lim)) by (intros b ds Z; discriminate).
    destruct (L NL a cs Y) as [o O]. assert (A : lalive w' lim ty [] [] s') by (destruct r; [exact Q|contradiction|exact Q]).
    destruct A as [[R [_ U]] _]. destruct o as [y|y]; [apply (U y (fun f => f) a O)|apply (re_temp _ _ _ _ _ R y (fun f => f) a O)].
Qed.
Print Assumptions c81_all_released.

Ltac show_count v := exists [v]; split; [reflexivity|]; split; [discriminate|]; split; [intros u [<-|[]]; reflexivity|]; split; [reflexivity|lia].
(** { m = matrix(7.0, 2, 3); try { at(m, 3, 3) = 1; } catch (...) { subset(m, 1, true) = 5; }
      Vec<int> v(SI{4}); v.fill(3); } *)
Definition c81_ex_prog : lstmt :=
  LLet 0 1 TDouble (LMMatrix (LS (VD (i2f 7))) (LS (VI 2)) (LS (VI 3)))
    (LSeq (LTry (LAt2Set 0 (PZ 3) (PZ 3) (VI 1)) (LSub2Scalar 0 (LXZ 1) (LXB true) (VI 5)))
          (LSized 2 TInt 4 (LFill 2 (VI 3)))).
Example c81_ex : forall lm s, exists s',
  lsem 5 lm (fun x => if Nat.eqb x 0 then TDouble else TInt) 1000 [] [] c81_ex_prog s Ended s' /\
  fst s' 0%nat = map (fun z => VD (i2f z)) [5; 7; 5; 7; 5; 7] /\ snd s' 0%nat = Some (2, 3) /\
  fst s' 2%nat = [VI 3; VI 3; VI 3; VI 3].
Proof.
  intros lm s. eexists. unfold c81_ex_prog. cbn [lsem]. split.
  - exists (repeat (VD (i2f 7)) 6), (Some (2, 3)). split; [intros []|]. split; [intros []|]. split; [discriminate|]. split; [reflexivity|]. split.
    { split; [vm_compute; discriminate|]. exists 2, 3.
      split; [show_count (VI 2)|].
      split; [show_count (VI 3)|].
      repeat split; reflexivity. }
    eexists Ended, _. split.
    + exists (Raised msg_oob). eexists. split.
      * split; [now left|]. split; [discriminate|]. cbn. exists 3, 3, 6, false. split; [reflexivity|]. split; [reflexivity|]. split.
        { repeat split; lia. } split; [eexists; reflexivity|]. split; reflexivity.
      * cbn iota. split; [now left|]. exists (Done (IZ 1)), (Done (IB true)). split; [reflexivity|]. split; [reflexivity|].
        cbn [given]. exists [0; 2; 4], None. split.
        { exists 2, 3, [0], [0; 1; 2]. split; [reflexivity|]. split; [reflexivity|]. split; [lia|]. split; [lia|].
          split; [apply (Sd_int lm _ 2 1); lia|]. split; [apply (Sd_all lm _ 3); lia|]. split; [exact I|]. split; [reflexivity|]. split; [reflexivity|].
          split; reflexivity. }
        split; [|split; [reflexivity|reflexivity]]. split; [now left|]. split; [vm_compute; discriminate|].
        intros j [<-|[<-|[<-|[]]]]; lia.
    + cbn [after]. split; [intros [X|[]]; discriminate|]. split; [reflexivity|]. split; [lia|]. split; [lia|]. split; [vm_compute; discriminate|].
      cbn [Z.eqb]. split; [now left|]. exists (VI 3). split; [reflexivity|]. split; reflexivity.
  - vm_compute. auto.
Qed.

(* ------------------------------------------------------------------ C82 *)

(** Transposition, for all numbers of rows and columns: when the statement
    after the loops starts, y has the shape m x n and the elements of x with
    rows and columns exchanged; nothing else has changed. *)
Theorem c82_transpose : forall N lm ty lim H V w s x y t c1 c2 lx n m,
  lalive w lim ty H V s -> In x V -> ty y = TDouble ->
  (1 <= n)%nat -> (1 <= m)%nat -> Z.of_nat n < 2 ^ 30 -> Z.of_nat m < 2 ^ 30 -> 2 * Z.of_nat (n * m) <= lim ->
  fst s x = map VD lx -> length lx = (n * m)%nat -> snd s x = Some (Z.of_nat n, Z.of_nat m) ->
  ~ In y (H ++ V) -> ~ In t (H ++ V) -> y <> t -> ~ In c1 (H ++ y :: V) -> ~ In c2 (c1 :: H ++ y :: V) ->
  exists (ly : list flt) (s1 : mstate), length ly = (m * n)%nat /\
    (forall i j, (i < n)%nat -> (j < m)%nat -> entry ly m j i = entry lx n i j) /\
    fst s1 y = map VD ly /\ snd s1 y = Some (Z.of_nat m, Z.of_nat n) /\
    (forall u, u <> y -> fst s1 u = fst s u /\ snd s1 u = snd s u) /\
    forall rest r s', lsem N lm ty lim H (y :: V) rest s1 r s' ->
      exists w', lrun N lm (transpose y t c1 c2 x (Z.of_nat n) (Z.of_nat m) rest) w = (of_res r, w') /\
        lreached w' lim ty H V r s' /\ (no_leak w -> no_leak w').
Proof.
  intros N lm ty lim H V w s x y t c1 c2 lx n m A Vx Ty Ln Lm Bn Bm Fl Ex Lx Sx Ny Nt Ne N1 N2.
  destruct (transpose_sem N lm ty lim H V s x y t c1 c2 lx n m Vx Ty Ln Lm Bn Bm Fl Ex Lx Sx Ny Nt Ne N1 N2) as [s1 [E [Sh [O F]]]].
  exists (grid m n (fun j i => entry lx n i j)), s1. split; [apply grid_length|]. split; [intros i j Li Lj; now apply (grid_entry m n (fun j i => entry lx n i j))|].
  split; [exact E|]. split; [exact Sh|]. split; [exact O|]. intros rest r s' X.
  apply (c81_programs N lm ty lim H V _ w s r s' A). now apply F.
Qed.
Print Assumptions c82_transpose.

(** Matrix multiplication, for all sizes: every element of z is the sum, from
    left to right with rounding, of the products of a row of x and a column of
    y. *)
Theorem c82_matmul : forall N lm ty lim H V w s x y z t c1 c2 c3 lx ly n p m,
  lalive w lim ty H V s -> In x V -> In y V -> ty z = TDouble ->
  (1 <= n)%nat -> (1 <= p)%nat -> (1 <= m)%nat -> Z.of_nat n < 2 ^ 30 -> Z.of_nat p < 2 ^ 30 -> Z.of_nat m < 2 ^ 30 ->
  2 * Z.of_nat (n * m) <= lim -> 2 * Z.of_nat p <= lim ->
  fst s x = map VD lx -> length lx = (n * p)%nat -> snd s x = Some (Z.of_nat n, Z.of_nat p) ->
  fst s y = map VD ly -> length ly = (p * m)%nat -> snd s y = Some (Z.of_nat p, Z.of_nat m) ->
  ~ In z (H ++ V) -> ~ In t (H ++ V) -> z <> t ->
  ~ In c1 (H ++ z :: V) -> ~ In c2 (c1 :: H ++ z :: V) -> ~ In c3 (c2 :: c1 :: H ++ z :: V) ->
  exists (lz : list flt) (s1 : mstate), length lz = (n * m)%nat /\
    (forall i j, (i < n)%nat -> (j < m)%nat -> entry lz n i j = dot lx ly n p i j p) /\
    fst s1 z = map VD lz /\ snd s1 z = Some (Z.of_nat n, Z.of_nat m) /\
    (forall u, u <> z -> fst s1 u = fst s u /\ snd s1 u = snd s u) /\
    forall rest r s', lsem N lm ty lim H (z :: V) rest s1 r s' ->
      exists w', lrun N lm (matmul z t c1 c2 c3 x y (Z.of_nat n) (Z.of_nat p) (Z.of_nat m) rest) w = (of_res r, w') /\
        lreached w' lim ty H V r s' /\ (no_leak w -> no_leak w').
Proof.
  intros N lm ty lim H V w s x y z t c1 c2 c3 lx ly n p m A Vx Vy Tz Ln Lp Lm Bn Bp Bm Fl Fp Ex Lx Sx Ey Ly Sy Nz Nt Ne N1 N2 N3.
  destruct (matmul_sem N lm ty lim H V s x y z t c1 c2 c3 lx ly n p m Vx Vy Tz Ln Lp Lm Bn Bp Bm Fl Fp Ex Lx Sx Ey Ly Sy Nz Nt Ne N1 N2 N3)
    as [s1 [E [Sh [O F]]]].
  exists (grid n m (fun i j => dot lx ly n p i j p)), s1. split; [apply grid_length|].
  split; [intros i j Li Lj; now apply (grid_entry n m (fun i j => dot lx ly n p i j p))|].
  split; [exact E|]. split; [exact Sh|]. split; [exact O|]. intros rest r s' X.
  apply (c81_programs N lm ty lim H V _ w s r s' A). now apply F.
Qed.
Print Assumptions c82_matmul.

(** For whole numbers the product is exact as long as no product and no partial
    sum exceeds 2^53. *)
Theorem c82_exact : forall lx ly n p m a b i j, (i < n)%nat -> (j < m)%nat ->
  (forall i k, (i < n)%nat -> (k < p)%nat -> whole (entry lx n i k) (a i k)) ->
  (forall k j, (k < p)%nat -> (j < m)%nat -> whole (entry ly p k j) (b k j)) ->
  (forall k, (k < p)%nat -> Z.abs (a i k * b k j) <= 2 ^ 53) ->
  (forall k, (k <= p)%nat -> Z.abs (zdot a b i j k) <= 2 ^ 53) ->
  whole (dot lx ly n p i j p) (zdot a b i j p).
Proof. intros lx ly n p m a b i j Li Lj Wa Wb Bp Bs. now apply (dot_exact lx ly n p m). Qed.
Print Assumptions c82_exact.

(** { a = coca(1.0, ..., 6.0); x = matrix(a, 2, 3); t = transposed x; z = x t; } *)
Definition c82_ex_prog (rest : lstmt) : lstmt :=
  LLet 0 1 TDouble (LMCoca (map (fun z => LS (VD (i2f z))) [1; 2; 3; 4; 5; 6]))
    (LLet 2 3 TDouble (LMMatrix (LV TDouble (LVar 0)) (LS (VI 2)) (LS (VI 3)))
      (transpose 4 5 6 7 2 2 3 (matmul 8 9 10 11 12 2 4 2 3 2 rest))).
Example c82_ex : forall N lm (s : mstate), exists s' : mstate,
  lsem N lm (fun _ => TDouble) 1000 [] [] (c82_ex_prog LSkip) s Ended s' /\
  fst s' 8%nat = map (fun z => VD (i2f z)) [35; 44; 44; 56] /\ snd s' 8%nat = Some (2, 2).
Proof.
  intros N lm s. unfold c82_ex_prog.
  pose (l6 := map i2f [1; 2; 3; 4; 5; 6]).
  pose (s0 := (setl (fst s) 0 (map VD l6), setd (snd s) 0%nat None)).
  pose (s1 := (setl (fst s0) 2 (map VD l6), setd (snd s0) 2%nat (Some (2, 3)))).
  destruct (transpose_sem N lm (fun _ => TDouble) 1000 [] [2; 0]%nat s1 2 4 5 6 7 l6 2 3) as [s2 [E2 [Sh2 [O2 F2]]]];
    try reflexivity; try lia; try (cbn; intuition lia).
  pose (l6' := map i2f [1; 3; 5; 2; 4; 6]).
  assert (E2' : fst s2 4%nat = map VD l6') by (rewrite E2; vm_compute; reflexivity). clear E2.
  destruct (O2 2%nat ltac:(discriminate)) as [E3 Sh3].
  destruct (matmul_sem N lm (fun _ => TDouble) 1000 [] [4; 2; 0]%nat s2 2 4 8 9 10 11 12 l6 l6' 2 3 2) as [s3 [E4 [Sh4 [_ F4]]]];
    try reflexivity; try lia; try (cbn; intuition lia); try assumption.
  exists s3. split; [|split; [rewrite E4; vm_compute; reflexivity|exact Sh4]].
  cbn [lsem]. exists (map VD l6), None. split; [intros []|]. split; [intros []|]. split; [discriminate|]. split; [reflexivity|]. split.
  { split; [vm_compute; discriminate|]. exists (map (fun z => [VD (i2f z)]) [1; 2; 3; 4; 5; 6]).
    split; [repeat constructor|]. split; [repeat constructor; intros u [<-|[]]; reflexivity|].
    split; [eexists; split; [now left|reflexivity]|]. split; [intros a Ha; cbn in Ha; intuition subst; reflexivity|].
    split; [repeat constructor|]. split; [discriminate|]. split; [vm_compute; reflexivity|reflexivity]. }
  fold s0. exists (map VD l6), (Some (2, 3)). split; [cbn; intuition lia|]. split; [cbn; intuition lia|]. split; [discriminate|]. split; [reflexivity|]. split.
  { split; [vm_compute; discriminate|]. exists 2, 3.
    split; [show_count (VI 2)|].
    split; [show_count (VI 3)|].
    split; [reflexivity|]. split; [reflexivity|]. split; [reflexivity|]. split.
    - exists (EVar 0). split; [split; [now left|reflexivity]|]. split; [exact I|]. split; [reflexivity|].
      intros i Hi. cbn in Hi. do 6 (destruct i as [|i]; [reflexivity|]). lia.
    - intros u Hu. apply in_map_iff in Hu. destruct Hu as [f [<- _]]. reflexivity. }
  fold s1. apply F2. apply F4. split; reflexivity.
Qed.
(** The run of the model: element (2, 2) of the product is 56. *)
Example c82_ex_run : forall lm, fst (lrun 0 lm (c82_ex_prog (LIf (LBin OEq (LAt2 8 (PZ 2) (PZ 2)) (LLit (VI 56))) LSkip (LAt2Set 8 (PZ 3) (PZ 3) (VI 0)))) (empty_world 1000)) = Done true.
Proof. intros lm. vm_compute. reflexivity. Qed.
(** The bound of c82_exact: 1 x 2 times 2 x 1 with 2^53 + 1. *)
Example c82_ex_bound : whole (dot [i2f 3; i2f 1] [i2f 5; i2f (2 ^ 53 - 15)] 1 2 0 0 2) (2 ^ 53) /\
  ~ whole (dot [i2f 3; i2f 1] [i2f 5; i2f (2 ^ 53 - 14)] 1 2 0 0 2) (2 ^ 53 + 1).
Proof.
  assert (W : forall z, Z.abs z <= 2 ^ 53 -> whole (i2f z) z).
  { intros z Hz. destruct (i2f_exact z Hz) as [A B]. split; [apply i2f_valid|]. split; [exact B|exact A]. }
  split.
  - apply (c82_exact [i2f 3; i2f 1] [i2f 5; i2f (2 ^ 53 - 15)] 1 2 1 (fun _ k => if Nat.eqb k 0 then 3 else 1) (fun k _ => if Nat.eqb k 0 then 5 else 2 ^ 53 - 15)).
    all: try lia.
    + intros [|i] [|[|k]] Li Lk; try lia; apply W; vm_compute; discriminate.
    + intros [|[|k]] [|j] Lk Lj; try lia; apply W; vm_compute; discriminate.
    + intros [|[|k]] Lk; try lia; vm_compute; discriminate.
    + intros [|[|[|k]]] Lk; try lia; vm_compute; discriminate.
  - intros [V [F R]]. pose proof (ftrunc_correct _ F) as T. rewrite R in T. rewrite Flocq.Core.Raux.Ztrunc_IZR in T. vm_compute in T. discriminate.
Qed.
