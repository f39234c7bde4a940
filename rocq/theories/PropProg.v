(** Properties C66 and C67: structured programs and the Fibonacci example. *)
From Coq Require Import ZArith List String Bool Lia Reals.
From Flocq Require Import Core.
From Verif Require Import Base Num FloatBridge StoreModel VecModel SubsetModel AllocModel ProgModel
  Spec SpecExpr SpecHist SpecProg SpecSub SpecAlloc SpecStmt SpecFib
  StoreProofs StoreHist StoreThms VecProofs VecAssign ProgProofs ProgProofs2 ProgThms FibProofs.
Import ListNotations.
Open Scope Z_scope.
Local Notation length := List.length (only parsing).

(* ------------------------------------------------------------------ C66 *)

(** A program with local vectors, if, while and range-based for does to the
    memory what its meaning on lists says: same ending (normal, by the same
    exception, or not yet), every vector in scope holds its list, all vectors of
    scopes that were left are gone, and nothing leaks. *)
Theorem c66_programs : forall N lm ty lim H V s w rho r rho', alive w lim ty H V rho ->
  sem N lm ty lim H V s rho r rho' ->
  exists w', run N lm s w = (of_res r, w') /\ reached w' lim ty H V r rho' /\ (no_leak w -> no_leak w').
Proof. intros N lm ty lim H V s w rho r rho'. apply run_follows. Qed.
Print Assumptions c66_programs.

(** The number of rounds the model allows is no restriction: with more rounds a
    program that has ended ends in the same way.  This holds for all programs. *)
Theorem c66_rounds : forall N N' lm s w o w', (N <= N')%nat -> run N lm s w = (o, w') -> o <> Done false ->
  run N' lm s w = (o, w').
Proof. intros N N' lm s w o w' L. now apply run_more. Qed.
Print Assumptions c66_rounds.

(** A whole program that starts without any vectors: when it is over, be it by
    an exception, all its memory has been released. *)
Theorem c66_all_released : forall N lm ty lim s rho r rho', 0 <= lim <= 2 ^ 60 -> r <> Running ->
  sem N lm ty lim [] [] s rho r rho' ->
  exists w', run N lm s (empty_world lim) = (of_res r, w') /\ forall a cs, hblk (hp w') a <> Live OwnCpp cs.
Proof.
  intros N lm ty lim s rho r rho' B NR S.
  destruct (c66_programs N lm ty lim [] [] s (empty_world lim) rho r rho') as [w' [E [Q L]]]; [|exact S|].
  - split; [|split; [intros y []|intros y _ a [P _]; discriminate]].
    pose proof (world_ok_shape _ (empty_world_ok lim B)) as W.
    constructor; [exact W|reflexivity|intros x []|intros x []|intros x []|intros x []|intros x []|intros y _ a [P _]; discriminate].
  - exists w'. split; [exact E|]. intros a cs X.
    assert (NL : no_leak (empty_world lim)) by (intros b ds Y; discriminate).
    destruct (L NL a cs X) as [o O]. assert (A : alive w' lim ty [] [] rho') by (destruct r; [exact Q|contradiction|exact Q]).
    destruct A as [R [_ U]]. destruct o as [y|y]; [apply (U y (fun f => f) a O)|apply (re_temp _ _ _ _ _ R y (fun f => f) a O)].
Qed.
Print Assumptions c66_all_released.

(** { x = vector_numeric(1); while (x < 2) { x = x + 1; } if (x) { subset(x, 1) = 7; } subset(x, 5) = 1; }
    The last assignment throws; the memory of x is released. *)
Definition c66_ex_prog : stmt :=
  TLet 0 1 TDouble (MVector TDouble (QS (VI 1)))
    (TSeq (TWhile (PBin OLt (PVar 0) (PLit (VI 2))) (TAssign 0 (PBin OPlus (PVar 0) (PLit (VI 1)))))
    (TSeq (TIf (PVar 0) (TSubScalar 0 (XZ 1) (VI 7)) TSkip)
          (TSubScalar 0 (XZ 5) (VI 1)))).
Ltac show_assign e :=
  exists (CAssign 0 e); split;
  [ exists e; split; [|reflexivity]; cbn [means]; do 2 eexists;
    split; [split; [now left|reflexivity]|split; reflexivity]
  | split; [|split; [reflexivity|vm_compute; reflexivity]];
    cbn [cmd_wf vars wf_expr]; split; [now left|]; split; [intros y [<-|[]]; now left|];
    split; [split; [exact I|split; [exact I|split; vm_compute; discriminate]]|split; vm_compute; discriminate] ].
Ltac show_cond :=
  eexists; split; [eexists; split; [cbn [means]; do 2 eexists; split; [split; [now left|reflexivity]|split; reflexivity]|];
    split; [split; [exact I|split; [exact I|split; vm_compute; discriminate]]|split; [vm_compute; discriminate|vm_compute; reflexivity]]|].
Example c66_ex : forall lm rho, exists rho',
  sem 5 lm (fun _ => TDouble) 1000 [] [] c66_ex_prog rho (Raised msg_oob) rho' /\ rho' 0%nat = [VD (i2f 7)].
Proof.
  intros lm rho. eexists. unfold c66_ex_prog. cbn [sem]. split.
  - exists [VD fzero]. split; [intros []|]. split; [intros []|]. split; [discriminate|]. split; [reflexivity|].
    split; [split; [vm_compute; discriminate|exists (VI 1), 1; repeat split; lia]|].
    exists Ended. eexists. split.
    + cbn [while_spec]. show_cond. cbn iota. do 2 eexists. split; [show_assign (EBin OPlus (EVar 0) (ESca (VI 1)))|]. cbn [after].
      show_cond. do 2 eexists. split; [show_assign (EBin OPlus (EVar 0) (ESca (VI 1)))|]. cbn [after].
      show_cond. split; reflexivity.
    + cbn [after]. do 2 eexists. split.
      * eexists. split; [eexists; split; [split; [now left|reflexivity]|]; split; [exact I|split; [vm_compute; discriminate|vm_compute; reflexivity]]|].
        exists (CSubScalar 0 [0] (VI 7)). split; [exists (IZ 1), [0]; split; [reflexivity|]; split; [apply (Pk_int lm _ _ 1); split; reflexivity|reflexivity]|].
        split; [|split; [reflexivity|vm_compute; reflexivity]].
        split; [now left|]. split; [vm_compute; discriminate|]. intros j [<-|[]]. lia.
      * cbn [after]. exists (CSubScalar 0 [4] (VI 1)). split; [exists (IZ 5), [4]; split; [reflexivity|]; split; [apply (Pk_int lm _ _ 5); split; reflexivity|reflexivity]|].
        split; [|split; [reflexivity|vm_compute; reflexivity]].
        split; [now left|]. split; [vm_compute; discriminate|]. intros j [<-|[]]. lia.
  - vm_compute. reflexivity.
Qed.

(* ------------------------------------------------------------------ C67 *)

(** The Fibonacci example with n >= 3 elements: when the statement after the
    loop starts, res has n elements, the first two are 1 and every other is the
    (rounded) sum of its predecessors; nothing else has changed. *)
Theorem c67_fibonacci : forall N lm ty lim H V w rho res s col s2 same n,
  alive w lim ty H V rho -> ty res = TDouble -> (3 <= n)%nat -> Z.of_nat n < 2 ^ 30 -> 2 * Z.of_nat n <= lim ->
  ~ In res (H ++ V) -> ~ In s (H ++ V) -> res <> s -> ~ In col (H ++ res :: V) -> ~ In s2 (col :: H) -> ~ In s2 (res :: V) ->
  exists l rho1, fib_list n l /\ rho1 res = map VD l /\ (forall y, y <> res -> rho1 y = rho y) /\
    forall rest r rho', sem N lm ty lim H (res :: V) rest rho1 r rho' ->
      exists w', run N lm (fibonacci res s col s2 same (Z.of_nat n) rest) w = (of_res r, w') /\
        reached w' lim ty H V r rho' /\ (no_leak w -> no_leak w').
Proof.
  intros N lm ty lim H V w rho res s col s2 same n A TY L3 LN LM Nr Ns Ne Nc Nh Nv.
  destruct (fib_sem N lm ty lim H V rho res s col s2 same n TY L3 LN LM Nr Ns Ne Nc Nh Nv) as [rho1 [R1 [O1 S1]]].
  exists (fibs n), rho1. split; [apply fibs_list|]. split; [exact R1|]. split; [exact O1|].
  intros rest r rho' X. apply (c66_programs N lm ty lim H V _ w rho r rho' A). now apply S1.
Qed.
Print Assumptions c67_fibonacci.

(** The elements are the Fibonacci numbers as long as these are at most 2^53;
    there is one list that obeys the recurrence. *)
Theorem c67_exact : forall n l, fib_list n l -> forall k, (k < n)%nat -> fib k <= 2 ^ 53 ->
  fR (nth k l fzero) = IZR (fib k) /\ finite (nth k l fzero).
Proof.
  intros n l F k B E. rewrite (fib_list_nth n l F k B). destruct (fib_exact k E) as [A [C _]]. auto.
Qed.
Print Assumptions c67_exact.
Theorem c67_unique : forall n l l', fib_list n l -> fib_list n l' -> l = l'.
Proof. exact fib_list_unique. Qed.
Print Assumptions c67_unique.

(** The bound is sharp: 78 elements are exact, the 79th is not. *)
Theorem c67_sharp : forall n l, fib_list n l -> (78 < n)%nat ->
  (forall k, (k < 78)%nat -> fR (nth k l fzero) = IZR (fib k)) /\ fR (nth 78 l fzero) <> IZR (fib 78).
Proof.
  intros n l F B. split.
  - intros k K. apply (c67_exact n l F k); [lia|].
    apply Z.le_trans with (fib 77); [apply fib_mono; lia|]. rewrite fib_fast. vm_compute. discriminate.
  - rewrite (fib_list_nth n l F 78 B). intros E.
    assert (Fi : finite (fdbl 78)) by (vm_compute; reflexivity).
    pose proof (ftrunc_correct _ Fi) as T. rewrite E, Ztrunc_IZR, fib_fast in T. vm_compute in T. discriminate.
Qed.
Print Assumptions c67_sharp.

(** n = 20 as in the example, starting from the empty state. *)
Example c67_ex : forall rho, alive (empty_world 1000) 1000 (fun _ => TDouble) [] [] rho /\
  map fib (seq 0 10) = [1; 1; 2; 3; 5; 8; 13; 21; 34; 55] /\ fib_list 20 (map i2f (map fib (seq 0 20))).
Proof.
  intros rho. split; [|split; [reflexivity|]].
  - split; [|split; [intros y []|intros y _ a [P _]; discriminate]].
    pose proof (world_ok_shape _ (empty_world_ok 1000 ltac:(lia))) as W.
    constructor; [exact W|reflexivity|intros x []|intros x []|intros x []|intros x []|intros x []|intros y _ a [P _]; discriminate].
  - split; [reflexivity|]. intros k B. do 20 (destruct k as [|k]; [vm_compute; reflexivity|]). lia.
Qed.
