(** Functions on R matrices: proofs. *)
From Coq Require Import ZArith List String Bool Lia.
From Verif Require Import Base Num StoreModel VecModel SubsetModel AllocModel ProgModel LangModel OutModel ForeignModel CallModel
  Spec SpecExpr SpecHist SpecProg SpecSub SpecAlloc SpecCons SpecStmt SpecMat SpecMul SpecOut SpecForeign SpecCall SpecFn
  VecProofs VecEval SubsetThms ProgProofs ProgProofs2 ProgThms MatProofs MatThms MulProofs AvProofs CallProofs.
Import ListNotations.
Open Scope Z_scope.
Local Notation length := List.length (only parsing).

Definition fn_ty (x : nat) : ety := TDouble.

Section Fn.
Variables (N : nat) (lm : libm) (ty : nat -> ety) (lim : Z).

Lemma at_dims V (s : mstate) d n m i z : In d V -> fst s d = [VI n; VI m] -> (i = 1 /\ z = n) \/ (i = 2 /\ z = m) ->
  lvalue lm V s (LAt d (PZ i)) (Done (VI z)).
Proof.
  intros Vd Ed C. exists (Done (ESca (VI z))). split; [|split; [intros e [= <-]; split; [exact I|cbn; lia]|reflexivity]].
  cbn [lmeans]. exists i. split; [exact Vd|]. split; [reflexivity|].
  rewrite Ed. destruct C as [[-> ->]|[-> ->]]; (split; [lia|split; [discriminate|reflexivity]]).
Qed.

Lemma with_dims_sem V (s : mstate) x d t n m (k : val -> val -> fbody) r : In x V -> ty d = TInt -> 4 <= lim ->
  snd s x = Some (n, m) -> 0 <= n < 2 ^ 31 -> 0 <= m < 2 ^ 31 -> ~ In d V -> ~ In t V -> d <> t ->
  (forall s1 : mstate, (forall u, u <> d -> fst s1 u = fst s u /\ snd s1 u = snd s u) ->
     fsem N lm ty lim (d :: V) (k (VI n) (VI m)) s1 r) ->
  fsem N lm ty lim V (with_dims x d t k) s r.
Proof.
  intros Vx Td L Sx Bn Bm Nd Nt Ne Q. unfold with_dims. cbn [fsem]. exists [VI n; VI m], None.
  split; [exact Nd|]. split; [exact Nt|]. split; [exact Ne|]. split; [exact Td|]. split.
  { split; [cbn; lia|]. exists (EVar x), n, m. split; [split; [exact Vx|reflexivity]|]. split; [exact Sx|].
    split; [exact Bn|]. split; [exact Bm|]. repeat split. }
  exists (Done (VI n)). split.
  { apply (at_dims (d :: V) _ d n m 1 n); [now left|cbn [fst]; apply setl_same|auto]. }
  cbn [fgiven]. exists (Done (VI m)). split.
  { apply (at_dims (d :: V) _ d n m 2 m); [now left|cbn [fst]; apply setl_same|auto]. }
  cbn [fgiven]. apply Q. intros u Nu. cbn [fst snd]. now rewrite setl_other, setd_other.
Qed.

(** return cpp2R(y); *)
Lemma ret_sem V (s : mstate) y l n m : In y V -> fst s y = map VD l -> length l = (n * m)%nat ->
  snd s y = Some (Z.of_nat n, Z.of_nat m) -> Z.of_nat (n * m) < 2 ^ 31 -> Z.of_nat (n * m) <= lim ->
  Z.of_nat n < 2 ^ 31 -> Z.of_nat m < 2 ^ 31 ->
  fsem N lm ty lim V (FRet TDouble (LVar y)) s (Given TDouble (map VD l) (Some (Z.of_nat n, Z.of_nat m))).
Proof.
  intros Vy Ey Ly Sy B1 B2 Bn Bm. cbn [fsem]. exists (Done (EVar y)). split; [split; [exact Vy|reflexivity]|]. cbn [fgiven].
  assert (XS : xsize (fst s) (EVar y) = Z.of_nat (n * m)) by (cbn [xsize]; now rewrite Ey, map_length, Ly).
  split; [exact I|]. rewrite XS. split; [exact B1|]. split; [exact B2|]. cbn [xdims]. rewrite Sy.
  split; [intros nr nc [= <- <-]; lia|].
  replace (Z.of_nat n * Z.of_nat m =? Z.of_nat (n * m)) with true by (symmetry; apply Z.eqb_eq; lia).
  change (in_R TDouble) with TDouble. rewrite (value_of_done lm (fst s) TDouble (EVar y) (map VD l)); [reflexivity|].
  apply value_var. rewrite Ey. clear. induction l; cbn; auto.
Qed.

Lemma transpose_fn_sem (s : mstate) lx n m : ty 1%nat = TInt -> ty 3%nat = TDouble ->
  (1 <= n)%nat -> (1 <= m)%nat -> Z.of_nat n < 2 ^ 30 -> Z.of_nat m < 2 ^ 30 -> Z.of_nat (n * m) < 2 ^ 31 ->
  2 * Z.of_nat (n * m) <= lim -> 4 <= lim ->
  fst s 0%nat = map VD lx -> length lx = (n * m)%nat -> snd s 0%nat = Some (Z.of_nat n, Z.of_nat m) ->
  fsem N lm ty lim [0%nat] transpose_fn s
    (Given TDouble (map VD (grid m n (fun j i => entry lx n i j))) (Some (Z.of_nat m, Z.of_nat n))).
Proof.
  intros T1 T3 Ln Lm Bn Bm B F1 F2 Ex Lx Sx. unfold transpose_fn.
  apply with_dims_sem with (n := Z.of_nat n) (m := Z.of_nat m); auto; try lia; try (cbn; intuition congruence).
  intros s1 O1. destruct (O1 0%nat ltac:(discriminate)) as [E1 S1]. cbn [the_int fsem].
  exists (map VD (grid m n (fun _ _ => fzero))), (Some (Z.of_nat m, Z.of_nat n)).
  split; [cbn; intuition congruence|]. split; [cbn; intuition congruence|]. split; [discriminate|]. split; [exact T3|].
  split; [apply zero_matrix; auto; nia|].
  set (s2 := (setl (fst s1) 3 _, setd (snd s1) 3%nat _)).
  destruct (transpose_loops N lm ty lim [] [3; 1; 0]%nat s2 0 3 5 6 lx n m) as [s3 [X [E [O S3]]]]; auto;
    try (cbn; intuition congruence); try nia; try (unfold s2; cbn [fst snd]; rewrite ?setl_other, ?setd_other, ?E1, ?S1 by discriminate; auto; fail).
  exists Ended, s3. split; [exact X|]. apply ret_sem; auto; try (now left); try nia.
  - rewrite grid_length. reflexivity.
  - now rewrite S3.
Qed.

Lemma matmul_fn_sem (s : mstate) lx ly n p m : ty 2%nat = TInt -> ty 4%nat = TInt -> ty 6%nat = TDouble ->
  (1 <= n)%nat -> (1 <= p)%nat -> (1 <= m)%nat -> Z.of_nat n < 2 ^ 30 -> Z.of_nat p < 2 ^ 30 -> Z.of_nat m < 2 ^ 30 ->
  Z.of_nat (n * m) < 2 ^ 31 -> 2 * Z.of_nat (n * m) <= lim -> 2 * Z.of_nat p <= lim -> 4 <= lim ->
  fst s 0%nat = map VD lx -> length lx = (n * p)%nat -> snd s 0%nat = Some (Z.of_nat n, Z.of_nat p) ->
  fst s 1%nat = map VD ly -> length ly = (p * m)%nat -> snd s 1%nat = Some (Z.of_nat p, Z.of_nat m) ->
  fsem N lm ty lim [0; 1]%nat matmul_fn s
    (Given TDouble (map VD (grid n m (fun i j => dot lx ly n p i j p))) (Some (Z.of_nat n, Z.of_nat m))).
Proof.
  intros T2 T4 T6 Ln Lp Lm Bn Bp Bm B F1 F2 F3 Ex Lx Sx Ey Ly Sy. unfold matmul_fn.
  apply with_dims_sem with (n := Z.of_nat n) (m := Z.of_nat p); auto; try lia; try (cbn; intuition congruence).
  intros s1 O1. destruct (O1 0%nat ltac:(discriminate)) as [E1 S1]. destruct (O1 1%nat ltac:(discriminate)) as [E1' S1'].
  apply with_dims_sem with (n := Z.of_nat p) (m := Z.of_nat m); auto; try lia; try (cbn; intuition congruence).
  intros s2 O2. destruct (O2 0%nat ltac:(discriminate)) as [E2 S2]. destruct (O2 1%nat ltac:(discriminate)) as [E2' S2'].
  cbn [the_int fsem].
  exists (map VD (grid n m (fun _ _ => fzero))), (Some (Z.of_nat n, Z.of_nat m)).
  split; [cbn; intuition congruence|]. split; [cbn; intuition congruence|]. split; [discriminate|]. split; [exact T6|].
  split; [apply zero_matrix; auto; nia|].
  set (s3 := (setl (fst s2) 6 _, setd (snd s2) 6%nat _)).
  destruct (matmul_loops N lm ty lim [] [6; 4; 2; 0; 1]%nat s3 0 1 6 8 9 10 lx ly n p m) as [s4 [X [E [O S4]]]]; auto;
    try (cbn; intuition congruence); try nia;
    try (unfold s3; cbn [fst snd]; rewrite ?setl_other, ?setd_other, ?E2, ?S2, ?E2', ?S2', ?E1, ?S1, ?E1', ?S1' by discriminate; auto; fail).
  exists Ended, s4. split; [exact X|]. apply ret_sem; auto; try (now left); try nia.
  - now rewrite grid_length.
  - now rewrite S4.
Qed.
End Fn.

(* ---------------------------------------------------------- bit for bit *)

Lemma fmul_comm a b : fmul a b = fmul b a.
Proof.
  destruct a as [sa|sa| |sa ma ea], b as [sb|sb| |sb mb eb]; cbn; rewrite ?(xorb_comm sa sb); auto.
  now rewrite (Pos.mul_comm ma mb), (Z.add_comm ea eb).
Qed.

(** The transposed product is the product of the transposed factors. *)
Lemma dot_transposed lx ly n p m i j : (i < n)%nat -> (j < m)%nat -> forall k, (k <= p)%nat ->
  dot (grid m p (fun j k => entry ly p k j)) (grid p n (fun k i => entry lx n i k)) m p j i k = dot lx ly n p i j k.
Proof.
  intros Li Lj. induction k as [|k IH]; intros Lk; cbn [dot]; [reflexivity|].
  rewrite IH by lia. rewrite !grid_entry by lia. now rewrite fmul_comm.
Qed.

Lemma entries_eq n m l l' : length l = (n * m)%nat -> length l' = (n * m)%nat ->
  (forall i j, (i < n)%nat -> (j < m)%nat -> entry l n i j = entry l' n i j) -> l = l'.
Proof.
  intros L L' E. apply (nth_ext _ _ fzero fzero); [congruence|]. intros q Hq. rewrite L in Hq.
  destruct n as [|n]; [cbn in Hq; lia|].
  specialize (E (q mod S n)%nat (q / S n)%nat). unfold entry in E. rewrite <- (Nat.div_mod_eq q (S n)) in E || idtac.
  assert (Q : (q / S n * S n + q mod S n)%nat = q) by (rewrite Nat.mul_comm; symmetry; apply Nat.div_mod; lia).
  rewrite Q in E. apply E; [apply Nat.mod_upper_bound; lia|]. apply Nat.div_lt_upper_bound; lia.
Qed.
