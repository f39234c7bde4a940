(** Properties C83 and C84: functions called from R; functions on R matrices. *)
From Coq Require Import ZArith List String Bool Lia Reals.
From Verif Require Import Base Num FloatBridge StoreModel VecModel SubsetModel AllocModel ProgModel LangModel OutModel ForeignModel CallModel
  Spec SpecExpr SpecHist SpecProg SpecSub SpecAlloc SpecCons SpecStmt SpecMat SpecMul SpecOut SpecForeign SpecCall SpecFn
  StoreProofs StoreThms SubsetThms HideProofs MulProofs AvProofs ForeignProofs CallProofs FnProofs Examples.
Import ListNotations.
Open Scope Z_scope.
Local Notation length := List.length (only parsing).

(* ------------------------------------------------------------------ C83 *)

(** A function called from R, with any number of parameters of any of the three
    types: it copies its arguments, does what its body means and gives back a new
    R object with the elements and the dimensions of the result, or throws the
    exception its body throws.  The memory of R is as before; when the call has
    ended no vector and no allocation is left, so that the next call starts from
    the same state. *)
Theorem c83_call : forall N lm ty ps b (s : mstate) r w, at_rest w -> NoDup (map p_name ps) ->
  (forall p, In p ps -> ty (p_name p) = p_type p) -> Forall (passed w s) ps ->
  fsem N lm ty (hlim (hp w)) (map p_name ps) b s r ->
  exists out w', call N lm ps b w = (out, w') /\ ends_with w w' out r /\ foreign_kept w w' /\
    (r <> Unfinished -> at_rest w' /\ hlim (hp w') = hlim (hp w)).
Proof.
  intros N lm ty ps b s r w AR ND TY PA X.
  destruct (call_follows N lm ty _ ps b s r w AR eq_refl ND TY PA X) as [out [w' [E F]]].
  exists out, w'. split; [exact E|]. eapply fended_seen; eauto.
Qed.
Print Assumptions c83_call.

(** An argument of another type than its parameter: the arguments before it have
    been copied; the copies are destroyed again. *)
Theorem c83_wrong_type : forall N lm ps p qs b (s : mstate) w, at_rest w -> NoDup (map p_name (ps ++ p :: qs)) ->
  Forall (passed w s) ps -> r_ty (p_obj p) <> p_type p ->
  exists w', call N lm (ps ++ p :: qs) b w = (Thrown (Ass "R object is not of type numeric"), w') /\
    foreign_kept w w' /\ at_rest w' /\ hlim (hp w') = hlim (hp w).
Proof.
  intros N lm ps p qs b s w AR ND PA X.
  pose (ty := fun x => match find (fun q => Nat.eqb (p_name q) x) ps with Some q => p_type q | None => TDouble end).
  assert (TY : forall q, In q ps -> ty (p_name q) = p_type q).
  { rewrite map_app in ND. apply nodup_front in ND. clear PA. unfold ty. induction ps as [|a ps IH]; intros q []; cbn in ND |- *.
    - subst q. now rewrite Nat.eqb_refl.
    - inversion ND as [|? ? N1 N2]; subst. destruct (Nat.eqb_spec (p_name a) (p_name q)) as [E|_]; [|now apply IH].
      exfalso. apply N1. rewrite E. now apply in_map. }
  destruct (wrong_follows N lm ty _ ps p qs b s w AR eq_refl ND TY PA X) as [out [w' [E F]]].
  destruct (fended_seen N lm _ b ty _ w out w' _ AR E F) as [A [B C]]. cbn [ends_with] in A. subst out.
  exists w'. split; [exact E|]. split; [exact B|]. apply C. discriminate.
Qed.
Print Assumptions c83_wrong_type.

(** Whatever the function does and however it ends, even if its execution is
    undefined, until then it does not change memory that no vector had when it
    was called: its arguments in particular. *)
Theorem c83_arguments_kept : forall N lm ps b w a own cs, hblk (hp w) a = Live own cs -> (a < hnext (hp w))%nat ->
  (forall o, ptr (ob w o) <> Some a) ->
  hblk (hp (snd (call N lm ps b w))) a = Live own cs /\ forall o, ptr (ob (snd (call N lm ps b w)) o) <> Some a.
Proof.
  intros N lm ps b w a own cs Ha La P.
  assert (H : hidden a (Live own cs) w) by (split; [auto|split; [auto|intros o []]]).
  apply (hides_call True (fun _ => False) a _ N lm ps b w) in H. destruct H as [H1 [H2 _]].
  split; [apply H1; exact Logic.I|]. intros o. apply H2. exact Logic.I.
Qed.
Print Assumptions c83_arguments_kept.

(** With more rounds a call that has ended ends in the same way. *)
Theorem c83_rounds : forall N N' lm ps b w o w', (N <= N')%nat -> call N lm ps b w = (o, w') -> o <> Done None ->
  call N' lm ps b w = (o, w').
Proof. intros N N' lm ps b w o w' L. now apply call_more. Qed.
Print Assumptions c83_rounds.

(** R objects of all three types survive the way into a vector and back: a
    function that returns its argument gives a new object with the same
    elements, type and dimensions. *)
Theorem c83_round_trip : forall N lm x r xs ys w, at_rest w -> r_has w r xs -> stand_for (r_ty r) xs ys ->
  Z.of_nat (length xs) < 2 ^ 31 -> Z.of_nat (length xs) <= hlim (hp w) ->
  (forall nr nc, r_dim r = Some (nr, nc) -> 0 <= nr < 2 ^ 31 /\ 0 <= nc < 2 ^ 31 /\ nr * nc = Z.of_nat (length xs)) ->
  exists o w', call N lm [mkP x (r_ty r) r] (FRet (r_ty r) (LVar x)) w = (Done (Some o), w') /\
    r_ty o = r_ty r /\ r_dim o = r_dim r /\ hblk (hp w') (r_mem o) = Live OwnR (map Some xs) /\
    hblk (hp w) (r_mem o) = Unused /\ foreign_kept w w' /\ at_rest w'.
Proof.
  intros N lm x r xs ys w AR RH SF Lx LL Dm.
  pose (s := (fun _ : nat => ys, fun _ : nat => r_dim r) : mstate).
  assert (Ly : length ys = length xs) by (symmetry; eapply Forall2_len; exact SF).
  destruct (c83_call N lm (fun _ => r_ty r) [mkP x (r_ty r) r] (FRet (r_ty r) (LVar x)) s (Given (r_ty r) xs (r_dim r)) w AR) as [out [w' [E [F [K R]]]]].
  - cbn. constructor; [intros []|constructor].
  - intros p [<-|[]]. reflexivity.
  - constructor; [|constructor]. exists xs. cbn. split; [exact RH|]. split; [reflexivity|]. split; [now apply converted_plain|]. split; [reflexivity|exact LL].
  - cbn [fsem map p_name]. exists (Done (EVar x)). split; [split; [now left|reflexivity]|]. cbn [fgiven]. unfold SpecCall.back. cbn [wf_expr xsize xdims fst snd s].
    rewrite Ly. split; [exact I|]. split; [exact Lx|]. split; [exact LL|]. split; [intros nr nc D; destruct (Dm nr nc D); tauto|].
    replace (match r_dim r with Some (nr, nc) => nr * nc =? Z.of_nat (length xs) | None => true end) with true.
    2:{ destruct (r_dim r) as [[nr nc]|]; [|reflexivity]. symmetry. apply Z.eqb_eq. now apply Dm. }
    rewrite (value_of_done lm (fun _ => ys) (in_R (r_ty r)) (EVar x) xs); [reflexivity|]. apply value_var.
    clear - SF. unfold stand_for in SF. induction SF as [|a b la lb H]; constructor; auto.
    destruct (r_ty r); cbn in H; [|destruct H as [-> H]; now destruct b..]. destruct H as [b0 [-> ->]]. now destruct b0.
  - cbn [ends_with] in F. destruct F as [o [-> [F1 [F2 [F3 F4]]]]]. exists o, w'. split; [exact E|]. split; [exact F1|].
    split; [exact F2|]. split; [exact F3|]. split; [exact F4|]. split; [exact K|]. apply R. discriminate.
Qed.
Print Assumptions c83_round_trip.

(** A state of R with three objects: 2 x 3 numbers, the logical vector TRUE, NA
    (NA is a value of int in R), the integers 4, 5. *)
Definition c83_blk (a : nat) : block :=
  match a with
  | O => Live OwnR (map Some (map (fun z => VD (i2f z)) [1; 2; 3; 4; 5; 6]))
  | 1%nat => Live OwnR (map Some [VI 1; VI (- 2 ^ 31)])
  | 2%nat => Live OwnR (map Some [VI 4; VI 5])
  | _ => Unused
  end.
Definition c83_w : world := mkWorld (mkHeap 3 c83_blk 1000) (fun _ => store_default KBuffer TDouble).
Lemma c83_rest : at_rest c83_w.
Proof.
  split; [|split].
  - split.
    + intros a La. cbn in La. destruct a as [|[|[|a]]]; try lia. reflexivity.
    + intros o. repeat split; cbn; lia.
    + intros o1 o2 a [P _]. discriminate.
    + cbn. lia.
    + intros a own cs E. destruct a as [|[|[|a]]]; cbn in E; try discriminate; injection E as <- <-; cbn; (split; [lia|discriminate]).
  - intros o. split; reflexivity.
  - intros a cs E. destruct a as [|[|[|a]]]; cbn in E; discriminate.
Qed.
Definition c83_ps : list param :=
  [mkP 0 TDouble (mkR TDouble 0 (Some (2, 3))); mkP 1 TBool (mkR TBool 1 None); mkP 2 TInt (mkR TInt 2 None)].
(** SEXP f(SEXP a, SEXP b, SEXP c) { Vec<double> x; x = a; Vec<bool> y; y = b; Vec<int> z; z = c;
      subset(x, 1, true) = 7; if (at(y, 2)) { return cpp2R(x); } else { return cpp2R(z); } } *)
Definition c83_body : fbody :=
  FDo (LSub2Scalar 0 (LXZ 1) (LXB true) (VI 7)) (FIf (LAt 1 (PZ 2)) (FRet TDouble (LVar 0)) (FRet TInt (LVar 2))).
Definition c83_s : mstate :=
  (fun x => match x with O => map (fun z => VD (i2f z)) [1; 2; 3; 4; 5; 6] | 1%nat => [VB true; VB true] | _ => [VI 4; VI 5] end,
   fun x => match x with O => Some (2, 3) | _ => None end).
Definition c83_ty (x : nat) : ety := match x with O => TDouble | 1%nat => TBool | _ => TInt end.
Example c83_ex : forall N lm, Forall (passed c83_w c83_s) c83_ps /\
  fsem N lm c83_ty 1000 (map p_name c83_ps) c83_body c83_s (Given TDouble (map (fun z => VD (i2f z)) [7; 2; 7; 4; 7; 6]) (Some (2, 3))).
Proof.
  intros N lm. split.
  - apply Forall_cons; [|apply Forall_cons; [|apply Forall_cons; [|apply Forall_nil]]].
    + exists (map (fun z => VD (i2f z)) [1; 2; 3; 4; 5; 6]). split; [split; [reflexivity|vm_compute; discriminate]|]. split; [reflexivity|].
      split; [repeat constructor|]. split; [reflexivity|vm_compute; discriminate].
    + exists [VI 1; VI (- 2 ^ 31)]. split; [split; [reflexivity|vm_compute; discriminate]|]. split; [reflexivity|].
      split; [repeat constructor|]. split; [reflexivity|vm_compute; discriminate].
    + exists [VI 4; VI 5]. split; [split; [reflexivity|vm_compute; discriminate]|]. split; [reflexivity|].
      split; [repeat constructor|]. split; [reflexivity|vm_compute; discriminate].
  - unfold c83_body. cbn [fsem lsem]. eexists Ended, _. split.
    + split; [now left|]. exists (Done (IZ 1)), (Done (IB true)). split; [reflexivity|]. split; [reflexivity|].
      cbn [given]. exists [0; 2; 4], None. split.
      { exists 2, 3, [0], [0; 1; 2]. split; [reflexivity|]. split; [reflexivity|]. split; [lia|]. split; [lia|].
        split; [apply (Sd_int lm _ 2 1); lia|]. split; [apply (Sd_all lm _ 3); lia|]. split; [exact Logic.I|]. split; [reflexivity|]. split; [reflexivity|].
        split; reflexivity. }
      split; [|split; [reflexivity|reflexivity]]. split; [now left|]. split; [vm_compute; discriminate|].
      intros j [<-|[<-|[<-|[]]]]; lia.
    + exists (Done (VB true)). split.
      { exists (Done (ESca (VB true))). split; [|split; [intros e [= <-]; split; [exact Logic.I|cbn; lia]|reflexivity]].
        exists 2. split; [now right; left|]. split; [reflexivity|]. split; [lia|]. split; [discriminate|reflexivity]. }
      cbn [fgiven truth]. exists (Done (EVar 0)). split; [split; [now left|reflexivity]|]. cbn [fgiven].
      split; [exact Logic.I|]. split; [vm_compute; reflexivity|]. split; [vm_compute; discriminate|]. split; [intros nr nc [= <- <-]; lia|].
      vm_compute. reflexivity.
Qed.
(** The run of the model. *)
Example c83_ex_run : forall lm, exists w', call 0 lm c83_ps c83_body c83_w = (Done (Some (mkR TDouble 6 (Some (2, 3)))), w') /\
  hblk (hp w') 6%nat = Live OwnR (map Some (map (fun z => VD (i2f z)) [7; 2; 7; 4; 7; 6])) /\ hblk (hp w') 0%nat = c83_blk 0 /\
  Forall (fun a => hblk (hp w') a = Freed) [3; 4; 5]%nat.
Proof. intros lm. eexists. split; [vm_compute; reflexivity|]. vm_compute. repeat constructor. Qed.
(** The second argument is an integer vector instead of a logical one. *)
Example c83_ex_wrong : forall N lm, exists w', call N lm [mkP 0 TDouble (mkR TDouble 0 (Some (2, 3))); mkP 1 TBool (mkR TInt 1 None)] c83_body c83_w =
  (Thrown (Ass "R object is not of type numeric"), w') /\ at_rest w'.
Proof.
  intros N lm.
  destruct (c83_wrong_type N lm [mkP 0 TDouble (mkR TDouble 0 (Some (2, 3)))] (mkP 1 TBool (mkR TInt 1 None)) [] c83_body c83_s c83_w c83_rest)
    as [w' [E [_ [A _]]]].
  - repeat constructor; cbn; intuition congruence.
  - destruct (c83_ex N lm) as [F _]. inversion F; subst. now repeat constructor.
  - discriminate.
  - exists w'. auto.
Qed.

(** The matrix and back; a logical vector and back. *)
Example c83_round_ex : forall N lm, exists o w', call N lm [mkP 0 TDouble (mkR TDouble 0 (Some (2, 3)))] (FRet TDouble (LVar 0)) c83_w = (Done (Some o), w') /\
  r_dim o = Some (2, 3) /\ hblk (hp w') (r_mem o) = c83_blk 0.
Proof.
  intros N lm. destruct (c83_round_trip N lm 0 (mkR TDouble 0 (Some (2, 3))) (map (fun z => VD (i2f z)) [1; 2; 3; 4; 5; 6])
    (map (fun z => VD (i2f z)) [1; 2; 3; 4; 5; 6]) c83_w c83_rest) as [o [w' [E [_ [D [B _]]]]]].
  - split; [reflexivity|vm_compute; discriminate].
  - repeat constructor.
  - cbn. lia.
  - vm_compute. discriminate.
  - intros nr nc [= <- <-]. cbn. lia.
  - exists o, w'. auto.
Qed.
Example c83_round_bool_ex : stand_for TBool [VI 1; VI 0] [VB true; VB false].
Proof. repeat constructor; [now exists true|now exists false]. Qed.

(* ------------------------------------------------------------------ C84 *)

(** Transposition of an R matrix, for all numbers of rows and columns. *)
Theorem c84_transpose : forall N lm w r n m lx, at_rest w -> r_matrix w r n m lx ->
  (1 <= n)%nat -> (1 <= m)%nat -> Z.of_nat n < 2 ^ 30 -> Z.of_nat m < 2 ^ 30 ->
  2 * Z.of_nat (n * m) <= hlim (hp w) -> 4 <= hlim (hp w) ->
  exists o w' ly, call N lm [mkP 0 TDouble r] transpose_fn w = (Done (Some o), w') /\ r_matrix w' o m n ly /\
    (forall i j, (i < n)%nat -> (j < m)%nat -> entry ly m j i = entry lx n i j) /\
    hblk (hp w) (r_mem o) = Unused /\ foreign_kept w w' /\ at_rest w' /\ hlim (hp w') = hlim (hp w).
Proof.
  intros N lm w r n m lx AR [[RH RL] [TY [DM LX]]] Ln Lm Bn Bm F1 F2.
  assert (B : Z.of_nat (n * m) < 2 ^ 31) by (rewrite map_length, LX in RL; unfold int_max in RL; lia).
  pose (s := ((fun _ => map VD lx, fun _ => Some (Z.of_nat n, Z.of_nat m)) : mstate)).
  destruct (c83_call N lm (fun x => if Nat.eqb x 1 then TInt else TDouble) [mkP 0 TDouble r] transpose_fn s
    (Given TDouble (map VD (grid m n (fun j i => entry lx n i j))) (Some (Z.of_nat m, Z.of_nat n))) w AR) as [out [w' [E [EW [FK RE]]]]].
  - repeat constructor. intros [].
  - intros p [<-|[]]. reflexivity.
  - apply Forall_cons; [|apply Forall_nil]. exists (map VD lx). split; [now split|]. split; [exact TY|].
    split; [cbn; clear; induction lx; cbn; constructor; auto|]. split; [symmetry; exact DM|]. rewrite map_length, LX. lia.
  - apply transpose_fn_sem; auto.
  - destruct EW as [o [-> [T [D [Hb U]]]]]. exists o, w', (grid m n (fun j i => entry lx n i j)). split; [exact E|].
    split; [split; [split; [exact Hb|rewrite map_length, grid_length; unfold int_max; lia]|split; [exact T|split; [exact D|apply grid_length]]]|].
    split; [intros i j Li Lj; now rewrite grid_entry|]. split; [exact U|]. split; [exact FK|]. apply RE. discriminate.
Qed.
Print Assumptions c84_transpose.

(** The product of two R matrices. *)
Theorem c84_matmul : forall N lm w rx ry n p m lx ly, at_rest w -> r_matrix w rx n p lx -> r_matrix w ry p m ly ->
  (1 <= n)%nat -> (1 <= p)%nat -> (1 <= m)%nat -> Z.of_nat n < 2 ^ 30 -> Z.of_nat p < 2 ^ 30 -> Z.of_nat m < 2 ^ 30 ->
  Z.of_nat (n * m) < 2 ^ 31 -> 2 * Z.of_nat (n * m) <= hlim (hp w) ->
  Z.of_nat (n * p) <= hlim (hp w) -> Z.of_nat (p * m) <= hlim (hp w) -> 2 * Z.of_nat p <= hlim (hp w) -> 4 <= hlim (hp w) ->
  exists o w' lz, call N lm [mkP 0 TDouble rx; mkP 1 TDouble ry] matmul_fn w = (Done (Some o), w') /\ r_matrix w' o n m lz /\
    (forall i j, (i < n)%nat -> (j < m)%nat -> entry lz n i j = dot lx ly n p i j p) /\
    hblk (hp w) (r_mem o) = Unused /\ foreign_kept w w' /\ at_rest w' /\ hlim (hp w') = hlim (hp w).
Proof.
  intros N lm w rx ry n p m lx ly AR [[RHx RLx] [TYx [DMx LX]]] [[RHy RLy] [TYy [DMy LY]]] Ln Lp Lm Bn Bp Bm B F1 F2 F3 F4 F5.
  pose (s := ((fun x => if Nat.eqb x 0 then map VD lx else map VD ly,
               fun x => if Nat.eqb x 0 then Some (Z.of_nat n, Z.of_nat p) else Some (Z.of_nat p, Z.of_nat m)) : mstate)).
  destruct (c83_call N lm (fun x => if Nat.eqb x 2 || Nat.eqb x 4 then TInt else TDouble) [mkP 0 TDouble rx; mkP 1 TDouble ry] matmul_fn s
    (Given TDouble (map VD (grid n m (fun i j => dot lx ly n p i j p))) (Some (Z.of_nat n, Z.of_nat m))) w AR) as [out [w' [E [EW [FK RE]]]]].
  - repeat constructor; cbn; intuition congruence.
  - intros q [<-|[<-|[]]]; reflexivity.
  - assert (CV : forall l, converted TDouble (map VD l) (map VD l)) by (clear; intros l; induction l; cbn; constructor; auto).
    apply Forall_cons; [|apply Forall_cons; [|apply Forall_nil]].
    + exists (map VD lx). split; [now split|]. split; [exact TYx|]. split; [apply CV|]. split; [symmetry; exact DMx|]. now rewrite map_length, LX.
    + exists (map VD ly). split; [now split|]. split; [exact TYy|]. split; [apply CV|]. split; [symmetry; exact DMy|]. now rewrite map_length, LY.
  - apply matmul_fn_sem; auto.
  - destruct EW as [o [-> [T [D [Hb U]]]]]. exists o, w', (grid n m (fun i j => dot lx ly n p i j p)). split; [exact E|].
    split; [split; [split; [exact Hb|rewrite map_length, grid_length; unfold int_max; lia]|split; [exact T|split; [exact D|apply grid_length]]]|].
    split; [intros i j Li Lj; now rewrite grid_entry|]. split; [exact U|]. split; [exact FK|]. apply RE. discriminate.
Qed.
Print Assumptions c84_matmul.

(** Transposing twice gives back the matrix, bit for bit. *)
Theorem c84_twice : forall N lm w r n m lx, at_rest w -> r_matrix w r n m lx ->
  (1 <= n)%nat -> (1 <= m)%nat -> Z.of_nat n < 2 ^ 30 -> Z.of_nat m < 2 ^ 30 ->
  2 * Z.of_nat (n * m) <= hlim (hp w) -> 4 <= hlim (hp w) ->
  exists o w1 o' w', call N lm [mkP 0 TDouble r] transpose_fn w = (Done (Some o), w1) /\
    call N lm [mkP 0 TDouble o] transpose_fn w1 = (Done (Some o'), w') /\ r_matrix w' o' n m lx /\ r_matrix w' r n m lx /\
    r_mem o' <> r_mem r /\ foreign_kept w w' /\ at_rest w'.
Proof.
  intros N lm w r n m lx AR RM Ln Lm Bn Bm F1 F2.
  destruct (c84_transpose N lm w r n m lx AR RM Ln Lm Bn Bm F1 F2) as [o [w1 [ly [E [RM1 [En [U [FK [AR1 HL]]]]]]]]].
  destruct (c84_transpose N lm w1 o m n ly AR1 RM1 Lm Ln Bm Bn) as [o' [w' [lz [E' [RM2 [En' [U' [FK' [AR2 HL']]]]]]]]];
    [rewrite HL; lia|lia|].
  assert (FKK : foreign_kept w w') by (intros a own cs NO Ha; apply FK'; auto).
  exists o, w1, o', w'. split; [exact E|]. split; [exact E'|].
  assert (EQ : lz = lx).
  { apply (entries_eq n m); [apply RM2|apply RM|]. intros i j Li Lj. rewrite En' by auto. now apply En. }
  rewrite EQ in RM2. split; [exact RM2|]. split; [|split; [|split; [exact FKK|exact AR2]]].
  - destruct RM as [[A B] C]. split; [split; [apply FKK; [discriminate|exact A]|exact B]|exact C].
  - intros Q. destruct RM as [[A _] _]. rewrite Q in U'. rewrite (FK _ OwnR _ ltac:(discriminate) A) in U'. discriminate.
Qed.
Print Assumptions c84_twice.

(** The transposed product of two R matrices is the product of the transposed
    matrices in the other order, bit for bit. *)
Theorem c84_product_transposed : forall N lm w rx ry n p m lx ly, at_rest w -> r_matrix w rx n p lx -> r_matrix w ry p m ly ->
  (1 <= n)%nat -> (1 <= p)%nat -> (1 <= m)%nat -> Z.of_nat n < 2 ^ 30 -> Z.of_nat p < 2 ^ 30 -> Z.of_nat m < 2 ^ 30 ->
  Z.of_nat (n * m) < 2 ^ 31 -> 2 * Z.of_nat (n * m) <= hlim (hp w) ->
  2 * Z.of_nat (n * p) <= hlim (hp w) -> 2 * Z.of_nat (p * m) <= hlim (hp w) -> 4 <= hlim (hp w) ->
  exists xy w1 a w2 tx w3 ty w4 b w5 l,
    call N lm [mkP 0 TDouble rx; mkP 1 TDouble ry] matmul_fn w = (Done (Some xy), w1) /\
    call N lm [mkP 0 TDouble xy] transpose_fn w1 = (Done (Some a), w2) /\
    call N lm [mkP 0 TDouble rx] transpose_fn w2 = (Done (Some tx), w3) /\
    call N lm [mkP 0 TDouble ry] transpose_fn w3 = (Done (Some ty), w4) /\
    call N lm [mkP 0 TDouble ty; mkP 1 TDouble tx] matmul_fn w4 = (Done (Some b), w5) /\
    r_matrix w5 a m n l /\ r_matrix w5 b m n l /\ r_mem a <> r_mem b.
Proof.
  intros N lm w rx ry n p m lx ly AR RX RY Ln Lp Lm Bn Bp Bm B F1 F2 F3 F4.
  assert (K : forall v v' r i j l, foreign_kept v v' -> r_matrix v r i j l -> r_matrix v' r i j l).
  { intros v v' r i j l FK [[A A'] C]. split; [split; [apply FK; [discriminate|exact A]|exact A']|exact C]. }
  destruct (c84_matmul N lm w rx ry n p m lx ly AR RX RY) as [xy [w1 [lz [E1 [M1 [En1 [U1 [K1 [R1 H1]]]]]]]]]; auto; try nia.
  destruct (c84_transpose N lm w1 xy n m lz R1 M1) as [a [w2 [la [E2 [M2 [En2 [U2 [K2 [R2 H2]]]]]]]]]; auto; try lia.
  destruct (c84_transpose N lm w2 rx n p lx R2) as [tx [w3 [lt [E3 [M3 [En3 [U3 [K3 [R3 H3]]]]]]]]]; auto; try lia; [eauto|].
  destruct (c84_transpose N lm w3 ry p m ly R3) as [ty [w4 [lu [E4 [M4 [En4 [U4 [K4 [R4 H4]]]]]]]]]; auto; try lia; [eauto|].
  destruct (c84_matmul N lm w4 ty tx m p n lu lt R4) as [b [w5 [lb [E5 [M5 [En5 [U5 [K5 [R5 H5]]]]]]]]]; eauto; try nia.
  exists xy, w1, a, w2, tx, w3, ty, w4, b, w5, la. split; [exact E1|]. split; [exact E2|]. split; [exact E3|]. split; [exact E4|]. split; [exact E5|].
  assert (EQ : lb = la).
  { apply (entries_eq m n); [apply M5|apply M2|]. intros j i Lj Li. rewrite En5, En2, En1 by auto.
    rewrite <- (dot_transposed lx ly n p m i j Li Lj p) by lia.
    assert (Q1 : lu = grid m p (fun j k => entry ly p k j)).
    { apply (entries_eq m p); [apply M4|apply grid_length|]. intros j' k' Lj' Lk'. rewrite En4, grid_entry by auto. reflexivity. }
    assert (Q2 : lt = grid p n (fun k i => entry lx n i k)).
    { apply (entries_eq p n); [apply M3|apply grid_length|]. intros k' i' Lk' Li'. rewrite En3, grid_entry by auto. reflexivity. }
    now rewrite Q1, Q2. }
  rewrite EQ in M5. split; [eauto 6|]. split; [exact M5|].
  intros Q. assert (MA : r_matrix w4 a m n la) by eauto 6. destruct MA as [[A _] _]. rewrite Q, U5 in A. discriminate.
Qed.
Print Assumptions c84_product_transposed.

(** The 2 x 3 matrix of C83, transposed, and its product with the result. *)
Example c84_ex : forall N lm, exists o w1 w2 z lz, call N lm [mkP 0 TDouble (mkR TDouble 0 (Some (2, 3)))] transpose_fn c83_w = (Done (Some o), w1) /\
  r_matrix w1 o 3 2 (map i2f [1; 3; 5; 2; 4; 6]) /\
  call N lm [mkP 0 TDouble (mkR TDouble 0 (Some (2, 3))); mkP 1 TDouble o] matmul_fn w1 = (Done (Some z), w2) /\
  r_matrix w2 z 2 2 lz /\ lz = map i2f [35; 44; 44; 56].
Proof.
  intros N lm.
  assert (RM : r_matrix c83_w (mkR TDouble 0 (Some (2, 3))) 2 3 (map i2f [1; 2; 3; 4; 5; 6])).
  { split; [split; [reflexivity|vm_compute; discriminate]|]. repeat split. }
  destruct (c84_transpose N lm c83_w _ 2 3 _ c83_rest RM) as [o [w1 [ly [E [RM1 [En [U [FK [AR1 HL]]]]]]]]]; try (cbn; lia).
  assert (EQ : ly = map i2f [1; 3; 5; 2; 4; 6]).
  { apply (entries_eq 3 2); [apply RM1|reflexivity|]. intros j i Lj Li. rewrite En by auto.
    destruct j as [|[|[|j]]], i as [|[|i]]; try lia; reflexivity. }
  rewrite EQ in RM1.
  destruct (c84_matmul N lm w1 (mkR TDouble 0 (Some (2, 3))) o 2 3 2 (map i2f [1; 2; 3; 4; 5; 6]) (map i2f [1; 3; 5; 2; 4; 6]) AR1)
    as [z [w2 [lz [E2 [RM2 [En2 _]]]]]]; rewrite ?HL; auto; try (cbn; lia).
  { destruct RM as [[A A'] C]. split; [split; [apply FK; [discriminate|exact A]|exact A']|exact C]. }
  exists o, w1, w2, z, lz. split; [exact E|]. split; [exact RM1|]. split; [exact E2|]. split; [exact RM2|].
  apply (entries_eq 2 2); [apply RM2|reflexivity|]. intros i j Li Lj. rewrite En2 by auto.
  destruct i as [|[|i]], j as [|[|j]]; try lia; vm_compute; reflexivity.
Qed.
