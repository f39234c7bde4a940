(** Property C98: the memory there is decides whether a program gets through,
    not what it computes. *)
From Coq Require Import ZArith List String Bool Lia.
From Verif Require Import Base Num StoreModel VecModel SubsetModel AllocModel ProgModel LangModel OutModel ForeignModel CallModel JumpModel WrapCallModel
  AvModel DerivModel Spec SpecCall SpecSession SpecSafe SpecJump SpecMore MoreProofs MoreDeriv Examples PropVec PropDeriv PropCall PropDerivSafe PropJump.
Import ListNotations.
Open Scope Z_scope.
Local Notation length := List.length (only parsing).

Lemma use {A} (m : M world A) w L L' : grows m -> L <= L' -> enough m w L ->
  m (with_limit L' w) = (fst (m (with_limit L w)), with_limit L' (snd (m (with_limit L w)))).
Proof. intros G LE E. destruct (G True I (with_limit L w) L' LE) as [_ [[_ N]|Q]]; [now elim N|exact Q]. Qed.

(** What a program does with some limit it does with every larger one: the same
    ending (also the same exception and the same error message), the same
    elements at the same places, the same blocks in use. *)
Theorem c98_program : forall N lm p w L L', L <= L' -> enough (lrun N lm p) w L ->
  lrun N lm p (with_limit L' w) = (fst (lrun N lm p (with_limit L w)), with_limit L' (snd (lrun N lm p (with_limit L w)))).
Proof. intros. apply use; auto. apply grows_lrun. Qed.
Print Assumptions c98_program.

(** The same for functions called from R, with parameters that copy or use the
    memory of R, and for the derivative programs. *)
Theorem c98_call : forall N lm ps b w L L', L <= L' -> enough (wcall N lm ps b) w L ->
  wcall N lm ps b (with_limit L' w) = (fst (wcall N lm ps b (with_limit L w)), with_limit L' (snd (wcall N lm ps b (with_limit L w)))).
Proof. intros. apply use; auto. apply grows_wcall. Qed.
Print Assumptions c98_call.

Theorem c98_function : forall N lm ps b w L L', L <= L' -> enough (call N lm ps b) w L ->
  call N lm ps b (with_limit L' w) = (fst (call N lm ps b (with_limit L w)), with_limit L' (snd (call N lm ps b (with_limit L w)))).
Proof. intros. apply use; auto. apply grows_call. Qed.
Print Assumptions c98_function.

Theorem c98_derivatives : forall lm c p w i L L' r d, L <= L' -> drun lm c p (mkDw (with_limit L w) i) = (r, d) -> finished r ->
  drun lm c p (mkDw (with_limit L' w) i) = (r, mkDw (with_limit L' (dw d)) (dinit d)).
Proof.
  intros lm c p w i L L' r d LE E F. destruct (dgrows_run lm c p (mkDw (with_limit L w) i) L' LE) as [_ [N|Q]]; rewrite E in *; [now elim N|exact Q].
Qed.
Print Assumptions c98_derivatives.

Theorem c98_asked : forall c x w i L L' r d, L <= L' -> get_derivs c x (mkDw (with_limit L w) i) = (r, d) -> finished r ->
  get_derivs c x (mkDw (with_limit L' w) i) = (r, mkDw (with_limit L' (dw d)) (dinit d)).
Proof.
  intros c x w i L L' r d LE E F. destruct (dgrows_derivs c x (mkDw (with_limit L w) i) L' LE) as [_ [N|Q]]; rewrite E in *; [now elim N|exact Q].
Qed.
Print Assumptions c98_asked.

(** No two limits give different endings. *)
Theorem c98_unique : forall N lm ps b w L L', enough (wcall N lm ps b) w L -> enough (wcall N lm ps b) w L' ->
  fst (wcall N lm ps b (with_limit L w)) = fst (wcall N lm ps b (with_limit L' w)) /\
  hblk (hp (snd (wcall N lm ps b (with_limit L w)))) = hblk (hp (snd (wcall N lm ps b (with_limit L' w)))) /\
  ob (snd (wcall N lm ps b (with_limit L w))) = ob (snd (wcall N lm ps b (with_limit L' w))).
Proof.
  intros N lm ps b w L L' E E'. destruct (Z.le_ge_cases L L') as [LE|LE].
  - rewrite (c98_call N lm ps b w L L' LE E). auto.
  - rewrite (c98_call N lm ps b w L' L LE E'). auto.
Qed.
Print Assumptions c98_unique.

(** A program has a least limit with which it gets through, if it does with any. *)
Lemma dec {A} (r : outcome A) : finished r \/ ~ finished r.
Proof. destruct r as [x|[e|]|u]; cbn; auto. Qed.
Lemma threshold {A} (m : M world A) w L0 : grows m -> 0 <= L0 -> enough m w L0 ->
  exists T, 0 <= T <= L0 /\ forall L, 0 <= L -> (enough m w L <-> T <= L).
Proof.
  intros G H. revert L0 H. refine (Zlt_0_ind (fun L0 => enough m w L0 -> exists T, 0 <= T <= L0 /\ forall L, 0 <= L -> (enough m w L <-> T <= L)) _). intros L0 IH H E.
  assert (Up : forall L L', L <= L' -> enough m w L -> enough m w L').
  { intros L L' LE EL. unfold enough. now rewrite (use m w L L' G LE EL). }
  destruct (Z.eq_dec L0 0) as [->|NZ].
  { exists 0. split; [lia|]. intros L HL. split; [auto|intros _; now apply (Up 0)]. }
  destruct (dec (fst (m (with_limit (L0 - 1) w)))) as [F|F].
  - destruct (IH (L0 - 1)) as [T [HT Q]]; [lia|exact F|]. exists T. split; [lia|exact Q].
  - exists L0. split; [lia|]. intros L HL. split.
    + intros EL. destruct (Z.le_gt_cases L0 L) as [|LT]; [auto|]. elim F. apply (Up L); [lia|exact EL].
    + intros LE. now apply (Up L0).
Qed.
Theorem c98_least : forall N lm p w L0, 0 <= L0 -> enough (lrun N lm p) w L0 ->
  exists T, 0 <= T <= L0 /\ forall L, 0 <= L -> (enough (lrun N lm p) w L <-> T <= L).
Proof. intros. apply threshold; auto. apply grows_lrun. Qed.
Print Assumptions c98_least.
Theorem c98_least_call : forall N lm ps b w L0, 0 <= L0 -> enough (wcall N lm ps b) w L0 ->
  exists T, 0 <= T <= L0 /\ forall L, 0 <= L -> (enough (wcall N lm ps b) w L <-> T <= L).
Proof. intros. apply threshold; auto. apply grows_wcall. Qed.
Print Assumptions c98_least_call.

(** A consequence: what C91 says about calls when there is memory for fewer than
    2^31 elements holds whatever the memory is, if so much suffices. *)
Theorem c98_safe : forall N lm ps b w L r w', at_rest (with_limit L w) -> L < 2 ^ 31 -> L <= hlim (hp w) -> NoDup (map p_name ps) ->
  scoped_j false (rev (map p_name ps)) (rev (map p_name ps)) b -> (forall p, In p ps -> r_real w (p_obj p)) ->
  enough (jcall N lm ps b) w L -> jcall N lm ps b w = (r, w') ->
  foreign_kept w w' /\
  match r with
  | Done (Gave o) => at_rest (with_limit L w') /\ r_real w' o
  | Done Next => ~ returns b /\ at_rest (with_limit L w')
  | Thrown (Ass _) => at_rest (with_limit L w')
  | Done More => True
  | _ => False
  end.
Proof.
  intros N lm ps b w L r w' AR HL LE ND Sc Re En E.
  pose proof (use (jcall N lm ps b) w L (hlim (hp w)) (grows_jcall N lm ps b) LE En) as Q.
  assert (W : with_limit (hlim (hp w)) w = w) by now destruct w as [[]]. rewrite W, E in Q.
  destruct (grows_jcall N lm ps b True I (with_limit L w) L (Z.le_refl _)) as [HQ _]. cbn [hp with_limit hlim] in HQ.
  unfold enough in En. destruct (jcall N lm ps b (with_limit L w)) as [r1 w1] eqn:E1. cbn [fst snd] in *. injection Q as -> ->.
  assert (W1 : with_limit L (with_limit (hlim (hp w)) w1) = w1) by (rewrite <- HQ; now destruct w1 as [[]]).
  destruct (c91_safe N lm ps b (with_limit L w) r1 w1 AR HL ND Sc Re E1) as [FK S].
  split; [exact FK|]. rewrite W1. destruct r1 as [[| | |o|]|[m|]|u]; try contradiction; try tauto.
Qed.
Print Assumptions c98_safe.

(** A program that needs three elements: it makes a vector and a longer one by
    c(), and catches the exception of an index beyond the end.  With room for two
    it is ended by std::bad_alloc, which it does not catch. *)
Definition ex98_p : lstmt :=
  LSized 0 TDouble 2 (LLet 1 2 TDouble (LMCoca [LV TDouble (LVar 0); LS (VD fone)])
    (LTry (LAtSet 1 (PZ 4) (VD fone)) (LAtSet 1 (PZ 3) (VD fzero)))).
Example c98_ex : enough (lrun 0 ex_lm ex98_p) (dw (dstart 0)) 3 /\ ~ enough (lrun 0 ex_lm ex98_p) (dw (dstart 0)) 2 /\
  fst (lrun 0 ex_lm ex98_p (with_limit 2 (dw (dstart 0)))) = Thrown BadAlloc /\
  fst (lrun 0 ex_lm ex98_p (with_limit 3 (dw (dstart 0)))) = Done true.
Proof. vm_compute. repeat split; auto. Qed.
(** Without the condition the two runs differ: the program below ends in
    different ways with different limits. *)
Example c98_not_enough_ex : fst (lrun 0 ex_lm ex98_p (with_limit 2 (dw (dstart 0)))) <> fst (lrun 0 ex_lm ex98_p (with_limit 3 (dw (dstart 0)))).
Proof. vm_compute. discriminate. Qed.
(** Derivatives of the program of C97, with the least limit and a larger one. *)
Example c98_derivatives_ex : fst (drun ex_lm ex43_c ex97_p (mkDw (with_limit 3 (dw ex43_d)) (dinit ex43_d))) = Done tt /\
  fst (drun ex_lm ex43_c ex97_p (mkDw (with_limit 2 (dw ex43_d)) (dinit ex43_d))) = Thrown BadAlloc.
Proof. split; vm_compute; reflexivity. Qed.
(** The calls of C91 and C93 with the least limit; a parameter by copy and one
    that uses the memory of R.  In an eternity of memory (2^80 elements) the call
    of C91 is safe, by c98_safe. *)
Definition ex98_ps : list wparam := [mkW ByCopy (mkP 0 TDouble (mkR TDouble 0 (Some (2, 3)))); mkW ByWrap (mkP 5 TDouble (mkR TDouble 0 None))].
Example c98_call_ex : enough (wcall 2 ex_lm ex98_ps nest_fn) c83_w 8 /\ ~ enough (wcall 2 ex_lm ex98_ps nest_fn) c83_w 7.
Proof. split; vm_compute; auto. Qed.
Example c98_function_ex : enough (call 0 ex_lm c83_ps c83_body) c83_w 6 /\ ~ enough (call 0 ex_lm c83_ps c83_body) c83_w 5.
Proof. split; vm_compute; auto. Qed.
Example c98_safe_ex : at_rest (with_limit 1000 (with_limit (2 ^ 80) c83_w)) /\ 1000 <= hlim (hp (with_limit (2 ^ 80) c83_w)) /\
  enough (jcall 2 ex_lm [mkP 0 TDouble (mkR TDouble 0 (Some (2, 3)))] nest_fn) (with_limit (2 ^ 80) c83_w) 1000 /\
  scoped_j false [0%nat] [0%nat] nest_fn.
Proof.
  split; [exact c83_rest|]. split; [cbn; lia|]. split; [vm_compute; auto|]. cbn; unfold incl; cbn; intuition (try congruence; auto).
Qed.
