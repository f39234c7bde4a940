(** Property C102: how often memory is asked for. *)
From Coq Require Import ZArith List String Bool Lia.
From Verif Require Import Base Num StoreModel VecModel SubsetModel AllocModel ProgModel LangModel OutModel ForeignModel CallModel JumpModel SpecExpr SpecCost CostProofs Spec SpecMore
  Examples PropArith PropMore.
Import ListNotations.
Open Scope Z_scope.
Local Notation length := List.length (only parsing).

Lemma same_blocks_refl h : same_blocks h h.
Proof. split; [reflexivity|]. intros a. destruct (hblk h a); auto. Qed.

(** A program that makes no vectors and takes no subsets runs in the memory its
    vectors have, however many rounds its loops take and however it ends: all
    blocks stay what they are, std::bad_alloc is not thrown whatever the
    allocator is able to serve, and the room is still there at the end. *)
Theorem c102_steady : forall N lm V R n p w, steady V R n w -> in_place V R n p ->
  same_blocks (hp w) (hp (snd (lrun N lm p w))) /\ fst (lrun N lm p w) <> Thrown BadAlloc /\ steady V R n (snd (lrun N lm p w)).
Proof.
  intros N lm V R n p w Sd P. destruct (calm_run V R n (hp w) N lm p P w) as [[G1 G2] G3].
  - split; [exact Sd|apply same_blocks_refl].
  - auto.
Qed.
Print Assumptions c102_steady.

(** Bodies of functions with break and continue. *)
Theorem c102_function : forall N lm V R n b w, steady V R n w -> j_in_place V R n b ->
  same_blocks (hp w) (hp (snd (jrun N lm b w))) /\ fst (jrun N lm b w) <> Thrown BadAlloc /\ steady V R n (snd (jrun N lm b w)).
Proof.
  intros N lm V R n b w Sd P. destruct (calm_jrun V R n (hp w) N lm b P w) as [[G1 G2] G3].
  - split; [exact Sd|apply same_blocks_refl].
  - auto.
Qed.
Print Assumptions c102_function.

(** What such a program does with no memory left it does with any. *)
Theorem c102_no_memory : forall N lm V R n p w L, steady V R n w -> in_place V R n p -> 0 <= L ->
  (forall u, fst (lrun N lm p (with_limit 0 w)) <> Undef u) ->
  lrun N lm p (with_limit L w) = (fst (lrun N lm p (with_limit 0 w)), with_limit L (snd (lrun N lm p (with_limit 0 w)))).
Proof.
  intros N lm V R n p w L Sd P HL NU. apply c98_program; [exact HL|]. unfold enough.
  assert (S0 : steady V R n (with_limit 0 w)) by (destruct Sd; now constructor).
  destruct (c102_steady N lm V R n p (with_limit 0 w) S0 P) as (_ & NB & _).
  destruct (fst (lrun N lm p (with_limit 0 w))) as [r|[msg|]|u]; cbn [finished]; auto. now elim (NU u).
Qed.
Print Assumptions c102_no_memory.

(** One assignment asks for one block, or for none when the reserve has room;
    the memory in use before becomes the reserve. *)
Theorem c102_once : forall lm x e w w1, kd (ob w (OD x)) = KBuffer -> esize w e <= max_len ->
  0 <= cap (ob w (OT x)) < 2 ^ 31 -> assign lm x e w = (Done tt, w1) ->
  hnext (hp w1) = (hnext (hp w) + if (alloc (ob w (OT x)) && (esize w e <=? cap (ob w (OT x))))%Z then 0 else 1)%nat /\
  ptr (ob w1 (OT x)) = ptr (ob w (OD x)) /\ cap (ob w1 (OT x)) = cap (ob w (OD x)).
Proof.
  intros lm x e w w1 Kd Hk Hc E. destruct (assign_cost lm x e w w1 Kd Hk Hc E) as (_ & Hn & _ & _ & _ & _ & _ & Cp & _).
  split; [exact Hn|]. split; [|exact Cp]. apply (assign_reserve lm x e w w1 Kd Hk Hc E).
Qed.
Print Assumptions c102_once.

(** Assigning k elements again and again asks for memory twice at most. *)
Theorem c102_refills : forall lm x k es w w', 0 <= k <= max_len -> kd (ob w (OD x)) = KBuffer ->
  0 <= cap (ob w (OD x)) < 2 ^ 31 -> 0 <= cap (ob w (OT x)) < 2 ^ 31 -> refills lm x k es w w' ->
  (hnext (hp w') <= hnext (hp w) + 2)%nat.
Proof.
  intros lm x k es w w' Hk Kd Cd Ct Rf. pose proof (refills_cost lm x k Hk es w w' Rf Kd Cd Ct) as H.
  unfold asks in H. destruct (_ && _), (_ <=? _); lia.
Qed.
Print Assumptions c102_refills.

(** After two of them the vector is ready for the programs of c102_steady. *)
Theorem c102_ready : forall lm x k es w w', 1 <= k <= max_len -> kd (ob w (OD x)) = KBuffer ->
  0 <= cap (ob w (OD x)) < 2 ^ 31 -> 0 <= cap (ob w (OT x)) < 2 ^ 31 -> refills lm x k es w w' -> (2 <= length es)%nat ->
  steady (fun y => y = x) (fun _ => False) k w'.
Proof.
  intros lm x k es w w' Hk Kd Cd Ct Rf L. destruct (refills_room lm x k ltac:(lia) es w w' Rf L Kd Cd Ct) as (A & B & C).
  constructor; [lia|..]; intros y Hy; subst; tauto.
Qed.
Print Assumptions c102_ready.

(** Appending k elements to an empty vector asks for memory once and then once
    more for every doubling, and reserves less than twice what is needed. *)
Theorem c102_appends : forall o vs w w', sz (ob w o) = 0 -> cap (ob w o) = 0 -> pushes o vs w w' -> vs <> [] ->
  hnext (hp w') = (hnext (hp w) + 1 + Nat.log2_up (length vs))%nat /\
  sz (ob w' o) = Z.of_nat (length vs) /\ Z.of_nat (length vs) <= cap (ob w' o) < 2 * Z.of_nat (length vs).
Proof.
  intros o vs w w' S0 C0 P Ne. pose proof (pushes_count o vs w w' S0 C0 P) as H. destruct (pushes_room o vs w w' S0 C0 P) as [A B].
  split; [destruct vs; [congruence|]; lia|]. split; [exact A|]. rewrite <- A. now apply B.
Qed.
Print Assumptions c102_appends.

(** Vector 0 of Examples after x = x + 1 twice. *)
Definition ex102_e : expr := EBin OPlus (EVar 0) (ESca d1).
Definition ex102_w1 : world := snd (assign square_lm 0 ex102_e ex_w).
Definition ex102_w2 : world := snd (assign square_lm 0 ex102_e ex102_w1).
Lemma pair_fst {A B} (p : A * B) a : fst p = a -> p = (a, snd p).
Proof. destruct p. cbn. congruence. Qed.
Example c102_refills_ex : refills square_lm 0 3 [ex102_e; ex102_e] ex_w ex102_w2.
Proof.
  apply (refills_more square_lm 0 3 ex102_e _ ex_w ex102_w1); [vm_compute; reflexivity|unfold ex102_w1; apply pair_fst; vm_compute; reflexivity|].
  apply (refills_more square_lm 0 3 ex102_e _ ex102_w1 ex102_w2); [vm_compute; reflexivity|unfold ex102_w2; apply pair_fst; vm_compute; reflexivity|]. apply refills_none.
Qed.
Example c102_ready_ex : steady (fun y => y = 0%nat) (fun _ => False) 3 ex102_w2.
Proof.
  apply (c102_ready square_lm 0 3 [ex102_e; ex102_e] ex_w); [vm_compute; split; discriminate|vm_compute; reflexivity| | |exact c102_refills_ex|cbn; lia];
    (split; [vm_compute; discriminate|vm_compute; reflexivity]).
Qed.
(** The vector had room for three elements all along: it is the reserve that was
    missing, once. *)
Example c102_once_ex : cap (ob ex_w (OD 0)) = 3 /\ hnext (hp ex102_w1) = S (hnext (hp ex_w)) /\ hnext (hp ex102_w2) = hnext (hp ex102_w1).
Proof. split; [|split]; vm_compute; reflexivity. Qed.

(** while (at(x, 1) < 10) { x = x + x; try { at(x, 9) = 1; } catch (...) { x[0] = x[0] + 1; } } *)
Definition ex102_p : lstmt :=
  LWhile (LBin OLt (LAt 0 (PZ 1)) (LLit (VI 10)))
    (LSeq (LAssign 0 (LBin OPlus (LVar 0) (LVar 0)))
       (LTry (LAtSet 0 (PZ 9) d1) (LScal (LBin OPlus (LAt 0 (PZ 1)) (LLit d1)) (fun v => LElem 0 0 v)))).
Example c102_steady_ex : in_place (fun y => y = 0%nat) (fun _ => False) 3 ex102_p /\
  fst (lrun 9 square_lm ex102_p ex102_w2) = Done true /\ fst (at_vec 0 (PZ 1) (snd (lrun 9 square_lm ex102_p ex102_w2))) = Done (VD (i2f 15)).
Proof. split; [cbn; tauto|]. split; vm_compute; reflexivity. Qed.

Example c102_appends_ex : exists w', pushes (OD 7) [d1; d2; d3] ex_w w' /\ sz (ob ex_w (OD 7)) = 0 /\ cap (ob ex_w (OD 7)) = 0 /\
  hnext (hp w') = (hnext (hp ex_w) + 3)%nat /\ cap (ob w' (OD 7)) = 4.
Proof.
  eexists. split.
  { eapply pushes_more; [apply pair_fst; vm_compute; reflexivity|]. eapply pushes_more; [apply pair_fst; vm_compute; reflexivity|].
    eapply pushes_more; [apply pair_fst; vm_compute; reflexivity|]. apply pushes_none. }
  split; [|split; [|split]]; vm_compute; reflexivity.
Qed.

(** The same loop with break, with an allocator that serves nothing. *)
Definition ex102_b : jstmt :=
  JWhile (LLit (VB true)) (JSeq (JDo (LAssign 0 (LBin OPlus (LVar 0) (LVar 0)))) (JIf (LBin OGt (LAt 0 (PZ 1)) (LLit (VI 10))) JBreak JContinue)).
Example c102_function_ex : j_in_place (fun y => y = 0%nat) (fun _ => False) 3 ex102_b /\
  fst (jrun 9 square_lm ex102_b (with_limit 0 ex102_w2)) = Done Next /\
  fst (lrun 9 square_lm ex102_p (with_limit 0 ex102_w2)) = Done true.
Proof. split; [cbn; tauto|]. split; vm_compute; reflexivity. Qed.
