(** Property C76: memory safety of histories of statements. *)
From Coq Require Import String ZArith List Bool Lia.
From Verif Require Import Base Num StoreModel VecModel Spec SpecExpr SpecHist SpecSafe StoreThms SafeProofs Examples PropVec.
Import ListNotations.
Open Scope Z_scope.
Local Notation length := List.length (only parsing).

(** C76: whatever statements a program runs on vectors that own their memory,
    borrow arrays of the caller or wrap R objects (declarations, assignments,
    element and subset writes, reads, loops, ends of scope; any sizes, any
    positions, exceptions caught after each statement), no statement reads or
    writes outside a live block, frees twice or leaks: the only undefined
    behaviour left is that of arithmetic and of reading an element that was
    never written.  Vectors that wrap R objects (those of R) must not get
    another length or another value as a whole (see C21). *)
Theorem c76_addresses : forall lm cs R D V w, sound_at (Mode false R D) V w -> Forall cmd_ok cs -> Forall (cmd_keeps R) cs ->
  match history lm cs V w with
  | (Finished, V', w') => sound_at (Mode false R D) V' w'
  | (NoMemory, _, _) => True
  | (Undefined u, _, _) => arithmetic u \/ u = UB_uninit
  end.
Proof.
  intros lm cs R D V w S F K. pose proof (history_safe (Mode false R D) lm cs V w ltac:(discriminate) K S F) as G.
  destruct (history lm cs V w) as [[[| |u] V'] w']; auto. destruct G as [G|[_ G]]; auto.
Qed.
Print Assumptions c76_addresses.

(** Unwritten elements are not read either, unless a subset of a variable is
    assigned to a subset (part of C76, see below). *)
Theorem c76_memory_safe_partial : forall lm cs R D V w, sound_at (Mode true R D) V w -> Forall cmd_ok cs -> Forall (cmd_keeps R) cs -> Forall other_rhs cs ->
  match history lm cs V w with
  | (Finished, V', w') => sound_at (Mode true R D) V' w'
  | (NoMemory, _, _) => True
  | (Undefined u, _, _) => arithmetic u
  end.
Proof.
  intros lm cs R D V w S F K O. pose proof (history_safe (Mode true R D) lm cs V w (fun _ => O) K S F) as G.
  destruct (history lm cs V w) as [[[| |u] V'] w']; auto. destruct G as [G|[G _]]; [exact G|discriminate].
Qed.
Print Assumptions c76_memory_safe_partial.

(** In particular, when all vectors have left their scope nothing is allocated. *)
Theorem c76_all_released : forall lm cs R lim w, 0 <= lim < 2 ^ 31 -> Forall cmd_ok cs -> Forall (cmd_keeps R) cs ->
  history lm cs [] (empty_world lim) = (Finished, [], w) -> forall a cells, hblk (hp w) a <> Live OwnCpp cells.
Proof.
  intros lm cs R lim w L F K H a cells B.
  pose proof (history_safe (Mode false R []) lm cs [] (empty_world lim) ltac:(discriminate) K (sound_empty (Mode false R []) lim eq_refl L) F) as G. rewrite H in G.
  destruct (so_leak _ _ _ G a cells B) as [[x|x] O]; destruct (so_dead _ _ _ G x (fun q => q)) as [U1 U2]; [apply (U1 a)|apply (U2 a)]; exact O.
Qed.
Print Assumptions c76_all_released.

(** A history with failing statements: subscripts out of range, lengths that do
    not match, an empty length. *)
Definition ex_prog : list scmd :=
  [QSized 0 TDouble 7; QElement 0 3 d2; QDeclare 1 TDouble (EBin OPlus (EVar 0) (ESca d1));
   QElement 1 9 d1; QSubset 5 0 [0; 2] false (EVar 1); QSubset 5 0 [1; 20] false (ESub (EVar 1) [3; 3] mp_none);
   QAssign 0 (ESub (EVar 0) [3; 3; 90] mp_none); QAssign 0 (EBin OTimes (EVar 0) (EVar 1)); QSubsetScalar 1 [6; 0] d2; QRead (EVar 0) 6;
   QSized 2 TDouble 0; QScalar 1 d1; QIterate 1].
Example c76_ex : Forall cmd_ok ex_prog /\ Forall (cmd_keeps []) ex_prog /\ Forall other_rhs ex_prog /\ sound [] (empty_world 100) /\
  fst (history ex_lm ex_prog [] (empty_world 100)) = (Finished, [1; 0]%nat) /\
  fst (history ex_lm (ex_prog ++ [QEnd 0; QEnd 1]) [] (empty_world 100)) = (Finished, []).
Proof.
  split; [|split; [|split; [|split]]].
  - repeat (constructor; [cbn [cmd_ok sizes_ok]|]); try constructor; repeat split; repeat constructor; simpl; try lia.
  - repeat constructor; cbn; tauto.
  - repeat constructor.
  - apply (sound_empty true); [reflexivity|lia].
  - split; vm_compute; reflexivity.
Qed.

(** With a subset on the right-hand side that enlarges vector 0; the loop over
    its elements then reads the last one, which was never written. *)
Definition ex_prog2 : list scmd :=
  [QSized 0 TDouble 7; QSized 1 TDouble 8; QAssign 0 (EBin OPlus (EVar 0) (ESca d1));
   QSubset 5 0 [0; 0; 0; 0; 0; 0; 0; 0] true (ESub (EVar 1) [0; 1; 2; 3; 4; 5; 6; 7] mp_none); QElement 0 3 d2].
Example c76_addresses_ex : Forall cmd_ok ex_prog2 /\ Forall (cmd_keeps []) ex_prog2 /\ sound_at false [] (empty_world 100) /\
  fst (history ex_lm ex_prog2 [] (empty_world 100)) = (Finished, [1; 0]%nat) /\
  fst (fst (history ex_lm (ex_prog2 ++ [QIterate 0]) [] (empty_world 100))) = Undefined UB_uninit.
Proof.
  split; [|split; [|split]].
  - repeat (constructor; [cbn [cmd_ok sizes_ok]|]); try constructor; repeat split; repeat constructor; simpl; try lia.
  - repeat constructor; cbn; tauto.
  - apply (sound_empty false); [reflexivity|lia].
  - split; vm_compute; reflexivity.
Qed.

(** Undefined arithmetic does occur: an index into an empty operand, an int
    overflow. *)
Example c76_arith_ex : fst (fst (history ex_lm [QRead (EBin OPlus (ESca (VI 2147483647)) (ESca (VI 1))) 0] [] (empty_world 100))) = Undefined UB_overflow.
Proof. vm_compute. reflexivity. Qed.

(** The full C76 fails: x(p) = y(q) with a subset of a variable of the same
    type on the right-hand side enlarges x when there are more positions than
    elements; elements between the old and the new length that no position
    names are never written. *)
Theorem c76_subset_of_subset_refuted : exists lm V w s x ind e w', sound V w /\ In x V /\ ~ In s V /\ incl (vars e) V /\
  (forall p, In p ind -> 0 <= p < sz (ob w (OD x))) /\
  assign_subset lm s x ind true e w = (Done tt, w') /\
  fst (iterate_vec x w') = Undef UB_uninit /\ fst (at_rd (OD x) 7 w') = Undef UB_uninit.
Proof.
  pose (cs := [QSized 0 TDouble 7; QSized 1 TDouble 8; QAssign 0 (EBin OPlus (EVar 0) (ESca d1))]).
  pose (w := snd (history ex_lm cs [] (empty_world 100))).
  pose (e := ESub (EVar 1) [0; 1; 2; 3; 4; 5; 6; 7] mp_none).
  assert (S : sound [1; 0]%nat w).
  { assert (F : Forall cmd_ok cs) by (repeat constructor; cbn; lia).
    assert (R : true = true -> Forall other_rhs cs) by (intros _; repeat constructor).
    assert (K : Forall (cmd_keeps []) cs) by (repeat constructor; cbn; tauto).
    pose proof (history_safe true ex_lm cs [] (empty_world 100) R K (sound_empty true 100 eq_refl ltac:(lia)) F) as G.
    unfold w. destruct (history ex_lm cs [] (empty_world 100)) as [[r V'] w'] eqn:Q.
    assert (Q1 : fst (history ex_lm cs [] (empty_world 100)) = (Finished, [1; 0]%nat)) by (vm_compute; reflexivity).
    rewrite Q in Q1. cbn [fst] in Q1. injection Q1 as -> ->. exact G. }
  exists ex_lm, [1; 0]%nat, w, 5%nat, 0%nat, [0; 0; 0; 0; 0; 0; 0; 0], e, (snd (assign_subset ex_lm 5 0 [0; 0; 0; 0; 0; 0; 0; 0] true e w)).
  split; [exact S|]. split; [right; now left|]. split; [intros [|[|[]]]; discriminate|].
  split; [intros y [<-|[]]; now left|]. split.
  { assert (Z : sz (ob w (OD 0)) = 7) by (vm_compute; reflexivity). rewrite Z. simpl. intros p. lia. }
  split; [|split].
  - assert (Q : fst (assign_subset ex_lm 5 0 [0; 0; 0; 0; 0; 0; 0; 0] true e w) = Done tt) by (vm_compute; reflexivity).
    destruct (assign_subset ex_lm 5 0 [0; 0; 0; 0; 0; 0; 0; 0] true e w) as [r w']. cbn [fst snd] in *. now subst r.
  - vm_compute. reflexivity.
  - vm_compute. reflexivity.
Qed.
Print Assumptions c76_subset_of_subset_refuted.
