(** Derivative mode: statements after a program. *)
From Coq Require Import ZArith List String Bool Lia Arith.
From Verif Require Import Base Num StoreModel VecModel Spec StoreProofs FloatBridge DerivModel SpecDeriv
  DerivProofs DerivProofs2 DerivProofs3.
Import ListNotations.
Open Scope Z_scope.
Local Notation length := List.length (only parsing).

(** Both environments have the same variables with the same lengths. *)
Definition alike (e1 e2 : senv) : Prop :=
  forall x, (e1 x = None <-> e2 x = None) /\ length (vals e1 x) = length (vals e2 x).

Lemma alike_len e1 e2 e : alike e1 e2 -> dlen e1 e = dlen e2 e.
Proof. intros A. induction e; cbn [dlen]; try congruence; apply A. Qed.

Lemma alike_wf c lim e1 e2 s : alike e1 e2 -> wf_stmt c lim e1 s -> wf_stmt c lim e2 s.
Proof.
  intros A. destruct s as [x e]. cbn [wf_stmt]. rewrite (alike_len e1 e2 e A).
  intros [H1 [H2 [H3 [H4 [H5 [H6 [[H7 H7'] [H8 [H9 H10]]]]]]]]].
  split; [exact H1|]. split; [exact H2|]. split; [exact H3|]. split.
  { intros y Hy X. apply A in X. now apply (H4 y Hy). }
  split; [exact H5|]. split; [exact H6|]. split.
  { split; [|exact H7']. intros y Hy. rewrite <- (proj2 (A y)). now apply H7. }
  split; [intros Hx; rewrite <- (proj2 (A x)); now apply H8|]. auto.
Qed.

Lemma alike_exec d1 d2 lm c e1 e2 s : alike e1 e2 -> alike (sexec d1 lm c e1 s) (sexec d2 lm c e2 s).
Proof.
  intros A x. destruct s as [y e]. pose proof (alike_len e1 e2 e A) as L. unfold vals. cbn [sexec].
  destruct (dvar_dec x y); [|apply A].
  destruct e; try apply A; (split; [split; discriminate|]); try reflexivity;
    rewrite !map_length, !seq_length; exact L.
Qed.

Lemma alike_wfp d1 d2 lm c lim p : forall e1 e2, alike e1 e2 ->
  wf_prog d1 lm c lim e1 p -> wf_prog d2 lm c lim e2 p.
Proof.
  induction p as [|s p IH]; intros e1 e2 A W; [exact I|]. destruct W as [W1 W2].
  split; [now apply (alike_wf c lim e1)|]. apply (IH (sexec d1 lm c e1 s)); auto. now apply alike_exec.
Qed.
Lemma alike_run d1 d2 lm c p : forall e1 e2, alike e1 e2 -> alike (srun d1 lm c e1 p) (srun d2 lm c e2 p).
Proof.
  induction p as [|s p IH]; intros e1 e2 A; [exact A|]. apply IH. now apply alike_exec.
Qed.
Lemma alike_refl e : alike e e.
Proof. intros x. tauto. Qed.

Lemma drun_app lm c p q d d1 : drun lm c p d = (Done tt, d1) -> drun lm c (p ++ q) d = drun lm c q d1.
Proof.
  revert d. induction p as [|s p IH]; intros d; cbn [drun app].
  - unfold ret. congruence.
  - unfold bind. destruct (dexec lm c s d) as [[[]|v|u] d2]; try discriminate. apply IH.
Qed.

(** Any well-formed program runs; the environment it leaves has the lengths of
    the specified one, and is the specified one for ring programs. *)
Lemma run_any lm c ins d0 p : started c ins d0 -> wf_prog (fwd lm) lm c (hlim (hp (dw d0))) (env0 c ins) p ->
  exists d env, drun lm c p d0 = (Done tt, d) /\ rep c d env /\ hlim (hp (dw d)) = hlim (hp (dw d0)) /\
    alike (srun (fwd lm) lm c (env0 c ins) p) env /\
    (ringp p -> env = srun (fwd lm) lm c (env0 c ins) p).
Proof.
  intros HS W.
  destruct (drun_done lm c p d0 _ (start_rep c ins d0 HS)) as [d [E [R L]]].
  { apply (alike_wfp (fwd lm) _ _ _ _ _ _ _ (alike_refl _) W). }
  exists d, (srun (lder lm) lm c (env0 c ins) p).
  split; [exact E|]. split; [exact R|]. split; [exact L|]. split.
  - apply alike_run, alike_refl.
  - intros RP. now apply ring_srun.
Qed.

(** A statement after a ring program. *)
Lemma run_then lm c ins d0 p s : started c ins d0 -> wf_prog (fwd lm) lm c (hlim (hp (dw d0))) (env0 c ins) p -> ringp p ->
  wf_stmt c (hlim (hp (dw d0))) (srun (fwd lm) lm c (env0 c ins) p) s ->
  exists d, drun lm c (p ++ [s]) d0 = (Done tt, d) /\
    rep c d (sexec (lder lm) lm c (srun (fwd lm) lm c (env0 c ins) p) s).
Proof.
  intros HS W RP Ws. destruct (run_any lm c ins d0 p HS W) as [d [env [E [R [L [_ Q]]]]]].
  rewrite (Q RP) in R. rewrite <- L in Ws.
  destruct (dexec_done lm c d _ s R Ws) as [d1 [E1 [R1 _]]].
  exists d1. split; [|exact R1]. rewrite (drun_app _ _ _ _ _ _ E). cbn [drun].
  rewrite (bind_done _ _ _ _ _ E1). reflexivity.
Qed.
