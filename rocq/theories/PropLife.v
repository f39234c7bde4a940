(** Property C87: lifetime of expressions. *)
From Coq Require Import String ZArith List Bool Lia.
From Verif Require Import Base Num StoreModel VecModel LifeModel Spec SpecExpr SpecHist StoreThms SpecSafe SpecLife LifeProofs Examples PropVec.
Import ListNotations.
Open Scope Z_scope.
Local Notation length := List.length (only parsing).

(** C87: within the full expression that makes it, an expression of any depth,
    with temporaries of all kinds, answers all questions of the library (size,
    shape, elements) through its references exactly as its tree does: nothing it
    refers to is over.  So what C10 to C15 and all other properties say of trees
    holds of the objects. *)
Theorem c87_full_expression : forall lm E D A s, grounded A -> Forall2 (shows A) E D -> names_below (length D) s ->
  same_answers lm (snd (build E s A)) (fst (build E s A)) (expand D s).
Proof.
  intros lm E D A s G K N. destruct (build_shows E D s A G K N) as [P [HP [G1 S1]]]. rewrite HP. now apply shows_answers.
Qed.
Print Assumptions c87_full_expression.

(** x = s does the same as with trees. *)
Theorem c87_assignment : forall lm E D A s x w, grounded A -> Forall2 (shows A) E D -> names_below (length D) s ->
  assign_ref lm (snd (build E s A)) x (fst (build E s A)) w = assign lm x (expand D s) w.
Proof. intros. apply assign_same. now apply c87_full_expression. Qed.
Print Assumptions c87_assignment.

(** auto e = s, where all operands of s have names: e can be used as long as it is
    in scope, whatever objects are made later (P), and stands for s with the
    values that the vectors have then. *)
Theorem c87_named_partial : forall lm E D A s P, grounded A -> Forall2 (shows A) E D -> names_below (length D) s -> storable s = true ->
  grounded (P ++ snd (auto_decl E s A)) ->
  same_answers lm (P ++ snd (auto_decl E s A)) (fst (auto_decl E s A)) (expand D s).
Proof.
  intros lm E D A s P G K N S GP. destruct (auto_shows E D s A G K N S) as [n [Q [G1 S1]]]. rewrite Q in *.
  apply shows_answers; [exact GP|]. now apply shows_prefix.
Qed.
Print Assumptions c87_named_partial.

(** A program whose variables are all declared so runs exactly as the program
    with every name replaced by its expression; afterwards none of its objects
    is left. *)
Theorem c87_programs_partial : forall lm c w, lasting 0 c ->
  match yrun lm c [] [] w, ymean lm c [] w with
  | (Done A, w1), (Done _, w2) => w1 = w2 /\ Forall (fun a => a = None) A
  | (Thrown e1, w1), (Thrown e2, w2) => e1 = e2 /\ w1 = w2
  | (Undef u1, w1), (Undef u2, w2) => u1 = u2 /\ w1 = w2
  | _, _ => False
  end.
Proof.
  intros lm c w L. destruct (yrun_mean lm c [] [] []) as [n H]; [discriminate|constructor|exact L|].
  rewrite H. destruct (ymean lm c [] w) as [[a|e|u] w']; cbn [with_objects]; auto. split; [reflexivity|].
  rewrite app_nil_r. clear H. induction n; simpl; constructor; auto.
Qed.
Print Assumptions c87_programs_partial.

(** With any other expression (an operand is itself an operation, a subset, an
    r-value vector or a literal) the variable is useless: no element of it can be
    read, in any state. *)
Theorem c87_temporaries_refuted : forall lm E s A i w, has_name s = false -> storable s = false ->
  forall v w', relem lm (snd (auto_decl E s A)) (fst (auto_decl E s A)) i w <> (Done v, w').
Proof.
  intros lm E s A i w H S v w' Q. destruct (auto_dangling lm E s A i w H S) as [u [w2 [R N]]]. rewrite R in Q. injection Q as -> ->. now apply (N v).
Qed.
Print Assumptions c87_temporaries_refuted.

(** auto e = a + b; x = e * a; a = b; x = e: x is then b + b.  The objects are
    those of two names and of the temporaries of each statement. *)
Definition ex_life : ystmt :=
  YAuto (SBin OPlus (SVec 0) (SVec 1))
    (YSeq (YAssign 2 (SBin OTimes (SName 0) (SBin OPlus (SVec 0) (SLit d1))))
    (YAuto (SUn UNeg (SName 0))
      (YSeq (YAssign 0 (SBin OPlus (SVec 1) (SSub (SVec 1) [1; 1] mp_none)))
            (YAssign 2 (SBin OPlus (SName 0) (SBin OMinus (SName 0) (SName 0))))))).
Definition ex_life_w : world := snd (history ex_lm [QDeclare 0 TDouble (ETmp TDouble [d1; d2] mp_none); QDeclare 1 TDouble (ETmp TDouble [d3; d1] mp_none); QSized 2 TDouble 1] [] (empty_world 100)).
Example c87_ex : lasting 0 ex_life /\ fst (ymean ex_lm ex_life [] ex_life_w) = Done tt /\
  fst (elem ex_lm (EVar 2) 0 (snd (yrun ex_lm ex_life [] [] ex_life_w))) =
  fst (elem ex_lm (EBin OPlus (EBin OPlus (ESca d3) (ETmp TDouble [d1] mp_none)) (EVar 1)) 0 ex_life_w) /\
  length (match fst (yrun ex_lm ex_life [] [] ex_life_w) with Done A => A | _ => [] end) = 9%nat.
Proof. split; [cbn; lia|]. split; [vm_compute; reflexivity|]. split; vm_compute; reflexivity. Qed.
Example c87_named_ex : grounded [] /\ Forall2 (shows []) [] [] /\ names_below 0 (SBin OPlus (SVec 0) (SVec 1)) /\
  storable (SBin OPlus (SVec 0) (SVec 1)) = true.
Proof. split; [discriminate|]. split; [constructor|]. cbn. auto. Qed.

(** auto e = a + 1; auto e = a + b + a; auto e = subset(subset(a, i), j); a
    nested function: the first element is read after its operands are gone. *)
Example c87_temporaries_ex : let read s := fst (relem ex_lm (snd (auto_decl [] s [])) (fst (auto_decl [] s [])) 0 ex_life_w) in
  read (SBin OPlus (SVec 0) (SLit d1)) = Undef UB_freed /\ read (SBin OPlus (SBin OPlus (SVec 0) (SVec 1)) (SVec 0)) = Undef UB_freed /\
  read (SSub (SSub (SVec 0) [1; 0] mp_none) [0] mp_none) = Undef UB_freed /\ read (SUn UNeg (SUn UNeg (SVec 0))) = Undef UB_freed /\
  read (SBin OPlus (SVec 0) (SVec 1)) <> Undef UB_freed.
Proof. repeat split; vm_compute; try reflexivity. discriminate. Qed.
