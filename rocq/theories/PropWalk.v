(** Property C90: the derivative type of an expression. *)
From Coq Require Import ZArith List Bool Lia Reals.
From Coq.Floats Require Import SpecFloat.
From Verif Require Import Base Num StoreModel VecModel DerivModel WalkModel Spec SpecVec SpecDeriv SpecWalk FloatBridge
  StoreProofs DerivProofs DerivProofs2 DerivProofs3 DerivProofs5 WalkProofs Examples PropVec PropDeriv.
Import ListNotations.
Open Scope Z_scope.
Local Notation length := List.length (only parsing).

(* ------------------------------------------------------------------ C90 *)

(** walkTD makes a derivative type of exactly the expressions whose operations
    all have a rule and whose operands all belong to the AllVars object. *)
Theorem c90_defined : forall t, (exists T, walk t = Some T) <-> has_rule t.
Proof.
  intros t. rewrite <- walk_some. destruct (walk t) as [T|]; split.
  - discriminate.
  - intros _. now exists T.
  - intros [T H]. discriminate H.
  - congruence.
Qed.
Print Assumptions c90_defined.

(** a * b + sin(a) has one; a ^ b, -a and a + 2.0 (a number) have none. *)
Example c90_defined_ex :
  has_rule (type_of (DPlus (DTimes (DVar (bv 0)) (DVar (ev 1))) (DSin (DVar (bv 0))))) /\
  ~ has_rule (TyBin OPow (TyVar (bv 0)) (TyVar (ev 1))) /\ ~ has_rule (TyUn UNeg (TyVar (bv 0))) /\
  ~ has_rule (TyBin OPlus (TyVar (bv 0)) TyOther).
Proof.
  split; [cbn [type_of]; repeat constructor; discriminate|].
  split; [|split]; rewrite <- walk_some; cbn; congruence.
Qed.

(** Those expressions are the right-hand sides of the derivative programs
    (C43..C46), and what their type computes is what those programs take for the
    size, the elements, the derivatives and the assignment of a right-hand
    side. *)
Theorem c90_model : forall t T, walk t = Some T ->
  (exists e, proper e /\ type_of e = t) /\
  forall e, proper e -> type_of e = t ->
    (forall w, tsize w T = dsize w e) /\
    (forall lm i d, tval lm T i d = dval lm e i d) /\
    (forall lm c i d, tder lm c T i d = dder lm c e i d) /\
    forall lm c x d, dassign_walk lm c x e d = dassign_exp lm c x e d.
Proof.
  intros t T H. split.
  - apply rule_expr. apply walk_some. congruence.
  - intros e P <-. rewrite (walk_dt e P) in H. injection H as <-.
    split; [intros w; apply dt_size|]. split; [intros; apply dt_val|]. split; [intros; apply dt_der|].
    intros; now apply walk_assign.
Qed.
Print Assumptions c90_model.
Example c90_model_ex : proper (DDivide (DVar (bv 0)) (DCmp OLt (DVar (ev 1)) (DCon false 2 []))) /\
  walk (type_of (DDivide (DVar (bv 0)) (DCmp OLt (DVar (ev 1)) (DCon false 2 [])))) <> None.
Proof. split; [cbn; auto|discriminate]. Qed.

(** As many derivatives are computed as the right-hand side has elements: as
    many as its longest operand. *)
Theorem c90_size : forall e T w, proper e -> walk (type_of e) = Some T ->
  longest w e (tsize w T) /\ tsize w T = esize w (to_expr e).
Proof.
  intros e T w P H. rewrite (walk_dt e P) in H. injection H as <-. rewrite dt_size.
  split; [apply dsize_longest|apply dsize_esize].
Qed.
Print Assumptions c90_size.

(** The value of its element i, and the state is not touched: every operand is
    recycled by itself. *)
Theorem c90_value : forall lm env e T i d, plainx e -> walk (type_of e) = Some T -> holds_operands (dw d) env e ->
  exists v, tval lm T (Z.of_nat i) d = (Done v, d) /\ v2f v = lval lm i env e.
Proof.
  intros lm env e T i d P H R.
  assert (Q : proper e).
  { clear -P. induction e; cbn [plainx proper] in *; tauto. }
  rewrite (walk_dt e Q) in H. injection H as <-. exists (dv lm i env e).
  split; [rewrite dt_val; now apply dval_done|apply dv_f].
Qed.
Print Assumptions c90_value.

(** a * a with a holding 4, 5. *)
Definition c90_d : dworld := load (ev 0) (nums [4; 5]) (dstart 1000).
Definition c90_env : senv := fun x => if dvar_dec x (ev 0) then Some (nums [4; 5], []) else None.
Example c90_value_ex : plainx (DTimes (DVar (ev 0)) (DVar (ev 0))) /\
  holds_operands (dw c90_d) c90_env (DTimes (DVar (ev 0)) (DVar (ev 0))) /\
  longest (dw c90_d) (DTimes (DVar (ev 0)) (DVar (ev 0))) 2 /\
  lval ex_lm 3 c90_env (DTimes (DVar (ev 0)) (DVar (ev 0))) = i2f 25.
Proof.
  split; [cbn; auto|]. split.
  - split; [|intros k l []]. intros x [<-|[<-|[]]]; (split; [discriminate|]); show_holds.
  - split; [split; [exists 3%nat; split; [now left|reflexivity]|]|vm_compute; reflexivity].
    intros s [<-|[<-|[]]]; vm_compute; discriminate.
Qed.

(** The sine of a comparison: SinusDerivTrait returns the type of its argument,
    a bool, so that the value of the derivative type is TRUE where the
    comparison holds and FALSE elsewhere, while the value of the expression is
    the sine of 1 or of 0 (if that is neither 0 nor 1: the sine of 1 is
    0.84...). *)
Theorem c90_sine_of_comparison_refuted : forall lm env op l r T i d,
  plainx (DCmp op l r) -> walk (type_of (DSin (DCmp op l r))) = Some T -> holds_operands (dw d) env (DCmp op l r) ->
  lm_un lm FSin fzero = fzero -> flt_eqb (lm_un lm FSin fone) fzero = false -> lm_un lm FSin fone <> fone ->
  exists b, tval lm T (Z.of_nat i) d = (Done (VB b), d) /\
    (b = true <-> lval lm i env (DCmp op l r) = fone) /\
    (b = true -> v2f (VB b) <> lval lm i env (DSin (DCmp op l r))) /\
    (b = false -> v2f (VB b) = lval lm i env (DSin (DCmp op l r))).
Proof.
  intros lm env op l r T i d P H R S0 S1 N.
  assert (Q : proper (DSin (DCmp op l r))).
  { cbn [proper]. clear -P. cbn [plainx] in P. destruct P as [Pl [Pr [_ C]]]. split; [exact C|].
    split; [clear -Pl; induction l|clear -Pr; induction r]; cbn [plainx proper] in *; tauto. }
  rewrite (walk_dt _ Q) in H. injection H as <-.
  exists (says op (lval lm i env l) (lval lm i env r)). split.
  - change (UnaryT _) with (dt (DSin (DCmp op l r))). rewrite dt_val. cbn [dval].
    rewrite (StoreProofs.bind_done _ _ _ _ _ (dval_done lm env _ i d P R)). cbn [dv].
    destruct (says op (lval lm i env l) (lval lm i env r)); unfold sin_trait, lift; cbn [un_f obind v2f ty_of cast].
    + change (i2f (b2z true)) with fone. replace (f2b _) with true; [reflexivity|].
      destruct (lm_un lm FSin fone) as [[]| | |]; now try discriminate S1.
    + change (i2f (b2z false)) with fzero. rewrite S0. reflexivity.
  - cbn [lval v2f]. destruct (says op (lval lm i env l) (lval lm i env r)); cbn iota.
    + split; [now split|]. split; [intros _ E; apply N; symmetry; exact E|discriminate].
    + split; [split; [discriminate|intros E; discriminate (f_equal (fun f => flt_eqb f fone) E)]|]. split; [discriminate|]. intros _. now rewrite S0.
Qed.
Print Assumptions c90_sine_of_comparison_refuted.

(** sinus(a < a * a) with a holding 4, 5, and a sine that is 0 at 0
    and 1/2 elsewhere. *)
Definition half_lm : libm :=
  {| lm_un := fun _ f => if flt_eqb f fzero then fzero else fdiv fone (i2f 2); lm_pow := fun a _ => a |}.
Definition c90_cmp : dexpr := DCmp OLt (DVar (ev 0)) (DTimes (DVar (ev 0)) (DVar (ev 0))).
Example c90_sine_ex : plainx c90_cmp /\ holds_operands (dw c90_d) c90_env c90_cmp /\
  (exists T, walk (type_of (DSin c90_cmp)) = Some T) /\
  lm_un half_lm FSin fzero = fzero /\ flt_eqb (lm_un half_lm FSin fone) fzero = false /\ lm_un half_lm FSin fone <> fone.
Proof.
  split; [cbn; auto|]. split.
  - split; [|intros k l []]. intros x [<-|[<-|[<-|[]]]]; (split; [discriminate|]); show_holds.
  - split; [eexists; reflexivity|]. split; [reflexivity|]. split; [reflexivity|].
    intros E. discriminate (f_equal (fun f => flt_eqb f fone) E).
Qed.

(** Constants combined by sums, and constants made by colon or vector. *)
Fixpoint sums_of_constants (e : dexpr) : Prop :=
  match e with
  | DCon _ _ _ => True
  | DPlus l r => sums_of_constants l /\ sums_of_constants r
  | _ => False
  end.

(** The rule for a constant divisor is taken for constants made by coca or
    scalarDeriv only: when the divisor is another constant, or a sum of
    constants, every derivative of the quotient is an infinity or NaN. *)
Theorem c90_divisor_refuted : forall lm c ins d0 p x y e, started c ins d0 ->
  ringp p -> wf_prog (fwd lm) lm c (hlim (hp (dw d0))) (env0 c ins) p ->
  sums_of_constants e -> (forall k l, e <> DCon true k l) -> lm_pow lm fzero (i2f 2) = fzero ->
  wf_stmt c (hlim (hp (dw d0))) (after lm c ins p) (DAssign x (DDivide (DVar y) e)) ->
  exists d ds, drun lm c (p ++ [DAssign x (DDivide (DVar y) e)]) d0 = (Done tt, d) /\
    get_derivs c x d = (Done (map VD ds), d) /\ ds <> [] /\ Forall (fun f => ~ finite f) ds.
Proof.
  intros lm c ins d0 p x y e HL R W S N P Ws. destruct (run_then lm c ins d0 p _ HL W R Ws) as [d [E Rp]].
  set (n := dlen (after lm c ins p) (DDivide (DVar y) e)).
  destruct (rep_both c d _ x (map (fun i => lval lm i (after lm c ins p) (DDivide (DVar y) e)) (seq 0 n))
    (map (fun i => lder lm i (after lm c ins p) (DDivide (DVar y) e)) (seq 0 n)) Rp (proj1 Ws)) as [_ G].
  { cbn [sexec]. destruct (dvar_dec x x); [reflexivity|contradiction]. }
  exists d. eexists. split; [exact E|]. split; [exact G|]. split.
  - destruct Ws as [_ [_ [_ [_ [_ [Hn _]]]]]]. fold n in Hn. intros Q. apply (f_equal (@List.length flt)) in Q.
    rewrite map_length, seq_length in Q. simpl in Q. lia.
  - apply Forall_forall. intros f Hf. apply in_map_iff in Hf. destruct Hf as [i [<- _]]. cbn [lder].
    assert (K : is_const_type e = false).
    { destruct e as [|[] k l| | | | | |]; try reflexivity. now contradiction (N k l). }
    assert (Z0 : lder lm i (after lm c ins p) e = fzero).
    { clear -S. induction e; cbn [sums_of_constants lder] in *; try contradiction; [reflexivity|].
      destruct S as [S1 S2]. rewrite (IHe1 S1), (IHe2 S2). reflexivity. }
    rewrite K, Z0, P. apply div_zero_inf.
Qed.
Print Assumptions c90_divisor_refuted.

(** a = coca<0>(av, 6); x = a / colon<1>(av, 3, 3), and
    x = a / (coca<1>(av, 1) + coca<2>(av, 2)); by the rules the derivative is
    1 / 3. *)
Definition ex90_p : list dstmt := [DAssign (bv 0) (DCon true 0 (nums [6]))].
Example c90_divisor_ex : ringp ex90_p /\ wf_prog (fwd sq_lm) sq_lm (mkAv 0 2) 1000 (env0 (mkAv 0 2) none) ex90_p /\
  wf_stmt (mkAv 0 2) 1000 (after sq_lm (mkAv 0 2) none ex90_p) (DAssign (bv 1) (DDivide (DVar (bv 0)) (DCon false 1 (nums [3])))) /\
  wf_stmt (mkAv 0 2) 1000 (after sq_lm (mkAv 0 2) none ex90_p)
    (DAssign (bv 1) (DDivide (DVar (bv 0)) (DPlus (DCon true 1 (nums [1])) (DCon true 2 (nums [2]))))) /\
  lm_pow sq_lm fzero (i2f 2) = fzero /\
  fwd sq_lm 0 (after sq_lm (mkAv 0 2) none ex90_p) (DDivide (DVar (bv 0)) (DCon false 1 (nums [3]))) = fdiv fone (i2f 3) /\
  finite (fdiv fone (i2f 3)).
Proof.
  split; [cbn; auto|]. split; [unfold ex90_p; wf_show|]. split; [unfold ex90_p; wf_show|]. split; [unfold ex90_p; wf_show|].
  split; [|split]; vm_compute; reflexivity.
Qed.
