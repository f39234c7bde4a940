(** The order in which C++ evaluates operands and arguments.

    The standard does not say which operand of an overloaded operator and which
    argument of a call is evaluated first; any order may be taken, a different
    one at every place and every time.  The other model files evaluate from left
    to right.  Here the order is an input: [schedule] says, for every expression
    (and index and state), in which order its arguments are evaluated.  Nothing
    else differs from VecModel.v and DerivModel.v. *)
From Coq Require Import ZArith List String Bool Arith Permutation.
From Verif Require Import Base Num StoreModel VecModel DerivModel.
Import ListNotations.
Open Scope Z_scope.

(** Arguments number k of [p], evaluated in the order of [p]; all values. *)
Fixpoint in_turn {W A} (p : list nat) (m : nat -> M W A) (v : nat -> A) : M W (nat -> A) :=
  match p with
  | [] => ret v
  | k :: p' => a <- m k ;; in_turn p' m (fun j => if (j =? k)%nat then a else v j)
  end.

Record schedule := mkSched {
  (** Trait::f(l[i % l.size()], r[i % r.size()]) (BinaryCalculations.hpp
      97-107): 0 is the left, 1 the right element *)
  so_elem : world -> expr -> Z -> list nat;
  (** Op::f(LDeriv::getVal, RDeriv::getVal) (DerivTypes.hpp 24-26, 51-53) *)
  so_val : dworld -> dexpr -> Z -> list nat;
  (** Op::fDeriv(getVal, getVal, getDeriv, getDeriv) (28-31): 0 to 3;
      Op::fDeriv(getDeriv, getDeriv) (54-56): 0 and 1 *)
  so_der : dworld -> dexpr -> Z -> list nat;
  (** the operands of the operator when the expression is built
      (BinaryCalculations.hpp 139-) *)
  so_con : dworld -> dexpr -> list nat }.

(** Number of arguments of fDeriv. (Derivatives/DerivTypes.hpp 28-31,
    54-56.) *)
Definition nargs (e : dexpr) : nat :=
  match e with DTimes _ _ | DDivide _ _ => 4 | _ => 2 end.
(** Every argument is evaluated exactly once. (C++17 [expr.call]: each argument
    once, in an order left open; BinaryCalculations.hpp 97-107.) *)
Record each_once (s : schedule) : Prop := {
  eo_elem : forall w e i, Permutation (so_elem s w e i) (seq 0 2);
  eo_val : forall d e i, Permutation (so_val s d e i) (seq 0 2);
  eo_der : forall d e i, Permutation (so_der s d e i) (seq 0 (nargs e));
  eo_con : forall d e, Permutation (so_con s d e) (seq 0 2) }.

(** Two schedules: from left to right, and from right to left. *)
Definition left_first : schedule :=
  mkSched (fun _ _ _ => seq 0 2) (fun _ _ _ => seq 0 2) (fun _ e _ => seq 0 (nargs e)) (fun _ _ => seq 0 2).
Definition right_first : schedule :=
  mkSched (fun _ _ _ => rev (seq 0 2)) (fun _ _ _ => rev (seq 0 2)) (fun _ e _ => rev (seq 0 (nargs e))) (fun _ _ => rev (seq 0 2)).

Section By.
Variable s : schedule.

(** operator[](i) const, as [elem] (BinaryCalculations.hpp 97-107,
    UnaryCalculations.hpp 45-52, SubsetClass.hpp 67-70, 130-133). *)
Fixpoint elem_by (lm : libm) (e : expr) (i : Z) : M world val :=
  match e with
  | EVar x => at_rd (OD x) i
  | ETmp _ l _ =>
      if i <? Z.of_nat (List.length l) then ret (nth (Z.to_nat i) l (VB false))
      else throw (Ass "Error: out of boundaries --> value beyond size of vector")
  | ESca v => ret v
  | ESub e ind _ =>
      w <- get ;;
      k <- lift (modz i (esize w e)) ;;
      j <- lift (ind_at ind k) ;;
      v <- elem_by lm e j ;; ret (as_ret e v)
  | EBin op l r =>
      w <- get ;;
      v <- in_turn (so_elem s w e i) (fun k => match k with
        | O => if is_sca l then elem_by lm l 0
               else k <- lift (modz i (esize w l)) ;; elem_by lm l k
        | _ => if is_sca r then elem_by lm r 0
               else k <- lift (modz i (esize w r)) ;; elem_by lm r k
        end) (fun _ => VB false) ;;
      lift (bin_f lm op (v 0%nat) (v 1%nat))
  | EUn op e =>
      w <- get ;;
      a <- (if is_sca e then elem_by lm e 0
            else k <- lift (modz i (esize w e)) ;; elem_by lm e k) ;;
      lift (un_f lm op a)
  end.

(** getVal, as [dval] (DerivTypes.hpp 24-26, 51-53, 73-75). *)
Fixpoint dval_by (lm : libm) (e : dexpr) (i : Z) : M dworld val :=
  let two op l r :=
    d <- get ;;
    v <- in_turn (so_val s d e i)
           (fun k => match k with O => dval_by lm l i | _ => dval_by lm r i end) (fun _ => VB false) ;;
    lift (bin_f lm op (v 0%nat) (v 1%nat)) in
  match e with
  | DVar x => leaf_val (vslot x) i
  | DCon _ k _ => leaf_val (kslot k) i
  | DPlus l r => two OPlus l r
  | DMinus l r => two OMinus l r
  | DTimes l r => two OTimes l r
  | DDivide l r => two ODiv l r
  | DCmp op l r => two op l r
  | DSin e => a <- dval_by lm e i ;; lift (sin_trait lm FSin a)
  end.

(** getDeriv, as [dder] (DerivTypes.hpp 28-31, 54-56, 76-82). *)
Fixpoint dder_by (lm : libm) (c : avconf) (e : dexpr) (i : Z) : M dworld val :=
  let two (f : val -> val -> outcome val) l r :=
    d <- get ;;
    v <- in_turn (so_der s d e i)
           (fun k => match k with O => dder_by lm c l i | _ => dder_by lm c r i end) (fun _ => VB false) ;;
    lift (f (v 0%nat) (v 1%nat)) in
  let four (f : val -> val -> val -> val -> outcome val) l r :=
    d <- get ;;
    v <- in_turn (so_der s d e i)
           (fun k => match k with
            | 0%nat => dval_by lm l i | 1%nat => dval_by lm r i
            | 2%nat => dder_by lm c l i | _ => dder_by lm c r i
            end) (fun _ => VB false) ;;
    lift (f (v 0%nat) (v 1%nat) (v 2%nat) (v 3%nat)) in
  match e with
  | DVar x => leaf_der c x i
  | DCon _ _ _ => ret (VD fzero)
  | DPlus l r => two plus_der l r
  | DMinus l r => two minus_der l r
  | DTimes l r => four times_der l r
  | DDivide l r => four (if is_const_type r then divide_const_der else divide_der lm) l r
  | DCmp _ l r => two cmp_der l r
  | DSin e =>
      if is_leaf e then a <- dval_by lm e i ;; lift (sin_trait lm FCos a)
      else a <- dder_by lm c e i ;; lift (sin_trait lm FCos a)
  end.

(** The calls that make the constants, as [mk_cons] (Coca.hpp 167-185). *)
Fixpoint mk_cons_by (e : dexpr) : M dworld unit :=
  match e with
  | DVar _ => ret tt
  | DCon _ k l => mk_con k l
  | DPlus l r | DMinus l r | DTimes l r | DDivide l r | DCmp _ l r =>
      d <- get ;;
      in_turn (so_con s d e) (fun k => match k with O => mk_cons_by l | _ => mk_cons_by r end) (fun _ => tt) ;;
      ret tt
  | DSin e => mk_cons_by e
  end.

(** v = expression, as [dassign_exp] (Vector/AssignmentOperator.hpp
    197-214). *)
Definition dassign_exp_by (lm : libm) (c : avconf) (x : dvar) (e : dexpr) : M dworld unit :=
  d <- get ;;
  let n := esize (dw d) (to_expr e) in
  inw (resize (OT (vslot x)) n) ;;
  dfor n (fun i =>
    v <- inw (elem_by lm (to_expr e) i) ;;
    v' <- lift (cast TDouble v) ;;
    inw (set_at (OT (vslot x)) i v')) ;;
  inw (resize (OD (dslot x)) n) ;;
  d1 <- get ;;
  dfor (dsize (dw d1) e) (fun i => v <- dder_by lm c e i ;; der_wr x i v) ;;
  inw (any_resize (OD (vslot x)) n) ;;
  dfor n (fun i => v <- inw (get_at (OT (vslot x)) i) ;; buf_wr c (num x) i v) ;;
  dshape x (to_expr e).

(** A statement and a program, as [dexec] and [drun]
    (Vector/AssignmentOperator.hpp 172-233). *)
Definition dexec_by (lm : libm) (c : avconf) (t : dstmt) : M dworld unit :=
  match t with
  | DAssign x e =>
      mk_cons_by e ;;
      match e with
      | DCon _ k _ => dassign_con c x k
      | DVar y => dassign_var c x y
      | _ => dassign_exp_by lm c x e
      end
  end.
Fixpoint drun_by (lm : libm) (c : avconf) (p : list dstmt) : M dworld unit :=
  match p with
  | [] => ret tt
  | t :: p' => dexec_by lm c t ;; drun_by lm c p'
  end.
End By.
