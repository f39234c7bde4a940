(** Derivatives on lists of doubles, and on real functions: the specification
    the derivative theorems are stated against. *)
From Coq Require Import Reals ZArith List Bool Arith.
From Verif Require Import Base Num StoreModel VecModel Spec SpecVec DerivModel FloatBridge.
Import ListNotations.

(** Element i of a recycled vector. *)
Definition lane (i : nat) (l : list flt) : flt := nth (i mod length l) l fzero.

(** For every variable that has elements: its elements and the derivatives of
    its elements. *)
Definition senv := dvar -> option (list flt * list flt).
Definition vals (env : senv) (x : dvar) : list flt :=
  match env x with Some (vs, _) => vs | None => [] end.
Definition ders (env : senv) (x : dvar) : list flt :=
  match env x with Some (_, ds) => ds | None => [] end.

(** Comparison of two doubles; == and != have the tolerance 1E-3. *)
Definition says (op : binop) (a b : flt) : bool :=
  match op with
  | OEq => flt_ltb (fabs (fsub a b)) f1em3
  | ONe => flt_ltb f1em3 (fabs (fsub a b))
  | OLt => flt_ltb a b
  | OLe => flt_leb a b
  | OGt => flt_ltb b a
  | OGe => flt_leb b a
  | _ => false
  end.
Definition is_cmp (op : binop) : bool :=
  match op with OEq | ONe | OLt | OLe | OGt | OGe => true | _ => false end.

(** Value of element i of a right-hand side. *)
Fixpoint lval (lm : libm) (i : nat) (env : senv) (e : dexpr) : flt :=
  match e with
  | DVar x => lane i (vals env x)
  | DCon _ _ l => lane i l
  | DPlus l r => fadd (lval lm i env l) (lval lm i env r)
  | DMinus l r => fsub (lval lm i env l) (lval lm i env r)
  | DTimes l r => fmul (lval lm i env l) (lval lm i env r)
  | DDivide l r => fdiv (lval lm i env l) (lval lm i env r)
  | DCmp op l r => if says op (lval lm i env l) (lval lm i env r) then fone else fzero
  | DSin e => lm_un lm FSin (lval lm i env e)
  end.

(** Derivative of element i by the rules of calculus, in double arithmetic:
    sum, difference, product, quotient and chain rule. *)
Fixpoint fwd (lm : libm) (i : nat) (env : senv) (e : dexpr) : flt :=
  match e with
  | DVar x => lane i (ders env x)
  | DCon _ _ _ => fzero
  | DPlus l r => fadd (fwd lm i env l) (fwd lm i env r)
  | DMinus l r => fsub (fwd lm i env l) (fwd lm i env r)
  | DTimes l r => fadd (fmul (fwd lm i env l) (lval lm i env r)) (fmul (fwd lm i env r) (lval lm i env l))
  | DDivide l (DCon _ _ c) => fdiv (fwd lm i env l) (lane i c)
  | DDivide l r =>
      fdiv (fsub (fmul (fwd lm i env l) (lval lm i env r)) (fmul (lval lm i env l) (fwd lm i env r)))
           (fmul (lval lm i env r) (lval lm i env r))
  | DCmp _ _ _ => fzero
  | DSin e => fmul (lm_un lm FCos (lval lm i env e)) (fwd lm i env e)
  end.

(** Variables and constants (number and elements) of a right-hand side. *)
Fixpoint dvars (e : dexpr) : list dvar :=
  match e with
  | DVar x => [x]
  | DCon _ _ _ => []
  | DPlus l r | DMinus l r | DTimes l r | DDivide l r | DCmp _ l r => dvars l ++ dvars r
  | DSin e => dvars e
  end.
Fixpoint dcons (e : dexpr) : list (nat * list flt) :=
  match e with
  | DVar _ => []
  | DCon _ k l => [(k, l)]
  | DPlus l r | DMinus l r | DTimes l r | DDivide l r | DCmp _ l r => dcons l ++ dcons r
  | DSin e => dcons e
  end.

(** Length of a right-hand side: that of its longest operand. *)
Fixpoint dlen (env : senv) (e : dexpr) : nat :=
  match e with
  | DVar x => length (vals env x)
  | DCon _ _ l => length l
  | DPlus l r | DMinus l r | DTimes l r | DDivide l r | DCmp _ l r => Nat.max (dlen env l) (dlen env r)
  | DSin e => dlen env e
  end.

(** A comparison. *)
Definition cmpx (e : dexpr) : bool := match e with DCmp _ _ _ => true | _ => false end.

(** Right-hand sides of which no operator has two comparisons as operands (their
    sum, difference or product would have the type bool) and no sine has one. *)
Fixpoint plainx (e : dexpr) : Prop :=
  match e with
  | DVar _ => True
  | DCon _ _ _ => True
  | DPlus l r | DMinus l r | DTimes l r | DDivide l r => plainx l /\ plainx r /\ cmpx l && cmpx r = false
  | DCmp op l r => plainx l /\ plainx r /\ cmpx l && cmpx r = false /\ is_cmp op = true
  | DSin e => plainx e /\ cmpx e = false
  end.

(** Conditions: comparisons of anything, and sums, differences and products of
    conditions (or, exclusive or, and). *)
Fixpoint condx (e : dexpr) : Prop :=
  match e with
  | DCmp op _ _ => is_cmp op = true
  | DPlus l r | DMinus l r | DTimes l r => condx l /\ condx r
  | _ => False
  end.

(** Variables, constants, sums, differences, products, comparisons, and
    quotients whose divisor is a constant made by coca or scalarDeriv. *)
Fixpoint ringx (e : dexpr) : Prop :=
  match e with
  | DVar _ => True
  | DCon _ _ _ => True
  | DPlus l r | DMinus l r | DTimes l r => ringx l /\ ringx r /\ cmpx l && cmpx r = false
  | DCmp op l r => ringx l /\ ringx r /\ cmpx l && cmpx r = false /\ is_cmp op = true
  | DDivide l (DCon true _ _) => ringx l
  | DDivide _ _ | DSin _ => False
  end.

(** Every right-hand side is of that form. *)
Fixpoint ringp (p : list dstmt) : Prop :=
  match p with
  | [] => True
  | DAssign _ e :: p' => ringx e /\ ringp p'
  end.

(** The operands have common length n or length one. *)
Definition aligned (env : senv) (n : nat) (e : dexpr) : Prop :=
  (forall x, In x (dvars e) -> length (vals env x) = 1%nat \/ length (vals env x) = n) /\
  (forall k l, In (k, l) (dcons e) -> length l = 1%nat \/ length l = n).

Definition dvar_dec (x y : dvar) : {x = y} + {x <> y}.
Proof. decide equality; [apply Nat.eq_dec|decide equality]. Defined.

(** The environment after [x = e] when [der] gives the derivatives: a constant
    gets the seed. *)
Definition seed (c : avconf) (x : dvar) : flt := if (indep c =? Z.of_nat (num x))%Z then fone else fzero.
Definition sexec (der : nat -> senv -> dexpr -> flt) (lm : libm) (c : avconf) (env : senv) (s : dstmt) : senv :=
  match s with
  | DAssign x e => fun y =>
      if dvar_dec y x then
        match e with
        | DCon _ _ l => Some (l, repeat (seed c x) (length l))
        | DVar z => env z
        | _ => Some (map (fun i => lval lm i env e) (seq 0 (dlen env e)),
                     map (fun i => der i env e) (seq 0 (dlen env e)))
        end
      else env y
  end.

(** The statement can be executed: the target is a Buffer variable, the
    variables on the right have elements, constants have different numbers, the lengths are aligned, a target that occurs on the
    right has the full length, it is not assigned to itself, and there is
    memory. *)
Definition wf_stmt (c : avconf) (lim : Z) (env : senv) (s : dstmt) : Prop :=
  match s with
  | DAssign x e =>
      knd x = KBuffer /\ (num x < nbuf c)%nat /\ plainx e /\
      (forall y, In y (dvars e) -> env y <> None) /\
      NoDup (map fst (dcons e)) /\
      (1 <= dlen env e)%nat /\ aligned env (dlen env e) e /\
      (In x (dvars e) -> length (vals env x) = dlen env e) /\
      e <> DVar x /\
      (2 * Z.of_nat (dlen env e) <= lim)%Z
  end.
Fixpoint wf_prog der (lm : libm) (c : avconf) (lim : Z) (env : senv) (p : list dstmt) : Prop :=
  match p with
  | [] => True
  | s :: p' => wf_stmt c lim env s /\ wf_prog der lm c lim (sexec der lm c env s) p'
  end.
Fixpoint srun der (lm : libm) (c : avconf) (env : senv) (p : list dstmt) : senv :=
  match p with
  | [] => env
  | s :: p' => srun der lm c (sexec der lm c env s) p'
  end.

(** The Borrow and BorrowSEXP variables over data of the user with which a
    program starts. *)
Definition inputs := dvar -> option (list flt).

(** The AllVars object before the first statement: these variables hold the
    elements of the inputs, everything else is empty.  At most one of them has
    the number of the independent variable (AllVars.hpp 34 has one flag for
    all). *)
Record started (c : avconf) (ins : inputs) (d : dworld) : Prop := {
  sd_world : world_shape (dw d);
  sd_flag : dinit d = false;
  sd_input : forall x vs, ins x = Some vs ->
    knd x <> KBuffer /\ vs <> [] /\ (2 * Z.of_nat (length vs) <= hlim (hp (dw d)))%Z /\
    sty (ob (dw d) (OD (vslot x))) = TDouble /\ mp (ob (dw d) (OD (vslot x))) = mp_none /\
    holds (dw d) (OD (vslot x)) (map VD vs);
  sd_rest : forall o, (forall x, ins x <> None -> o <> OD (vslot x)) ->
    ob (dw d) o = store_default KBuffer TDouble;
  sd_one : forall x y, ins x <> None -> ins y <> None ->
    Z.of_nat (num x) = indep c -> num y = num x -> x = y }.
(** A Borrow variable is put on an array of the user, a BorrowSEXP variable on
    an R vector, with the elements [l] (Borrow(T*, size_t), BorrowSEXP(SEXP)). *)
Definition load (x : dvar) (l : list flt) (d : dworld) : dworld :=
  let a := Some (hnext (hp (dw d))) in
  let n := Z.of_nat (length l) in
  mkDw (snd (match knd x with
             | KBorrow => borrow_ctor (OD (vslot x)) TDouble a n (user_block (dw d) OwnExt (map VD l))
             | _ => sexp_ctor (OD (vslot x)) TDouble a n mp_none (user_block (dw d) OwnR (map VD l))
             end)) (dinit d).
Definition with_input (ins : inputs) (x : dvar) (l : list flt) : inputs :=
  fun y => if dvar_dec y x then Some l else ins y.
(** Inputs have the derivative 1 or 0. *)
Definition env0 (c : avconf) (ins : inputs) : senv := fun x =>
  match ins x with
  | Some vs => Some (vs, repeat (seed c x) (length vs))
  | None => None
  end.

(** The program state shows the environment: get() returns the elements and
    get_derivs() the derivatives of each of the variables [xs], asked one after
    the other. *)
Fixpoint shows (c : avconf) (env : senv) (xs : list dvar) (d : dworld) : Prop :=
  match xs with
  | [] => True
  | x :: xs' =>
      match env x with
      | Some (vs, ds) =>
          get_vals x d = (Done (map VD vs), d) /\
          exists d', get_derivs c x d = (Done (map VD ds), d') /\ (knd x = KBuffer -> d' = d) /\
            shows c env xs' d'
      | None => shows c env xs' d
      end
  end.

(** Real meaning of element i of a program as a function of z: inputs with the
    number of the independent variable and constants assigned to such variables
    are replaced by z. *)
Local Open Scope R_scope.
Definition rsays (op : binop) (a b : R) : bool :=
  match op with
  | OEq => if Rlt_dec (Rabs (a - b)) (fR f1em3) then true else false
  | ONe => if Rlt_dec (fR f1em3) (Rabs (a - b)) then true else false
  | OLt => if Rlt_dec a b then true else false
  | OLe => if Rle_dec a b then true else false
  | OGt => if Rlt_dec b a then true else false
  | OGe => if Rle_dec b a then true else false
  | _ => false
  end.
Fixpoint rval (i : nat) (env : dvar -> R) (e : dexpr) : R :=
  match e with
  | DVar x => env x
  | DCon _ _ l => fR (lane i l)
  | DPlus l r => rval i env l + rval i env r
  | DMinus l r => rval i env l - rval i env r
  | DTimes l r => rval i env l * rval i env r
  | DDivide l r => rval i env l / rval i env r
  | DCmp op l r => if rsays op (rval i env l) (rval i env r) then 1 else 0
  | DSin e => sin (rval i env e)
  end.
Definition rexec (c : avconf) (z : R) (i : nat) (env : dvar -> R) (s : dstmt) : dvar -> R :=
  match s with
  | DAssign x e => fun y =>
      if dvar_dec y x then
        match e with
        | DCon _ _ l => if (indep c =? Z.of_nat (num x))%Z then z else fR (lane i l)
        | _ => rval i env e
        end
      else env y
  end.
Definition renv0 (c : avconf) (z : R) (i : nat) (ins : inputs) : dvar -> R := fun x =>
  match ins x with
  | Some vs => if (indep c =? Z.of_nat (num x))%Z then z else fR (lane i vs)
  | None => 0
  end.
Fixpoint rrun (c : avconf) (z : R) (i : nat) (env : dvar -> R) (p : list dstmt) : dvar -> R :=
  match p with
  | [] => env
  | s :: p' => rrun c z i (rexec c z i env s) p'
  end.

(** Element i of every input with the number of the independent variable and of
    every constant assigned to such a variable is z. *)
Definition at_input (c : avconf) (i : nat) (z : R) (ins : inputs) : Prop :=
  forall x vs, ins x = Some vs -> indep c = Z.of_nat (num x) -> fR (lane i vs) = z.
Fixpoint at_point (c : avconf) (i : nat) (z : R) (p : list dstmt) : Prop :=
  match p with
  | [] => True
  | DAssign x (DCon _ _ l) :: p' => (indep c = Z.of_nat (num x) -> fR (lane i l) = z) /\ at_point c i z p'
  | _ :: p' => at_point c i z p'
  end.

(** No rounding: the operation returned the exact result. *)
Definition exact (f : flt) (x : R) : Prop := finite f /\ fR f = x.
(** The comparison does not change between TRUE and FALSE here. *)
Definition away (op : binop) (a b : flt) : Prop :=
  valid a /\ valid b /\ finite a /\ finite b /\
  match op with
  | OEq | ONe => exact (fsub a b) (fR a - fR b) /\ Rabs (fR a - fR b) <> fR f1em3
  | _ => fR a <> fR b
  end.
Fixpoint exact_expr (lm : libm) (i : nat) (env : senv) (e : dexpr) : Prop :=
  let v := lval lm i env in let d := fwd lm i env in
  match e with
  | DVar _ => True
  | DCon _ _ _ => True
  | DPlus l r =>
      exact_expr lm i env l /\ exact_expr lm i env r /\
      exact (fadd (v l) (v r)) (fR (v l) + fR (v r)) /\
      exact (fadd (d l) (d r)) (fR (d l) + fR (d r))
  | DMinus l r =>
      exact_expr lm i env l /\ exact_expr lm i env r /\
      exact (fsub (v l) (v r)) (fR (v l) - fR (v r)) /\
      exact (fsub (d l) (d r)) (fR (d l) - fR (d r))
  | DTimes l r =>
      exact_expr lm i env l /\ exact_expr lm i env r /\
      exact (fmul (v l) (v r)) (fR (v l) * fR (v r)) /\
      exact (fmul (d l) (v r)) (fR (d l) * fR (v r)) /\
      exact (fmul (d r) (v l)) (fR (d r) * fR (v l)) /\
      exact (fadd (fmul (d l) (v r)) (fmul (d r) (v l))) (fR (fmul (d l) (v r)) + fR (fmul (d r) (v l)))
  | DDivide l r =>
      exact_expr lm i env l /\ exact_expr lm i env r /\
      exact (fdiv (v l) (v r)) (fR (v l) / fR (v r)) /\
      exact (fdiv (d l) (v r)) (fR (d l) / fR (v r))
  | DCmp op l r => exact_expr lm i env l /\ exact_expr lm i env r /\ away op (v l) (v r)
  | _ => False
  end.
Fixpoint exact_prog (lm : libm) (c : avconf) (i : nat) (env : senv) (p : list dstmt) : Prop :=
  match p with
  | [] => True
  | (DAssign _ e as s) :: p' =>
      exact_expr lm i env e /\ exact_prog lm c i (sexec (fwd lm) lm c env s) p'
  end.
