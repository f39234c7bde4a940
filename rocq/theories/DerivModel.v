(** Forward derivatives: AllVars (Derivatives/AllVars.hpp), VarPointer
    (Derivatives/VarPointer.hpp), the derivative types
    (Derivatives/DerivTypes.hpp), walkTD (Vector/DerivativeCalc.hpp), the
    derivative rules (Core/Traits.hpp 44-212) and assignment to a variable of
    an AllVars object (Vector/AssignmentOperator.hpp 172-233).

    Variables of kind Buffer (TypeIdx 0), Borrow (TypeIdx 1) and BorrowSEXP
    (TypeIdx 2) and constants (TypeIdx -1).  The build for R is modelled: with
    STANDALONE_ETR the branches for TypeIdx 2 of AllVars.hpp 70-157 are
    empty. *)
From Coq Require Import ZArith List String Bool.
From Verif Require Import Base Num StoreModel VecModel.
Import ListNotations.
Open Scope Z_scope.

(** A variable: its kind (TypeIdx) and its number (Idx) (VarPointer.hpp 10). *)
Inductive dvar := DV (knd : kind) (num : nat).
Definition knd (x : dvar) : kind := match x with DV k _ => k end.
Definition num (x : dvar) : nat := match x with DV _ n => n end.

(** One AllVars object (AllVars.hpp 18-37).  Its arrays are storage objects of
    the world: [varBuffer[n].d], [varBufferDerivs[n]], [varConstants[n].d],
    [varBorrow[n].d], [varBorrowDerivs[n]], [varBorrowSEXP[n].d] and
    [varBorrowSEXPDerivs[n]].  The scratch member [temp] of the user's handle
    for a variable is the [OT] object with the number of its value. *)
Definition vslot (x : dvar) : nat :=
  match x with
  | DV KBuffer n => (7 * n)%nat
  | DV KBorrow n => (7 * n + 3)%nat
  | DV KBorrowSEXP n => (7 * n + 5)%nat
  end.
Definition dslot (x : dvar) : nat := S (vslot x).
Definition kslot (k : nat) : nat := (7 * k + 2)%nat.

(** IndepVarIdx and the length of [varBuffer] (AllVars.hpp 24, 32).
    IndepVarTypeIdx (33) is stored and never read. *)
Record avconf := mkAv { indep : Z; nbuf : nat }.

(** The world together with the flag DerivInit (Derivatives/AllVars.hpp 34).
    *)
Record dworld := mkDw { dw : world; dinit : bool }.

Definition inw {A} (m : M world A) : M dworld A := fun d =>
  let (r, w) := m (dw d) in (r, mkDw w (dinit d)).
Definition dfor (n : Z) (body : Z -> M dworld unit) : M dworld unit := forN (Z.to_nat n) 0 body.

(** Right-hand sides: the tree of the expression template and at the same time
    of the derivative type walkTD makes of it.
    - [DVar x]: a variable;
    - [DCon ct k l]: coca<k>(av, l...) or scalarDeriv<k>(av, c) when [ct] is
      true (VarPointer with ConstantTypeTrait: Coca.hpp 178-181,
      ScalarForDeriv.hpp 8-17); colon<k>, vector_..<k> when [ct] is false
      (VarPointer with VarPointerTrait: Colon.hpp 254, Vector.hpp 107).  [l]
      are the elements stored in varConstants[k] when the call is evaluated. *)
Inductive dexpr :=
| DVar (x : dvar)
| DCon (ct : bool) (k : nat) (l : list flt)
| DPlus (l r : dexpr)
| DMinus (l r : dexpr)
| DTimes (l r : dexpr)
| DDivide (l r : dexpr)
| DCmp (op : binop) (l r : dexpr)
| DSin (e : dexpr).

(** The same tree as a plain vector expression: operator[] of a VarPointer is
    operator[] of the array element (VarPointer.hpp 118-131). *)
Fixpoint to_expr (e : dexpr) : expr :=
  match e with
  | DVar x => EVar (vslot x)
  | DCon _ k _ => EVar (kslot k)
  | DPlus l r => EBin OPlus (to_expr l) (to_expr r)
  | DMinus l r => EBin OMinus (to_expr l) (to_expr r)
  | DTimes l r => EBin OTimes (to_expr l) (to_expr r)
  | DDivide l r => EBin ODiv (to_expr l) (to_expr r)
  | DCmp op l r => EBin op (to_expr l) (to_expr r)
  | DSin e => EUn (UFun FSin) (to_expr e)
  end.

(** av.varConstants[k].resize(n); av.varConstants[k][i] = ... (Coca.hpp
    147-176, ScalarForDeriv.hpp 11-12, Colon.hpp 251-272, Vector.hpp 104-). *)
Definition mk_con (k : nat) (l : list flt) : M dworld unit :=
  inw (resize (OD (kslot k)) (Z.of_nat (List.length l))) ;;
  dfor (Z.of_nat (List.length l)) (fun i =>
    inw (set_at (OD (kslot k)) i (VD (nth (Z.to_nat i) l fzero)))).

(** Building the expression evaluates the calls that make its constants.
    (C++ leaves the order of the operands open; left first here.) (Coca.hpp
    167-185, Allocation/Colon.hpp 246-269, Allocation/Vector.hpp 95-220,
    Allocation/ScalarForDeriv.hpp 8-17.) *)
Fixpoint mk_cons (e : dexpr) : M dworld unit :=
  match e with
  | DVar _ => ret tt
  | DCon _ k l => mk_con k l
  | DPlus l r | DMinus l r | DTimes l r | DDivide l r | DCmp _ l r => mk_cons l ;; mk_cons r
  | DSin e => mk_cons e
  end.

(** getSize (VarPointer.hpp 34-46, DerivTypes.hpp 20-23, 47-50, 70-72). *)
Fixpoint dsize (w : world) (e : dexpr) : Z :=
  match e with
  | DVar x => sz (ob w (OD (vslot x)))
  | DCon _ k _ => sz (ob w (OD (kslot k)))
  | DPlus l r | DMinus l r | DTimes l r | DDivide l r | DCmp _ l r =>
      if dsize w r <? dsize w l then dsize w l else dsize w r
  | DSin e => dsize w e
  end.

(** VarPointer::getVal (VarPointer.hpp 104-116): array[i % size]. *)
Definition leaf_val (s : nat) (i : Z) : M dworld val :=
  d <- get ;;
  k <- lift (modz i (sz (ob (dw d) (OD s)))) ;;
  inw (at_rd (OD s) k).

(** SinusDerivTrait (Traits.hpp 230-233): f and fDeriv return the type of their
    argument. *)
Definition sin_trait (lm : libm) (f : unfun) (a : val) : outcome val :=
  v <-o un_f lm (UFun f) a ;; cast (ty_of a) v.

(** getVal of the derivative types (DerivTypes.hpp 24-26, 51-53, 73-75): every
    leaf is recycled by itself. *)
Fixpoint dval (lm : libm) (e : dexpr) (i : Z) : M dworld val :=
  match e with
  | DVar x => leaf_val (vslot x) i
  | DCon _ k _ => leaf_val (kslot k) i
  | DPlus l r => a <- dval lm l i ;; b <- dval lm r i ;; lift (bin_f lm OPlus a b)
  | DMinus l r => a <- dval lm l i ;; b <- dval lm r i ;; lift (bin_f lm OMinus a b)
  | DTimes l r => a <- dval lm l i ;; b <- dval lm r i ;; lift (bin_f lm OTimes a b)
  | DDivide l r => a <- dval lm l i ;; b <- dval lm r i ;; lift (bin_f lm ODiv a b)
  | DCmp op l r => a <- dval lm l i ;; b <- dval lm r i ;; lift (bin_f lm op a b)
  | DSin e => a <- dval lm e i ;; lift (sin_trait lm FSin a)
  end.

(** VarPointer::getDeriv of a variable (VarPointer.hpp 146-182): derivatives
    whose number is not that of the values are allocated first... *)
Definition der_init (c : avconf) (x : dvar) : M dworld unit :=
  d <- get ;;
  if sz (ob (dw d) (OD (dslot x))) =? sz (ob (dw d) (OD (vslot x))) then ret tt
  else
    inw (resize (OD (dslot x)) (sz (ob (dw d) (OD (vslot x))))) ;;
    d1 <- get ;;
    if (Z.of_nat (num x) =? indep c) && negb (dinit d1) then
      inw (fill (OD (dslot x)) (VD fone)) ;;
      (fun d2 => (Done tt, mkDw (dw d2) true))
    else ret tt.
(** ... and then array[i % size]. (Derivatives/VarPointer.hpp 146-184.) *)
Definition leaf_der (c : avconf) (x : dvar) (i : Z) : M dworld val :=
  der_init c x ;;
  d <- get ;;
  k <- lift (modz i (sz (ob (dw d) (OD (dslot x))))) ;;
  inw (get_at (OD (dslot x)) k).

(** C++ arithmetic on two numbers. (The operators in Core/Traits.hpp
    44-130.) *)
Definition ar_add := arith Z.add fadd.
Definition ar_sub := arith Z.sub fsub.
Definition ar_mul := arith Z.mul fmul.

(** TimesDerivTrait::fDeriv (Traits.hpp 73-77): ld * r + rd * l, returned as
    the common type of l and r. *)
Definition times_der (l r ld rd : val) : outcome val :=
  a <-o ar_mul ld r ;; b <-o ar_mul rd l ;; s <-o ar_add a b ;;
  cast (common (ty_of l) (ty_of r)) s.

(** DivideDerivTrait::fDeriv (Core/Traits.hpp 97-102): (ld * r - l * rd) /
    pow(rd, 2). *)
Definition divide_der (lm : libm) (l r ld rd : val) : outcome val :=
  a <-o ar_mul ld r ;; b <-o ar_mul l rd ;; s <-o ar_sub a b ;;
  cast (common (ty_of l) (ty_of r)) (VD (fdiv (v2f s) (lm_pow lm (v2f rd) (i2f 2)))).

(** DivideByConstantDerivTrait::fDeriv (Core/Traits.hpp 122-126): ld / r. *)
Definition divide_const_der (l r ld rd : val) : outcome val :=
  cast (common (ty_of l) (ty_of r)) (VD (fdiv (v2f ld) (v2f r))).

(** PlusDerivTrait, MinusDerivTrait (Core/Traits.hpp 44-66). *)
Definition plus_der (ld rd : val) : outcome val :=
  s <-o ar_add ld rd ;; cast (common (ty_of ld) (ty_of rd)) s.
Definition minus_der (ld rd : val) : outcome val :=
  s <-o ar_sub ld rd ;; cast (common (ty_of ld) (ty_of rd)) s.

(** The comparison traits (Core/Traits.hpp 142-206): fDeriv is false. *)
Definition cmp_der (ld rd : val) : outcome val :=
  cast (common (ty_of ld) (ty_of rd)) (VB false).

(** Does walkTD's division see a constant on the right?  It tests the
    TypeTrait of the right operand itself (DerivativeCalc.hpp 95-96). *)
Definition is_const_type (e : dexpr) : bool :=
  match e with DCon ct _ _ => ct | _ => false end.
(** IsConstant or IsVariableType (DerivTypes.hpp 77). *)
Definition is_leaf (e : dexpr) : bool :=
  match e with DVar _ | DCon _ _ _ => true | _ => false end.

(** getDeriv (DerivTypes.hpp 28-31, 54-56, 76-82; VarPointer.hpp 147-148 for
    constants).  C++ leaves the evaluation order of the four arguments open;
    the model evaluates them from left to right. *)
Fixpoint dder (lm : libm) (c : avconf) (e : dexpr) (i : Z) : M dworld val :=
  match e with
  | DVar x => leaf_der c x i
  | DCon _ _ _ => ret (VD fzero)
  | DPlus l r => a <- dder lm c l i ;; b <- dder lm c r i ;; lift (plus_der a b)
  | DMinus l r => a <- dder lm c l i ;; b <- dder lm c r i ;; lift (minus_der a b)
  | DTimes l r =>
      a <- dval lm l i ;; b <- dval lm r i ;;
      a' <- dder lm c l i ;; b' <- dder lm c r i ;; lift (times_der a b a' b')
  | DDivide l r =>
      a <- dval lm l i ;; b <- dval lm r i ;;
      a' <- dder lm c l i ;; b' <- dder lm c r i ;;
      lift (if is_const_type r then divide_const_der a b a' b' else divide_der lm a b a' b')
  | DCmp _ l r => a <- dder lm c l i ;; b <- dder lm c r i ;; lift (cmp_der a b)
  | DSin e =>
      if is_leaf e then a <- dval lm e i ;; lift (sin_trait lm FCos a)
      else a <- dder lm c e i ;; lift (sin_trait lm FCos a)
  end.

(** d.AllVarsRef.varBuffer[d.I][i] = v (AssignmentOperator.hpp 181, 209): the
    Buffer array, whatever the kind of the target. *)
Definition buf_wr (c : avconf) (n : nat) (i : Z) (v : val) : M dworld unit :=
  if (n <? nbuf c)%nat then
    t <- inw (st (OD (vslot (DV KBuffer n)))) ;;
    v' <- lift (cast (sty t) v) ;;
    inw (at_wr (OD (vslot (DV KBuffer n))) i v')
  else undef UB_oob.

(** varBufferDerivs[n][i] = v and so on (VarPointer.hpp 186-197). *)
Definition der_wr (x : dvar) (i : Z) (v : val) : M dworld unit :=
  v' <- lift (cast TDouble v) ;; inw (set_at (OD (dslot x)) i v').

(** Tail of operator= (Vector/AssignmentOperator.hpp 230-233). Only
    variables can be matrices: nothing in the library gives a constant a shape.
    *)
Definition dshape (x : dvar) (e : expr) : M dworld unit :=
  inw (take_shape (OD (vslot x)) e).

(** v = constant (Vector/AssignmentOperator.hpp 177-196). *)
Definition dassign_con (c : avconf) (x : dvar) (k : nat) : M dworld unit :=
  d <- get ;;
  let n := sz (ob (dw d) (OD (kslot k))) in
  inw (any_resize (OD (vslot x)) n) ;;
  dfor n (fun i => v <- inw (at_rd (OD (kslot k)) i) ;; buf_wr c (num x) i v) ;;
  inw (resize (OD (dslot x)) n) ;;
  dfor n (fun i => der_wr x i (VD (if indep c =? Z.of_nat (num x) then fone else fzero))) ;;
  d' <- get ;;
  ass (negb (ismat (mp (ob (dw d') (OD (kslot k)))))) "Unsupported type in derivative".

(** v = expression (Vector/AssignmentOperator.hpp 197-214). The size of the
    right-hand side does not change while it is evaluated. *)
Definition dassign_exp (lm : libm) (c : avconf) (x : dvar) (e : dexpr) : M dworld unit :=
  d <- get ;;
  let n := esize (dw d) (to_expr e) in
  inw (resize (OT (vslot x)) n) ;;
  dfor n (fun i =>
    v <- inw (elem lm (to_expr e) i) ;;
    v' <- lift (cast TDouble v) ;;
    inw (set_at (OT (vslot x)) i v')) ;;
  inw (resize (OD (dslot x)) n) ;;
  d1 <- get ;;
  dfor (dsize (dw d1) e) (fun i => v <- dder lm c e i ;; der_wr x i v) ;;
  inw (any_resize (OD (vslot x)) n) ;;
  dfor n (fun i => v <- inw (get_at (OT (vslot x)) i) ;; buf_wr c (num x) i v) ;;
  dshape x (to_expr e).

(** v = another variable (215-229); setVal (VarPointer.hpp 202-212). *)
Definition dassign_var (c : avconf) (x y : dvar) : M dworld unit :=
  d <- get ;;
  let n := sz (ob (dw d) (OD (vslot y))) in
  inw (any_resize (OD (vslot x)) n) ;;
  d1 <- get ;;
  let n1 := sz (ob (dw d1) (OD (vslot x))) in
  dfor n1 (fun i => v <- leaf_val (vslot y) i ;; inw (at_wr (OD (vslot x)) i v)) ;;
  inw (resize (OD (dslot x)) n) ;;
  dfor n1 (fun i => v <- leaf_der c y i ;; der_wr x i v) ;;
  dshape x (EVar (vslot y)).

(** A statement [v = rhs]; the branch taken by operator= depends on the type of
    the right-hand side.  [v = v] is not a program: the copy assignment chosen
    for it calls setMatrix with three arguments, VarPointer has one with four
    (AssignmentOperator.hpp 42-, VarPointer.hpp 48-49). *)
Inductive dstmt := DAssign (x : dvar) (e : dexpr).

Definition dexec (lm : libm) (c : avconf) (s : dstmt) : M dworld unit :=
  match s with
  | DAssign x e =>
      mk_cons e ;;
      match e with
      | DCon _ k _ => dassign_con c x k
      | DVar y => dassign_var c x y
      | _ => dassign_exp lm c x e
      end
  end.

Fixpoint drun (lm : libm) (c : avconf) (p : list dstmt) : M dworld unit :=
  match p with
  | [] => ret tt
  | s :: p' => dexec lm c s ;; drun lm c p'
  end.

(** A new AllVars object: all arrays empty (AllVars.hpp 24-37). *)
Definition dstart (lim : Z) : dworld :=
  mkDw (mkWorld (mkHeap 0 (fun _ => Unused) lim) (fun _ => store_default KBuffer TDouble)) false.

(** get_derivs (getDerivs.hpp 12-20): the elements of the vector it returns.
    Simplification: the result vector is private, so it is kept as a list; a
    variable without elements makes Vec(SI) throw. *)
Fixpoint get_der_list (c : avconf) (x : dvar) (i : Z) (n : nat) : M dworld (list val) :=
  match n with
  | O => ret []
  | S k => v <- leaf_der c x i ;; vs <- get_der_list c x (i + 1) k ;; ret (v :: vs)
  end.
Definition get_derivs (c : avconf) (x : dvar) : M dworld (list val) :=
  d <- get ;;
  ass (1 <=? sz (ob (dw d) (OD (vslot x)))) "Size has to be larger than 0" ;;
  get_der_list c x 0 (Z.to_nat (sz (ob (dw d) (OD (vslot x))))).

(** VarPointer::get (VarPointer.hpp 61-73): a copy of the value vector; its
    elements as a list. *)
Definition get_vals (x : dvar) : M dworld (list val) := inw (iterate_vec (vslot x)).
