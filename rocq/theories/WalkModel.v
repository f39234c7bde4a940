(** The derivative type of an expression: walkTD (Vector/DerivativeCalc.hpp
    7-189), a function on types evaluated by the compiler, and the static
    members of the types it makes (Derivatives/DerivTypes.hpp 10-146).
    DerivModel evaluates the tree of the expression directly; here the two
    steps are apart. *)
From Coq Require Import ZArith List String Bool.
From Verif Require Import Base Num StoreModel VecModel DerivModel.
Import ListNotations.
Open Scope Z_scope.

(** The type of the member [d] of a right-hand side.
    - [TyVar x]: VarPointer with VarPointerTrait of a variable
      (VarPointer.hpp 10-17);
    - [TyCon ct k]: VarPointer with TypeIdx -1; ConstantTypeTrait when [ct],
      VarPointerTrait otherwise (Coca.hpp 178-181, Colon.hpp 254);
    - [TyOther]: any other operand: a number, a Buffer, a Borrow, a BorrowSEXP,
      a Subset;
    - [TyBin], [TyUn]: BinaryOperation (BinaryCalculations.hpp 18-28) and
      UnaryOperation with the trait of their operation. *)
Inductive etype :=
| TyVar (x : dvar)
| TyCon (ct : bool) (k : nat)
| TyOther
| TyBin (op : binop) (l r : etype)
| TyUn (op : unop) (e : etype).

(** decltype of the member [d] of a right-hand side (AssignmentOperator.hpp
    173-175). *)
Fixpoint type_of (e : dexpr) : etype :=
  match e with
  | DVar x => TyVar x
  | DCon ct k _ => TyCon ct k
  | DPlus l r => TyBin OPlus (type_of l) (type_of r)
  | DMinus l r => TyBin OMinus (type_of l) (type_of r)
  | DTimes l r => TyBin OTimes (type_of l) (type_of r)
  | DDivide l r => TyBin ODiv (type_of l) (type_of r)
  | DCmp op l r => TyBin op (type_of l) (type_of r)
  | DSin e => TyUn (UFun FSin) (type_of e)
  end.

(** Operation traits of the derivative types (Core/Traits.hpp 44-128,
    142-228): TimesDerivTrait, DivideDerivTrait, DivideByConstantDerivTrait;
    PlusDerivTrait, MinusDerivTrait and the traits of the comparisons. *)
Inductive qop := QTimes | QDivide | QDivideConst.
Inductive bop := BPlus | BMinus | BCmp (op : binop).

(** What a VariableType points to: a VarPointer of a variable or of a constant
    (VarPointer.hpp 10). *)
Inductive vptr := PVar (x : dvar) | PCon (k : nat).

(** The derivative types (DerivTypes.hpp 10-33, 42-58, 66-83, 90-110, 122-146).
    The first two arguments of a QuarternyType are types nothing reads. *)
Inductive dtype :=
| QuarternyT (lt rt : etype) (l r : dtype) (op : qop)
| BinaryT (l r : dtype) (op : bop)
| UnaryT (e : dtype)
| VariableT (p : vptr)
| ConstantT (k : nat).

(** The comparisons (DerivativeCalc.hpp 122-174). *)
Definition cmp_trait (op : binop) : bool :=
  match op with OEq | OLt | OLe | OGt | OGe | ONe => true | _ => false end.

(** The TypeTrait of the divisor is ConstantTypeTrait (DerivativeCalc.hpp
    91-92). *)
Definition const_trait (t : etype) : bool := match t with TyCon ct _ => ct | _ => false end.

(** walkTD (DerivativeCalc.hpp 35-189): one overload for each of the concepts
    IsVarPointer (35-40), IsConstant (42-46), IsMultiplication (48-81),
    IsDivide (83-102), IsAddition (104-111), IsSubtraction (113-120), those of
    the comparisons (122-174) and IsSinus (176-181).  [None]: there is none, the
    program does not compile.  Not modelled: the overload for a Vec (183-189),
    which walks its member [d]; operands of expressions are no Vec. *)
Fixpoint walk (t : etype) : option dtype :=
  match t with
  | TyVar x => Some (VariableT (PVar x))
  | TyCon ct k => Some (if ct then ConstantT k else VariableT (PCon k))
  | TyOther => None
  | TyBin op l r =>
      match walk l, walk r with
      | Some l', Some r' =>
          match op with
          | OTimes => Some (QuarternyT l r l' r' QTimes)
          | ODiv => Some (QuarternyT l r l' r' (if const_trait r then QDivideConst else QDivide))
          | OPlus => Some (BinaryT l' r' BPlus)
          | OMinus => Some (BinaryT l' r' BMinus)
          | _ => if cmp_trait op then Some (BinaryT l' r' (BCmp op)) else None
          end
      | _, _ => None
      end
  | TyUn (UFun FSin) e => match walk e with Some e' => Some (UnaryT e') | None => None end
  | TyUn _ _ => None
  end.

(** The vector a VarPointer points to (VarPointer.hpp 34-46, 104-116). *)
Definition ptr_slot (p : vptr) : nat := match p with PVar x => vslot x | PCon k => kslot k end.

(** getSize (DerivTypes.hpp 20-23, 48-51, 70-72, 94-97, 128-131). *)
Fixpoint tsize (w : world) (t : dtype) : Z :=
  match t with
  | QuarternyT _ _ l r _ | BinaryT l r _ => if tsize w r <? tsize w l then tsize w l else tsize w r
  | UnaryT e => tsize w e
  | VariableT p => sz (ob w (OD (ptr_slot p)))
  | ConstantT k => sz (ob w (OD (kslot k)))
  end.

(** Op::f of the traits (Core/Traits.hpp 45-48, 57-60, 69-72, 82-95, 105-118,
    144-151, 158-226). *)
Definition qop_f (lm : libm) (o : qop) : val -> val -> outcome val :=
  match o with QTimes => bin_f lm OTimes | QDivide | QDivideConst => bin_f lm ODiv end.
Definition bop_f (lm : libm) (o : bop) : val -> val -> outcome val :=
  match o with BPlus => bin_f lm OPlus | BMinus => bin_f lm OMinus | BCmp op => bin_f lm op end.

(** getVal (DerivTypes.hpp 25-27, 52-54, 73-75, 98-105, 133-140). *)
Fixpoint tval (lm : libm) (t : dtype) (i : Z) : M dworld val :=
  match t with
  | QuarternyT _ _ l r o => a <- tval lm l i ;; b <- tval lm r i ;; lift (qop_f lm o a b)
  | BinaryT l r o => a <- tval lm l i ;; b <- tval lm r i ;; lift (bop_f lm o a b)
  | UnaryT e => a <- tval lm e i ;; lift (sin_trait lm FSin a)
  | VariableT p => leaf_val (ptr_slot p) i
  | ConstantT k => leaf_val (kslot k) i
  end.

(** Op::fDeriv of the traits (Core/Traits.hpp 50-53, 62-65, 74-78, 97-102,
    120-124, 153-156, 168-227). *)
Definition qop_der (lm : libm) (o : qop) : val -> val -> val -> val -> outcome val :=
  match o with QTimes => times_der | QDivide => divide_der lm | QDivideConst => divide_const_der end.
Definition bop_der (o : bop) : val -> val -> outcome val :=
  match o with BPlus => plus_der | BMinus => minus_der | BCmp _ => cmp_der end.

(** IsConstant || IsVariableType (DerivTypes.hpp 77). *)
Definition leaf_type (t : dtype) : bool :=
  match t with VariableT _ | ConstantT _ => true | _ => false end.

(** getDeriv (DerivTypes.hpp 29-32, 55-57, 76-82, 106-109, 142-145; VarPointer.hpp
    146-184). *)
Fixpoint tder (lm : libm) (c : avconf) (t : dtype) (i : Z) : M dworld val :=
  match t with
  | QuarternyT _ _ l r o =>
      a <- tval lm l i ;; b <- tval lm r i ;;
      a' <- tder lm c l i ;; b' <- tder lm c r i ;; lift (qop_der lm o a b a' b')
  | BinaryT l r o => a <- tder lm c l i ;; b <- tder lm c r i ;; lift (bop_der o a b)
  | UnaryT e =>
      if leaf_type e then a <- tval lm e i ;; lift (sin_trait lm FCos a)
      else a <- tder lm c e i ;; lift (sin_trait lm FCos a)
  | VariableT (PVar x) => leaf_der c x i
  | VariableT (PCon _) | ConstantT _ => ret (VD fzero)
  end.

(** v = expression with the derivative type as the compiler makes it
    (AssignmentOperator.hpp 198-214).  Without one there is no program; the
    model throws. *)
Definition dassign_walk (lm : libm) (c : avconf) (x : dvar) (e : dexpr) : M dworld unit :=
  match walk (type_of e) with
  | None => throw (Ass "ill-formed program")
  | Some res =>
      d <- get ;;
      let n := esize (dw d) (to_expr e) in
      inw (resize (OT (vslot x)) n) ;;
      dfor n (fun i =>
        v <- inw (elem lm (to_expr e) i) ;;
        v' <- lift (cast TDouble v) ;;
        inw (set_at (OT (vslot x)) i v')) ;;
      inw (resize (OD (dslot x)) n) ;;
      d1 <- get ;;
      dfor (tsize (dw d1) res) (fun i => v <- tder lm c res i ;; der_wr x i v) ;;
      inw (any_resize (OD (vslot x)) n) ;;
      dfor n (fun i => v <- inw (get_at (OT (vslot x)) i) ;; buf_wr c (num x) i v) ;;
      dshape x (to_expr e)
  end.
