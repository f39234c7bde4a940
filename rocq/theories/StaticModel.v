(** Element types as the compiler knows them.  The model carries the element
    type of a vector in its storage object and lets programs state the types
    of index expressions, arguments and declared vectors; here is how the
    compiler finds them. *)
From Coq Require Import ZArith List Bool.
From Verif Require Import Base Num StoreModel VecModel SubsetModel AllocModel LangModel.
Import ListNotations.
Open Scope Z_scope.

(** The first template argument of the Vec an expression is
    (ExtractDataType::RetType, Core/Types.hpp 30-38, VectorClass.hpp 20-54): an
    operator of two operands gives common_type of theirs, whatever it computes
    (BinaryCalculations.hpp 149-, also for comparisons, division and powers); a
    function or a sign keeps that of its operand (UnaryCalculations.hpp
    80-...); a subset has that of what it is made of (VectorSubsetting.hpp
    71-89, MatrixSubsetting.hpp 575-596).  For a scalar its own type. *)
Fixpoint styp (w : world) (e : expr) : ety :=
  match e with
  | EVar x => sty (ob w (OD x))
  | ETmp t _ _ => t
  | ESca v => ty_of v
  | ESub e _ _ => styp w e
  | EBin _ l r => common (styp w l) (styp w r)
  | EUn _ e => styp w e
  end.

(** The type coca takes for an argument (Coca.hpp 14-49): RetType of the type
    of its [d].  For a Buffer or a Borrow that is the element type
    (Core/Types.hpp 42-60), for a binary operation it is double (Concepts.hpp
    383-391, Traits.hpp 28-30), comparisons included: they have the default
    CTrait (BinaryCalculations.hpp 270-).  The other types have no
    ExtractDataType, a coca of them is no program; neither is a coca of an
    operation that is not const (Coca.hpp 115: operator[] of a Vec that is not
    const returns a reference). *)
Definition dtyp (w : world) (e : expr) : ety :=
  match e with EBin _ _ _ => TDouble | _ => styp w e end.

(** The same for an expression as written, the types of its vectors given by
    [G].  at() of a variable is a reference to an element (at.hpp 30-49,
    52-95), of anything else what Vec::operator[] returns (17-28, 97-134);
    length() is an int (Helper.hpp 82-98). *)
Definition lstored (e : lexpr) : bool :=
  match e with LBin _ _ _ | LUn _ _ | LSel _ _ | LSel2 _ _ _ => false | _ => true end.
Fixpoint ltyp (G : nat -> ety) (e : lexpr) : ety :=
  match e with
  | LVar x | LAt x _ | LAt2 x _ _ => G x
  | LLit v => ty_of v
  | LBin _ l r => common (ltyp G l) (ltyp G r)
  | LUn _ e | LSel e _ | LSel2 e _ _ => ltyp G e
  | LAtOf e _ | LAt2Of e _ _ => if lstored e then ltyp G e else TDouble
  | LLen _ => TInt
  end.
Definition ldtyp (G : nat -> ety) (e : lexpr) : ety :=
  match e with LBin _ _ _ => TDouble | _ => ltyp G e end.

(** The program states the types the compiler finds. (ExtractDataType,
    Core/Types.hpp 30-40.) *)
Fixpoint eannot (G : nat -> ety) (e : lexpr) : Prop :=
  match e with
  | LVar _ | LLit _ | LAt _ _ | LAt2 _ _ _ => True
  | LBin _ l r => eannot G l /\ eannot G r
  | LUn _ e | LAtOf e _ | LAt2Of e _ _ | LLen e => eannot G e
  | LSel e i => eannot G e /\ iannot G i
  | LSel2 e i j => eannot G e /\ iannot G i /\ iannot G j
  end
with iannot (G : nat -> ety) (i : lindex) : Prop :=
  match i with LXV t e => t = ltyp G e /\ eannot G e | _ => True end.
Definition aannot (G : nat -> ety) (a : larg) : Prop :=
  match a with LS _ => True | LV t e => t = ltyp G e /\ eannot G e end.
Definition cannot (G : nat -> ety) (a : larg) : Prop :=
  match a with LS _ => True | LV t e => t = ldtyp G e /\ eannot G e end.
Definition mannot (G : nat -> ety) (m : lmaker) : Prop :=
  match m with
  | LMVector _ a | LMDim a => aannot G a
  | LMColon a b | LMRep a b => aannot G a /\ aannot G b
  | LMCoca args => Forall (cannot G) args
  | LMMatrix a b c => aannot G a /\ aannot G b /\ aannot G c
  | LMTest _ e => eannot G e
  end.
Definition with_ty (G : nat -> ety) (x : nat) (t : ety) : nat -> ety := fun y => if Nat.eqb y x then t else G y.
Fixpoint annot (G : nat -> ety) (s : lstmt) : Prop :=
  match s with
  | LAssign _ e => eannot G e
  | LSub _ _ i _ e => iannot G i /\ eannot G e
  | LSubScalar _ i _ => iannot G i
  | LSub2 _ _ i j _ e => iannot G i /\ iannot G j /\ eannot G e
  | LSub2Scalar _ i j _ => iannot G i /\ iannot G j
  | LSeq a b | LTry a b => annot G a /\ annot G b
  | LIf c a b => eannot G c /\ annot G a /\ annot G b
  | LWhile c a => eannot G c /\ annot G a
  | LScal e body => eannot G e /\ forall v, annot G (body v)
  | LFor _ m body => mannot G m /\ forall v, annot G (body v)
  | LLet x _ t m body => t = lmaker_ty m /\ mannot G m /\ annot (with_ty G x t) body
  | LDecl x t e body => eannot G e /\ annot (with_ty G x t) body
  | LSized x t _ body => annot (with_ty G x t) body
  | _ => True
  end.
