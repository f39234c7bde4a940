(** What expressions with names mean: a name stands for its expression. *)
From Coq Require Import ZArith List Bool.
From Verif Require Import Base Num StoreModel VecModel LifeModel.
Import ListNotations.

(** The expression with the names replaced. *)
Fixpoint expand (D : list expr) (s : src) : expr :=
  match s with
  | SVec x => EVar x
  | SName k => nth k D (EVar 0)
  | SLit v => ESca v
  | STmp t l m => ETmp t l m
  | SSub s ind m => ESub (expand D s) ind m
  | SBin op a b => EBin op (expand D a) (expand D b)
  | SUn op a => EUn op (expand D a)
  end.

(** Expressions that do not refer to temporaries: a value, or an operation or
    subset whose operands all have names. *)
Definition has_name (s : src) : bool := match s with SVec _ | SName _ => true | _ => false end.
Definition storable (s : src) : bool :=
  match s with
  | SLit _ | STmp _ _ _ => true
  | SSub a _ _ | SUn _ a => has_name a
  | SBin _ a b => has_name a && has_name b
  | SVec _ | SName _ => false
  end.

(** Names are used in their scope (n of them). *)
Fixpoint names_below (n : nat) (s : src) : Prop :=
  match s with
  | SName k => (k < n)%nat
  | SVec _ | SLit _ | STmp _ _ _ => True
  | SSub a _ _ | SUn _ a => names_below n a
  | SBin _ a b => names_below n a /\ names_below n b
  end.
(** All variables declared with auto are storable. *)
Fixpoint lasting (n : nat) (c : ystmt) : Prop :=
  match c with
  | YSkip => True
  | YAssign _ s => names_below n s
  | YAuto s b => names_below n s /\ storable s = true /\ lasting (S n) b
  | YSeq a b => lasting n a /\ lasting n b
  end.

(** The program with all names replaced by their expressions. *)
Fixpoint ymean (lm : libm) (c : ystmt) (D : list expr) : M world unit :=
  match c with
  | YSkip => ret tt
  | YAssign x s => assign lm x (expand D s)
  | YAuto s b => ymean lm b (D ++ [expand D s])
  | YSeq a b => ymean lm a D ;; ymean lm b D
  end.

(** Object k, if it is alive. *)
Fixpoint object (A : objects) (k : nat) : option node :=
  match A with
  | [] => None
  | a :: A' => if Nat.eqb k (length A') then a else object A' k
  end.

(** All that is reachable from r is alive, and amounts to the expression. *)
Inductive shows (A : objects) : ref -> expr -> Prop :=
| sh_var x : shows A (RVec x) (EVar x)
| sh_sca k v : object A k = Some (NSca v) -> shows A (RSca k) (ESca v)
| sh_buf k t l m : object A k = Some (NBuf t l m) -> shows A (RObj k) (ETmp t l m)
| sh_sub k r ind m e : object A k = Some (NSub r ind m) -> shows A r e -> shows A (RObj k) (ESub e ind m)
| sh_bin k op l r e f : object A k = Some (NBin op l r) -> shows A l e -> shows A r f -> shows A (RObj k) (EBin op e f)
| sh_un k op r e : object A k = Some (NUn op r) -> shows A r e -> shows A (RObj k) (EUn op e).

(** Every object refers to objects made before it. *)
Definition before (k : nat) (r : ref) : Prop := match r with RVec _ => True | RObj j | RSca j => (j < k)%nat end.
Definition node_before (k : nat) (n : node) : Prop :=
  match n with
  | NSca _ | NBuf _ _ _ => True
  | NSub r _ _ | NUn _ r => before k r
  | NBin _ l r => before k l /\ before k r
  end.
Definition grounded (A : objects) : Prop := forall k n, object A k = Some n -> node_before k n.

(** The four questions that the library asks an expression have the same answers. *)
Definition same_answers (lm : libm) (A : objects) (r : ref) (e : expr) : Prop := forall w : world,
  rsize A w r = Done (esize w e) /\ rim A w r = Done (eim w e) /\
  (forall pick, rdim pick A w r = edim pick w e) /\ (forall i, relem lm A r i w = elem lm e i w).
