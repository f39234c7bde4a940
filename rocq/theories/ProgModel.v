(** Programs as they are written against the library: declarations of local
    vectors, assignments to vectors and subsets, if, while, and range-based for.
    The meaning of every statement is the sequence of library calls the C++
    compiler makes of it; the calls themselves are modelled in VecModel,
    SubsetModel and AllocModel.  C++ scalars (loop variables and literals) are
    values of the meta language. *)
From Coq Require Import ZArith List String Bool.
From Verif Require Import Base Num StoreModel VecModel SubsetModel AllocModel.
Import ListNotations.
Open Scope Z_scope.

(** Expressions as written: subset(e, i) with an index that may be computed.
    XV: the index is a vector or an expression with elements of type t.
    (Vector/VectorClass.hpp 194-203, Subsetting/VectorSubsetting.hpp 71-89.) *)
Inductive pexpr :=
| PVar (x : nat)
| PLit (v : val)
| PBin (op : binop) (l r : pexpr)
| PUn (op : unop) (e : pexpr)
| PSel (e : pexpr) (i : pindex)
with pindex :=
| XB (b : bool)
| XZ (z : Z)
| XF (f : flt)
| XV (t : ety) (e : pexpr).

(** Building the expression object: subset() computes its positions at once
    (VectorSubsetting.hpp 71-89), operators only refer to their operands
    (BinaryCalculations.hpp 149 ff.).  C++ leaves the order of the operands
    open; the model goes from left to right. *)
Fixpoint build (lm : libm) (w : world) (e : pexpr) : outcome expr :=
  match e with
  | PVar x => Done (EVar x)
  | PLit v => Done (ESca v)
  | PBin op l r => l' <-o build lm w l ;; r' <-o build lm w r ;; Done (EBin op l' r')
  | PUn op e => e' <-o build lm w e ;; Done (EUn op e')
  | PSel e i => e' <-o build lm w e ;; i' <-o build_index lm w i ;; subset_vec lm w e' i'
  end
with build_index (lm : libm) (w : world) (i : pindex) : outcome index :=
  match i with
  | XB b => Done (IB b)
  | XZ z => Done (IZ z)
  | XF f => Done (IF f)
  | XV t e => e' <-o build lm w e ;; Done (IV t e')
  end.

(** Arguments of functions that make vectors. (Coca.hpp, Allocation/Rep.hpp,
    Allocation/Colon.hpp.) *)
Inductive parg := QS (v : val) | QV (t : ety) (e : pexpr).
Definition build_arg (lm : libm) (w : world) (a : parg) : outcome arg :=
  match a with
  | QS v => Done (AS v)
  | QV t e => e' <-o build lm w e ;; Done (AV t e')
  end.

(** Calls that make an r-value vector: vector_numeric and the like
    (Allocation/Vector.hpp 9-104), colon (Colon.hpp 48-247), rep (Rep.hpp
    25-78), coca (Coca.hpp 83-131). *)
Inductive maker :=
| MVector (vt : ety) (a : parg)
| MColon (a b : parg)
| MRep (inp times : parg)
| MCoca (args : list parg).
Definition make (lm : libm) (s : nat) (m : maker) : M world unit :=
  w <- get ;;
  match m with
  | MVector vt a => a' <- lift (build_arg lm w a) ;; vector_fn lm s vt a'
  | MColon a b => a' <- lift (build_arg lm w a) ;; b' <- lift (build_arg lm w b) ;; colon_fn lm s a' b'
  | MRep i t => i' <- lift (build_arg lm w i) ;; t' <- lift (build_arg lm w t) ;; rep_fn lm s i' t'
  | MCoca args => args' <- lift (omap (build_arg lm w) args) ;; coca_fn lm s args'
  end.

(** Statements. [s] names the temporary subset of an assignment, or the
    r-value a vector is made of. (Statements of user code, e.g.
    examples/bubblesort.cpp 4-21.) *)
Inductive stmt :=
| TSkip
| TAssign (x : nat) (e : pexpr)                                  (* x = e; *)
| TScalar (x : nat) (v : val)                                    (* x = v; *)
| TSub (s x : nat) (i : pindex) (same : bool) (e : pexpr)        (* subset(x, i) = e; *)
| TSubScalar (x : nat) (i : pindex) (v : val)                    (* subset(x, i) = v; *)
| TAt (x : nat) (i : pos) (v : val)                              (* at(x, i) = v; *)
| TSeq (a b : stmt)
| TIf (c : pexpr) (a b : stmt)
| TWhile (c : pexpr) (a : stmt)
| TFor (col : nat) (m : maker) (body : val -> stmt)              (* for (auto i : m) body(i) *)
| TLet (x s : nat) (t : ety) (m : maker) (body : stmt).          (* { Vec<t> x = m; body } *)

(** A condition: the expression is converted to a scalar
    (VectorClass.hpp 43-54) and that to bool. *)
Definition condition (lm : libm) (c : pexpr) : M world bool :=
  w <- get ;; e <- lift (build lm w c) ;; v <- to_scalar lm e ;; ret (truth v).

(** The lifetime of vector x ends with its scope, whether it is left
    normally or by an exception; [false]: the execution is still within the
    scope. (Destructors: Core/BaseStore.hpp 236-246.) *)
Definition scope (x : nat) (m : M world bool) : M world bool := fun w =>
  match m w with
  | (Done true, w1) => (_ <- vec_end x ;; ret true) w1
  | (Done false, w1) => (Done false, w1)
  | (Thrown e, w1) => (_ <- vec_end x ;; throw e) w1
  | (Undef u, w1) => (Undef u, w1)
  end.

Definition andthen (a b : M world bool) : M world bool := r <- a ;; if r then b else ret false.

(** At most [k] rounds of a while loop. (User code, e.g.
    examples/bubblesort.cpp 10-20.) *)
Fixpoint rounds_of (k : nat) (cond : M world bool) (body : M world bool) : M world bool :=
  match k with
  | O => ret false
  | S k' => b <- cond ;; if b then andthen body (rounds_of k' cond body) else ret true
  end.

(** Range-based for. Simplification as in BubbleModel: the elements are read
    before the first round; the temporary has no name the body could use.
    (Iterators: Core/BaseStore.hpp 309-310, Core/Utils.hpp 47-52.) *)
Fixpoint each (vs : list val) (body : val -> M world bool) : M world bool :=
  match vs with [] => ret true | v :: r => andthen (body v) (each r body) end.

(** Execution with at most N rounds of every while loop; the result tells
    whether the statement has ended. (User code over the library; see stmt.) *)
Fixpoint run (N : nat) (lm : libm) (s : stmt) : M world bool :=
  match s with
  | TSkip => ret true
  | TAssign x e => w <- get ;; e' <- lift (build lm w e) ;; assign lm x e' ;; ret true
  | TScalar x v => assign_scalar x v ;; ret true
  | TSub s x i same e =>
      w <- get ;;
      i' <- lift (build_index lm w i) ;;
      ind <- lift (calc_ind_vector lm w (esize w (EVar x)) i') ;;
      e' <- lift (build lm w e) ;;
      assign_subset lm s x ind same e' ;; ret true
  | TSubScalar x i v =>
      w <- get ;;
      i' <- lift (build_index lm w i) ;;
      ind <- lift (calc_ind_vector lm w (esize w (EVar x)) i') ;;
      assign_subset_scalar x ind v ;; ret true
  | TAt x i v =>
      w <- get ;; v' <- lift (cast (sty (ob w (OD x))) v) ;; at_vec_set x i v' ;; ret true
  | TSeq a b => andthen (run N lm a) (run N lm b)
  | TIf c a b => r <- condition lm c ;; if r then run N lm a else run N lm b
  | TWhile c a => rounds_of N (condition lm c) (run N lm a)
  | TFor col m body =>
      make lm col m ;;
      scope col (vs <- iterate_vec col ;; each vs (fun v => run N lm (body v)))
  | TLet x s t m body =>
      make lm s m ;; vec_steal x s t ;; vec_end s ;; scope x (run N lm body)
  end.

(** examples/fibonacci.cpp 4-14 for n elements (the example has n = 20).  The
    file uses the names `vector` and `subassign`, which the library does not
    have; they are read as vector_numeric and subset.  [rest]: what follows,
    in the example the call of print. *)
Definition fibonacci (res s col s2 : nat) (same : bool) (n : Z) (rest : stmt) : stmt :=
  TLet res s TDouble (MVector TDouble (QS (VI n)))
    (TSeq (TSubScalar res (XZ 1) (VI 1))
    (TSeq (TSubScalar res (XZ 2) (VI 1))
    (TSeq (TFor col (MColon (QS (VI 3)) (QS (VI n))) (fun v =>
             match v with
             | VI i => TSub s2 res (XZ i) same
                 (PBin OPlus (PSel (PVar res) (XZ (i - 1))) (PSel (PVar res) (XZ (i - 2))))
             | _ => TSkip      (* never: colon of two ints has int elements *)
             end))
    rest))).
