(** A larger language of programs against the library than that of ProgModel:
    besides its statements, matrices, matrix subsets, at() as an operand and as
    a target, length(), fill(), resize(), declarations from expressions, scalar
    variables computed at run time, and try/catch.  As in ProgModel every
    statement stands for the library calls the compiler makes of it; these are
    modelled in VecModel, SubsetModel and AllocModel. *)
From Coq Require Import ZArith List String Bool.
From Verif Require Import Base Num StoreModel VecModel SubsetModel AllocModel ProgModel.
Import ListNotations.
Open Scope Z_scope.

(** Expressions as written. (BinaryCalculations.hpp 149-,
    UnaryCalculations.hpp 82-, Vector/VectorClass.hpp 194-203,
    Subsetting/at.hpp, Helper.hpp 82-98.) *)
Inductive lexpr :=
| LVar (x : nat)
| LLit (v : val)
| LBin (op : binop) (l r : lexpr)
| LUn (op : unop) (e : lexpr)
| LSel (e : lexpr) (i : lindex)             (* subset(e, i) *)
| LSel2 (e : lexpr) (i j : lindex)          (* subset(e, i, j) *)
| LAt (x : nat) (i : pos)                   (* at(x, i) *)
| LAt2 (x : nat) (i j : pos)                (* at(x, i, j) *)
| LAtOf (e : lexpr) (i : pos)               (* at(e, i), e not a variable *)
| LAt2Of (e : lexpr) (i j : pos)
| LLen (e : lexpr)                          (* length(e) *)
with lindex :=
| LXB (b : bool)
| LXZ (z : Z)
| LXF (f : flt)
| LXV (t : ety) (e : lexpr).

(** Building the expression object.  subset() and subset() of a matrix compute
    their positions at once (VectorSubsetting.hpp 71-89, MatrixSubsetting.hpp
    575-596); at() and length() give scalars (at.hpp 17-134, Helper.hpp 82-98);
    operators refer to their operands. *)
Fixpoint lbuild (lm : libm) (w : world) (e : lexpr) : outcome expr :=
  match e with
  | LVar x => Done (EVar x)
  | LLit v => Done (ESca v)
  | LBin op l r => l' <-o lbuild lm w l ;; r' <-o lbuild lm w r ;; Done (EBin op l' r')
  | LUn op e => e' <-o lbuild lm w e ;; Done (EUn op e')
  | LSel e i => e' <-o lbuild lm w e ;; i' <-o lbuild_index lm w i ;; subset_vec lm w e' i'
  | LSel2 e i j =>
      e' <-o lbuild lm w e ;; i' <-o lbuild_index lm w i ;; j' <-o lbuild_index lm w j ;; subset_mat lm w e' i' j'
  | LAt x i => v <-o fst (at_vec x i w) ;; Done (ESca v)
  | LAt2 x i j => v <-o fst (at_mat x i j w) ;; Done (ESca v)
  | LAtOf e i => e' <-o lbuild lm w e ;; v <-o fst (at_expr lm e' i w) ;; Done (ESca v)
  | LAt2Of e i j => e' <-o lbuild lm w e ;; v <-o fst (at_mat_expr lm e' i j w) ;; Done (ESca v)
  | LLen e => e' <-o lbuild lm w e ;; Done (ESca (VI (to_int (esize w e'))))
  end
with lbuild_index (lm : libm) (w : world) (i : lindex) : outcome index :=
  match i with
  | LXB b => Done (IB b)
  | LXZ z => Done (IZ z)
  | LXF f => Done (IF f)
  | LXV t e => e' <-o lbuild lm w e ;; Done (IV t e')
  end.

(** Arguments of functions that make vectors. (Coca.hpp, Allocation/Rep.hpp,
    Allocation/Colon.hpp, Allocation/Vector.hpp, Allocation/Matrix.hpp.) *)
Inductive larg := LS (v : val) | LV (t : ety) (e : lexpr).
Definition lbuild_arg (lm : libm) (w : world) (a : larg) : outcome arg :=
  match a with
  | LS v => Done (AS v)
  | LV t e => e' <-o lbuild lm w e ;; Done (AV t e')
  end.
Definition larg_ty (a : larg) : ety := match a with LS v => ty_of v | LV t _ => t end.

(** Calls that make an r-value vector: those of ProgModel, matrix
    (Allocation/Matrix.hpp 31-105), isNA and isInf (Helper.hpp 36-80; [inf]
    tells which), dim (Helper.hpp 100-124). *)
Inductive lmaker :=
| LMVector (vt : ety) (a : larg)
| LMColon (a b : larg)
| LMRep (inp times : larg)
| LMCoca (args : list larg)
| LMMatrix (inp nrows ncols : larg)
| LMTest (inf : bool) (e : lexpr)
| LMDim (a : larg).
Definition lmake (lm : libm) (s : nat) (m : lmaker) : M world unit :=
  w <- get ;;
  match m with
  | LMVector vt a => a' <- lift (lbuild_arg lm w a) ;; vector_fn lm s vt a'
  | LMColon a b => a' <- lift (lbuild_arg lm w a) ;; b' <- lift (lbuild_arg lm w b) ;; colon_fn lm s a' b'
  | LMRep i t => i' <- lift (lbuild_arg lm w i) ;; t' <- lift (lbuild_arg lm w t) ;; rep_fn lm s i' t'
  | LMCoca args => args' <- lift (omap (lbuild_arg lm w) args) ;; coca_fn lm s args'
  | LMMatrix i r c =>
      i' <- lift (lbuild_arg lm w i) ;; r' <- lift (lbuild_arg lm w r) ;; c' <- lift (lbuild_arg lm w c) ;;
      matrix_fn lm s i' r' c'
  | LMTest inf e => e' <- lift (lbuild lm w e) ;; test_fn lm (if inf then is_inf else is_nan) s e'
  | LMDim a => a' <- lift (lbuild_arg lm w a) ;; dim_fn s a'
  end.
(** The element type of the result, known to the compiler. (common_type:
    Coca.hpp 29-72, Allocation/Colon.hpp 51, 69.) *)
Fixpoint lcoca_ty (args : list larg) : ety :=
  match args with
  | [] => TBool
  | [a] => larg_ty a
  | a :: r => common (larg_ty a) (lcoca_ty r)
  end.
Definition lmaker_ty (m : lmaker) : ety :=
  match m with
  | LMVector _ _ => TDouble
  | LMColon a b => common (larg_ty a) (larg_ty b)
  | LMRep i _ => larg_ty i
  | LMCoca args => lcoca_ty args
  | LMMatrix i _ _ => larg_ty i
  | LMTest _ _ => TBool
  | LMDim _ => TInt
  end.

(** Statements; [s] names a temporary. (Statements of user code, e.g.
    examples/bubblesort.cpp 4-21, examples/fibonacci.cpp.) *)
Inductive lstmt :=
| LSkip
| LAssign (x : nat) (e : lexpr)                                  (* x = e; *)
| LScalar (x : nat) (v : val)                                    (* x = v; *)
| LSub (s x : nat) (i : lindex) (same : bool) (e : lexpr)        (* subset(x, i) = e; *)
| LSubScalar (x : nat) (i : lindex) (v : val)                    (* subset(x, i) = v; *)
| LSub2 (s x : nat) (i j : lindex) (same : bool) (e : lexpr)     (* subset(x, i, j) = e; *)
| LSub2Scalar (x : nat) (i j : lindex) (v : val)                 (* subset(x, i, j) = v; *)
| LElem (x : nat) (k : Z) (v : val)                              (* x[k] = v; *)
| LAtSet (x : nat) (i : pos) (v : val)                           (* at(x, i) = v; *)
| LAt2Set (x : nat) (i j : pos) (v : val)                        (* at(x, i, j) = v; *)
| LFill (x : nat) (v : val)                                      (* x.fill(v); *)
| LResize (x : nat) (n : Z)                                      (* x.resize(n); *)
| LSeq (a b : lstmt)
| LIf (c : lexpr) (a b : lstmt)
| LWhile (c : lexpr) (a : lstmt)
| LScal (e : lexpr) (body : val -> lstmt)                        (* auto v = scalar(e); body(v) *)
| LFor (col : nat) (m : lmaker) (body : val -> lstmt)            (* for (auto v : m) body(v) *)
| LLet (x s : nat) (t : ety) (m : lmaker) (body : lstmt)         (* { Vec<t> x = m; body } *)
| LDecl (x : nat) (t : ety) (e : lexpr) (body : lstmt)           (* { Vec<t> x = e; body } *)
| LSized (x : nat) (t : ety) (n : Z) (body : lstmt)              (* { Vec<t> x(SI{n}); body } *)
| LTry (a b : lstmt).                                            (* try { a } catch (const std::runtime_error&) { b } *)

(** The lifetime of vector x ends with its scope. [std::bad_alloc]: nobody
    catches it, the program is terminated without leaving the scope (a choice
    C++ gives to the implementation; ProgModel.scope makes the other one).
    (Destructors: Core/BaseStore.hpp 236-246; conditions: Vector/VectorClass.hpp
    43-60.) *)
Definition lscope (x : nat) (m : M world bool) : M world bool := fun w =>
  match m w with
  | (Done true, w1) => (_ <- vec_end x ;; ret true) w1
  | (Thrown (Ass e), w1) => (_ <- vec_end x ;; throw (Ass e)) w1
  | r => r
  end.

Definition lcondition (lm : libm) (c : lexpr) : M world val :=
  w <- get ;; e <- lift (lbuild lm w c) ;; to_scalar lm e.

(** Vec::fill, Vec::resize (VectorClass.hpp 87-88). *)
Fixpoint lrun (N : nat) (lm : libm) (s : lstmt) : M world bool :=
  match s with
  | LSkip => ret true
  | LAssign x e => w <- get ;; e' <- lift (lbuild lm w e) ;; assign lm x e' ;; ret true
  | LScalar x v => assign_scalar x v ;; ret true
  | LSub s x i same e =>
      w <- get ;;
      i' <- lift (lbuild_index lm w i) ;;
      ind <- lift (calc_ind_vector lm w (esize w (EVar x)) i') ;;
      e' <- lift (lbuild lm w e) ;;
      assign_subset lm s x ind same e' ;; ret true
  | LSubScalar x i v =>
      w <- get ;;
      i' <- lift (lbuild_index lm w i) ;;
      ind <- lift (calc_ind_vector lm w (esize w (EVar x)) i') ;;
      assign_subset_scalar x ind v ;; ret true
  | LSub2 s x i j same e =>
      w <- get ;;
      i' <- lift (lbuild_index lm w i) ;;
      j' <- lift (lbuild_index lm w j) ;;
      p <- lift (calc_ind_matrix lm w (EVar x) i' j') ;;
      e' <- lift (lbuild lm w e) ;;
      assign_subset lm s x (fst p) same e' ;; ret true
  | LSub2Scalar x i j v =>
      w <- get ;;
      i' <- lift (lbuild_index lm w i) ;;
      j' <- lift (lbuild_index lm w j) ;;
      p <- lift (calc_ind_matrix lm w (EVar x) i' j') ;;
      assign_subset_scalar x (fst p) v ;; ret true
  | LElem x k v =>
      w <- get ;; v' <- lift (cast (sty (ob w (OD x))) v) ;; at_wr (OD x) (wrap64 k) v' ;; ret true
  | LAtSet x i v =>
      w <- get ;; v' <- lift (cast (sty (ob w (OD x))) v) ;; at_vec_set x i v' ;; ret true
  | LAt2Set x i j v =>
      w <- get ;; v' <- lift (cast (sty (ob w (OD x))) v) ;; at_mat_set x i j v' ;; ret true
  | LFill x v => fill (OD x) v ;; ret true
  | LResize x n => any_resize (OD x) (wrap64 n) ;; ret true
  | LSeq a b => andthen (lrun N lm a) (lrun N lm b)
  | LIf c a b => v <- lcondition lm c ;; if truth v then lrun N lm a else lrun N lm b
  | LWhile c a => rounds_of N (v <- lcondition lm c ;; ret (truth v)) (lrun N lm a)
  | LScal e body => v <- lcondition lm e ;; lrun N lm (body v)
  | LFor col m body =>
      lmake lm col m ;;
      lscope col (vs <- iterate_vec col ;; each vs (fun v => lrun N lm (body v)))
  | LLet x s t m body =>
      lmake lm s m ;; vec_steal x s t ;; vec_end s ;; lscope x (lrun N lm body)
  | LDecl x t e body =>
      w <- get ;; e' <- lift (lbuild lm w e) ;; vec_of_expr lm x t e' ;; lscope x (lrun N lm body)
  | LSized x t n body => vec_sized x t (wrap64 n) ;; lscope x (lrun N lm body)
  | LTry a b => fun w =>
      match lrun N lm a w with
      | (Thrown (Ass _), w1) => lrun N lm b w1
      | r => r
      end
  end.

(** The programs of ProgModel are among these. (Auxiliary: not code of
    /repo.) *)
Fixpoint of_pexpr (e : pexpr) : lexpr :=
  match e with
  | PVar x => LVar x
  | PLit v => LLit v
  | PBin op l r => LBin op (of_pexpr l) (of_pexpr r)
  | PUn op e => LUn op (of_pexpr e)
  | PSel e i => LSel (of_pexpr e) (of_pindex i)
  end
with of_pindex (i : pindex) : lindex :=
  match i with XB b => LXB b | XZ z => LXZ z | XF f => LXF f | XV t e => LXV t (of_pexpr e) end.
Definition of_parg (a : parg) : larg := match a with QS v => LS v | QV t e => LV t (of_pexpr e) end.
Definition of_maker (m : maker) : lmaker :=
  match m with
  | MVector vt a => LMVector vt (of_parg a)
  | MColon a b => LMColon (of_parg a) (of_parg b)
  | MRep i t => LMRep (of_parg i) (of_parg t)
  | MCoca args => LMCoca (map of_parg args)
  end.
Fixpoint of_stmt (s : stmt) : lstmt :=
  match s with
  | TSkip => LSkip
  | TAssign x e => LAssign x (of_pexpr e)
  | TScalar x v => LScalar x v
  | TSub s x i same e => LSub s x (of_pindex i) same (of_pexpr e)
  | TSubScalar x i v => LSubScalar x (of_pindex i) v
  | TAt x i v => LAtSet x i v
  | TSeq a b => LSeq (of_stmt a) (of_stmt b)
  | TIf c a b => LIf (of_pexpr c) (of_stmt a) (of_stmt b)
  | TWhile c a => LWhile (of_pexpr c) (of_stmt a)
  | TFor col m body => LFor col (of_maker m) (fun v => of_stmt (body v))
  | TLet x s t m body => LLet x s t (of_maker m) (of_stmt body)
  end.
