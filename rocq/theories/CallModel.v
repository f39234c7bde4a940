(** Functions called from R: parameters are vectors that copy R objects, the
    body is a program of LangModel, and the result goes back to R. *)
From Coq Require Import ZArith List String Bool.
From Verif Require Import Base Num StoreModel VecModel SubsetModel AllocModel ProgModel LangModel OutModel ForeignModel.
Import ListNotations.
Open Scope Z_scope.

(** The body of a function with result type SEXP. (README.md, examples:
    functions of the user that end with return cpp2R(e), SEXPConversions.hpp
    38-129.) *)
Inductive fbody :=
| FRet (t : ety) (e : lexpr)                                     (* return cpp2R(e); *)
| FDo (p : lstmt) (k : fbody)                                    (* p k *)
| FIf (c : lexpr) (a b : fbody)                                  (* if (c) { a } else { b } *)
| FScal (e : lexpr) (body : val -> fbody)                        (* auto v = scalar(e); body(v) *)
| FLet (x s : nat) (t : ety) (m : lmaker) (k : fbody)            (* Vec<t> x = m; k *)
| FDecl (x : nat) (t : ety) (e : lexpr) (k : fbody).             (* Vec<t> x = e; k *)

(** The lifetime of vector x, as LangModel.lscope; [None]: the function is
    still running. (Destructors: Core/BaseStore.hpp 236-246.) *)
Definition lifetime (x : nat) (m : M world (option robj)) : M world (option robj) := fun w =>
  match m w with
  | (Done (Some o), w1) => (_ <- vec_end x ;; ret (Some o)) w1
  | (Thrown (Ass e), w1) => (_ <- vec_end x ;; throw (Ass e)) w1
  | r => r
  end.

(** cpp2R: SEXPConversions.hpp 38-129.  The locals are destroyed after the
    result has been made. *)
Fixpoint frun (N : nat) (lm : libm) (b : fbody) : M world (option robj) :=
  match b with
  | FRet t e => w <- get ;; e' <- lift (lbuild lm w e) ;; o <- cpp2R lm t e' ;; ret (Some o)
  | FDo p k => r <- lrun N lm p ;; if r then frun N lm k else ret None
  | FIf c a b => v <- lcondition lm c ;; if truth v then frun N lm a else frun N lm b
  | FScal e body => v <- lcondition lm e ;; frun N lm (body v)
  | FLet x s t m k => lmake lm s m ;; vec_steal x s t ;; vec_end s ;; lifetime x (frun N lm k)
  | FDecl x t e k => w <- get ;; e' <- lift (lbuild lm w e) ;; vec_of_expr lm x t e' ;; lifetime x (frun N lm k)
  end.

(** A call: every parameter is a vector made without elements (Constructors.hpp
    115) to which the R object is assigned (AssignmentOperator.hpp 244-247,
    BaseStore.hpp 188-234):  Vec<t> x; x = r; *)
Record param := mkP { p_name : nat; p_type : ety; p_obj : robj }.
Fixpoint call (N : nat) (lm : libm) (ps : list param) (b : fbody) : M world (option robj) :=
  match ps with
  | [] => frun N lm b
  | p :: ps' =>
      vec_default (p_name p) (p_type p) ;;
      lifetime (p_name p) (assign_R (p_name p) (p_obj p) ;; call N lm ps' b)
  end.
