(** Functions called from R whose bodies leave loops and scopes by return,
    break and continue at any depth. *)
From Coq Require Import ZArith List String Bool.
From Verif Require Import Base Num StoreModel VecModel SubsetModel AllocModel ProgModel LangModel OutModel ForeignModel CallModel.
Import ListNotations.
Open Scope Z_scope.

(** Where a statement that has been executed goes on: after it, behind the
    loop, at the next round of the loop, at the caller with a result; [More]:
    it is still running. (Jump statements of C++.) *)
Inductive flow := Next | Broke | Again | Gave (o : robj) | More.

(** Statements of a function with result type SEXP; those of LangModel are the
    ones that contain no jump. (README.md and examples: functions of the user;
    return cpp2R(e): SEXPConversions.hpp 38-129.) *)
Inductive jstmt :=
| JDo (p : lstmt)                                                (* p *)
| JBreak | JContinue                                             (* break; continue; *)
| JRet (t : ety) (e : lexpr)                                     (* return cpp2R(e); *)
| JSeq (a b : jstmt)
| JIf (c : lexpr) (a b : jstmt)
| JWhile (c : lexpr) (a : jstmt)
| JScal (e : lexpr) (body : val -> jstmt)                        (* auto v = scalar(e); body(v) *)
| JFor (col : nat) (m : lmaker) (body : val -> jstmt)            (* for (auto v : m) body(v) *)
| JLet (x s : nat) (t : ety) (m : lmaker) (body : jstmt)         (* { Vec<t> x = m; body } *)
| JDecl (x : nat) (t : ety) (e : lexpr) (body : jstmt)           (* { Vec<t> x = e; body } *)
| JTry (a b : jstmt).                                            (* try { a } catch (const std::runtime_error&) { b } *)

(** The vector is destroyed whichever way its scope is left; otherwise as
    LangModel.lscope. (Destructors: Core/BaseStore.hpp 236-246.) *)
Definition jscope (x : nat) (m : M world flow) : M world flow := fun w =>
  match m w with
  | (Done More, w1) => (Done More, w1)
  | (Done f, w1) => (_ <- vec_end x ;; ret f) w1
  | (Thrown (Ass e), w1) => (_ <- vec_end x ;; throw (Ass e)) w1
  | r => r
  end.

(** The second statement is executed if the first one comes to its end. (User
    code.) *)
Definition jthen (a b : M world flow) : M world flow :=
  f <- a ;; match f with Next => b | _ => ret f end.
(** What a round of a loop says about the loop: break and continue end here.
    (User code: loops as in examples/bubblesort.cpp 6-20.) *)
Definition jround (f : flow) (next : M world flow) : M world flow :=
  match f with
  | Next | Again => next
  | Broke => ret Next
  | Gave o => ret (Gave o)
  | More => ret More
  end.
Fixpoint jrounds (k : nat) (cond : M world bool) (body : M world flow) : M world flow :=
  match k with
  | O => ret More
  | S k' => b <- cond ;; if b then f <- body ;; jround f (jrounds k' cond body) else ret Next
  end.
(** Range-based for, with the simplification of ProgModel.each. (Iterators:
    Core/BaseStore.hpp 309-310, Core/Utils.hpp 47-52.) *)
Fixpoint jeach (vs : list val) (body : val -> M world flow) : M world flow :=
  match vs with [] => ret Next | v :: r => f <- body v ;; jround f (jeach r body) end.

(** Execution with at most N rounds of every while loop. (cpp2R:
    SEXPConversions.hpp 38-129; the locals are destroyed after the result has
    been made.) *)
Fixpoint jrun (N : nat) (lm : libm) (s : jstmt) : M world flow :=
  match s with
  | JDo p => r <- lrun N lm p ;; ret (if r then Next else More)
  | JBreak => ret Broke
  | JContinue => ret Again
  | JRet t e => w <- get ;; e' <- lift (lbuild lm w e) ;; o <- cpp2R lm t e' ;; ret (Gave o)
  | JSeq a b => jthen (jrun N lm a) (jrun N lm b)
  | JIf c a b => v <- lcondition lm c ;; if truth v then jrun N lm a else jrun N lm b
  | JWhile c a => jrounds N (v <- lcondition lm c ;; ret (truth v)) (jrun N lm a)
  | JScal e body => v <- lcondition lm e ;; jrun N lm (body v)
  | JFor col m body =>
      lmake lm col m ;;
      jscope col (vs <- iterate_vec col ;; jeach vs (fun v => jrun N lm (body v)))
  | JLet x s t m body =>
      lmake lm s m ;; vec_steal x s t ;; vec_end s ;; jscope x (jrun N lm body)
  | JDecl x t e body =>
      w <- get ;; e' <- lift (lbuild lm w e) ;; vec_of_expr lm x t e' ;; jscope x (jrun N lm body)
  | JTry a b => fun w =>
      match jrun N lm a w with
      | (Thrown (Ass _), w1) => jrun N lm b w1
      | r => r
      end
  end.

(** A call, as CallModel.call. [Done Next]: the function came to its end
    without return, which is undefined in C++ (the value is used). (Constructors.hpp
    115, AssignmentOperator.hpp 244-247, BaseStore.hpp 188-234.) *)
Fixpoint jcall (N : nat) (lm : libm) (ps : list param) (b : jstmt) : M world flow :=
  match ps with
  | [] => jrun N lm b
  | p :: ps' =>
      vec_default (p_name p) (p_type p) ;;
      jscope (p_name p) (assign_R (p_name p) (p_obj p) ;; jcall N lm ps' b)
  end.

(** The functions of CallModel are among these. (Auxiliary: not code of
    /repo.) *)
Fixpoint of_fbody (b : fbody) : jstmt :=
  match b with
  | FRet t e => JRet t e
  | FDo p k => JSeq (JDo p) (of_fbody k)
  | FIf c a b => JIf c (of_fbody a) (of_fbody b)
  | FScal e body => JScal e (fun v => of_fbody (body v))
  | FLet x s t m k => JLet x s t m (of_fbody k)
  | FDecl x t e k => JDecl x t e (of_fbody k)
  end.
