(** Functions called from R some of whose parameters use the memory of their R
    objects instead of a copy. *)
From Coq Require Import ZArith List String Bool.
From Verif Require Import Base Num StoreModel VecModel SubsetModel AllocModel ProgModel LangModel OutModel ForeignModel CallModel JumpModel.
Import ListNotations.
Open Scope Z_scope.

(** How a parameter gets its R object:  Vec<t> x; x = r;  (Constructors.hpp 115,
    AssignmentOperator.hpp 244-247) or  Vec<double, BorrowSEXP<double>> x(r);
    (Constructors.hpp 44-48, Core/BorrowSEXP.hpp 34-71). *)
Inductive how := ByCopy | ByWrap.
Record wparam := mkW { w_how : how; w_par : param }.

(** A call, as JumpModel.jcall.  When the constructor of a wrapping parameter
    throws the parameter has not come to life, and those before it are destroyed.
    (Constructors.hpp 44-48, 115, Core/BorrowSEXP.hpp 34-71, AssignmentOperator.hpp
    244-247, BaseStore.hpp 188-234.) *)
Fixpoint wcall (N : nat) (lm : libm) (ps : list wparam) (b : jstmt) : M world flow :=
  match ps with
  | [] => jrun N lm b
  | mkW ByCopy p :: ps' =>
      vec_default (p_name p) (p_type p) ;;
      jscope (p_name p) (assign_R (p_name p) (p_obj p) ;; wcall N lm ps' b)
  | mkW ByWrap p :: ps' =>
      vec_wrap (p_name p) (p_obj p) ;;
      jscope (p_name p) (wcall N lm ps' b)
  end.
