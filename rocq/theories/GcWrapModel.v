(** Functions that use the memory of R objects, and R programs that call them,
    under R's garbage collector. *)
From Coq Require Import ZArith List String Bool.
From Verif Require Import Base Num StoreModel VecModel SubsetModel AllocModel ProgModel LangModel OutModel ForeignModel CallModel JumpModel RgcModel GcCallModel WrapCallModel.
Import ListNotations.
Open Scope Z_scope.

(** WrapCallModel.wcall, the conversion of the result with the collector: a
    wrapping parameter holds a pointer into the memory of an R object, which R's
    collector knows nothing about. (Constructors.hpp 44-48, 115, Core/BorrowSEXP.hpp
    34-71, AssignmentOperator.hpp 244-247, SEXPConversions.hpp 38-129.) *)
Fixpoint wcall_g (G : collector) (N : nat) (lm : libm) (ps : list wparam) (b : jstmt) : M rworld flow :=
  match ps with
  | [] => jrun_g G N lm b
  | mkW ByCopy p :: ps' =>
      inw (vec_default (p_name p) (p_type p)) ;;
      jscope_g (p_name p) (inw (assign_R (p_name p) (p_obj p)) ;; wcall_g G N lm ps' b)
  | mkW ByWrap p :: ps' =>
      inw (vec_wrap (p_name p) (p_obj p)) ;;
      jscope_g (p_name p) (wcall_g G N lm ps' b)
  end.

(** R programs as GcCallModel.rprog, whose functions may wrap their arguments.
    (Auxiliary: not code of /repo.) *)
Inductive wprog :=
| YEnd
| YCall (ps : list wparam) (b : jstmt) (k : option robj -> wprog)
| YMake (t : ety) (vs : list val) (d : option (Z * Z)) (k : robj -> wprog)
| YLook (o : robj) (k : list (option val) -> wprog)
| YForget (keep : nat -> bool) (n : nat) (k : wprog).

(** Running it if R never frees anything, and with a collector: see run_r and
    run_r_g. (Auxiliary.) *)
Fixpoint run_w (N : nat) (lm : libm) (p : wprog) (w : world) : (unit + outcome flow) * world :=
  match p with
  | YEnd => (inl tt, w)
  | YCall ps b k =>
      match wcall N lm ps b w with
      | (Done (Gave o), w') => run_w N lm (k (Some o)) w'
      | (Thrown (Ass _), w') => run_w N lm (k None) w'
      | (r, w') => (inr r, w')
      end
  | YMake t vs d k =>
      match r_make t vs d w with
      | (Done o, w') => run_w N lm (k o) w'
      | (Thrown e, w') => (inr (Thrown e), w')
      | (Undef u, w') => (inr (Undef u), w')
      end
  | YLook o k => run_w N lm (k (r_cells w o)) w
  | YForget _ _ k => run_w N lm k w
  end.
Fixpoint run_w_g (G : collector) (N : nat) (lm : libm) (p : wprog) (s : rworld) : (unit + outcome flow) * rworld :=
  match p with
  | YEnd => (inl tt, s)
  | YCall ps b k =>
      match wcall_g G N lm ps b s with
      | (Done (Gave o), s') => run_w_g G N lm (k (Some o)) (gained s' o)
      | (Thrown (Ass _), s') => run_w_g G N lm (k None) s'
      | (r, s') => (inr r, s')
      end
  | YMake t vs d k =>
      match r_make_g G t vs d s with
      | (Done o, s') => run_w_g G N lm (k o) (gained s' o)
      | (Thrown e, s') => (inr (Thrown e), s')
      | (Undef u, s') => (inr (Undef u), s')
      end
  | YLook o k => run_w_g G N lm (k (r_cells (rw s) o)) s
  | YForget keep n k => run_w_g G N lm k (mkRW (rw s) (skipn n (pstk s)) (fun a => keep a && root s a))
  end.
