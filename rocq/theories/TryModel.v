(** Derivative programs that catch the exceptions of the library. *)
From Verif Require Import Base Num StoreModel VecModel DerivModel.

(** Statements one after another; [try a catch (std::runtime_error &) b] around
    some of them.  Every assertion of the library throws std::runtime_error
    (Core/Utils.hpp 54-62; inside of R an Rcpp::exception); the assignments (Vector/AssignmentOperator.hpp
    172-233) catch nothing themselves, so that what they did before stays done.
    A failed new throws std::bad_alloc, which such a handler does not catch. *)
Inductive dprog :=
| PSkip
| PDo (s : dstmt)
| PSeq (a b : dprog)
| PTry (a b : dprog).

(** The handler goes on with the state the exception left behind
    (Vector/AssignmentOperator.hpp 172-233). *)
Fixpoint prun (lm : libm) (c : avconf) (p : dprog) : M dworld unit :=
  match p with
  | PSkip => ret tt
  | PDo s => dexec lm c s
  | PSeq a b => prun lm c a ;; prun lm c b
  | PTry a b => fun d =>
      match prun lm c a d with
      | (Thrown (Ass _), d') => prun lm c b d'
      | r => r
      end
  end.
