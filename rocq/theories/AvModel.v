(** AllVars::initBuffer, initBorrow and initBorrowSEXP (Derivatives/AllVars.hpp
    39-68). *)
From Coq Require Import ZArith List String Bool.
From Verif Require Import Base Num StoreModel VecModel ForeignModel DerivModel.
Import ListNotations.
Open Scope Z_scope.

(** The lambda for one argument (Derivatives/AllVars.hpp 42-45, 52-55,
    62-65): [auto arg] is the copy [tmp] of the vector y; [this->varBuffer[idx]
    = arg] and so on; idx is below [n], the length of the array, or the access
    is undefined. The copy is destroyed also when the assignment throws. The
    objects of [vslot] are here [this->varBuffer[idx].d] and
    [this->varBuffer[idx].temp]. *)
Definition init_one (lm : libm) (k : kind) (n tmp idx y : nat) : M world unit :=
  vec_copy_any tmp y ;;
  fun w =>
    match (if (idx <? n)%nat then assign lm (vslot (DV k idx)) (EVar tmp) else undef UB_oob) w with
    | (Done _, w1) => vec_end tmp w1
    | (Thrown e, w1) => (vec_end tmp ;; throw e) w1
    | (Undef u, w1) => (Undef u, w1)
    end.

(** LoopVariadicT (Derivatives/AllVars.hpp 11-14): the arguments from the
    first to the last. *)
Fixpoint init_args (lm : libm) (k : kind) (n tmp idx : nat) (ys : list nat) : M world unit :=
  match ys with
  | [] => ret tt
  | y :: ys' => init_one lm k n tmp idx y ;; init_args lm k n tmp (S idx) ys'
  end.

(** The declaration of the variable v over varBuffer[idx] (VarPointer.hpp 14-30):
    v has a [temp] of its own, which is the object [OT (vslot x)] of
    DerivModel.v; varBuffer[idx].temp, which has no memory after the first
    assignment to varBuffer[idx], is not used any more. *)
Definition declare (x : dvar) : M world unit := ctor_default (OT (vslot x)) TDouble.
