(** Outcomes of C++ calls and the state monad used by the whole model.

    Exceptions come from [ass] (include/etr_bits/Core/Utils.hpp 54-62) and from
    a failing [new]; undefined behaviour is a third kind of outcome and never
    becomes a value. *)
From Coq Require Import ZArith List String Bool.
Import ListNotations.
Open Scope Z_scope.

(** Kinds of undefined behaviour (C++20) that the modelled code can reach.
    Auxiliary to the whole model: not code of /repo.  E.g. null pointers and
    reads beyond a block of Core/BaseStore.hpp 281-293, int overflow of
    Core/BaseStore.hpp 295-307, casts of Core/Utils.hpp 37. *)
Inductive ub :=
| UB_oob            (* access outside an array *)
| UB_null           (* access through nullptr *)
| UB_freed          (* access to a block after delete[] *)
| UB_double_free    (* delete[] of a block already deleted *)
| UB_foreign_free   (* delete[] of memory not obtained from new[] *)
| UB_uninit         (* read of an indeterminate value *)
| UB_overflow       (* signed integer overflow *)
| UB_cast           (* floating to integer conversion out of range *)
| UB_div0           (* integer division / remainder by zero *)
| UB_mutex.         (* destroying a locked mutex *)

(** Exceptions: [ass(false, msg)] (Utils.hpp 54-62) and std::bad_alloc. *)
Inductive exn :=
| Ass (msg : string)
| BadAlloc.

Inductive outcome (A : Type) :=
| Done (a : A)
| Thrown (e : exn)
| Undef (u : ub).
Arguments Done {A} a.
Arguments Thrown {A} e.
Arguments Undef {A} u.

(** Pure computations that may throw or be undefined. Auxiliary: sequencing
    of C++ expressions that may throw (ass, Core/Utils.hpp 54-62). *)
Definition obind {A B} (m : outcome A) (f : A -> outcome B) : outcome B :=
  match m with
  | Done a => f a
  | Thrown e => Thrown e
  | Undef u => Undef u
  end.

(** A method call: the state is kept when an exception leaves the method.
    Auxiliary: [throw] is ass(false, message) (Core/Utils.hpp 54-62). *)
Definition M (W A : Type) := W -> outcome A * W.

Definition ret {W A} (a : A) : M W A := fun w => (Done a, w).
Definition throw {W A} (e : exn) : M W A := fun w => (Thrown e, w).
Definition undef {W A} (u : ub) : M W A := fun w => (Undef u, w).
Definition bind {W A B} (m : M W A) (f : A -> M W B) : M W B :=
  fun w =>
    match m w with
    | (Done a, w') => f a w'
    | (Thrown e, w') => (Thrown e, w')
    | (Undef u, w') => (Undef u, w')
    end.
Definition get {W} : M W W := fun w => (Done w, w).
Definition lift {W A} (o : outcome A) : M W A := fun w => (o, w).

(** Core/Utils.hpp 54-62: [ass(inp, message)]. *)
Definition ass {W} (b : bool) (msg : string) : M W unit :=
  if b then ret tt else throw (Ass msg).

Declare Scope monad_scope.
Delimit Scope monad_scope with monad.
Notation "x <- m ;; f" := (bind m (fun x => f))
  (at level 61, m at next level, right associativity) : monad_scope.
Notation "m ;; f" := (bind m (fun _ => f))
  (at level 61, right associativity) : monad_scope.
Notation "x <-o m ;; f" := (obind m (fun x => f))
  (at level 61, m at next level, right associativity) : monad_scope.
Open Scope monad_scope.

(** [for (std::size_t i = i0; i < i0 + n; i++) body(i)]. Auxiliary: the
    loops of the library, e.g. Core/BaseStore.hpp 107-109. *)
Fixpoint forN {W} (n : nat) (i : Z) (body : Z -> M W unit) : M W unit :=
  match n with
  | O => ret tt
  | S k => bind (body i) (fun _ => forN k (i + 1) body)
  end.

(** The same loop collecting one value per iteration, without state.
    Auxiliary, e.g. for the loops of Subsetting/VectorSubsetting.hpp 42-58. *)
Fixpoint omap {A B} (f : A -> outcome B) (l : list A) : outcome (list B) :=
  match l with
  | [] => Done []
  | a :: l' => b <-o f a ;; bs <-o omap f l' ;; Done (b :: bs)
  end.

(** size_t arithmetic: values are kept in [0, 2^64). The size_t members:
    Core/BaseStore.hpp 16-17. *)
Definition size_max : Z := 2 ^ 64.
Definition wrap64 (z : Z) : Z := z mod 2 ^ 64.
(** [int] range. E.g. the int variables of Core/BaseStore.hpp 295-307,
    331-348. *)
Definition int_min : Z := - 2 ^ 31.
Definition int_max : Z := 2 ^ 31 - 1.
Definition in_int (z : Z) : bool := (int_min <=? z) && (z <=? int_max).
(** Conversion of an integer value to [int] (C++20: modulo 2^32). E.g.
    Core/BaseStore.hpp 298-299. *)
Definition to_int (z : Z) : Z :=
  let r := z mod 2 ^ 32 in if r <? 2 ^ 31 then r else r - 2 ^ 32.
(** Result of an [int] operation: overflow is undefined. E.g.
    Core/BaseStore.hpp 331-348. *)
Definition int_res (z : Z) : outcome Z := if in_int z then Done z else Undef UB_overflow.
