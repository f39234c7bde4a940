(** The example program examples/bubblesort.cpp. *)
From Coq Require Import ZArith List String Bool.
From Verif Require Import Base Num StoreModel VecModel SubsetModel AllocModel.
Import ListNotations.
Open Scope Z_scope.

(** Local vectors xs end with their scope, whether or not it is left by an
    exception. (examples/bubblesort.cpp 4-7: size, temp, swapped.) *)
Fixpoint ends (xs : list nat) : M world unit :=
  match xs with [] => ret tt | x :: r => vec_end x ;; ends r end.
Definition locals {A} (xs : list nat) (m : M world A) : M world A := fun w =>
  match m w with
  | (Done a, w1) => (_ <- ends xs ;; ret a) w1
  | (Thrown e, w1) => (_ <- ends xs ;; throw e) w1
  | (Undef u, w1) => (Undef u, w1)
  end.

(** arr(i) as a right-hand side: operator() makes the subset (subset_vec).
    (examples/bubblesort.cpp 13-16; Vector/VectorClass.hpp 194-203.) *)
Definition at_i (lm : libm) (arr : nat) (i : flt) : M world expr :=
  w <- get ;; lift (subset_vec lm w (EVar arr) (IF i)).
(** arr(i) = e; [same]: the right-hand side is a subset, too.
    (examples/bubblesort.cpp 15-16.) *)
Definition set_i (lm : libm) (s arr : nat) (i : flt) (same : bool) (e : expr) : M world unit :=
  w <- get ;;
  ind <- lift (calc_ind_vector lm w (esize w (EVar arr)) (IF i)) ;;
  assign_subset lm s arr ind same e.

(** Lines 12-18: the body of the for loop.  [if] converts the comparison to a
    scalar (VectorClass.hpp 43-54). *)
Definition bs_body (lm : libm) (arr temp swapped s : nat) (i : flt) : M world unit :=
  l <- at_i lm arr i ;;
  r <- at_i lm arr (fadd i fone) ;;
  c <- to_scalar lm (EBin OGt l r) ;;
  if truth c then
    e <- at_i lm arr i ;; assign lm temp e ;;
    e <- at_i lm arr (fadd i fone) ;; set_i lm s arr i true e ;;
    set_i lm s arr (fadd i fone) false (EVar temp) ;;
    assign_scalar swapped (VB true)
  else ret tt.

(** Range-based for over the elements of the temporary colon(1, size - 1).
    Simplification: its elements are read before the first round; the body does
    not touch it. (examples/bubblesort.cpp 12.) *)
Fixpoint for_each (vs : list val) (body : flt -> M world unit) : M world unit :=
  match vs with [] => ret tt | v :: r => body (v2f v) ;; for_each r body end.

(** Lines 10-19: one round of the do loop. (examples/bubblesort.cpp.) *)
Definition bs_round (lm : libm) (arr size temp swapped col s : nat) : M world unit :=
  assign_scalar swapped (VB false) ;;
  colon_fn lm col (AS (VI 1)) (AV TDouble (EBin OMinus (EVar size) (ESca (VI 1)))) ;;
  locals [col] (vs <- iterate_vec col ;; for_each vs (bs_body lm arr temp swapped s)).

(** do ... while (swapped), for at most [fuel] rounds; the result tells
    whether the loop has ended. (examples/bubblesort.cpp 10, 20.) *)
Fixpoint do_while (fuel : nat) (round : M world unit) (cond : M world bool) : M world bool :=
  match fuel with
  | O => ret false
  | S k => round ;; b <- cond ;; if b then do_while k round cond else ret true
  end.

(** bs (examples/bubblesort.cpp 4-21): arr is the argument; size, temp,
    swapped, col and s name the local vectors, the temporary of the for loop and
    the temporaries arr(i). *)
Definition bs (lm : libm) (arr size temp swapped col s : nat) (fuel : nat) : M world bool :=
  vec_default size TDouble ;; vec_default temp TDouble ;; vec_default swapped TDouble ;;
  locals [swapped; temp; size]
    (w <- get ;;
     assign_scalar size (VI (length_fn w (AV TDouble (EVar arr)))) ;;
     assign_scalar swapped (VB true) ;;
     do_while fuel (bs_round lm arr size temp swapped col s)
       (v <- to_scalar lm (EVar swapped) ;; ret (truth v))).
