(** Vocabulary of the properties of shapes of expressions. *)
From Coq Require Import ZArith List Bool.
From Verif Require Import Base Num StoreModel VecModel.
Import ListNotations.
Open Scope Z_scope.

(** Shape of a vector: rows and columns of a matrix, nothing for a plain vector. *)
Definition dims := option (Z * Z).
Definition dims_of (m : matpar) : dims := if ismat m then Some (rows m, cols m) else None.

(** Two shapes meet: the matrix wins over the plain vector, of two matrices the
    larger number of rows and the larger number of columns. *)
Definition join (a b : dims) : dims :=
  match a, b with
  | None, d => d
  | d, None => d
  | Some (r1, c1), Some (r2, c2) => Some (Z.max r1 r2, Z.max c1 c2)
  end.

(** Shape of the value of an expression when variable x has the shape [sh x];
    functions of one argument give a plain vector. *)
Fixpoint xdims (sh : nat -> dims) (e : expr) : dims :=
  match e with
  | EVar x => sh x
  | ETmp _ _ m | ESub _ _ m => dims_of m
  | ESca _ | EUn _ _ => None
  | EBin _ l r => join (xdims sh l) (xdims sh r)
  end.

(** The shape a vector of shape [old] has after it received a value of shape d:
    the shape of the value, when that is a matrix. *)
Definition received (d old : dims) : dims := match d with Some s => Some s | None => old end.

(** Shapes of the variables in a program state. *)
Definition dims_in (w : world) (x : nat) : dims := dims_of (mp (ob w (OD x))).
