(** Programs on matrices of doubles, as a user of the library writes them, and
    what they are to compute. *)
From Coq Require Import ZArith List Reals.
From Verif Require Import Base Num FloatBridge StoreModel VecModel SubsetModel AllocModel ProgModel LangModel.
Import ListNotations.
Open Scope Z_scope.

(** for (auto i : colon(1, n)) body(i) *)
Definition for_range (col : nat) (n : Z) (body : Z -> lstmt) : lstmt :=
  LFor col (LMColon (LS (VI 1)) (LS (VI n))) (fun v => match v with VI i => body i | _ => LSkip end).

(** Vec<double> y = matrix(0.0, m, n);
    for (auto i : colon(1, n)) for (auto j : colon(1, m)) at(y, j, i) = at(x, i, j);
    rest *)
Definition transpose (y s c1 c2 x : nat) (n m : Z) (rest : lstmt) : lstmt :=
  LLet y s TDouble (LMMatrix (LS (VD fzero)) (LS (VI m)) (LS (VI n)))
    (LSeq (for_range c1 n (fun i => for_range c2 m (fun j =>
             LScal (LAt2 x (PZ i) (PZ j)) (fun v => LAt2Set y (PZ j) (PZ i) v))))
          rest).

(** Vec<double> z = matrix(0.0, n, m);
    for (auto i : colon(1, n)) for (auto j : colon(1, m)) for (auto k : colon(1, p))
      at(z, i, j) = at(z, i, j) + at(x, i, k) * at(y, k, j);
    rest *)
Definition matmul (z s c1 c2 c3 x y : nat) (n p m : Z) (rest : lstmt) : lstmt :=
  LLet z s TDouble (LMMatrix (LS (VD fzero)) (LS (VI n)) (LS (VI m)))
    (LSeq (for_range c1 n (fun i => for_range c2 m (fun j => for_range c3 p (fun k =>
             LScal (LBin OPlus (LAt2 z (PZ i) (PZ j)) (LBin OTimes (LAt2 x (PZ i) (PZ k)) (LAt2 y (PZ k) (PZ j))))
               (fun v => LAt2Set z (PZ i) (PZ j) v)))))
          rest).

(** Element (i, j), counted from 0, of a matrix with nr rows: columns one after
    the other. *)
Definition entry (l : list flt) (nr i j : nat) : flt := nth (j * nr + i) l fzero.

(** The first k terms of row i of x times column j of y, added from left to
    right with rounding. *)
Fixpoint dot (lx ly : list flt) (n p i j k : nat) : flt :=
  match k with
  | O => fzero
  | S k' => fadd (dot lx ly n p i j k') (fmul (entry lx n i k') (entry ly p k' j))
  end.
(** The same with integers. *)
Fixpoint zdot (a b : nat -> nat -> Z) (i j k : nat) : Z :=
  match k with
  | O => 0
  | S k' => zdot a b i j k' + a i k' * b k' j
  end.

(** A double that is the whole number z. *)
Definition whole (f : flt) (z : Z) : Prop := valid f /\ finite f /\ fR f = IZR z.
