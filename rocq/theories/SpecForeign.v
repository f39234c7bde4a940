(** Vocabulary for R objects, foreign memory and foreign vectors. *)
From Coq Require Import ZArith List Bool.
From Verif Require Import Base Num StoreModel VecModel OutModel ForeignModel Spec.
Import ListNotations.
Open Scope Z_scope.

(** The R object r exists, has the elements xs and at most INT_MAX of them. *)
Definition r_has (w : world) (r : robj) (xs : list val) : Prop :=
  hblk (hp w) (r_mem r) = Live OwnR (map Some xs) /\ Z.of_nat (length xs) <= int_max.

(** The elements xs in R's memory stand for the values ys of type t: those of a
    logical object are ints, 1 for TRUE and 0 for FALSE; no NA. *)
Definition stands_for (t : ety) (x y : val) : Prop :=
  match t with
  | TBool => exists b : bool, x = VI (if b then 1 else 0) /\ y = VB b
  | _ => x = y /\ ty_of x = t
  end.
Definition stand_for (t : ety) (xs ys : list val) : Prop := Forall2 (stands_for t) xs ys.

(** What R's dim attribute says about the shape. *)
Definition dims_of (r : robj) : matpar :=
  match r_dim r with Some (nr, nc) => mkMP true nr nc | None => mp_none end.

(** Elements us are the values vs converted to element type t. *)
Definition converted (t : ety) (vs us : list val) : Prop :=
  Forall2 (fun v u => cast t v = Done u) vs us.

(** Vector x is a wrapper (WrapperSEXP) that has memory of its own. *)
Definition wrapper_own (w : world) (x : nat) : Prop :=
  kd (ob w (OD x)) = KBorrowSEXP /\ ptr (ob w (OD x)) <> None /\ todel (ob w (OD x)) = true /\
  kd (ob w (OT x)) = KBuffer.
