(** Vocabulary for shapes, borrowed memory and R objects. *)
From Coq Require Import ZArith List String Bool.
From Verif Require Import Base Num StoreModel VecModel Spec SpecExpr.
Import ListNotations.
Open Scope Z_scope.

(** The vector borrows block [a] of the user. *)
Definition borrows (w : world) (x a : nat) : Prop :=
  kd (ob w (OD x)) = KBorrow /\ ptr (ob w (OD x)) = Some a /\ kd (ob w (OT x)) = KBuffer.

(** Vector x wraps the R object whose memory is block [a]. *)
Definition wraps (w : world) (x a : nat) : Prop :=
  kd (ob w (OD x)) = KBorrowSEXP /\ ptr (ob w (OD x)) = Some a /\ todel (ob w (OD x)) = false /\
  kd (ob w (OT x)) = KBuffer.

(** A sequence of element writes x[i] = v. *)
Fixpoint elem_writes (x : nat) (ws : list (Z * val)) : M world unit :=
  match ws with
  | [] => ret tt
  | (i, v) :: r => at_wr (OD x) i v ;; elem_writes x r
  end.

(** The user, or R, obtains memory and fills it with [l]. *)
Definition user_block (w : world) (own : owner) (l : list val) : world :=
  set_hp w (mkHeap (S (hnext (hp w)))
    (fun a => if Nat.eqb a (hnext (hp w)) then Live own (map Some l) else hblk (hp w) a) (hlim (hp w))).

(* -------------------------------------------------------------- shapes *)

(** Vector x is an r x c matrix with as many elements as its shape says. *)
Definition is_matrix (w : world) (x : nat) (r c : Z) : Prop :=
  mp (ob w (OD x)) = mkMP true r c /\ sz (ob w (OD x)) = r * c.

(** Expressions without any matrix in them. *)
Inductive flat (w : world) : expr -> Prop :=
| Fl_var x : ismat (mp (ob w (OD x))) = false -> flat w (EVar x)
| Fl_tmp t l m : ismat m = false -> flat w (ETmp t l m)
| Fl_sca v : flat w (ESca v)
| Fl_sub e ind m : ismat m = false -> flat w (ESub e ind m)
| Fl_bin op l r : flat w l -> flat w r -> flat w (EBin op l r)
| Fl_un op e : flat w e -> flat w (EUn op e).

(** Expressions whose value is an r x c matrix: matrix variables, matrix
    results of functions, matrix subsets, and element-wise operations on two
    r x c matrices or on such a matrix and a vector or scalar that is not longer. *)
Inductive shaped (w : world) (rho : nat -> list val) (r c : Z) : expr -> Prop :=
| Sh_var x : is_matrix w x r c -> shaped w rho r c (EVar x)
| Sh_tmp t l : Z.of_nat (List.length l) = r * c -> shaped w rho r c (ETmp t l (mkMP true r c))
| Sh_sub e ind : Z.of_nat (List.length ind) = r * c -> shaped w rho r c (ESub e ind (mkMP true r c))
| Sh_both op l e : shaped w rho r c l -> shaped w rho r c e -> shaped w rho r c (EBin op l e)
| Sh_left op l e : shaped w rho r c l -> flat w e -> xsize rho e <= r * c -> shaped w rho r c (EBin op l e)
| Sh_right op l e : flat w l -> shaped w rho r c e -> xsize rho l <= r * c -> shaped w rho r c (EBin op l e).
