(** Conversion to R objects (SEXPConversions.hpp) and printing (Printing.hpp). *)
From Coq Require Import ZArith List String Bool.
From Verif Require Import Base Num StoreModel VecModel.
Import ListNotations.
Open Scope Z_scope.

(** An R vector: element type (REALSXP, INTSXP, LGLSXP), memory, and the dim
    attribute of a matrix. (SEXPConversions.hpp 38-76.) *)
Record robj := mkR { r_ty : ety; r_mem : nat; r_dim : option (Z * Z) }.


(** The memory R gives out is not initialised. Simplification: R's allocator
    serves as much as new[] does; when it fails it leaves the function (by a
    long jump), here an exception. (SEXPConversions.hpp 44, 46.) *)
Definition r_new (n : Z) : M world nat := fun w =>
  if n <=? hlim (hp w) then
    let h := hp w in
    let a := hnext h in
    (Done a,
     set_hp w (mkHeap (S a)
       (fun a' => if Nat.eqb a' a then Live OwnR (repeat None (Z.to_nat n)) else hblk h a') (hlim h)))
  else (Thrown BadAlloc, w).

(** Rf_allocVector(type, n) (SEXPConversions.hpp 44, 46.) *)
Definition r_vector (t : ety) (n : Z) : M world robj := a <- r_new n ;; ret (mkR t a None).

(** Rf_allocMatrix(type, nr, nc): R reports an error for negative extents
    and for more than INT_MAX elements. (SEXPConversions.hpp 44, 46.) *)
Definition r_matrix (t : ety) (nr nc : Z) : M world robj :=
  let r := to_int nr in
  let c := to_int nc in
  ass ((0 <=? r) && (0 <=? c)) "negative extents to matrix" ;;
  ass (r * c <=? int_max) "allocMatrix: too many elements specified" ;;
  a <- r_new (r * c) ;; ret (mkR t a (Some (r, c))).

(** [for (int i = 0; i < n; i++)] with n a size_t: i++ may overflow.
    (SEXPConversions.hpp 48, 61, 74.) *)
Definition for_int (n : Z) (body : Z -> M world unit) : M world unit :=
  forN (Z.to_nat n) 0 (fun i => body i ;; _ <- lift (int_res (i + 1)) ;; ret tt).

(** The type of the elements in R's memory: REAL(ret) are doubles, INTEGER(ret)
    and LOGICAL(ret) are ints (SEXPConversions.hpp 48, 61, 74). *)
Definition r_cell (t : ety) : ety := match t with TBool => TInt | t => t end.

(** cpp2R (SEXPConversions.hpp 38-129); t is the element type of the
    expression.  An element is converted to the type R's memory has.  PROTECT
    and UNPROTECT only concern R's garbage collector: see RgcModel. *)
Definition cpp2R (lm : libm) (t : ety) (e : expr) : M world robj :=
  w <- get ;;
  ret_ <- (if eim w e then
     nr <- lift (edim rows w e) ;; nc <- lift (edim cols w e) ;;
     ass (esize w e =? wrap64 (nr * nc)) "size does not match ncol*nrow" ;;
     r_matrix t nr nc
   else r_vector t (esize w e)) ;;
  for_int (esize w e) (fun i =>
    v <- elem lm e i ;; v' <- lift (cast (r_cell t) v) ;; wr (Some (r_mem ret_)) i v') ;;
  ret ret_.

(** The elements f 0, ..., f (n-1), each shown by operator<<. (Printing.hpp
    39-89.) *)
Fixpoint show_from (n : nat) (i : Z) (f : Z -> M world val) : M world (list val) :=
  match n with
  | O => ret []
  | S k => v <- f i ;; l <- show_from k (i + 1) f ;; ret (v :: l)
  end.
Fixpoint lines_from (n : nat) (i : Z) (f : Z -> M world (list val)) : M world (list (list val)) :=
  match n with
  | O => ret []
  | S k => v <- f i ;; l <- lines_from k (i + 1) f ;; ret (v :: l)
  end.

(** print(inp) (Printing.hpp 39-89, four overloads with the same body): the
    lines printed, each a list of elements. Simplifications: the text of an
    element is left to operator<<; what was printed before an exception is not
    kept. *)
Definition print_ (lm : libm) (e : expr) : M world (list (list val)) :=
  w <- get ;;
  if eim w e then
    nr <- lift (edim rows w e) ;;
    lines_from (Z.to_nat nr) 0 (fun i =>
      nc <- lift (edim cols w e) ;;
      show_from (Z.to_nat nc) 0 (fun j => vat lm e (wrap64 (j * nr + i))))
  else
    l <- show_from (Z.to_nat (esize w e)) 0 (vat lm e) ;; ret [l].
