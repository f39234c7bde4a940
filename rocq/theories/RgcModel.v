(** Conversion to R objects under R's garbage collector
    (SEXPConversions.hpp 12-129): what PROTECT and UNPROTECT are for. *)
From Coq Require Import ZArith List String Bool Arith.
From Verif Require Import Base Num StoreModel VecModel OutModel.
Import ListNotations.
Open Scope Z_scope.

(** A world together with R's protection stack (the blocks of the objects on
    it, last one first) and the blocks R itself can still reach, e.g. those of
    the arguments of the call in progress.  Auxiliary: R's memory manager, not
    code of /repo (PROTECT and UNPROTECT, SEXPConversions.hpp 43-50). *)
Record rworld := mkRW { rw : world; pstk : list nat; root : nat -> bool }.

(** A call that does not reach R. Auxiliary. (E.g. res[i],
    SEXPConversions.hpp 48.) *)
Definition inw {A} (m : M world A) : M rworld A := fun s =>
  (fst (m (rw s)), mkRW (snd (m (rw s))) (pstk s) (root s)).

(** Objects R must keep. Auxiliary (SEXPConversions.hpp 43, 45). *)
Definition kept (s : rworld) (a : nat) : bool := root s a || existsb (Nat.eqb a) (pstk s).

(** A collector decides, from all it sees, which of the blocks of R that it
    does not have to keep are freed. Auxiliary: it may run whenever R allocates
    (Rf_allocVector and Rf_allocMatrix, SEXPConversions.hpp 43, 45). *)
Definition collector := rworld -> nat -> bool.
Definition collect (G : collector) : M rworld unit := fun s =>
  let h := hp (rw s) in
  (Done tt, mkRW (set_hp (rw s) (mkHeap (hnext h)
     (fun a => match hblk h a with
               | Live OwnR cs => if G s a && negb (kept s a) then Freed else Live OwnR cs
               | b => b
               end) (hlim h))) (pstk s) (root s)).

(** Rf_allocVector, Rf_allocMatrix: see r_vector and r_matrix; the collector
    runs before the memory is taken. Simplification: R allocates the dim
    attribute of a matrix itself, with the object protected.
    (SEXPConversions.hpp 43, 45.) *)
Definition r_vector_g (G : collector) (t : ety) (n : Z) : M rworld robj :=
  collect G ;; inw (r_vector t n).
Definition r_matrix_g (G : collector) (t : ety) (nr nc : Z) : M rworld robj :=
  let r := to_int nr in
  let c := to_int nc in
  ass ((0 <=? r) && (0 <=? c)) "negative extents to matrix" ;;
  ass (r * c <=? int_max) "allocMatrix: too many elements specified" ;;
  collect G ;; inw (r_matrix t nr nc).

(** PROTECT(o) (SEXPConversions.hpp 43, 45). *)
Definition protect (o : robj) : M rworld robj := fun s =>
  (Done o, mkRW (rw s) (r_mem o :: pstk s) (root s)).
(** UNPROTECT(n): R reports an error when there are fewer objects.
    (SEXPConversions.hpp 50.) *)
Definition unprotect (n : nat) : M rworld unit := fun s =>
  if Nat.leb n (List.length (pstk s)) then (Done tt, mkRW (rw s) (skipn n (pstk s)) (root s))
  else (Thrown (Ass "unprotect(): only so many protected items"), s).

(** cpp2R (SEXPConversions.hpp 38-82, 84-129). *)
Definition cpp2R_g (G : collector) (lm : libm) (t : ety) (e : expr) : M rworld robj :=
  s <- get ;;
  let w := rw s in
  ret_ <- (if eim w e then
     nr <- lift (edim rows w e) ;; nc <- lift (edim cols w e) ;;
     ass (esize w e =? wrap64 (nr * nc)) "size does not match ncol*nrow" ;;
     o <- r_matrix_g G t nr nc ;; protect o
   else o <- r_vector_g G t (esize w e) ;; protect o) ;;
  inw (for_int (esize w e) (fun i =>
    v <- elem lm e i ;; v' <- lift (cast (r_cell t) v) ;; wr (Some (r_mem ret_)) i v')) ;;
  unprotect 1 ;;
  ret ret_.

(** cpp2R of a number: Rf_ScalarInteger, Rf_ScalarLogical, Rf_ScalarReal make a
    vector with one element. Simplification: R keeps one object for each of
    TRUE and FALSE instead of making new ones. (SEXPConversions.hpp 12-16.) *)
Definition cpp2R_scalar (G : collector) (v : val) : M rworld robj :=
  o <- r_vector_g G (ty_of v) 1 ;;
  inw (v' <- lift (cast (r_cell (ty_of v)) v) ;; wr (Some (r_mem o)) 0 v') ;;
  ret o.
