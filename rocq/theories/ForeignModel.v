(** Vectors made from R objects, raw pointers, Rcpp and Armadillo objects and
    converted back (BaseStore.hpp 53-101 and 188-234, Vector/VectorClass.hpp
    98-190, Vector/Constructors.hpp 215-229, Vector/AssignmentOperator.hpp
    242-248), and the copy, assignment and growth operations of Borrow and
    BorrowSEXP. *)
From Coq Require Import ZArith List String Bool.
From Verif Require Import Base Num StoreModel VecModel OutModel.
Import ListNotations.
Open Scope Z_scope.

(* ------------------------------------------------------------- R objects *)

(** Rf_isReal, Rf_isInteger, Rf_isLogical: does the R object have the
    element type the C++ vector asks for?. (Core/BaseStore.hpp 63, 75, 87.) *)
Definition r_is (t : ety) (r : robj) : bool :=
  match t, r_ty r with
  | TDouble, TDouble | TInt, TInt | TBool, TBool => true
  | _, _ => false
  end.

(** Rf_length: an int; R reports an error for longer vectors.
    (Core/BaseStore.hpp 64, 76, 88.) *)
Definition r_length (r : robj) : M world Z := fun w =>
  match hblk (hp w) (r_mem r) with
  | Live OwnR cs =>
      let n := Z.of_nat (List.length cs) in
      if n <=? int_max then (Done n, w)
      else (Thrown (Ass "long vectors not supported yet"), w)
  | _ => (Undef UB_freed, w)
  end.

(** [if (Rf_isMatrix(s)) mp.setMatrix(true, Rf_nrows(s), Rf_ncols(s))]: an
    object without dimensions leaves the parameters as they are.
    (Core/BaseStore.hpp 53-101, 188-234.) *)
Definition r_shape (r : robj) (m : matpar) : matpar :=
  match r_dim r with Some (nr, nc) => mkMP true nr nc | None => m end.

(** [for (int i = 0; i < sz; i++) p[i] = REAL(s)[i]] (INTEGER, LOGICAL): the
    elements of a logical R vector are ints, converted to bool here. The int
    does not overflow, Rf_length is an int. (Core/BaseStore.hpp 53-101,
    188-234.) *)
Definition r_copy (r : robj) (t : ety) (a : nat) (n : Z) : M world unit :=
  for_ n (fun i =>
    v <- rd (Some (r_mem r)) i ;;
    v' <- lift (cast t v) ;;
    wr (Some a) i v').

(** BaseStore(SEXP) (Core/BaseStore.hpp 53-101). When it throws the object
    never comes to life. *)
Definition ctor_sexp (o : oid) (t : ety) (r : robj) : M world unit :=
  ass (r_is t r) "R object is not of type numeric" ;;
  n <- r_length r ;;
  a <- new_ n ;;
  r_copy r t a n ;;
  upd o (fun _ => mkStore KBuffer t (Some a) n n true (r_shape r mp_none) false).

(** initSEXP (Core/BaseStore.hpp 188-234). *)
Definition init_sexp (o : oid) (r : robj) : M world unit :=
  s <- st o ;;
  (if alloc s then
     ass (match ptr s with Some _ => true | None => false end) "try to delete nullptr" ;;
     del (ptr s) ;;
     upd o (with_ptr None)
   else ret tt) ;;
  ass (r_is (sty s) r) "R object is not of type numeric" ;;
  n <- r_length r ;;
  upd o (with_sz n) ;;
  upd o (with_cap n) ;;
  a <- new_ n ;;
  upd o (with_ptr (Some a)) ;;
  upd o (fun s => with_mp (r_shape r (mp s)) s) ;;
  r_copy r (sty s) a n ;;
  upd o (with_alloc true).

(** Vec::operator=(SEXP) (AssignmentOperator.hpp 244-247); Buffer storage is
    the only one with an initSEXP. *)
Definition assign_R (x : nat) (r : robj) : M world unit := init_sexp (OD x) r.

(** BorrowSEXP(SEXP) (Core/BorrowSEXP.hpp 34-71) on a given R object.
    RetType is double, so only numeric objects are accepted; the deletion in
    35-39 is dead code, a new object is not allocated. *)
Definition sexp_wrap (o : oid) (r : robj) : M world unit :=
  ass (r_is TDouble r) "R object is not of type numeric" ;;
  n <- r_length r ;;
  upd o (fun _ => mkStore KBorrowSEXP TDouble (Some (r_mem r)) n n true (r_shape r mp_none) false).

(** Vec(SEXP) for BorrowSEXP storage (Constructors.hpp 46-48). *)
Definition vec_wrap (x : nat) (r : robj) : M world unit :=
  sexp_wrap (OD x) r ;; ctor_default (OT x) TDouble.

(** BorrowSEXP::operator=(SEXP) (Core/BorrowSEXP.hpp 96-135). *)
Definition sexp_rebind (o : oid) (r : robj) : M world unit :=
  s <- st o ;;
  (if alloc s then
     ass (match ptr s with Some _ => true | None => false end) "try to delete nullptr" ;;
     del (ptr s) ;;
     upd o (with_ptr None)
   else ret tt) ;;
  ass (r_is TDouble r) "R object is not of type numeric" ;;
  n <- r_length r ;;
  upd o (fun s => mkStore (kd s) (sty s) (Some (r_mem r)) n n true (r_shape r (mp s)) false).

(** Loop of the copy operations: [for (i < sz) p[i] = other[i]].
    (Core/BorrowSEXP.hpp 28-33, 86-94.) *)
Definition sexp_copy_loop (o other : oid) : M world unit :=
  s <- st o ;;
  for_ (sz s) (fun i => v <- sexp_get_at other i ;; wr (ptr s) i v).

(** BorrowSEXP() (Core/BorrowSEXP.hpp 75). *)
Definition sexp_default (o : oid) (t : ety) : M world unit :=
  upd o (fun _ => store_default KBorrowSEXP t).

(** BorrowSEXP(const BorrowSEXP&) (Core/BorrowSEXP.hpp 28-33). When the body
    throws, no destructor runs. *)
Definition sexp_copy (o other : oid) : M world unit :=
  s <- st other ;;
  sexp_default o (sty s) ;;
  sexp_resize o (sz s) ;;
  sexp_copy_loop o other ;;
  upd o (with_mp (mp s)).

(** BorrowSEXP::operator=(const BorrowSEXP&) (Core/BorrowSEXP.hpp 86-94). *)
Definition sexp_assign (o other : oid) : M world unit :=
  if oid_eqb o other then ret tt else
  s <- st other ;;
  sexp_resize o (sz s) ;;
  sexp_copy_loop o other ;;
  upd o (with_mp (mp s)).

(** BorrowSEXP::realloc(int) (Core/BorrowSEXP.hpp 218-237): n is the int;
    comparisons with the size_t members convert it to size_t. *)
Definition sexp_realloc (o : oid) (n : Z) : M world unit :=
  s <- st o ;;
  let m := wrap64 n in
  if m <=? sz s then ret tt else
  c <- lift (cap115_int n) ;;
  upd o (with_cap c) ;;
  a <- new_ c ;;
  for_ (sz s) (fun i => v <- rd (ptr s) i ;; wr (Some a) i v) ;;
  forN (Z.to_nat (m - sz s)) (sz s) (fun i => wr (Some a) i (zero_of (sty s))) ;;
  upd o (with_sz m) ;;
  del (ptr s) ;;
  upd o (with_ptr (Some a)) ;;
  upd o (fun s => with_todel true (with_alloc true s)).

(** BorrowSEXP::push_back (Core/BorrowSEXP.hpp 238-255). *)
Definition sexp_push_back (o : oid) (v : val) : M world unit :=
  s <- st o ;;
  if sz s =? cap s then
    let szOld := wrap64 (to_int (sz s)) in
    (if sz s =? 0 then sexp_realloc o 1 else sexp_realloc o (to_int (wrap64 (sz s * 2)))) ;;
    upd o (fun s => with_cap (sz s) s) ;;
    s' <- st o ;;
    wr (ptr s') szOld v ;;
    upd o (with_sz (wrap64 (szOld + 1)))
  else if sz s <? cap s then
    wr (ptr s) (sz s) v ;;
    upd o (with_sz (wrap64 (sz s + 1)))
  else ret tt.

(* ---------------------------------------------------------------- Borrow *)

(** Borrow(const Borrow&) (Borrow.hpp 29-33). *)
Definition borrow_copy (o other : oid) : M world unit :=
  s <- st other ;;
  upd o (fun _ => mkStore KBorrow (sty s) (ptr s) (sz s) (cap s) (alloc s) (mp s) false).

(** Borrow(Borrow&&) (Core/Borrow.hpp 34-42). *)
Definition borrow_move (o other : oid) : M world unit :=
  s <- st other ;;
  upd o (fun _ => mkStore KBorrow (sty s) (ptr s) (sz s) (cap s) (alloc s) mp_none false) ;;
  upd other (fun s => with_ptr None (with_alloc false (with_sz 0 (with_cap 0 s)))) ;;
  t <- st other ;;
  upd o (with_mp (mp t)).

(** Passing a vector by value: the implicit copy constructor of Vec copies
    [d] (by the constructor of its storage class) and [temp]. When copying
    [temp] throws, [d] is destroyed. (Vector/VectorClass.hpp 14-19: the members
    d and temp; none of Vector/Constructors.hpp is a copy constructor.) *)
Definition vec_copy_any (x y : nat) : M world unit :=
  s <- st (OD y) ;;
  match kd s with
  | KBuffer => ctor_copy (OD x) (OD y)
  | KBorrow => borrow_copy (OD x) (OD y)
  | KBorrowSEXP => sexp_copy (OD x) (OD y)
  end ;;
  fun w => match ctor_copy (OT x) (OT y) w with
           | (Thrown e, w1) => (_ <- any_destroy (OD x) ;; throw e) w1
           | r => r
           end.

(* ---------------------------------------------------------- raw pointers *)

(** [for (i < n) d[i] = ptr[i]]: the pointed-to elements are doubles.
    (Vector/Constructors.hpp 216-229.) *)
Definition ptr_loop (x : nat) (t : ety) (p : option nat) (n : Z) : M world unit :=
  for_ n (fun i =>
    v <- rd p i ;;
    v' <- lift (cast t v) ;;
    set_at (OD x) i v').

(** Vec(BaseType*, size) (Constructors.hpp 216-224) for Buffer storage; for
    Borrow storage see [vec_borrow]. *)
Definition vec_of_ptr (x : nat) (t : ety) (p : option nat) (n : Z) : M world unit :=
  vec_sized x t n ;;
  ptr_loop x t p n ;;
  upd (OD x) (with_mp (mkMP false 0 0)).

(** Vec(BaseType*, rows, cols) (Vector/Constructors.hpp 225-229). *)
Definition vec_of_ptr_matrix (x : nat) (t : ety) (p : option nat) (r c : Z) : M world unit :=
  vec_sized x t (wrap64 (r * c)) ;;
  s <- st (OD x) ;;
  ptr_loop x t p (sz s) ;;
  upd (OD x) (with_mp (mkMP true r c)).

(** The same for Borrow storage: Borrow(size_t) (Borrow.hpp 48-52) makes an
    empty store, whatever its argument. *)
Definition borrow_of_ptr_matrix (x : nat) (t : ety) (p : option nat) (r c : Z) : M world unit :=
  upd (OD x) (fun _ => store_default KBorrow t) ;;
  ctor_default (OT x) t ;;
  s <- st (OD x) ;;
  ptr_loop x t p (sz s) ;;
  upd (OD x) (with_mp (mkMP true r c)).

(* --------------------------------------------------- Rcpp and Armadillo *)

(** An Rcpp::NumericVector, Rcpp::NumericMatrix, arma::vec or arma::mat: its
    elements (column-major) and, for a matrix, its dimensions. They manage their
    own memory; only their contents matter here. (Vector/VectorClass.hpp
    98-190.) *)
Record fobj := mkF { f_el : list flt; f_dim : option (Z * Z) }.

Definition f_shape (f : fobj) : matpar :=
  match f_dim f with Some (r, c) => mkMP true r c | None => mkMP false 0 0 end.

(** operator=(Rcpp::NumericVector&) ... operator=(arma::mat&) (VectorClass.hpp
    100-131), the same text four times. *)
Definition assign_foreign (x : nat) (f : fobj) : M world unit :=
  let n := Z.of_nat (List.length (f_el f)) in
  s <- st (OD x) ;;
  any_resize (OD x) n ;;
  upd (OD x) (with_mp (f_shape f)) ;;
  for_ n (fun i =>
    v <- lift (cast (sty s) (VD (nth (Z.to_nat i) (f_el f) fzero))) ;;
    at_wr (OD x) i v).

(** Vec(Rcpp::NumericVector) ... Vec(arma::mat) (Vector/VectorClass.hpp
    132-159): the same after default construction. When the body throws the
    members are destroyed. *)
Definition vec_of_foreign (x : nat) (t : ety) (f : fobj) : M world unit :=
  vec_default x t ;;
  fun w => match assign_foreign x f w with
           | (Thrown e, w1) => (_ <- vec_destroy x ;; throw e) w1
           | r => r
           end.

(** The elements d[0], ..., d[n-1] converted to double.
    (Vector/VectorClass.hpp 161-190.) *)
Definition to_doubles (lm : libm) (e : expr) (n : nat) : M world (list flt) :=
  l <- show_from n 0 (fun i => elem lm e i) ;;
  ret (map v2f l).

(** operator Rcpp::NumericVector (Vector/VectorClass.hpp 161-167) and
    operator arma::vec (176-182). *)
Definition to_fvec (lm : libm) (e : expr) : M world fobj :=
  w <- get ;;
  l <- to_doubles lm e (Z.to_nat (esize w e)) ;;
  ret (mkF l None).

(** operator Rcpp::NumericMatrix (Vector/VectorClass.hpp 168-175): the
    dimensions are ints. The loop variable is an int, ret.size() fits into one.
    *)
Definition to_nummat (lm : libm) (e : expr) : M world fobj :=
  w <- get ;;
  ass (eim w e) "Object cannot be converted to NumericMatrix" ;;
  nr <- lift (edim rows w e) ;; nc <- lift (edim cols w e) ;;
  let r := to_int nr in
  let c := to_int nc in
  ass ((0 <=? r) && (0 <=? c)) "negative extents to matrix" ;;
  ass (r * c <=? int_max) "allocMatrix: too many elements specified" ;;
  l <- to_doubles lm e (Z.to_nat (r * c)) ;;
  ret (mkF l (Some (r, c))).

(** operator arma::mat (Vector/VectorClass.hpp 183-190). Armadillo counts in
    64 bit; it reports an error for a product that does not fit. *)
Definition to_armamat (lm : libm) (e : expr) : M world fobj :=
  w <- get ;;
  ass (eim w e) "Object cannot be converted to arma::mat" ;;
  nr <- lift (edim rows w e) ;; nc <- lift (edim cols w e) ;;
  ass (nr * nc <? 2 ^ 64) "Mat::init(): requested size is too large" ;;
  l <- to_doubles lm e (Z.to_nat (nr * nc)) ;;
  ret (mkF l (Some (nr, nc))).

(* ----------------------------------------------------------- operator<< *)

(** operator<< (VectorClass.hpp 89-96, BaseStore.hpp 349-357): the elements
    shown between the brackets; they are read from the raw memory. *)
Definition stream_out (o : oid) : M world (list val) :=
  s <- st o ;; walk (ptr s) 0 (Z.to_nat (sz s)).
