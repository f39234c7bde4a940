(** Vectors (Vector/VectorClass.hpp, Constructors.hpp, AssignmentOperator.hpp),
    lazy expressions (BinaryCalculations.hpp, UnaryCalculations.hpp) and subsets
    (Core/SubsetClass.hpp). *)
From Coq Require Import ZArith List String Bool.
From Verif Require Import Base Num StoreModel.
Import ListNotations.
Open Scope Z_scope.

(** Expression trees.  Vec number x as an operand is its storage member
    [d]; every operation node holds references to the [d] of its operands
    (BinaryCalculations.hpp 25-26, UnaryCalculations.hpp 13).
    - [EVar x]: a vector variable;
    - [ETmp t l m]: an r-value vector (result of coca, rep, colon, ...) with
      elements [l].  Simplification: its memory is private to the expression,
      so its contents are kept as a list;
    - [ESca v]: an arithmetic scalar operand;
    - [ESub e ind m]: subset of [e] with the 0-based positions [ind] (computed
      when the subset was made) and matrix parameters [m];
    - [EBin], [EUn]: operations. *)
Inductive expr :=
| EVar (x : nat)
| ETmp (t : ety) (l : list val) (m : matpar)
| ESca (v : val)
| ESub (e : expr) (ind : list Z) (m : matpar)
| EBin (op : binop) (l r : expr)
| EUn (op : unop) (e : expr).

Definition is_sca (e : expr) : bool := match e with ESca _ => true | _ => false end.

(** size(): BaseStore.hpp 21, SubsetClass.hpp 16, BinaryCalculations.hpp
    108-120, UnaryCalculations.hpp 53-60. *)
Fixpoint esize (w : world) (e : expr) : Z :=
  match e with
  | EVar x => sz (ob w (OD x))
  | ETmp _ l _ => Z.of_nat (List.length l)
  | ESca _ => 1
  | ESub _ ind _ => Z.of_nat (List.length ind)
  | EBin _ l r =>
      if is_sca l && is_sca r then 1
      else if is_sca r then esize w l
      else if is_sca l then esize w r
      else if esize w r <? esize w l then esize w l else esize w r
  | EUn _ e => esize w e
  end.

(** i % n on size_t. (E.g. BinaryCalculations.hpp 101.) *)
Definition modz (i n : Z) : outcome Z := if n =? 0 then Undef UB_div0 else Done (i mod n).

(** Element of the index store: Indices is a BaseStore<size_t>, so the access
    is bounds checked (BaseStore.hpp 281-293). *)
Definition ind_at (ind : list Z) (i : Z) : outcome Z :=
  if i <? Z.of_nat (List.length ind) then Done (nth (Z.to_nat i) ind 0)
  else Thrown (Ass "Error: out of boundaries --> value beyond size of vector").

(** The element of a subset: its type is the RetType of what it points to
    (SubsetClass.hpp 12, 81-82).  For stored elements that is their own type;
    for an operation or another subset it is BaseType, so the value is
    converted to double (Core/Traits.hpp 25-30, SubsetClass.hpp 7, 77).  A
    scalar is a C++ number of its own type. *)
Definition stored (e : expr) : bool := match e with EVar _ | ETmp _ _ _ | ESca _ => true | _ => false end.
Definition as_ret (e : expr) (v : val) : val := if stored e then v else VD (v2f v).

(** operator[](i) const: BinaryCalculations.hpp 97-107, UnaryCalculations.hpp
    45-52, SubsetClass.hpp 67-70 and 130-133 (the position is reduced modulo
    the size of the parent).  Simplification: C++ leaves the evaluation order
    of the two operands open; the model evaluates the left one first. *)
Fixpoint elem (lm : libm) (e : expr) (i : Z) : M world val :=
  match e with
  | EVar x => at_rd (OD x) i
  | ETmp _ l _ =>
      if i <? Z.of_nat (List.length l) then ret (nth (Z.to_nat i) l (VB false))
      else throw (Ass "Error: out of boundaries --> value beyond size of vector")
  | ESca v => ret v
  | ESub e ind _ =>
      w <- get ;;
      k <- lift (modz i (esize w e)) ;;
      j <- lift (ind_at ind k) ;;
      v <- elem lm e j ;; ret (as_ret e v)
  | EBin op l r =>
      w <- get ;;
      a <- (if is_sca l then elem lm l 0
            else k <- lift (modz i (esize w l)) ;; elem lm l k) ;;
      b <- (if is_sca r then elem lm r 0
            else k <- lift (modz i (esize w r)) ;; elem lm r k) ;;
      lift (bin_f lm op a b)
  | EUn op e =>
      w <- get ;;
      a <- (if is_sca e then elem lm e 0
            else k <- lift (modz i (esize w e)) ;; elem lm e k) ;;
      lift (un_f lm op a)
  end.

(** im(): BaseStore.hpp 22, SubsetClass.hpp 17, BinaryCalculations.hpp 32-43,
    UnaryCalculations.hpp 16-22 (false for every vector operand). *)
Fixpoint eim (w : world) (e : expr) : bool :=
  match e with
  | EVar x => ismat (mp (ob w (OD x)))
  | ETmp _ _ m => ismat m
  | ESca _ => false
  | ESub _ _ m => ismat m
  | EBin _ l r =>
      if is_sca l then eim w r
      else if is_sca r then eim w l
      else eim w l || eim w r
  | EUn _ _ => false
  end.

(** nr() / nc(): [pick] is the projection on rows or columns;
    BinaryCalculations.hpp 44-87, UnaryCalculations.hpp 24-37. *)
Fixpoint edim (pick : matpar -> Z) (w : world) (e : expr) : outcome Z :=
  match e with
  | EVar x => Done (pick (mp (ob w (OD x))))
  | ETmp _ _ m => Done (pick m)
  | ESca _ => Done 0
  | ESub _ _ m => Done (pick m)
  | EBin _ l r =>
      if is_sca l then edim pick w r
      else if is_sca r then edim pick w l
      else if eim w l && eim w r then
        a <-o edim pick w l ;; b <-o edim pick w r ;;
        Done (if b <? a then a else b)
      else if negb (eim w l) && eim w r then edim pick w r
      else if eim w l && negb (eim w r) then edim pick w l
      else Thrown (Ass "Matrix calculation failed!")
  | EUn _ e => edim pick w e
  end.

(** Tail of both operator= (AssignmentOperator.hpp 106-108 and 235-237) and of
    the constructors (Constructors.hpp 150-152): the shape is taken over only
    when the right-hand side is a matrix. *)
Definition take_shape (o : oid) (e : expr) : M world unit :=
  w <- get ;;
  if eim w e then
    r <- lift (edim rows w e) ;;
    c <- lift (edim cols w e) ;;
    upd o (with_mp (mkMP true r c))
  else ret tt.

(** [for i < n: temp[i] = static_cast<T>(otherVec[i])]
    (AssignmentOperator.hpp 53-59 and 122-128).  For operations, subsets and
    borrowed vectors otherVec[i] passes through RetType = double; for an int or
    bool element this intermediate conversion is exact and is omitted. *)
Definition fill_temp (lm : libm) (o : oid) (t : ety) (e : expr) (n : Z) : M world unit :=
  for_ n (fun i =>
    v <- elem lm e i ;;
    v' <- lift (cast t v) ;;
    set_at o i v').

(** operator=(const Vec&) and its template version for a vector with Buffer
    storage (AssignmentOperator.hpp 51-60, 120-129). *)
Definition assign_buffer (lm : libm) (x : nat) (e : expr) : M world unit :=
  w <- get ;;
  let n := esize w e in
  let t := sty (ob w (OD x)) in
  resize (OT x) n ;;
  fill_temp lm (OT x) t e n ;;
  moveit (OD x) (OT x) ;;
  take_shape (OD x) e.

(** The same for Borrow storage (Vector/AssignmentOperator.hpp 61-76,
    130-145). *)
Definition assign_borrow (lm : libm) (x : nat) (e : expr) : M world unit :=
  w <- get ;;
  let n := esize w e in
  let t := sty (ob w (OD x)) in
  ass (n <=? cap (ob w (OD x)))
    "number of items to replace is not a multiple of replacement length" ;;
  resize (OT x) n ;;
  fill_temp lm (OT x) t e n ;;
  ass (sz (ob w (OD x)) <=? n)
    "size cannot be increased above the size of the borrowed object" ;;
  upd (OD x) (with_sz n) ;;
  w2 <- get ;;
  for_ (esize w2 e) (fun i => v <- get_at (OT x) i ;; at_wr (OD x) i v) ;;
  take_shape (OD x) e.

(** The same for BorrowSEXP storage (Vector/AssignmentOperator.hpp 77-88,
    146-157). *)
Definition assign_sexp (lm : libm) (x : nat) (e : expr) : M world unit :=
  w <- get ;;
  let n := esize w e in
  let t := sty (ob w (OD x)) in
  resize (OT x) n ;;
  fill_temp lm (OT x) t e n ;;
  w1 <- get ;;
  (if sz (ob w1 (OD x)) <? n then sexp_resize (OD x) n else ret tt) ;;
  sexp_moveit (OD x) (OT x) ;;
  take_shape (OD x) e.

(** x = e. (Vector/AssignmentOperator.hpp 1-171.) *)
Definition assign (lm : libm) (x : nat) (e : expr) : M world unit :=
  s <- st (OD x) ;;
  match kd s with
  | KBuffer => assign_buffer lm x e
  | KBorrow => assign_borrow lm x e
  | KBorrowSEXP => assign_sexp lm x e
  end.

(** x = scalar (AssignmentOperator.hpp 7-41). *)
Definition assign_scalar (x : nat) (v : val) : M world unit :=
  s <- st (OD x) ;;
  match kd s with
  | KBorrow =>
      upd (OD x) (with_sz 1) ;;
      v' <- lift (cast (sty s) v) ;;
      at_wr (OD x) 0 v'
  | _ =>
      any_resize (OD x) 1 ;;
      v' <- lift (cast (sty s) v) ;;
      at_wr (OD x) 0 v'
  end.

(** Subset::operator[](pos) as an lvalue (SubsetClass.hpp 62-65). *)
Definition sub_wr (x : nat) (ind : list Z) (pos : Z) (v : val) : M world unit :=
  w <- get ;;
  k <- lift (modz pos (sz (ob w (OD x)))) ;;
  j <- lift (ind_at ind k) ;;
  at_wr (OD x) j v.

(** Leaving a scope: the scratch storage is destroyed whether or not an
    exception leaves the scope. (Destructor: Core/BaseStore.hpp 236-246.) *)
Definition scoped {A} (o : oid) (m : M world A) : M world A := fun w =>
  match m w with
  | (Done a, w1) => (_ <- any_destroy o ;; ret a) w1
  | (Thrown e, w1) => (_ <- any_destroy o ;; throw e) w1
  | (Undef u, w1) => (Undef u, w1)
  end.

(** x(ind) = e (AssignmentOperator.hpp 89-105 for a right-hand side of the
    same type, i.e. again a subset of a variable; 158-171 otherwise).  The
    subset is a temporary Vec with its own scratch buffer, [OT s]. *)
Definition assign_subset (lm : libm) (s x : nat) (ind : list Z) (same : bool) (e : expr)
  : M world unit :=
  w <- get ;;
  let t := sty (ob w (OD x)) in
  let n := esize w e in
  ctor_default (OT s) t ;;
  scoped (OT s)
    (ass (n =? Z.of_nat (List.length ind))
       "number of items to replace is not a multiple of replacement length" ;;
     resize (OT s) n ;;
     fill_temp lm (OT s) t e n ;;
     w1 <- get ;;
     (if same && (sz (ob w1 (OD x)) <? sz (ob w1 (OT s)))
      then any_resize (OD x) (sz (ob w1 (OT s))) else ret tt) ;;
     for_ (Z.of_nat (List.length ind)) (fun i =>
       v <- get_at (OT s) i ;;
       k <- lift (modz i (Z.of_nat (List.length ind))) ;;
       sub_wr x ind k v)).

(** x(ind) = scalar (AssignmentOperator.hpp 15-18, 28-31). *)
Definition assign_subset_scalar (x : nat) (ind : list Z) (v : val) : M world unit :=
  w <- get ;;
  for_ (Z.of_nat (List.length ind)) (fun i =>
    v' <- lift (cast (sty (ob w (OD x))) v) ;;
    sub_wr x ind i v').

(* ---------------------------------------------------------- constructors *)

(** Vec() (Constructors.hpp 115). *)
Definition vec_default (x : nat) (t : ety) : M world unit :=
  ctor_default (OD x) t ;; ctor_default (OT x) t.

(** Vec(SI) (Vector/Constructors.hpp 9-10): length n, zeros. [n] is the
    size_t held by SI. *)
Definition vec_sized (x : nat) (t : ety) (n : Z) : M world unit :=
  ctor_size (OD x) t n ;; ctor_default (OT x) t.

(** Vec(rows, cols) (Vector/Constructors.hpp 118-120). *)
Definition vec_matrix (x : nat) (t : ety) (r c : Z) : M world unit :=
  ctor_size (OD x) t (wrap64 (r * c)) ;;
  ctor_default (OT x) t ;;
  upd (OD x) (with_mp (mkMP true r c)).

(** Vec(rows, cols, value) (Vector/Constructors.hpp 121-125). *)
Definition vec_matrix_fill (x : nat) (t : ety) (r c : Z) (v : val) : M world unit :=
  vec_matrix x t r c ;; fill (OD x) v.

(** Vec(double) / Vec(bool) / Vec(int) (Vector/Constructors.hpp 105-112):
    length one. *)
Definition vec_of_scalar (x : nat) (t : ety) (v : val) : M world unit :=
  ctor_int (OD x) t 1 ;;
  ctor_default (OT x) t ;;
  v' <- lift (cast t v) ;;
  set_at (OD x) 0 v'.

(** Vec(const Vec&&) for a non-r-value source or another element type
    (Vector/Constructors.hpp 127-154, 157-184). *)
Definition vec_of_expr (lm : libm) (x : nat) (t : ety) (e : expr) : M world unit :=
  w <- get ;;
  let n := esize w e in
  vec_default x t ;;
  (* when the body throws, the members d and temp are destroyed; the value of
     d survives a normal exit *)
  fun w1 =>
    match
      ((if 0 <? n then resize (OD x) n else upd (OD x) (with_sz n)) ;;
       fill_temp lm (OD x) t e n ;;
       take_shape (OD x) e) w1
    with
    | (Thrown ex, w2) => (_ <- any_destroy (OD x) ;; throw ex) w2
    | r => r
    end.

(** Implicit copy constructor of Vec: both storage members are copied.
    (Vector/VectorClass.hpp 18-19, Core/BaseStore.hpp 36-44.) *)
Definition vec_copy (x y : nat) : M world unit :=
  ctor_copy (OD x) (OD y) ;; ctor_copy (OT x) (OT y).

(** Construction from an r-value vector of the same element type
    (187-213).  The r-value is vector number s: it was made with Vec(SI) and
    filled with [l] (Coca.hpp 88-131), and is destroyed afterwards. *)
Definition rvec (s : nat) (t : ety) (l : list val) (m : matpar) : M world unit :=
  vec_sized s t (Z.of_nat (List.length l)) ;;
  for_ (Z.of_nat (List.length l)) (fun i => set_at (OD s) i (nth (Z.to_nat i) l (VB false))) ;;
  upd (OD s) (with_mp m).

Definition vec_steal (x s : nat) (t : ety) : M world unit :=
  ctor_steal (OD x) (OD s) t ;; ctor_default (OT x) t.

Definition vec_destroy (x : nat) : M world unit :=
  any_destroy (OT x) ;; any_destroy (OD x).

(** End of the lifetime of vector x: its members are destroyed ([temp]
    first), and the identity x is free for another vector.
    (Vector/VectorClass.hpp 18-19, Core/BaseStore.hpp 236-246;
    Vector/Constructors.hpp 127-154.) *)
Definition vec_end (x : nat) : M world unit :=
  vec_destroy x ;;
  upd (OD x) (fun s => store_default KBuffer (sty s)) ;;
  upd (OT x) (fun s => store_default KBuffer (sty s)).

Definition vec_of_rvec (x s : nat) (t : ety) (l : list val) (m : matpar) : M world unit :=
  rvec s t l m ;; vec_steal x s t ;; vec_end s.

(** Vec with Borrow storage (Vector/Constructors.hpp 35-37, 216-219). *)
Definition vec_borrow (x : nat) (t : ety) (a : option nat) (n : Z) : M world unit :=
  borrow_ctor (OD x) t a n ;; ctor_default (OT x) t.

(** Vec with BorrowSEXP storage (Vector/Constructors.hpp 46-48). *)
Definition vec_sexp (x : nat) (t : ety) (a : option nat) (n : Z) (m : matpar) : M world unit :=
  sexp_ctor (OD x) t a n m ;; ctor_default (OT x) t.

(* --------------------------------------------------------------- readers *)

(** Vec::operator[] const (VectorClass.hpp 41): the element as a RetType, that
    of the storage (20) and so BaseType for operations and subsets.  Where the
    result is converted to an element type at once the model uses [elem]: the
    detour through double does not change a bool or an int. *)
Definition vat (lm : libm) (e : expr) (i : Z) : M world val := v <- elem lm e i ;; ret (as_ret e v).

(** operator RetType() const (VectorClass.hpp 43-54). *)
Definition to_scalar (lm : libm) (e : expr) : M world val := vat lm e 0.

(** Range-based for over a Vec: begin()/end() (VectorClass.hpp 61-74) walk the
    raw memory of [d]; for a subset that of its parent. *)
Fixpoint walk (p : option nat) (i : Z) (n : nat) : M world (list val) :=
  match n with
  | O => ret []
  | S k => v <- rd p i ;; vs <- walk p (i + 1) k ;; ret (v :: vs)
  end.
Definition iterate_vec (x : nat) : M world (list val) :=
  s <- st (OD x) ;; walk (ptr s) 0 (Z.to_nat (sz s)).
Definition iterate_sub (x : nat) (ind : list Z) : M world (list val) :=
  s <- st (OD x) ;; walk (ptr s) 0 (List.length ind).

(** back() (VectorClass.hpp 86). *)
Definition vec_back (x : nat) : M world val :=
  s <- st (OD x) ;; rd (ptr s) (sz s).
