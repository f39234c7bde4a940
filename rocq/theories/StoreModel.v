(** Storage classes: BaseStore / Buffer (Core/BaseStore.hpp, Core.hpp), Borrow
    (Core/Borrow.hpp), BorrowSEXP (Core/BorrowSEXP.hpp) over an explicit heap.

    Every method is a function of the world (heap + all storage objects).  The
    object a method is called on is named by its identity, so that aliasing of
    the two objects of a call is possible. *)
From Coq Require Import ZArith List String Bool.
From Verif Require Import Base Num.
Import ListNotations.
Open Scope Z_scope.

(* ------------------------------------------------------------------ heap *)

(** Who obtained the memory: new[] of this library, the R interpreter, or
    the user of the library (memory handed to Borrow). (Core/BaseStore.hpp 105;
    Core/BorrowSEXP.hpp 34-71; Core/Borrow.hpp 61-66.) *)
Inductive owner := OwnCpp | OwnR | OwnExt.

(** A cell holds a value or is uninitialised ([new T[n]] of an arithmetic T
    leaves the elements indeterminate). (Core/BaseStore.hpp 105, 115.) *)
Inductive block :=
| Unused
| Live (o : owner) (cells : list (option val))
| Freed.

(** [hlim]: largest number of elements the allocator is able to serve in one
    request. Simplification: the limit is per request and constant. (new[] in
    Core/BaseStore.hpp 105, 115, 256.) *)
Record heap := mkHeap { hnext : nat; hblk : nat -> block; hlim : Z }.

(** Core/MatrixParameter.hpp 5-30. *)
Record matpar := mkMP { ismat : bool; rows : Z; cols : Z }.
Definition mp_none : matpar := mkMP false 0 0.

(** Storage classes. (Core/BaseStore.hpp 11, Core/Borrow.hpp 6,
    Core/BorrowSEXP.hpp 8.) *)
Inductive kind := KBuffer | KBorrow | KBorrowSEXP.

(** Data members of BaseStore (BaseStore.hpp 12-19), Borrow (Borrow.hpp 11-15)
    and BorrowSEXP (BorrowSEXP.hpp 13-18; the only one using [todel]). *)
Record store := mkStore {
  kd : kind; sty : ety;
  ptr : option nat; sz : Z; cap : Z; alloc : bool; mp : matpar; todel : bool }.

(** Object identities: the [d] and the [temp] member of vector number x
    (VectorClass.hpp 18-19). *)
Inductive oid := OD (x : nat) | OT (x : nat).

Definition oid_eqb (a b : oid) : bool :=
  match a, b with
  | OD x, OD y => Nat.eqb x y
  | OT x, OT y => Nat.eqb x y
  | _, _ => false
  end.

Record world := mkWorld { hp : heap; ob : oid -> store }.

(** BaseStore() (BaseStore.hpp 121-126) with the default member initialisers. *)
Definition store_default (k : kind) (t : ety) : store :=
  mkStore k t None 0 0 false mp_none false.

Definition set_ob (w : world) (o : oid) (s : store) : world :=
  mkWorld (hp w) (fun o' => if oid_eqb o' o then s else ob w o').

Definition set_blk (h : heap) (a : nat) (b : block) : heap :=
  mkHeap (hnext h) (fun a' => if Nat.eqb a' a then b else hblk h a') (hlim h).

Definition set_hp (w : world) (h : heap) : world := mkWorld h (ob w).

(** Member reads and writes. (Core/BaseStore.hpp 15-19.) *)
Definition st (o : oid) : M world store := fun w => (Done (ob w o), w).
Definition upd (o : oid) (f : store -> store) : M world unit :=
  fun w => (Done tt, set_ob w o (f (ob w o))).
Definition with_ptr p (s : store) := mkStore (kd s) (sty s) p (sz s) (cap s) (alloc s) (mp s) (todel s).
Definition with_sz n (s : store) := mkStore (kd s) (sty s) (ptr s) n (cap s) (alloc s) (mp s) (todel s).
Definition with_cap c (s : store) := mkStore (kd s) (sty s) (ptr s) (sz s) c (alloc s) (mp s) (todel s).
Definition with_alloc b (s : store) := mkStore (kd s) (sty s) (ptr s) (sz s) (cap s) b (mp s) (todel s).
Definition with_mp m (s : store) := mkStore (kd s) (sty s) (ptr s) (sz s) (cap s) (alloc s) m (todel s).
Definition with_todel b (s : store) := mkStore (kd s) (sty s) (ptr s) (sz s) (cap s) (alloc s) (mp s) b.

(** [new T[n]] (E.g. Core/BaseStore.hpp 105.) *)
Definition new_ (n : Z) : M world nat := fun w =>
  if n <=? hlim (hp w) then
    let h := hp w in
    let a := hnext h in
    (Done a,
     set_hp w (mkHeap (S a)
       (fun a' => if Nat.eqb a' a then Live OwnCpp (repeat None (Z.to_nat n)) else hblk h a')
       (hlim h)))
  else (Thrown BadAlloc, w).

(** [delete[] p] (E.g. Core/BaseStore.hpp 239.) *)
Definition del (p : option nat) : M world unit := fun w =>
  match p with
  | None => (Done tt, w)
  | Some a =>
      match hblk (hp w) a with
      | Live OwnCpp _ => (Done tt, set_hp w (set_blk (hp w) a Freed))
      | Live _ _ => (Undef UB_foreign_free, w)
      | Freed => (Undef UB_double_free, w)
      | Unused => (Undef UB_foreign_free, w)
      end
  end.

(** Replace one element of a list. (Auxiliary to p[i] = v, e.g.
    Core/BaseStore.hpp 108.) *)
Fixpoint list_set {A} (l : list A) (i : nat) (a : A) : list A :=
  match l, i with
  | [], _ => []
  | _ :: l', O => a :: l'
  | x :: l', S i' => x :: list_set l' i' a
  end.

(** [p[i]] as an rvalue. (E.g. Core/BaseStore.hpp 286, 292.) *)
Definition rd (p : option nat) (i : Z) : M world val := fun w =>
  match p with
  | None => (Undef UB_null, w)
  | Some a =>
      match hblk (hp w) a with
      | Live _ cs =>
          if (0 <=? i) && (i <? Z.of_nat (List.length cs)) then
            match nth (Z.to_nat i) cs None with
            | Some v => (Done v, w)
            | None => (Undef UB_uninit, w)
            end
          else (Undef UB_oob, w)
      | _ => (Undef UB_freed, w)
      end
  end.

(** [p[i] = v]. (E.g. Core/BaseStore.hpp 108.) *)
Definition wrc (p : option nat) (i : Z) (c : option val) : M world unit := fun w =>
  match p with
  | None => (Undef UB_null, w)
  | Some a =>
      match hblk (hp w) a with
      | Live o cs =>
          if (0 <=? i) && (i <? Z.of_nat (List.length cs)) then
            (Done tt, set_hp w (set_blk (hp w) a (Live o (list_set cs (Z.to_nat i) c))))
          else (Undef UB_oob, w)
      | _ => (Undef UB_freed, w)
      end
  end.
Definition wr p i v := wrc p i (Some v).

(** One step of std::copy: copies the cell as it is. Simplification: copying
    an indeterminate element does not count as undefined behaviour (libstdc++
    uses memmove for arithmetic types); reading it later does.
    (Core/BaseStore.hpp 40, 167.) *)
Definition copy_cell (p q : option nat) (i : Z) : M world unit := fun w =>
  match p with
  | None => (Undef UB_null, w)
  | Some a =>
      match hblk (hp w) a with
      | Live _ cs =>
          if (0 <=? i) && (i <? Z.of_nat (List.length cs)) then
            wrc q i (nth (Z.to_nat i) cs None) w
          else (Undef UB_oob, w)
      | _ => (Undef UB_freed, w)
      end
  end.

Definition for_ (n : Z) (body : Z -> M world unit) : M world unit := forN (Z.to_nat n) 0 body.

(* ----------------------------------------------------- BaseStore / Buffer *)

(** std::fill(p, p + sz, v): BaseStore.hpp 147-156, Borrow.hpp 84-93,
    BorrowSEXP.hpp 264-273.  The value is converted to T first. *)
Definition fill (o : oid) (v : val) : M world unit :=
  s <- st o ;;
  v' <- lift (cast (sty s) v) ;;
  for_ (sz s) (fun i => wr (ptr s) i v').

(** BaseStore(const BaseStore&) (Core/BaseStore.hpp 36-44): matrix
    parameters are not copied. *)
Definition ctor_copy (o other : oid) : M world unit :=
  s <- st other ;;
  let base := mkStore KBuffer (sty s) None (sz s) (cap s) (alloc s) mp_none false in
  if alloc s then
    a <- new_ (cap s) ;;
    for_ (cap s) (fun i => copy_cell (ptr s) (Some a) i) ;;
    upd o (fun _ => with_ptr (Some a) base)
  else upd o (fun _ => base).

(** BaseStore(BaseStore&&) (Core/BaseStore.hpp 45-52). *)
Definition ctor_move (o other : oid) : M world unit :=
  s <- st other ;;
  upd o (fun _ => mkStore KBuffer (sty s) (ptr s) (sz s) (cap s) (alloc s) mp_none false) ;;
  upd other (fun s => with_ptr None (with_alloc false (with_sz 0 (with_cap 0 s)))).

(** BaseStore(std::size_t sz_) (Core/BaseStore.hpp 103-111). When the
    constructor throws the object never comes to life. *)
Definition ctor_size (o : oid) (t : ety) (n : Z) : M world unit :=
  c <- lift (cap115 n) ;;
  ass (0 <? n) "Size has to be larger than 0" ;;
  a <- new_ c ;;
  for_ c (fun i => wr (Some a) i (zero_of t)) ;;
  upd o (fun _ => mkStore KBuffer t (Some a) n c true mp_none false).

(** BaseStore(int sz_) (Core/BaseStore.hpp 112-120): only the first sz
    elements are set. *)
Definition ctor_int (o : oid) (t : ety) (n : Z) : M world unit :=
  c <- lift (f2size (fmul (i2f n) f115)) ;;
  ass (0 <? n) "Size has to be larger than 0" ;;
  a <- new_ c ;;
  for_ n (fun i => wr (Some a) i (zero_of t)) ;;
  upd o (fun _ => mkStore KBuffer t (Some a) n c true mp_none false).

(** BaseStore() (Core/BaseStore.hpp 121-126). *)
Definition ctor_default (o : oid) (t : ety) : M world unit :=
  upd o (fun _ => store_default KBuffer t).

(** ~BaseStore (Core/BaseStore.hpp 236-246). *)
Definition destroy (o : oid) : M world unit :=
  s <- st o ;;
  match ptr s with
  | None => ret tt
  | Some _ =>
      if alloc s then
        del (ptr s) ;;
        upd o (fun s => with_alloc false (with_ptr None (with_cap 0 (with_sz 0 s))))
      else ret tt
  end.

(** init (Core/BaseStore.hpp 248-258): the new elements are not initialised.
    *)
Definition init (o : oid) (n : Z) : M world unit :=
  s <- st o ;;
  (if alloc s then
     ass (match ptr s with Some _ => true | None => false end) "try to delete nullptr" ;;
     del (ptr s) ;;
     upd o (with_ptr None)
   else ret tt) ;;
  upd o (with_sz n) ;;
  c <- lift (cap115 n) ;;
  upd o (with_cap c) ;;
  a <- new_ c ;;
  upd o (with_ptr (Some a)) ;;
  upd o (with_alloc true).

(** resize (Core/BaseStore.hpp 259-279). *)
Definition resize (o : oid) (n : Z) : M world unit :=
  ass (1 <=? n) "Size has to be larger than 0" ;;
  s <- st o ;;
  if negb (alloc s) then
    init o n ;; fill o (zero_of (sty s))
  else if cap s <? n then
    ass (match ptr s with Some _ => true | None => false end) "try to delete nullptr" ;;
    del (ptr s) ;;
    c <- lift (cap115 n) ;;
    upd o (with_cap c) ;;
    a <- new_ c ;;
    upd o (with_ptr (Some a)) ;;
    upd o (with_sz n) ;;
    upd o (with_alloc true) ;;
    fill o (zero_of (sty s))
  else upd o (with_sz n).

(** operator[] (Core/BaseStore.hpp 281-293), used as an rvalue. [idx >= 0]
    is always true for a size_t. *)
Definition get_at (o : oid) (i : Z) : M world val :=
  s <- st o ;;
  ass (alloc s) "No memory was allocated" ;;
  ass (i <? sz s) "Error: out of boundaries --> value beyond size of vector" ;;
  rd (ptr s) i.

(** operator[] (Core/BaseStore.hpp 288-293), used as an lvalue; the value is
    already of type T. *)
Definition set_at (o : oid) (i : Z) (v : val) : M world unit :=
  s <- st o ;;
  ass (alloc s) "No memory was allocated" ;;
  ass (i <? sz s) "Error: out of boundaries --> value beyond size of vector" ;;
  wr (ptr s) i v.

(** moveit (Core/BaseStore.hpp 295-307): sz and capacity of the other object
    pass through an int. [other.allocated] keeps its value. *)
Definition moveit (o other : oid) : M world unit :=
  t <- st other ;;
  s <- st o ;;
  upd other (fun t => with_cap (cap s) (with_sz (sz s) (with_ptr (ptr s) t))) ;;
  upd o (fun s => with_alloc true
                    (with_cap (wrap64 (to_int (cap t)))
                       (with_sz (wrap64 (to_int (sz t))) (with_ptr (ptr t) s)))).

(** realloc (Core/BaseStore.hpp 313-329). *)
Definition realloc (o : oid) (n : Z) : M world unit :=
  s <- st o ;;
  c <- lift (cap115_int n) ;;
  upd o (with_cap c) ;;
  a <- new_ c ;;
  for_ (sz s) (fun i => v <- rd (ptr s) i ;; wr (Some a) i v) ;;
  forN (Z.to_nat (n - sz s)) (sz s) (fun i => wr (Some a) i (zero_of (sty s))) ;;
  del (ptr s) ;;
  upd o (with_ptr (Some a)) ;;
  upd o (with_sz n) ;;
  upd o (with_alloc true).

(** push_back (Core/BaseStore.hpp 331-348). [szOld] is an int. *)
Definition push_back (o : oid) (v : val) : M world unit :=
  s <- st o ;;
  if sz s =? cap s then
    let szOld := wrap64 (to_int (sz s)) in
    (if sz s =? 0 then realloc o 1 else realloc o (wrap64 (sz s * 2))) ;;
    upd o (fun s => with_cap (sz s) s) ;;
    s' <- st o ;;
    wr (ptr s') szOld v ;;
    upd o (with_sz (wrap64 (szOld + 1)))
  else if sz s <? cap s then
    wr (ptr s) (sz s) v ;;
    upd o (with_sz (wrap64 (sz s + 1)))
  else ret tt.

(** operator=(const BaseStore&) (Core/BaseStore.hpp 130-145): deep copy;
    [other[i]] is the checked access. *)
Definition assign_store (o other : oid) : M world unit :=
  if oid_eqb o other then ret tt else
  s <- st o ;;
  t <- st other ;;
  (if sz s <? sz t then
     if alloc s then realloc o (wrap64 (sz s + wrap64 (sz t - sz s)))
     else resize o (sz t)
   else ret tt) ;;
  s' <- st o ;;
  for_ (sz s') (fun i => v <- get_at other i ;; wr (ptr s') i v).

(** fill with an rvalue vector of the same element type (Core/BaseStore.hpp
    169-174): takes over the pointer; sz, capacity and allocated are kept. [inp]
    is the storage of the r-value. *)
Definition fill_rvec (o inp : oid) : M world unit :=
  s <- st o ;;
  t <- st inp ;;
  ass (sz t =? sz s) "cannot use fill with vectors of different lengths" ;;
  del (ptr s) ;;
  upd inp (with_ptr None) ;;
  upd inp (with_alloc false) ;;
  upd o (with_ptr (ptr t)).

(** back (Core/BaseStore.hpp 310): one past the last element. *)
Definition back (o : oid) : M world val :=
  s <- st o ;; rd (ptr s) (sz s).

(** Constructors.hpp 201-212: construction from an r-value vector of the same
    element type.  [o] is default-constructed; pointer, size and [allocated] are
    exchanged, the capacity is not. *)
Definition ctor_steal (o other : oid) (t : ety) : M world unit :=
  upd o (fun _ => store_default KBuffer t) ;;
  s <- st other ;;
  upd o (with_alloc (alloc s)) ;;
  upd other (with_sz 0) ;;
  upd o (with_sz (sz s)) ;;
  upd other (with_ptr None) ;;
  upd o (with_ptr (ptr s)) ;;
  if ismat (mp s) then upd o (with_mp (mkMP true (rows (mp s)) (cols (mp s)))) else ret tt.

(* ---------------------------------------------------------------- Borrow *)

(** Borrow(T*, size_t) (Core/Borrow.hpp 61-66) and init (68-73): [a] is a
    block not obtained by this library. *)
Definition borrow_ctor (o : oid) (t : ety) (a : option nat) (n : Z) : M world unit :=
  upd o (fun _ => mkStore KBorrow t a n n true mp_none false).

(** Borrow::resize (Core/Borrow.hpp 126-133). *)
Definition borrow_resize (o : oid) (n : Z) : M world unit :=
  ass (1 <=? n) "Size has to be larger than 0" ;;
  s <- st o ;;
  if n <=? cap s then upd o (with_sz n)
  else ass false "Cannot resize Borrow element above size of borrowed object".

(** Borrow::set (Core/Borrow.hpp 134-138). *)
Definition borrow_set (o : oid) (i : Z) (v : val) : M world unit :=
  s <- st o ;;
  ass (i <? sz s) "Index cannot be larger than size of Indices" ;;
  wr (ptr s) i v.

(** Borrow::fill with an r-value of the same type (Core/Borrow.hpp 95-111).
    *)
Definition borrow_fill_rvec := fill_rvec.

(** Borrow::operator= (Core/Borrow.hpp 75-82): rebinding, no element is
    copied. *)
Definition borrow_assign (o other : oid) : M world unit :=
  t <- st other ;;
  upd o (fun s => mkStore (kd s) (sty s) (ptr t) (sz t) (cap t) (alloc t) (mp t) (todel s)).

(* ------------------------------------------------------------ BorrowSEXP *)

(** BorrowSEXP(SEXP) (Core/BorrowSEXP.hpp 34-71): [a] is the R object's
    memory, [n] its length. *)
Definition sexp_ctor (o : oid) (t : ety) (a : option nat) (n : Z) (m : matpar) : M world unit :=
  upd o (fun _ => mkStore KBorrowSEXP t a n n true
                    (if ismat m then m else mp_none) false).

(** ~BorrowSEXP (Core/BorrowSEXP.hpp 78-83). *)
Definition sexp_destroy (o : oid) : M world unit :=
  s <- st o ;;
  if todel s then del (ptr s) ;; upd o (with_ptr None) else ret tt.

(** operator[] (Core/BorrowSEXP.hpp 137-149). *)
Definition sexp_get_at (o : oid) (i : Z) : M world val :=
  s <- st o ;;
  ass (match ptr s with Some _ => true | None => false end) "Subset is pointing to nothing!" ;;
  ass (i <? sz s) "Error: out of boundaries --> value beyond size of vector" ;;
  rd (ptr s) i.
Definition sexp_set_at (o : oid) (i : Z) (v : val) : M world unit :=
  s <- st o ;;
  ass (match ptr s with Some _ => true | None => false end) "Subset is pointing to nothing!" ;;
  ass (i <? sz s) "Error: out of boundaries --> value beyond size of vector" ;;
  wr (ptr s) i v.

(** init (Core/BorrowSEXP.hpp 151-162). *)
Definition sexp_init (o : oid) (n : Z) : M world unit :=
  s <- st o ;;
  (if alloc s && todel s then
     ass (match ptr s with Some _ => true | None => false end) "try to delete nullptr" ;;
     del (ptr s) ;;
     upd o (with_ptr None)
   else ret tt) ;;
  upd o (with_sz n) ;;
  c <- lift (cap115 n) ;;
  upd o (with_cap c) ;;
  a <- new_ c ;;
  upd o (with_ptr (Some a)) ;;
  upd o (fun s => with_todel true (with_alloc true s)).

(** resize (Core/BorrowSEXP.hpp 164-186): above the capacity the old memory
    is deleted, whoever owns it. *)
Definition sexp_resize (o : oid) (n : Z) : M world unit :=
  ass (1 <=? n) "Size has to be larger than 0" ;;
  s <- st o ;;
  if negb (alloc s) then
    sexp_init o n ;; fill o (zero_of (sty s))
  else if cap s <? n then
    ass (match ptr s with Some _ => true | None => false end) "try to delete nullptr" ;;
    del (ptr s) ;;
    upd o (with_sz n) ;;
    c <- lift (cap115 n) ;;
    upd o (with_cap c) ;;
    a <- new_ c ;;
    upd o (with_ptr (Some a)) ;;
    upd o (fun s => with_sz n (with_todel true (with_alloc true s))) ;;
    fill o (zero_of (sty s))
  else upd o (with_sz n).

(** moveit (Core/BorrowSEXP.hpp 188-212). *)
Definition sexp_moveit (o other : oid) : M world unit :=
  s0 <- st o ;;
  t0 <- st other ;;
  (if negb (todel s0) then sexp_resize o (sz t0) else ret tt) ;;
  t <- st other ;;
  s <- st o ;;
  upd other (fun t => with_cap (cap s) (with_sz (sz s) (with_ptr (ptr s) t))) ;;
  upd o (fun s => with_cap (wrap64 (to_int (cap t)))
                    (with_sz (wrap64 (to_int (sz t))) (with_ptr (ptr t) s))).

(* ------------------------------------------- dispatch on the storage class *)

(** [d[i]] for the storage class of the object. (Core/BaseStore.hpp 281-293,
    Core/Borrow.hpp 140-153, Core/BorrowSEXP.hpp 137-149.) *)
Definition at_rd (o : oid) (i : Z) : M world val :=
  s <- st o ;;
  match kd s with
  | KBorrowSEXP => sexp_get_at o i
  | _ => get_at o i        (* Borrow.hpp 140-145 has the same text as BaseStore.hpp 281-286 *)
  end.
Definition at_wr (o : oid) (i : Z) (v : val) : M world unit :=
  s <- st o ;;
  match kd s with
  | KBorrowSEXP => sexp_set_at o i v
  | _ => set_at o i v      (* Borrow.hpp 147-152 *)
  end.
(** [d.resize(n)]. (Core/BaseStore.hpp 259-279, Core/Borrow.hpp 126-133,
    Core/BorrowSEXP.hpp 164-186.) *)
Definition any_resize (o : oid) (n : Z) : M world unit :=
  s <- st o ;;
  match kd s with
  | KBuffer => resize o n
  | KBorrow => borrow_resize o n
  | KBorrowSEXP => sexp_resize o n
  end.
(** Destructor of the storage member (~Borrow, Borrow.hpp 123, does nothing). *)
Definition any_destroy (o : oid) : M world unit :=
  s <- st o ;;
  match kd s with
  | KBuffer => destroy o
  | KBorrow => ret tt
  | KBorrowSEXP => sexp_destroy o
  end.
