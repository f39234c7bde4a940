(** Subsetting and element access (include/etr_bits/Subsetting/): the positions
    a subset selects, at().

    The index store of a subset (Indices, a BaseStore<size_t>) is private to
    the subset; its contents are kept as a list.  What is kept of it: a length
    of 0 is rejected by resize / the constructor, accesses are bounds checked.
    Not kept: running out of memory while it is allocated. *)
From Coq Require Import ZArith List String Bool.
From Verif Require Import Base Num StoreModel VecModel.
Import ListNotations.
Open Scope Z_scope.

(** An index argument: a logical, an int, a double, or a vector or
    expression with elements of type t. (Subsetting/VectorSubsetting.hpp 17-69.)
    *)
Inductive index :=
| IB (b : bool)
| IZ (z : Z)
| IF (f : flt)
| IV (t : ety) (e : expr).

(** 0, 1, ..., n-1. (The messages: Core/BaseStore.hpp 249,
    Subsetting/MatrixSubsetting.hpp 44-51, Allocation/AllocationUtils.hpp 24,
    Subsetting/UtilsSubsetting.hpp 23.) *)
Definition iota (n : nat) : list Z := map Z.of_nat (seq 0 n).

Definition zero_size : exn := Ass "Size has to be larger than 0".
Definition no_false : exn := Ass "Variable[FALSE, FALSE] subsetting is not supported. Sorry".
Definition bad_times : exn := Ass "invalid times argument".
Definition bad_index : exn := Ass "invalid index argument".
Definition too_long : exn := Ass "Error in matrix: logical subscript too long".

(** ind.resize(n) followed by ind[0..] = l, where l has n elements counted
    modulo 2^64. (Subsetting/VectorSubsetting.hpp 48-52.) *)
Definition store_ind (l : list Z) : outcome (list Z) :=
  let n := wrap64 (Z.of_nat (List.length l)) in
  if n =? 0 then Thrown zero_size
  else if n <? Z.of_nat (List.length l)
  then Thrown (Ass "Error: out of boundaries --> value beyond size of vector")
  else Done l.

(** ( *idx)[i] (VectorClass.hpp 41): an element of type t for stored elements,
    a double for an operation or a subset, whatever its element type t is. *)
Definition idx_at (lm : libm) (w : world) (t : ety) (e : expr) (i : Z) : outcome val :=
  v <-o fst (elem lm e i w) ;; if stored e then cast t v else Done (VD (v2f v)).
Definition truth (v : val) : bool :=
  match v with VB b => b | VI z => negb (z =? 0) | VD f => f2b f end.
(** an int element minus one (int arithmetic)
    (Subsetting/MatrixSubsetting.hpp 133.) *)
Definition int_less1 (v : val) : outcome Z :=
  match v with VI z => int_res (z - 1) | VB b => int_res (b2z b - 1) | VD f => z <-o f2int f ;; int_res (z - 1) end.

(** ( *idx)[i] - 1 as a size_t, the element having type int (VectorSubsetting.hpp
    56) or, read from an operation or a subset, double. *)
Definition size_less1 (v : val) : outcome Z :=
  match v with VD f => f2size (fsub f fone) | _ => k <-o int_less1 v ;; Done (wrap64 k) end.

(** convertSizeSubsetting for double (UtilsSubsetting.hpp 25-30): the call of
    isDoubleInt (Core/Utils.hpp 16-22) converts to int first. *)
Definition convert_sub (f : flt) : outcome Z :=
  _ <-o f2int f ;;
  if flt_leb fone f then f2size f else Thrown bad_index.
(** convertSize for double (Allocation/AllocationUtils.hpp 26-31). *)
Definition convert_dbl (f : flt) : outcome Z :=
  _ <-o f2int f ;;
  if flt_leb fone f then f2size f else Thrown bad_times.
(** convertSize for size_t (Allocation/AllocationUtils.hpp 23-25). *)
Definition convert_sz (n : Z) : outcome Z := if 1 <=? n then Done n else Thrown bad_times.

(** Positions (counted from [i]) of the TRUE entries.
    (Subsetting/VectorSubsetting.hpp 40-52, Subsetting/MatrixSubsetting.hpp
    83-88.) *)
Fixpoint true_at (bs : list bool) (i : Z) : list Z :=
  match bs with
  | [] => []
  | b :: r => if b then i :: true_at r (i + 1) else true_at r (i + 1)
  end.

(** calcIndVector (VectorSubsetting.hpp 16-69) for a vector of n elements. *)
Definition calc_ind_vector (lm : libm) (w : world) (n : Z) (idx : index) : outcome (list Z) :=
  match idx with
  | IB true => store_ind (iota (Z.to_nat n))                              (* 18-23 *)
  | IB false => Thrown (Ass "Variable[FALSE] subsetting is not supported. Sorry")
  | IZ z => k <-o int_res (z - 1) ;; store_ind [wrap64 k]                  (* 28-32 *)
  | IF f => k <-o convert_sub f ;; store_ind [wrap64 (k - 1)]              (* 33-36 *)
  | IV TBool e =>                                                          (* 40-52 *)
      bs <-o omap (fun i => k <-o modz i (esize w e) ;;
                            v <-o idx_at lm w TBool e k ;; Done (truth v)) (iota (Z.to_nat n)) ;;
      store_ind (true_at bs 0)
  | IV TInt e =>                                                           (* 53-58 *)
      l <-o omap (fun i => v <-o idx_at lm w TInt e i ;; size_less1 v) (iota (Z.to_nat (esize w e))) ;;
      store_ind l
  | IV TDouble e =>                                                        (* 59-64 *)
      l <-o omap (fun i => v <-o idx_at lm w TDouble e i ;;
                           k <-o f2size (v2f v) ;; Done (wrap64 (k - 1))) (iota (Z.to_nat (esize w e))) ;;
      store_ind l
  end.

(** subset(vec, idx) (VectorSubsetting.hpp 71-89). *)
Definition subset_vec (lm : libm) (w : world) (e : expr) (idx : index) : outcome expr :=
  ind <-o calc_ind_vector lm w (esize w e) idx ;; Done (ESub e ind mp_none).

(* --------------------------------------------------------------- matrices *)

(** The loop that turns a mask into positions (e.g. MatrixSubsetting.hpp
    91-99): [c2] counts how often i passed a multiple of d. *)
Fixpoint mask_scan (bs : list bool) (i c2 d : Z) : outcome (list Z) :=
  match bs with
  | [] => Done []
  | b :: r =>
      k <-o modz i d ;;
      let c2' := if (k =? 0) && negb (i =? 0) then c2 + 1 else c2 in
      ps <-o mask_scan r (i + 1) c2' d ;;
      Done (if b then wrap64 (i - c2' * d) :: ps else ps)
  end.

(** The mask, over its own length. (Subsetting/MatrixSubsetting.hpp 83-88.)
    *)
Definition mask_own (lm : libm) (w : world) (e : expr) : outcome (list bool) :=
  omap (fun i => v <-o idx_at lm w TBool e i ;; Done (truth v)) (iota (Z.to_nat (esize w e))).
(** The mask, recycled to length n. (Subsetting/MatrixSubsetting.hpp
    171-177.) *)
Definition mask_rec (lm : libm) (w : world) (e : expr) (n : Z) : outcome (list bool) :=
  omap (fun i => k <-o modz i (esize w e) ;; v <-o idx_at lm w TBool e k ;; Done (truth v)) (iota (Z.to_nat n)).

(** BaseStore<std::size_t> / BaseStore<int> positions(counter) filled by the
    loop; the constructor rejects a counter of 0.
    (Subsetting/MatrixSubsetting.hpp 89, 178.) *)
Definition positions (bs : list bool) (d : Z) : outcome (list Z) :=
  match true_at bs 0 with
  | [] => Thrown zero_size
  | _ => mask_scan bs 0 0 d
  end.
Definition positions_int (bs : list bool) (d : Z) : outcome (list Z) :=
  ps <-o positions bs d ;; Done (map to_int ps).

(** The entries equal to TRUE, counted in a loop of its own: an entry read from
    an operation is a double, and 2.0 would not be equal to TRUE.  (Operations on
    logical vectors give 0 and 1 only.  Subsetting/MatrixSubsetting.hpp 453-458.) *)
Definition mask_ones (lm : libm) (w : world) (e : expr) : outcome (list bool) :=
  omap (fun i => v <-o idx_at lm w TBool e i ;; Done (flt_eqb (v2f v) fone)) (iota (Z.to_nat (esize w e))).
(** BaseStore<int> positions_rows(counter), the counter being the number of
    entries equal to TRUE; the loop that fills it stores a position for every
    entry other than 0, and BaseStore checks the subscript.
    (Subsetting/MatrixSubsetting.hpp 459-470.) *)
Definition positions_ones (ones bs : list bool) (d : Z) : outcome (list Z) :=
  match true_at ones 0 with
  | [] => Thrown zero_size
  | k => ps <-o mask_scan bs 0 0 d ;;
         if (List.length k <? List.length ps)%nat
         then Thrown (Ass "Error: out of boundaries --> value beyond size of vector")
         else Done (map to_int ps)
  end.

(** An int loop counter runs up to n - 1. (Subsetting/MatrixSubsetting.hpp
    359-396.) *)
Definition int_loop (n : Z) : outcome unit := if n <=? int_max then Done tt else Undef UB_overflow.

(** ( *idx)[j] - 1 for an int vector, d2i(( *idx)[j]) - 1 for a double one.
    (Subsetting/MatrixSubsetting.hpp 119, 133.) *)
Definition less1_at (lm : libm) (w : world) (t : ety) (e : expr) (j : Z) : outcome Z :=
  v <-o idx_at lm w t e j ;; int_less1 v.

(** For every column entry, for every row entry: col * nr + row, in size_t.
    (Subsetting/MatrixSubsetting.hpp 102-107.) *)
Definition grid_of (nr : Z) (rows cols : list Z) : list Z :=
  flat_map (fun c => map (fun r => wrap64 (c * nr + r)) rows) cols.

Definition all_less1 (lm : libm) (w : world) (t : ety) (e : expr) : outcome (list Z) :=
  omap (less1_at lm w t e) (iota (Z.to_nat (esize w e))).

(** d2i(( *idxL)[i]) - 1 added to a size_t: the subtraction is one of size_t.
    (Subsetting/MatrixSubsetting.hpp 547.) *)
Definition all_before (lm : libm) (w : world) (t : ety) (e : expr) : outcome (list Z) :=
  omap (fun i => v <-o idx_at lm w t e i ;;
                 z <-o match v with VI z => Done z | VB b => Done (b2z b) | VD f => f2int f end ;;
                 Done (z - 1)) (iota (Z.to_nat (esize w e))).

(** The positions for columns given by an int vector (e.g. MatrixSubsetting.hpp
    131-136): ( *idxR)[j] - 1 times nr plus the row.  The product is one of
    size_t for int elements; elements read from an operation or a subset are
    doubles and so is the position until it is stored. *)
Definition int_cols (lm : libm) (w : world) (nr : Z) (ec : expr) (rows : list Z) : outcome (list Z) :=
  if stored ec then cs <-o all_less1 lm w TInt ec ;; Done (grid_of nr rows cs)
  else
    ls <-o omap (fun j => v <-o idx_at lm w TInt ec j ;;
             omap (fun i => f2size (fadd (fmul (fsub (v2f v) fone) (i2f nr)) (i2f (wrap64 i)))) rows)
           (iota (Z.to_nat (esize w ec))) ;;
    Done (List.concat ls).
(** The same for rows (e.g. MatrixSubsetting.hpp 329-334): column times nr,
    plus ( *idxL)[j] - 1. *)
Definition int_rows (lm : libm) (w : world) (nr : Z) (er : expr) (cols : list Z) : outcome (list Z) :=
  if stored er then rs <-o all_less1 lm w TInt er ;; Done (grid_of nr rs cols)
  else
    ls <-o omap (fun c =>
             omap (fun j => v <-o idx_at lm w TInt er j ;;
                            f2size (fadd (i2f (wrap64 (c * nr))) (fsub (v2f v) fone)))
                  (iota (Z.to_nat (esize w er)))) cols ;;
    Done (List.concat ls).

(** The member mp of vec.d: a BinaryOperation or UnaryOperation has one too, but
    nothing sets it (Vector/VectorClass.hpp, Constructors.hpp: the operation
    computes its shape in im(), nr() and nc() instead). *)
Definition emp (w : world) (e : expr) : matpar :=
  match e with
  | EVar x => mp (ob w (OD x))
  | ETmp _ _ m | ESub _ _ m => m
  | ESca _ | EBin _ _ _ | EUn _ _ => mp_none
  end.

(** calcIndMatrix (MatrixSubsetting.hpp 38-573) for a vector e.  Elements of
    an index vector are converted once instead of once per inner iteration (the
    conversion is pure); where the code would throw for one element and meet
    undefined behaviour for a later one, the model may report the latter.
    Result: the positions and the shape of the subset. *)
Definition calc_ind_matrix (lm : libm) (w : world) (e : expr) (iL iR : index) : outcome (list Z * matpar) :=
  if negb (eim w e) then Thrown (Ass "incorrect number of dimensions")
  else
  nr <-o edim rows w e ;; nc <-o edim cols w e ;;
  let n := esize w e in
  let allr := iota (Z.to_nat nr) in
  let allc := iota (Z.to_nat nc) in
  match iL, iR with
  (* 43-53 *)
  | IB l, IB r =>
      if l && r then ind <-o store_ind (iota (Z.to_nat n)) ;; Done (ind, emp w e)
      else Thrown no_false
  (* 54-64 *)
  | IB l, IZ c =>
      if negb l then Thrown no_false else
      l <-o omap (fun j => k <-o int_res (c - 1) ;; Done (wrap64 (k * nr + j))) allr ;;
      ind <-o store_ind l ;; Done (ind, mp_none)
  (* 65-75 *)
  | IB l, IF c =>
      if negb l then Thrown no_false else
      l <-o omap (fun j => k <-o f2size c ;; Done (wrap64 ((k - 1) * nr + j))) allr ;;
      ind <-o store_ind l ;; Done (ind, mp_none)
  (* 78-109 *)
  | IB l, IV TBool ec =>
      if negb l then Thrown no_false else
      bs <-o mask_own lm w ec ;;
      match true_at bs 0 with
      | [] => Thrown (Ass "subset has to have at least one element")
      | _ =>
          ps <-o positions bs nc ;;
          ind <-o store_ind (grid_of nr allr ps) ;;
          Done (ind, mkMP true nr (Z.of_nat (List.length ps)))
      end
  (* 110-137 *)
  | IB l, IV TInt ec =>
      if negb l then Thrown no_false else
      if nr =? 0 then Thrown zero_size else
      ps <-o int_cols lm w nr ec allr ;;
      ind <-o store_ind ps ;;
      Done (ind, mkMP true nr (esize w ec))
  | IB l, IV TDouble ec =>
      if negb l then Thrown no_false else
      if nr =? 0 then Thrown zero_size else
      cs <-o all_less1 lm w TDouble ec ;;
      ind <-o store_ind (grid_of nr allr cs) ;;
      Done (ind, mkMP true nr (esize w ec))
  (* 144-154 *)
  | IZ r, IB c =>
      if negb c then Thrown no_false else
      ind <-o store_ind (map (fun j => wrap64 (j * nr + (r - 1))) allc) ;; Done (ind, mp_none)
  (* 155-160 *)
  | IZ r, IZ c =>
      k <-o int_res (c - 1) ;;
      ind <-o store_ind [wrap64 (k * nr + (r - 1))] ;; Done (ind, mp_none)
  (* 161-166 *)
  | IZ r, IF c =>
      k <-o f2size c ;;
      ind <-o store_ind [wrap64 ((k - 1) * nr + (r - 1))] ;; Done (ind, mp_none)
  (* 169-195 *)
  | IZ r, IV TBool ec =>
      if nc <? esize w ec then Thrown too_long else
      bs <-o mask_rec lm w ec nc ;;
      ps <-o positions_int bs nc ;;
      ind <-o store_ind (grid_of nr [r - 1] ps) ;; Done (ind, mp_none)
  (* 196-209 *)
  | IZ r, IV TInt ec =>
      ps <-o int_cols lm w nr ec [r - 1] ;;
      ind <-o store_ind ps ;; Done (ind, mp_none)
  | IZ r, IV TDouble ec =>
      cs <-o all_less1 lm w TDouble ec ;;
      ind <-o store_ind (grid_of nr [r - 1] cs) ;; Done (ind, mp_none)
  (* 216-226 *)
  | IF r, IB c =>
      k <-o convert_dbl r ;;
      if negb c then Thrown no_false else
      l <-o omap (fun j => m <-o convert_sz nr ;; Done (wrap64 (j * m + (k - 1)))) allc ;;
      ind <-o store_ind l ;; Done (ind, mp_none)
  (* 227-232 *)
  | IF r, IZ c =>
      k <-o convert_dbl r ;;
      cz <-o int_res (c - 1) ;;
      m <-o convert_sz nr ;;
      ind <-o store_ind [wrap64 (cz * m + (k - 1))] ;; Done (ind, mp_none)
  (* 233-238: convertSize( *idxR) - 1 * vec.nr() + indexRow *)
  | IF r, IF c =>
      k <-o convert_dbl r ;;
      kc <-o convert_dbl c ;;
      ind <-o store_ind [wrap64 (kc - 1 * nr + (k - 1))] ;; Done (ind, mp_none)
  (* 241-267 *)
  | IF r, IV TBool ec =>
      k <-o convert_dbl r ;;
      if nc <? esize w ec then Thrown too_long else
      bs <-o mask_rec lm w ec nc ;;
      ps <-o positions_int bs nc ;;
      ind <-o store_ind (grid_of nr [k - 1] ps) ;; Done (ind, mp_none)
  (* 268-281 *)
  | IF r, IV TInt ec =>
      k <-o convert_dbl r ;;
      ps <-o int_cols lm w nr ec [k - 1] ;;
      ind <-o store_ind ps ;; Done (ind, mp_none)
  | IF r, IV TDouble ec =>
      k <-o convert_dbl r ;;
      cs <-o all_less1 lm w TDouble ec ;;
      ind <-o store_ind (grid_of nr [k - 1] cs) ;; Done (ind, mp_none)
  (* 290-321 *)
  | IV TBool er, IB c =>
      if negb c then Thrown no_false else
      bs <-o mask_own lm w er ;;
      ps <-o positions bs nr ;;
      ind <-o store_ind (grid_of nr ps allc) ;;
      Done (ind, mkMP true (Z.of_nat (List.length ps)) nc)
  (* 322-350 *)
  | IV TInt er, IB c =>
      if negb c then Thrown no_false else
      if nc =? 0 then Thrown zero_size else
      ps <-o int_rows lm w nr er allc ;;
      ind <-o store_ind ps ;;
      Done (ind, mkMP true (esize w er) nc)
  | IV TDouble er, IB c =>
      if negb c then Thrown no_false else
      if nc =? 0 then Thrown zero_size else
      rs <-o all_less1 lm w TDouble er ;;
      ind <-o store_ind (grid_of nr rs allc) ;;
      Done (ind, mkMP true (esize w er) nc)
  (* 359-384 *)
  | IV TBool er, IZ c =>
      _ <-o int_loop nr ;;
      bs <-o mask_rec lm w er nr ;;
      if nr <? esize w er then Thrown too_long else
      ps <-o positions_int bs nr ;;
      k <-o int_res (c - 1) ;;
      ind <-o store_ind (grid_of nr ps [k]) ;; Done (ind, mp_none)
  (* 385-396 *)
  | IV TInt er, IZ c =>
      _ <-o int_loop (esize w er) ;;
      if esize w er =? 0 then Thrown zero_size else
      k <-o int_res (c - 1) ;;
      ps <-o int_rows lm w nr er [k] ;;
      ind <-o store_ind ps ;; Done (ind, mp_none)
  | IV TDouble er, IZ c =>
      _ <-o int_loop (esize w er) ;;
      if esize w er =? 0 then Thrown zero_size else
      k <-o int_res (c - 1) ;;
      rs <-o all_less1 lm w TDouble er ;;
      ind <-o store_ind (grid_of nr rs [k]) ;; Done (ind, mp_none)
  (* 405-430 *)
  | IV TBool er, IF c =>
      _ <-o int_loop nr ;;
      bs <-o mask_rec lm w er nr ;;
      if nr <? esize w er then Thrown too_long else
      ps <-o positions_int bs nr ;;
      k <-o convert_dbl c ;;
      ind <-o store_ind (grid_of nr ps [k - 1]) ;; Done (ind, mp_none)
  (* 431-436 *)
  | IV TInt er, IF c =>
      _ <-o int_loop (esize w er) ;;
      if esize w er =? 0 then Thrown zero_size else
      k <-o convert_dbl c ;;
      ps <-o int_rows lm w nr er [k - 1] ;;
      ind <-o store_ind ps ;; Done (ind, mp_none)
  (* 437-442: the position is computed in double precision *)
  | IV TDouble er, IF c =>
      _ <-o int_loop (esize w er) ;;
      rs <-o omap (fun j => k <-o less1_at lm w TDouble er j ;;
               f2size (fadd (fmul (fsub c fone) (i2f nr)) (i2f k))) (iota (Z.to_nat (esize w er))) ;;
      ind <-o store_ind rs ;; Done (ind, mp_none)
  (* 452-497 *)
  | IV TBool er, IV TBool ec =>
      on <-o mask_ones lm w er ;;
      br <-o mask_own lm w er ;;
      pr <-o positions_ones on br nr ;;
      bc <-o mask_own lm w ec ;;
      pc <-o positions_int bc nc ;;
      ind <-o store_ind (grid_of nr pr pc) ;;
      Done (ind, mkMP true (Z.of_nat (List.length pr)) (Z.of_nat (List.length pc)))
  (* 498-524: the shape is not set *)
  | IV TBool er, IV t ec =>
      br <-o mask_own lm w er ;;
      pr <-o positions_int br nr ;;
      cs <-o all_less1 lm w t ec ;;
      ind <-o store_ind (grid_of nr pr cs) ;; Done (ind, mp_none)
  (* 525-552 *)
  | IV t er, IV TBool ec =>
      bc <-o mask_own lm w ec ;;
      pc <-o positions_int bc nc ;;
      if esize w er =? 0 then Thrown zero_size else
      rs <-o all_before lm w t er ;;
      ind <-o store_ind (grid_of nr rs pc) ;;
      Done (ind, mkMP true (esize w er) (Z.of_nat (List.length pc)))
  (* 553-565 *)
  | IV t er, IV t' ec =>
      if (esize w er =? 0) || (esize w ec =? 0) then Thrown zero_size else
      cs <-o all_less1 lm w t' ec ;;
      rs <-o all_less1 lm w t er ;;
      ind <-o store_ind (grid_of nr rs cs) ;;
      Done (ind, mkMP true (esize w er) (esize w ec))
  end.

(** subset(vec, r, c) (MatrixSubsetting.hpp 575-596). *)
Definition subset_mat (lm : libm) (w : world) (e : expr) (iL iR : index) : outcome expr :=
  p <-o calc_ind_matrix lm w e iL iR ;; Done (ESub e (fst p) (snd p)).

(* ------------------------------------------------------------------- at() *)

(** A position argument: integral or floating point. (Subsetting/at.hpp
    30-49.) *)
Inductive pos := PZ (z : Z) | PF (f : flt).
(** i-- on int, after d2i for a double. (Subsetting/at.hpp 30-49.) *)
Definition pos_less1 (i : pos) : outcome Z :=
  match i with PZ z => int_res (z - 1) | PF f => z <-o f2int f ;; int_res (z - 1) end.

Definition below : exn := Ass "Error: out of boundaries --> value below 1".
Definition beyond : exn := Ass "Error: out of boundaries --> value beyond size of vector".

(** at(vec, i) for a variable (at.hpp 29-51): the position of the element. *)
Definition at_pos (w : world) (x : nat) (i : pos) : outcome Z :=
  k <-o pos_less1 i ;;
  if negb (alloc (ob w (OD x))) then Thrown (Ass "No memory was allocated")
  else if k <? 0 then Thrown below
  else if sz (ob w (OD x)) <=? k then Thrown beyond
  else Done k.
Definition at_vec (x : nat) (i : pos) : M world val :=
  w <- get ;; k <- lift (at_pos w x i) ;; rd (ptr (ob w (OD x))) k.
Definition at_vec_set (x : nat) (i : pos) (v : val) : M world unit :=
  w <- get ;; k <- lift (at_pos w x i) ;; wr (ptr (ob w (OD x))) k v.

(** at(vec, i) for an r-value, a subset or an operation (17-28): no check and
    no shift; the position goes to operator[] as size_t.  The result is what
    Vec::operator[] returns (VectorClass.hpp 41). *)
Definition at_expr (lm : libm) (e : expr) (i : pos) : M world val :=
  k <- lift (match i with PZ z => Done (wrap64 z) | PF f => z <-o f2int f ;; Done (wrap64 z) end) ;;
  vat lm e k.

(** at(mat, r, c) for a variable (Subsetting/at.hpp 52-95). *)
Definition at_mat_pos (w : world) (x : nat) (r c : pos) : outcome Z :=
  if negb (ismat (mp (ob w (OD x)))) then Thrown (Ass "Input is not a matrix!")
  else if negb (alloc (ob w (OD x))) then Thrown (Ass "No memory was allocated")
  else
    r' <-o pos_less1 r ;; c' <-o pos_less1 c ;;
    let k := wrap64 (c' * rows (mp (ob w (OD x))) + r') in
    if sz (ob w (OD x)) <=? k then Thrown beyond else Done k.
Definition at_mat (x : nat) (r c : pos) : M world val :=
  w <- get ;; k <- lift (at_mat_pos w x r c) ;; rd (ptr (ob w (OD x))) k.
Definition at_mat_set (x : nat) (r c : pos) (v : val) : M world unit :=
  w <- get ;; k <- lift (at_mat_pos w x r c) ;; wr (ptr (ob w (OD x))) k v.

(** at(mat, r, c) for an r-value, a subset or an operation
    (Subsetting/at.hpp 97-134). *)
Definition at_mat_expr (lm : libm) (e : expr) (r c : pos) : M world val :=
  w <- get ;;
  ass (eim w e) "Input is not a matrix!" ;;
  r' <- lift (pos_less1 r) ;; c' <- lift (pos_less1 c) ;;
  nr <- lift (edim rows w e) ;;
  let k := wrap64 (c' * nr + r') in
  ass (k <? esize w e) "Error: out of boundaries --> value beyond size of vector" ;;
  vat lm e k.
