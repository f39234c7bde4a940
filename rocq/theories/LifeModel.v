(** Expressions as C++ objects: an operation holds references to its operands
    (BinaryCalculations.hpp 25-26, UnaryCalculations.hpp 13), a subset holds a
    pointer to the one it selects from (SubsetClass.hpp 12 and 82).  The operands
    may be temporaries, which end with the full expression that makes them.
    VecModel.v has expressions as trees, where this question does not arise. *)
From Coq Require Import ZArith List String Bool.
From Verif Require Import Base Num StoreModel VecModel.
Import ListNotations.
Open Scope Z_scope.
Local Notation length := List.length (only parsing).

(** What a reference refers to: the [d] of vector variable x; the [d] of
    object k, which is an r-value vector, a subset or an operation; scalar
    object k. That an operand is a scalar is part of the type of the operation
    (std::is_arithmetic_v<L>). (BinaryCalculations.hpp 17-30 and 97-107: const L
    &l, const R &r; UnaryCalculations.hpp 12: const I &obj; Core/SubsetClass.hpp
    12: T *p.) *)
Inductive ref := RVec (x : nat) | RObj (k : nat) | RSca (k : nat).
Definition is_rsca (r : ref) : bool := match r with RSca _ => true | _ => false end.

(** Objects: a scalar; the Buffer of an r-value vector; Subset (SubsetClass.hpp
    6-73, 75-136); BinaryOperation (BinaryCalculations.hpp 19-146); UnaryOperation
    (UnaryCalculations.hpp 9-80). *)
Inductive node :=
| NSca (v : val)
| NBuf (t : ety) (l : list val) (m : matpar)
| NSub (r : ref) (ind : list Z) (m : matpar)
| NBin (op : binop) (l r : ref)
| NUn (op : unop) (r : ref).

(** Objects in the order in which they were made, the last one first;
    [None]: its lifetime is over. Object k has k objects behind it in the list.
    The place of a dead object is not used again: reading it is undefined
    anyway. (Life of the temporaries that BinaryCalculations.hpp 149-171 makes.)
    *)
Definition objects := list (option node).

(** size() through a reference (SubsetClass.hpp 16, BinaryCalculations.hpp 108-120,
    UnaryCalculations.hpp 53-60). *)
Fixpoint rsize (A : objects) (w : world) (r : ref) : outcome Z :=
  match r with
  | RVec x => Done (sz (ob w (OD x)))
  | RSca _ => Done 1
  | RObj k =>
      match A with
      | [] => Undef UB_freed
      | a :: A' =>
          if Nat.eqb k (length A') then
            match a with
            | None | Some (NSca _) => Undef UB_freed
            | Some (NBuf _ l _) => Done (Z.of_nat (length l))
            | Some (NSub _ ind _) => Done (Z.of_nat (length ind))
            | Some (NBin _ l r) =>
                if is_rsca l && is_rsca r then Done 1
                else if is_rsca r then rsize A' w l
                else if is_rsca l then rsize A' w r
                else a <-o rsize A' w l ;; b <-o rsize A' w r ;; Done (if b <? a then a else b)
            | Some (NUn _ r) => rsize A' w r
            end
          else rsize A' w r
      end
  end.

(** Whether a reference refers to stored elements; part of its type in C++.
    (Core/Traits.hpp 25-30, Core/SubsetClass.hpp 7.) *)
Fixpoint rstored (A : objects) (r : ref) : bool :=
  match r with
  | RVec _ => true
  | RSca _ => true
  | RObj k =>
      match A with
      | [] => false
      | a :: A' =>
          if Nat.eqb k (length A') then match a with Some (NBuf _ _ _) => true | _ => false end
          else rstored A' r
      end
  end.
Definition ras_ret (A : objects) (r : ref) (v : val) : val := if rstored A r then v else VD (v2f v).

(** operator[](i) const through a reference (SubsetClass.hpp 67-70 and 130-133,
    BinaryCalculations.hpp 97-107, UnaryCalculations.hpp 45-52). *)
Fixpoint relem (lm : libm) (A : objects) (r : ref) (i : Z) : M world val :=
  match r with
  | RVec x => at_rd (OD x) i
  | RObj k | RSca k =>
      match A with
      | [] => lift (Undef UB_freed)
      | a :: A' =>
          if Nat.eqb k (length A') then
            match a with
            | None => lift (Undef UB_freed)
            | Some (NSca v) => ret v
            | Some (NBuf _ l _) =>
                if i <? Z.of_nat (length l) then ret (nth (Z.to_nat i) l (VB false))
                else throw (Ass "Error: out of boundaries --> value beyond size of vector")
            | Some (NSub r ind _) =>
                w <- get ;;
                n <- lift (rsize A' w r) ;;
                k <- lift (modz i n) ;;
                j <- lift (ind_at ind k) ;;
                v <- relem lm A' r j ;; ret (ras_ret A' r v)
            | Some (NBin op l r) =>
                w <- get ;;
                a <- (if is_rsca l then relem lm A' l 0
                      else n <- lift (rsize A' w l) ;; k <- lift (modz i n) ;; relem lm A' l k) ;;
                b <- (if is_rsca r then relem lm A' r 0
                      else n <- lift (rsize A' w r) ;; k <- lift (modz i n) ;; relem lm A' r k) ;;
                lift (bin_f lm op a b)
            | Some (NUn op r) =>
                w <- get ;;
                a <- (if is_rsca r then relem lm A' r 0
                      else n <- lift (rsize A' w r) ;; k <- lift (modz i n) ;; relem lm A' r k) ;;
                lift (un_f lm op a)
            end
          else relem lm A' r i
      end
  end.

(** im() through a reference (SubsetClass.hpp 17, BinaryCalculations.hpp 32-43,
    UnaryCalculations.hpp 16-22). *)
Fixpoint rim (A : objects) (w : world) (r : ref) : outcome bool :=
  match r with
  | RVec x => Done (ismat (mp (ob w (OD x))))
  | RSca _ => Done false
  | RObj k =>
      match A with
      | [] => Undef UB_freed
      | a :: A' =>
          if Nat.eqb k (length A') then
            match a with
            | None | Some (NSca _) => Undef UB_freed
            | Some (NBuf _ _ m) | Some (NSub _ _ m) => Done (ismat m)
            | Some (NBin _ l r) =>
                if is_rsca l then rim A' w r
                else if is_rsca r then rim A' w l
                else a <-o rim A' w l ;; if a then Done true else rim A' w r
            | Some (NUn _ _) => Done false
            end
          else rim A' w r
      end
  end.

(** nr(), nc() through a reference (SubsetClass.hpp 18-19, BinaryCalculations.hpp
    44-87, UnaryCalculations.hpp 24-37). *)
Fixpoint rdim (pick : matpar -> Z) (A : objects) (w : world) (r : ref) : outcome Z :=
  match r with
  | RVec x => Done (pick (mp (ob w (OD x))))
  | RSca _ => Done 0
  | RObj k =>
      match A with
      | [] => Undef UB_freed
      | a :: A' =>
          if Nat.eqb k (length A') then
            match a with
            | None | Some (NSca _) => Undef UB_freed
            | Some (NBuf _ _ m) | Some (NSub _ _ m) => Done (pick m)
            | Some (NBin _ l r) =>
                if is_rsca l then rdim pick A' w r
                else if is_rsca r then rdim pick A' w l
                else
                  ml <-o rim A' w l ;; mr <-o rim A' w r ;;
                  if ml && mr then
                    a <-o rdim pick A' w l ;; b <-o rdim pick A' w r ;; Done (if b <? a then a else b)
                  else if negb ml && mr then rdim pick A' w r
                  else if ml && negb mr then rdim pick A' w l
                  else Thrown (Ass "Matrix calculation failed!")
            | Some (NUn _ r) => rdim pick A' w r
            end
          else rdim pick A' w r
      end
  end.

(** Expressions of a program. [SName k] is the k-th name in scope: a scalar
    variable, or a variable declared with auto. [SSub] has the positions that
    subset() computes when it is called. (BinaryCalculations.hpp 149-171,
    UnaryCalculations.hpp 82-.) *)
Inductive src :=
| SVec (x : nat)
| SName (k : nat)
| SLit (v : val)
| STmp (t : ety) (l : list val) (m : matpar)
| SSub (s : src) (ind : list Z) (m : matpar)
| SBin (op : binop) (a b : src)
| SUn (op : unop) (a : src).

(** The objects that evaluating an expression makes: a literal becomes a temporary
    when it is bound to [const R &r]; the result of operator+ and its relatives
    (BinaryCalculations.hpp 148-420), of the functions of UnaryCalculations.hpp
    (82-312) and of subset (VectorSubsetting.hpp 71-91) refers to the [d] of its
    operands.  C++ leaves the order of the operands open. *)
Fixpoint build (E : list ref) (s : src) (A : objects) : ref * objects :=
  match s with
  | SVec x => (RVec x, A)
  | SName k => (nth k E (RVec 0), A)
  | SLit v => (RSca (length A), Some (NSca v) :: A)
  | STmp t l m => (RObj (length A), Some (NBuf t l m) :: A)
  | SSub s ind m => let (r, A1) := build E s A in (RObj (length A1), Some (NSub r ind m) :: A1)
  | SBin op a b =>
      let (ra, A1) := build E a A in
      let (rb, A2) := build E b A1 in (RObj (length A2), Some (NBin op ra rb) :: A2)
  | SUn op a => let (r, A1) := build E a A in (RObj (length A1), Some (NUn op r) :: A1)
  end.

(** The objects made since there were n of them end. (Language rule for the
    objects of BinaryCalculations.hpp 149-171.) *)
Fixpoint kill (n : nat) (A : objects) : objects :=
  match A with
  | [] => []
  | a :: A' => if Nat.leb n (length A') then None :: kill n A' else A
  end.

(** auto e = s; (for s not a bare name: that would be a copy). The object of
    the whole expression is the variable itself, all others are temporaries. A
    return of s from a function is the same. (Language rule for the objects of
    BinaryCalculations.hpp 149-171.) *)
Definition auto_decl (E : list ref) (s : src) (A : objects) : ref * objects :=
  let (r, A1) := build E s A in
  (r, match A1 with [] => [] | top :: A' => top :: kill (length A) A' end).

(** x = expression, as assign of VecModel.v but asking the expression through its
    references (AssignmentOperator.hpp 51-76 and 120-145; 106-108, 235-237). *)
Definition fill_temp_ref (lm : libm) (A : objects) (o : oid) (t : ety) (r : ref) (n : Z) : M world unit :=
  for_ n (fun i => v <- relem lm A r i ;; v' <- lift (cast t v) ;; set_at o i v').
Definition take_shape_ref (A : objects) (o : oid) (r : ref) : M world unit :=
  w <- get ;;
  m <- lift (rim A w r) ;;
  if m then
    a <- lift (rdim rows A w r) ;;
    b <- lift (rdim cols A w r) ;;
    upd o (with_mp (mkMP true a b))
  else ret tt.
Definition assign_buffer_ref (lm : libm) (A : objects) (x : nat) (r : ref) : M world unit :=
  w <- get ;;
  n <- lift (rsize A w r) ;;
  let t := sty (ob w (OD x)) in
  resize (OT x) n ;;
  fill_temp_ref lm A (OT x) t r n ;;
  moveit (OD x) (OT x) ;;
  take_shape_ref A (OD x) r.
Definition assign_borrow_ref (lm : libm) (A : objects) (x : nat) (r : ref) : M world unit :=
  w <- get ;;
  n <- lift (rsize A w r) ;;
  let t := sty (ob w (OD x)) in
  ass (n <=? cap (ob w (OD x)))
    "number of items to replace is not a multiple of replacement length" ;;
  resize (OT x) n ;;
  fill_temp_ref lm A (OT x) t r n ;;
  ass (sz (ob w (OD x)) <=? n)
    "size cannot be increased above the size of the borrowed object" ;;
  upd (OD x) (with_sz n) ;;
  w2 <- get ;;
  n2 <- lift (rsize A w2 r) ;;
  for_ n2 (fun i => v <- get_at (OT x) i ;; at_wr (OD x) i v) ;;
  take_shape_ref A (OD x) r.
Definition assign_sexp_ref (lm : libm) (A : objects) (x : nat) (r : ref) : M world unit :=
  w <- get ;;
  n <- lift (rsize A w r) ;;
  let t := sty (ob w (OD x)) in
  resize (OT x) n ;;
  fill_temp_ref lm A (OT x) t r n ;;
  w1 <- get ;;
  (if sz (ob w1 (OD x)) <? n then sexp_resize (OD x) n else ret tt) ;;
  sexp_moveit (OD x) (OT x) ;;
  take_shape_ref A (OD x) r.
Definition assign_ref (lm : libm) (A : objects) (x : nat) (r : ref) : M world unit :=
  s <- st (OD x) ;;
  match kd s with
  | KBuffer => assign_buffer_ref lm A x r
  | KBorrow => assign_borrow_ref lm A x r
  | KBorrowSEXP => assign_sexp_ref lm A x r
  end.

(** Programs: x = s; auto e = s followed by the statements that see e; two
    statements. (User code; assignment: Vector/AssignmentOperator.hpp.) *)
Inductive ystmt :=
| YAssign (x : nat) (s : src)
| YAuto (s : src) (body : ystmt)
| YSeq (a b : ystmt)
| YSkip.

(** E: what the names in scope refer to; temporaries end with the statement,
    the variable at the end of its block. (User code; assignment:
    Vector/AssignmentOperator.hpp.) *)
Fixpoint yrun (lm : libm) (c : ystmt) (E : list ref) (A : objects) : M world objects :=
  match c with
  | YSkip => ret A
  | YAssign x s =>
      let (r, A1) := build E s A in
      assign_ref lm A1 x r ;; ret (kill (length A) A1)
  | YAuto s b =>
      let (r, A1) := auto_decl E s A in
      A2 <- yrun lm b (E ++ [r]) A1 ;; ret (kill (length A) A2)
  | YSeq a b => A1 <- yrun lm a E A ;; yrun lm b E A1
  end.
