(** The text written by print and operator<< (Printing.hpp, VectorClass.hpp
    89-96, BaseStore.hpp 349-357, MatrixParameter.hpp 25-29).  OutModel.v has the elements shown; here is
    the stream with its formatting flag, character by character, and what is on
    it when an exception ends the call.

    Simplifications: the text of a double is an argument [ds] (the stream's
    precision is never changed by the library); flushing is not modelled; the
    stream never fails. *)
From Coq Require Import ZArith List Bool String Ascii Decimal DecimalString.
From Verif Require Import Base Num StoreModel VecModel OutModel DerivModel.
Import ListNotations.
Open Scope Z_scope.

(** PRINT_STREAM (Printing.hpp 10-15): the text written so far and whether
    std::boolalpha was set (sticky: 23, 44, 61, 79). *)
Record screen := mkScr { sw : world; alpha : bool; out : string }.

(** A computation of the library between two writes.  Auxiliary: sequencing of
    the operands of << (Printing.hpp 44). *)
Definition inS {A} (m : M world A) : M screen A := fun s =>
  match m (sw s) with (r, w') => (r, mkScr w' (alpha s) (out s)) end.

(** os << text; (Printing.hpp 22-36). *)
Definition put (t : string) : M screen unit := fun s => (Done tt, mkScr (sw s) (alpha s) (append (out s) t)).
(** os << std::boolalpha (Printing.hpp 23, 44, 61, 79). *)
Definition set_alpha : M screen unit := fun s => (Done tt, mkScr (sw s) true (out s)).
(** << std::endl (Printing.hpp 17). *)
Definition endl : string := String (ascii_of_nat 10) EmptyString.
(** "\t" (Printing.hpp 49, 66, 84). *)
Definition tab : string := String (ascii_of_nat 9) EmptyString.

(** os << value for bool, int and double (Printing.hpp 23, 25, 44, 49). *)
Definition text (ds : flt -> string) (a : bool) (v : val) : string :=
  match v with
  | VB b => if a then (if b then "true" else "false") else (if b then "1" else "0")
  | VI z => NilZero.string_of_int (Z.to_int z)
  | VD d => ds d
  end.
(** << value << separator (Printing.hpp 44, 49, 61, 66, 79, 84). *)
Definition put_val (ds : flt -> string) (v : val) (sep : string) : M screen unit :=
  s <- get ;; put (text ds (alpha s) v) ;; put sep.

(** The loop over the elements of a line (Printing.hpp 43-44, 48-50, 60-61,
    65-67, 78-79, 83-85); the flag is set before the element is computed, the
    operands of << being evaluated from left to right (C++17). *)
Fixpoint put_from (ds : flt -> string) (before : M screen unit) (sep : string) (n : nat) (i : Z) (f : Z -> M world val) : M screen unit :=
  match n with
  | O => ret tt
  | S k => before ;; v <- inS (f i) ;; put_val ds v sep ;; put_from ds before sep k (i + 1) f
  end.
(** The loop over the lines of a matrix (Printing.hpp 47-52, 64-69, 82-87). *)
Fixpoint put_lines (n : nat) (i : Z) (f : Z -> M screen unit) : M screen unit :=
  match n with
  | O => ret tt
  | S k => f i ;; put endl ;; put_lines k (i + 1) f
  end.

(** print(inp) of vectors and expressions (Printing.hpp 39-89). *)
Definition print_text (ds : flt -> string) (lm : libm) (e : expr) : M screen unit :=
  s <- get ;;
  let w := sw s in
  if eim w e then
    nr <- lift (edim rows w e) ;;
    put_lines (Z.to_nat nr) 0 (fun i =>
      nc <- lift (edim cols w e) ;;
      put_from ds (ret tt) tab (Z.to_nat nc) 0 (fun j => vat lm e (wrap64 (j * nr + i))))
  else
    put_from ds set_alpha " " (Z.to_nat (esize w e)) 0 (vat lm e) ;; put endl.

(** print(scalar) (Printing.hpp 19-28). *)
Definition print_scalar (ds : flt -> string) (v : val) : M screen unit :=
  match v with
  | VB _ => set_alpha ;; put_val ds v " "
  | _ => put_val ds v endl
  end ;; put endl.
(** print(const char * ) (Printing.hpp 30-37): [T] is the type etr::T of
    Core/Utils.hpp 25-31, not bool. *)
Definition print_chars (t : string) : M screen unit := put t ;; put endl ;; put endl.
(** print() (Printing.hpp 17). *)
Definition print_nothing : M screen unit := put endl.

(** VarPointer::getVal(av, i) (VarPointer.hpp 104-116), as
    DerivModel.leaf_val. *)
Definition var_val (x : dvar) (i : Z) : M world val :=
  w <- get ;; k <- lift (modz i (sz (ob w (OD (vslot x))))) ;; at_rd (OD (vslot x)) k.
(** print(inp, av) of a variable of an AllVars object (Printing.hpp 91-105;
    size, im, nr and nc: VarPointer.hpp 23-29). *)
Definition print_var (ds : flt -> string) (x : dvar) : M screen unit :=
  s <- get ;;
  let m := mp (ob (sw s) (OD (vslot x))) in
  if ismat m then
    put_lines (Z.to_nat (rows m)) 0 (fun i =>
      put_from ds (ret tt) tab (Z.to_nat (cols m)) 0 (fun j => var_val x (wrap64 (j * rows m + i))))
  else
    put_from ds set_alpha " " (Z.to_nat (sz (ob (sw s) (OD (vslot x))))) 0 (var_val x) ;; put endl.

(** operator<< of the shape of a vector (MatrixParameter.hpp 25-29). *)
Definition stream_shape (m : matpar) : M screen unit :=
  set_alpha ;;
  put (if ismat m then "true" else "false") ;;
  put " nrows = " ;; put (NilZero.string_of_int (Z.to_int (rows m))) ;;
  put " ncols = " ;; put (NilZero.string_of_int (Z.to_int (cols m))) ;; put endl.

(** operator<< of a vector (VectorClass.hpp 89-96; BaseStore.hpp 349-357,
    Borrow.hpp 164-171 and BorrowSEXP.hpp 256-263 have the same text). *)
Definition stream_text (ds : flt -> string) (o : oid) : M screen unit :=
  put "Vec [ " ;; s <- get ;;
  put_from ds (ret tt) " " (Z.to_nat (sz (ob (sw s) o))) 0 (fun i => rd (ptr (ob (sw s) o)) i) ;;
  put "]".

(** What a program prints. Auxiliary: statements calling the functions of
    Printing.hpp 17-89 and VectorClass.hpp 89-96 one after the other. *)
Inductive pitem := PVec (e : expr) | PSca (v : val) | PStr (t : string) | PNl | PStream (x : nat).
Definition print_item (ds : flt -> string) (lm : libm) (p : pitem) : M screen unit :=
  match p with
  | PVec e => print_text ds lm e
  | PSca v => print_scalar ds v
  | PStr t => print_chars t
  | PNl => print_nothing
  | PStream x => stream_text ds (OD x)
  end.
Fixpoint print_items (ds : flt -> string) (lm : libm) (ps : list pitem) : M screen unit :=
  match ps with
  | [] => ret tt
  | p :: r => print_item ds lm p ;; print_items ds lm r
  end.
