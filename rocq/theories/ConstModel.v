(** Constants of derivative programs: the functions that fill an element of
    [varConstants] and return a VarPointer to it.  Constant number k is the
    storage object [OD (kslot k)] (DerivModel).

    The returned Vec holds a reference to the AllVars object and no elements of
    its own (Derivatives/VarPointer.hpp 19-20), so that only the contents of
    varConstants[k] are modelled. *)
From Coq Require Import String ZArith List Bool.
From Verif Require Import Base Num StoreModel VecModel AllocModel DerivModel.
Import ListNotations.
Open Scope Z_scope.

(** av.varConstants[k][i] = v: the array holds doubles (AllVars.hpp 27). *)
Definition con_put (k : nat) (i : Z) (v : val) : M world unit :=
  v' <- lift (cast TDouble v) ;; set_at (OD (kslot k)) i v'.

(** ScalarForDeriv.hpp 8-17: scalarDeriv<k>(av, s). *)
Definition scalar_con (k : nat) (v : val) : M world unit :=
  resize (OD (kslot k)) 1 ;; con_put k 0 v.

(** Coca.hpp 150-176: the elements of one argument after the other, converted
    to the common type and then stored as double. *)
Fixpoint coca_con_fill (lm : libm) (k : nat) (t : ety) (args : list arg) (index : Z) : M world unit :=
  match args with
  | [] => ret tt
  | AS v :: r =>
      v' <- lift (cast t v) ;;
      con_put k index v' ;;
      coca_con_fill lm k t r (wrap64 (index + 1))
  | AV _ e :: r =>
      w <- get ;;
      for_ (esize w e) (fun i =>
        v <- elem lm e i ;; v' <- lift (cast t v) ;; con_put k (wrap64 (index + i)) v') ;;
      coca_con_fill lm k t r (wrap64 (index + esize w e))
  end.

(** Coca.hpp 133-182: coca<k>(av, args...).  The length is counted in an int
    as in coca without AllVars; resize takes a size_t.  Simplification as there:
    the copies of the arguments are not made. *)
Definition coca_con (lm : libm) (k : nat) (args : list arg) : M world unit :=
  w <- get ;;
  n <- lift (coca_size w args 0) ;;
  resize (OD (kslot k)) (wrap64 n) ;;
  coca_con_fill lm k (coca_type args) args 0.

(** The while loops of colonInternalDerivs (Colon.hpp 256-260, 267-271).
    [fuel] as in AllocModel.count_loop. *)
Fixpoint count_con {A} (k : nat) (go : A -> bool) (put : A -> val) (next : A -> outcome A)
    (fuel : nat) (s : A) (counter : Z) : M world unit :=
  match fuel with
  | O => undef UB_oob
  | S f =>
      if go s then
        con_put k counter (put s) ;;
        s' <- lift (next s) ;;
        count_con k go put next f s' (counter + 1)
      else ret tt
  end.

(** Colon.hpp 248-274: colonInternalDerivs<k, AV, int>.  [length] is a size_t;
    convertSize of it (AllocationUtils.hpp 23-25) gives it back. *)
Definition colon_con_int (k : nat) (a b : Z) : M world unit :=
  let up := a <? b in
  d <- lift (int_res (if up then b - a else a - b)) ;;
  d1 <- lift (int_res (d + 1)) ;;
  n <- lift (convert_size (VI d1)) ;;
  ass (1 <=? n) "invalid times argument" ;;
  resize (OD (kslot k)) n ;;
  (if up then count_con k (fun s => s <=? b) VI (fun s => int_res (s + 1)) (S (Z.to_nat n)) a 0
   else count_con k (fun s => b <=? s) VI (fun s => int_res (s - 1)) (S (Z.to_nat n)) a 0).

(** Colon.hpp 248-274: colonInternalDerivs<k, AV, double>. *)
Definition colon_con_dbl (k : nat) (a b : flt) : M world unit :=
  let up := flt_ltb a b in
  n <- lift (convert_size (VD (fadd (if up then fsub b a else fsub a b) fone))) ;;
  ass (1 <=? n) "invalid times argument" ;;
  resize (OD (kslot k)) n ;;
  (if up then count_con k (fun s => flt_leb s b) VD (fun s => Done (fadd s fone)) (S (Z.to_nat n)) a 0
   else count_con k (fun s => flt_leb b s) VD (fun s => Done (fsub s fone)) (S (Z.to_nat n)) a 0).

(** Colon.hpp 276-478: the overloads of colon<k>(av, start, end); the first
    element of a vector counts, both ends are converted to their common type.
    Two bools do not compile; the model throws for them. *)
Definition colon_con (lm : libm) (k : nat) (start stop : arg) : M world unit :=
  let t := common (arg_ty start) (arg_ty stop) in
  s <- arg_first lm start ;; s' <- lift (cast t s) ;;
  e <- arg_first lm stop ;; e' <- lift (cast t e) ;;
  match s', e' with
  | VI a, VI b => colon_con_int k a b
  | VD a, VD b => colon_con_dbl k a b
  | _, _ => throw (Ass "ill-formed program")
  end.

(** Allocation/Vector.hpp 104-256: vector_integer<k>, vector_logical<k> and
    vector_numeric<k>: only a resize (twice for a double: 112-114).  Not
    modelled: an argument of type std::size_t. *)
Definition vector_con_size (k : nat) (v : val) : M world unit :=
  match v with
  | VD _ =>
      n <- lift (convert_size v) ;; resize (OD (kslot k)) n ;;
      n' <- lift (convert_size v) ;; resize (OD (kslot k)) n'
  | _ => n <- lift (convert_size v) ;; resize (OD (kslot k)) n
  end.
Definition vector_con (lm : libm) (k : nat) (a : arg) : M world unit :=
  match a with
  | AS v => vector_con_size k v
  | AV _ e =>
      w <- get ;;
      ass (esize w e =? 1) "invalid length argument" ;;
      v <- elem lm e 0 ;;
      n <- lift (convert_size v) ;;
      resize (OD (kslot k)) n
  end.
