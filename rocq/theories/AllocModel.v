(** Functions that make a new vector: vector_*, rep, matrix, colon
    (directory Allocation), coca (Coca.hpp), isNA, isInf, length, dim (Helper.hpp).

    The result is vector number [x], an identity not used before.  Warnings
    (warn, Core/Utils.hpp 64-72) are not part of the model; the conditions they
    test are evaluated, since evaluating them can be undefined. *)
From Coq Require Import String ZArith List Bool.
From Verif Require Import Base Num StoreModel VecModel.
Import ListNotations.
Open Scope Z_scope.
Local Notation length := List.length (only parsing).

(** An argument: an arithmetic value, or a vector or expression with element
    type [t]. (Allocation/AllocationUtils.hpp 4-17: arithmetic, Vec, Operation.)
    *)
Inductive arg := AS (v : val) | AV (t : ety) (e : expr).

Definition arg_ty (a : arg) : ety := match a with AS v => ty_of v | AV t _ => t end.

(** The value itself, or element 0 (e.g. [nrows[0]], [start[0]]).
    (Allocation/Matrix.hpp 31-, Allocation/Colon.hpp 72-78.) *)
Definition arg_first (lm : libm) (a : arg) : M world val :=
  match a with AS v => ret v | AV _ e => elem lm e 0 end.

(** Leaving a function by an exception destroys the result under
    construction. (Allocation/AllocationUtils.hpp 44-56: the result is a local
    object.) *)
Definition built (x : nat) (m : M world unit) : M world unit := fun w =>
  match m w with
  | (Thrown e, w1) => (_ <- vec_end x ;; throw e) w1
  | r => r
  end.

(* ------------------------------------------------------------------ sizes *)

(** Core/Utils.hpp 16-22: isDoubleInt.  [int i = d] is undefined outside the
    range of int. *)
Definition is_double_int (d : flt) : outcome bool :=
  i <-o f2int d ;; Done (negb (flt_ltb fzero (fsub d (i2f i)))).

(** Allocation/AllocationUtils.hpp 22-36: convertSize of an arithmetic value.
    The result is a size_t. *)
Definition convert_size (v : val) : outcome Z :=
  match v with
  | VB b => if b then Done 1 else Thrown (Ass "invalid times argument")
  | VI z => if 1 <=? z then Done z else Thrown (Ass "invalid times argument")
  | VD d =>
      _ <-o is_double_int d ;;
      if flt_leb fone d then f2size d else Thrown (Ass "invalid times argument")
  end.

(** The same for an r-value vector or an operation
    (Allocation/AllocationUtils.hpp 37-40). *)
Definition convert_size_vec (lm : libm) (t : ety) (e : expr) : M world Z :=
  w <- get ;;
  if esize w e =? 1 then
    v <- elem lm e 0 ;;
    match v with
    | VB b => if b then ret 1 else throw (Ass "invalid times argument")
    | VI z => if 1 <=? z then ret z else throw (Ass "invalid times argument")
    | VD d => if flt_leb fone d then lift (f2size d) else throw (Ass "invalid times argument")
    end
  else throw (Ass "invalid times argument").

(* ----------------------------------------------------------------- vector *)

(** AllocationUtils.hpp 51-56: createRVec<VecType>(s): elements of type double
    whatever VecType is; only the scratch buffer has type VecType. *)
Definition create_rvec (x : nat) (vt : ety) (v : val) : M world unit :=
  n <- lift (convert_size v) ;;
  ass (0 <? n) "invalid length argument" ;;
  ctor_size (OD x) TDouble n ;; ctor_default (OT x) vt.

(** Allocation/Vector.hpp 9-104: vector_integer, vector_logical,
    vector_numeric ([vt] = int, bool, double; the const version of
    vector_logical uses int). *)
Definition vector_fn (lm : libm) (x : nat) (vt : ety) (a : arg) : M world unit :=
  match a with
  | AS v => create_rvec x vt v
  | AV _ e =>
      w <- get ;;
      ass (esize w e =? 1) "invalid length argument" ;;
      v <- elem lm e 0 ;;
      create_rvec x vt v
  end.

(* -------------------------------------------------------------------- rep *)

(** The loop of Rep.hpp 34-39 and 61-66. *)
Fixpoint rep_loop (lm : libm) (x : nat) (t : ety) (e : expr) (n : nat) (i counter : Z) : M world unit :=
  match n with
  | O => ret tt
  | S k =>
      v <- elem lm e counter ;;
      v' <- lift (cast t v) ;;
      set_at (OD x) i v' ;;
      w <- get ;;
      let c := wrap64 (counter + 1) in
      rep_loop lm x t e k (i + 1) (if esize w e <=? c then 0 else c)
  end.

(** Allocation/Rep.hpp 25-70: repInternal. *)
Definition rep_fn (lm : libm) (x : nat) (inp times : arg) : M world unit :=
  s <- arg_first lm times ;;
  n <- lift (convert_size s) ;;
  match inp with
  | AS v => vec_sized x (ty_of v) n ;; built x (fill (OD x) v)
  | AV t e =>
      w <- get ;;
      let len := wrap64 (n * esize w e) in
      vec_sized x t len ;;
      built x (rep_loop lm x t e (Z.to_nat len) 0 0)
  end.

(* ----------------------------------------------------------------- matrix *)

(** Core/BaseStore.hpp 159-161 and 175-184: fill with something that is neither
    a Vec nor an r-value vector of the same type.  In matrix() the argument has
    type const V&, so that [IsVec] and [is<DataType, T>] are false and the
    elements are converted one by one. *)
Definition fill_expr (lm : libm) (o : oid) (e : expr) : M world unit :=
  w <- get ;;
  s <- st o ;;
  ass (esize w e =? sz s) "cannot use fill with vectors of different lengths" ;;
  for_ (sz s) (fun i => v <- elem lm e i ;; v' <- lift (cast (sty s) v) ;; wr (ptr s) i v').

(** Allocation/Matrix.hpp 31-105: matrix.  The evaluation order of the two
    constructor arguments is open in C++; the model takes the rows first. *)
Definition matrix_fn (lm : libm) (x : nat) (inp nrows ncols : arg) : M world unit :=
  rv <- arg_first lm nrows ;;
  r <- lift (convert_size rv) ;;
  cv <- arg_first lm ncols ;;
  c <- lift (convert_size cv) ;;
  vec_matrix x (arg_ty inp) r c ;;
  built x (match inp with AS v => fill (OD x) v | AV _ e => fill_expr lm (OD x) e end).

(* ------------------------------------------------------------------ colon *)

(** The two while loops of colonInternal (Colon.hpp 29-33, 39-43): [go] is the
    condition, [next] is start++ or start--.  [fuel]: the loop ends after at
    most size+1 rounds since the bounds check of ret[counter] throws in round
    size+1 (lemma count_loop_fuel); the result for no fuel is never used. *)
Fixpoint count_loop {A} (x : nat) (go : A -> bool) (put : A -> val) (next : A -> outcome A)
    (fuel : nat) (s : A) (counter : Z) : M world unit :=
  match fuel with
  | O => undef UB_oob
  | S k =>
      if go s then
        set_at (OD x) counter (put s) ;;
        s' <- lift (next s) ;;
        count_loop x go put next k s' (counter + 1)
      else ret tt
  end.

(** Colon.hpp 24-46: colonInternal<int>. *)
Definition colon_int (x : nat) (a b : Z) : M world unit :=
  let up := a <? b in
  d <- lift (int_res (if up then b - a else a - b)) ;;
  d1 <- lift (int_res (d + 1)) ;;
  n <- lift (convert_size (VI d1)) ;;
  vec_sized x TInt n ;;
  built x
    (if up then count_loop x (fun s => s <=? b) VI (fun s => int_res (s + 1)) (S (Z.to_nat n)) a 0
     else count_loop x (fun s => b <=? s) VI (fun s => int_res (s - 1)) (S (Z.to_nat n)) a 0).

(** Colon.hpp 24-46: colonInternal<double>. *)
Definition colon_dbl (x : nat) (a b : flt) : M world unit :=
  let up := flt_ltb a b in
  n <- lift (convert_size (VD (fadd (if up then fsub b a else fsub a b) fone))) ;;
  vec_sized x TDouble n ;;
  built x
    (if up then count_loop x (fun s => flt_leb s b) VD (fun s => Done (fadd s fone)) (S (Z.to_nat n)) a 0
     else count_loop x (fun s => flt_leb b s) VD (fun s => Done (fsub s fone)) (S (Z.to_nat n)) a 0).

(** Colon.hpp 48-247: the overloads take the first element of a vector and
    convert both ends to their common type.  Two bools do not compile (bool has
    no ++); the model throws for them. *)
Definition colon_fn (lm : libm) (x : nat) (start stop : arg) : M world unit :=
  let t := common (arg_ty start) (arg_ty stop) in
  s <- arg_first lm start ;; s' <- lift (cast t s) ;;
  e <- arg_first lm stop ;; e' <- lift (cast t e) ;;
  match s', e' with
  | VI a, VI b => colon_int x a b
  | VD a, VD b => colon_dbl x a b
  | _, _ => throw (Ass "ill-formed program")
  end.

(* ------------------------------------------------------------------- coca *)

(** Coca.hpp 12-79: determine_type. *)
Fixpoint coca_type (args : list arg) : ety :=
  match args with
  | [] => TBool
  | [a] => arg_ty a
  | a :: r => common (arg_ty a) (coca_type r)
  end.

(** Coca.hpp 87-98: the length is counted in an int ([size += arg.size()] is
    computed as size_t and converted back).  Simplification: the copies of the
    arguments the lambda takes by value are not made. *)
Fixpoint coca_size (w : world) (args : list arg) (size : Z) : outcome Z :=
  match args with
  | [] => Done size
  | AS _ :: r => s <-o int_res (size + 1) ;; coca_size w r s
  | AV _ e :: r => coca_size w r (to_int (wrap64 (size + esize w e)))
  end.

(** Coca.hpp 103-129: the elements of one argument after the other. *)
Fixpoint coca_fill (lm : libm) (x : nat) (t : ety) (args : list arg) (index : Z) : M world unit :=
  match args with
  | [] => ret tt
  | AS v :: r =>
      v' <- lift (cast t v) ;;
      set_at (OD x) index v' ;;
      coca_fill lm x t r (wrap64 (index + 1))
  | AV _ e :: r =>
      w <- get ;;
      for_ (esize w e) (fun i =>
        v <- elem lm e i ;; v' <- lift (cast t v) ;; set_at (OD x) (wrap64 (index + i)) v') ;;
      coca_fill lm x t r (wrap64 (index + esize w e))
  end.

(** Coca.hpp 83-131: coca.  SI(int) converts the int to size_t (Utils.hpp 77). *)
Definition coca_fn (lm : libm) (x : nat) (args : list arg) : M world unit :=
  w <- get ;;
  n <- lift (coca_size w args 0) ;;
  let t := coca_type args in
  vec_sized x t (wrap64 n) ;;
  built x (coca_fill lm x t args 0).

(* ----------------------------------------------------------------- Helper *)

(** Helper.hpp 11-21, 24-34: std::isnan / std::isinf; bools and ints are
    converted to double. *)
Definition test_scalar (p : flt -> bool) (v : val) : bool := p (v2f v).

(** Helper.hpp 36-56 and 59-80: isNA / isInf of a vector ([p] = is_nan,
    is_inf). *)
Definition test_fn (lm : libm) (p : flt -> bool) (x : nat) (e : expr) : M world unit :=
  w <- get ;;
  vec_sized x TBool (esize w e) ;;
  built x (for_ (esize w e) (fun i => v <- elem lm e i ;; set_at (OD x) i (VB (test_scalar p v)))).
Definition is_na_fn lm := test_fn lm is_nan.
Definition is_inf_fn lm := test_fn lm is_inf.

(** Helper.hpp 82-98: length; the size of a vector is converted to int. *)
Definition length_fn (w : world) (a : arg) : Z :=
  match a with AS _ => 1 | AV _ e => to_int (esize w e) end.

(** Helper.hpp 100-124: dim. *)
Definition dim_fn (x : nat) (a : arg) : M world unit :=
  match a with
  | AS _ => ass false "dim can only be called with matrix"
  | AV _ e =>
      w <- get ;;
      ass (eim w e) "dim can only be called with matrix" ;;
      vec_sized x TInt 2 ;;
      built x
        (r <- lift (edim rows w e) ;;
         set_at (OD x) 0 (VI (to_int r)) ;;
         c <- lift (edim cols w e) ;;
         set_at (OD x) 1 (VI (to_int c)))
  end.
