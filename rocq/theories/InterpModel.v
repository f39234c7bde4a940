(** Interpolation (include/etr_bits/Interpolation.hpp). *)
From Coq Require Import String ZArith List Bool.
From Verif Require Import Base Num StoreModel VecModel.
Import ListNotations.
Open Scope Z_scope.

(** [e[i]] converted to double. (Interpolation.hpp 22-46.) *)
Definition elem_f (lm : libm) (e : expr) (i : Z) : M world flt :=
  v <- elem lm e i ;; ret (v2f v).

(** The trait of the Vec type is VectorTrait: variables and operations
    (default argument of Vec); r-values have RVecTrait (Coca.hpp 96), subsets
    SubVecTrait. *)
Definition is_vec (e : expr) : bool :=
  match e with EVar _ | EBin _ _ _ | EUn _ _ => true | _ => false end.

Definition li_msg : string := "Input for interpolation has to be scalar, vec, vec".

(** Body shared by the two branches of li (Interpolation.hpp 22-46 and
    49-73): [m] is never initialised, so the line [ret = m * (t - t0) + y0] (43,
    70) is undefined; so is returning [ret] when no interval matches. *)
Fixpoint li_loop (lm : libm) (tv pv : expr) (t : flt) (k : nat) (i : Z) : M world flt :=
  match k with
  | O => undef UB_uninit
  | S k' =>
      a <- elem_f lm tv i ;;
      c <- (if flt_leb a t then b <- elem_f lm tv (i + 1) ;; ret (flt_ltb t b) else ret false) ;;
      if c then
        _ <- elem_f lm tv i ;;
        _ <- elem_f lm tv (i + 1) ;;
        _ <- elem_f lm pv i ;;
        _ <- elem_f lm pv (i + 1) ;;
        undef UB_uninit
      else li_loop lm tv pv t k' (i + 1)
  end.
Definition li_body (lm : libm) (t : flt) (tv pv : expr) : M world flt :=
  w <- get ;;
  ass (esize w tv =? esize w pv) "x and y differ in length" ;;
  b <- elem_f lm tv (esize w tv) ;;
  if flt_leb b t then elem_f lm pv (esize w pv)
  else
    a <- elem_f lm tv 0 ;;
    if flt_leb t a then elem_f lm pv 0
    else li_loop lm tv pv t (Z.to_nat (esize w tv)) 0.

(** li (Interpolation.hpp 10-77). An arithmetic time point does not compile
    (12). *)
Definition li (lm : libm) (te tv pv : expr) : M world flt :=
  if is_vec te && is_vec tv && is_vec pv then
    w <- get ;;
    ass (esize w te =? 1) "timepoint input has to have length == 1" ;;
    t <- elem_f lm te 0 ;;
    li_body lm t tv pv
  else if negb (is_vec te) && is_vec tv && is_vec pv then
    t <- elem_f lm te 0 ;;
    li_body lm t tv pv
  else throw (Ass li_msg).

(** timeVec->back() (VectorClass.hpp 86) for the two kinds of vectors with
    which cmr compiles: variables, and r-values made with SI (BaseStore.hpp
    103-111, the spare elements are zero).  Other expressions have no such
    member; the model returns 0 for them. *)
Definition back_f (e : expr) : M world flt :=
  match e with
  | EVar x => v <- vec_back x ;; ret (v2f v)
  | ETmp _ l _ =>
      let n := Z.of_nat (List.length l) in
      c <- lift (cap115 n) ;;
      if n <? c then ret fzero else undef UB_oob
  | _ => ret fzero
  end.

(** An int variable holding a size_t, used as an index. (Interpolation.hpp
    92-98.) *)
Definition int_idx (z : Z) : Z := wrap64 (to_int z).

(** The eight numbers found by the loop of cmrInternal. (Interpolation.hpp
    90-91.) *)
Record knots := mkKnots { kt0 : flt; kt1 : flt; kt2 : flt; kt3 : flt; ky0 : flt; ky1 : flt; ky2 : flt; ky3 : flt }.

(** Lines 101-112. (Interpolation.hpp.) *)
Definition cmr_last (lm : libm) (tv pv : expr) (n : Z) : M world knots :=
  t0 <- elem_f lm tv (int_idx (wrap64 (n - 2))) ;;
  y0 <- elem_f lm pv (int_idx (wrap64 (n - 2))) ;;
  t1 <- elem_f lm tv (int_idx (wrap64 (n - 1))) ;;
  y1 <- elem_f lm pv (int_idx (wrap64 (n - 1))) ;;
  t2 <- elem_f lm tv 0 ;;
  y2 <- elem_f lm pv 0 ;;
  t3 <- elem_f lm tv 1 ;;
  y3 <- elem_f lm pv 1 ;;
  ret (mkKnots t0 t1 t2 t3 y0 y1 y2 y3).

(** Lines 115-144. (Interpolation.hpp.) *)
Definition cmr_inner (lm : libm) (tv pv : expr) (n i : Z) : M world knots :=
  let i0 := int_idx (if i =? 0 then wrap64 (n - 1) else i - 1) in
  t0 <- elem_f lm tv i0 ;;
  y0 <- elem_f lm pv i0 ;;
  t1 <- elem_f lm tv (int_idx i) ;;
  y1 <- elem_f lm pv (int_idx i) ;;
  t2 <- (if i =? wrap64 (n - 1) then a <- elem_f lm tv 0 ;; b <- back_f tv ;; ret (fadd a b)
         else elem_f lm tv (int_idx (i + 1))) ;;
  y2 <- elem_f lm pv (if i =? wrap64 (n - 1) then 0 else int_idx (i + 1)) ;;
  t3 <- (if i =? wrap64 (n - 2) then a <- elem_f lm tv 0 ;; b <- back_f tv ;; ret (fadd a b)
         else if i =? wrap64 (n - 1) then a <- elem_f lm tv 1 ;; b <- back_f tv ;; ret (fadd a b)
         else elem_f lm tv (int_idx (i + 2))) ;;
  y3 <- elem_f lm pv (if i =? wrap64 (n - 2) then 0 else if i =? wrap64 (n - 1) then 1 else int_idx (i + 2)) ;;
  ret (mkKnots t0 t1 t2 t3 y0 y1 y2 y3).

(** The loop (Interpolation.hpp 99-147); the initial values are those of
    90-91. *)
Fixpoint cmr_find (lm : libm) (tv pv : expr) (t : flt) (n : Z) (k : nat) (i : Z) : M world knots :=
  match k with
  | O => ret (mkKnots fzero fzero fzero fzero fzero fzero fzero fzero)
  | S k' =>
      if i =? wrap64 (n - 1) then cmr_last lm tv pv n
      else
        a <- elem_f lm tv i ;;
        c <- (if flt_leb a t then b <- elem_f lm tv (i + 1) ;; ret (flt_ltb t b) else ret false) ;;
        if c then cmr_inner lm tv pv n i
        else cmr_find lm tv pv t n k' (i + 1)
  end.

(** Lines 148-156, in the order of evaluation given by the grammar.
    (Interpolation.hpp.) *)
Definition cmr_value (lm : libm) (t : flt) (q : knots) : flt :=
  let two := i2f 2 in let three := i2f 3 in
  let x := fdiv (fsub t (kt1 q)) (fsub (kt2 q) (kt1 q)) in
  let m1 := fdiv (fsub (ky2 q) (ky0 q)) (fsub (kt2 q) (kt0 q)) in
  let m2 := fdiv (fsub (ky3 q) (ky1 q)) (fsub (kt3 q) (kt1 q)) in
  let p3 := lm_pow lm x three in
  let p2 := lm_pow lm x two in
  let dt := fsub (kt2 q) (kt1 q) in
  fadd (fadd (fadd
    (fmul (fadd (fsub (fmul two p3) (fmul three p2)) fone) (ky1 q))
    (fmul (fmul (fadd (fsub p3 (fmul two p2)) x) dt) m1))
    (fmul (fadd (fmul (fopp two) p3) (fmul three p2)) (ky2 q)))
    (fmul (fmul (fsub p3 p2) dt) m2).

(** cmrInternal (Interpolation.hpp 80-157). *)
Definition cmr_internal (lm : libm) (t : flt) (tv pv : expr) : M world flt :=
  w <- get ;;
  let n := esize w tv in
  ass (n =? esize w pv) "x and y differ in length" ;;
  ass (4 <=? n) "time and parameter require at least 4 elements" ;;
  a <- elem_f lm tv 0 ;;
  if flt_ltb t a then elem_f lm pv 0
  else
    b <- elem_f lm tv (wrap64 (n - 1)) ;;
    if flt_ltb b t then elem_f lm pv (wrap64 (esize w pv - 1))
    else
      q <- cmr_find lm tv pv t n (Z.to_nat (n + 1)) 0 ;;
      ret (cmr_value lm t q).

(** cmr with a vector (159-178; [double t = *tInp] is operator RetType,
    VectorClass.hpp 43-54) or an arithmetic value (180-201) as time point.
    The warning of 175 has no effect here. *)
Definition cmr (lm : libm) (te tv pv : expr) : M world flt :=
  t <- elem_f lm te 0 ;; cmr_internal lm t tv pv.
