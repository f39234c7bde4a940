(** Element values: bool, int and double (binary64), their conversions and the
    element functions of include/etr_bits/Core/Traits.hpp. *)
From Coq Require Import ZArith List String Bool.
From Coq.Floats Require Import SpecFloat.
From Verif Require Import Base.
Import ListNotations.
Open Scope Z_scope.

Notation prec := 53%Z.
Notation emax := 1024%Z.
Notation flt := spec_float.

(** IEEE binary64 operations, round to nearest even. (The arithmetic of
    Core/Traits.hpp 235-378.) *)
Definition fadd : flt -> flt -> flt := SFadd prec emax.
Definition fsub : flt -> flt -> flt := SFsub prec emax.
Definition fmul : flt -> flt -> flt := SFmul prec emax.
Definition fdiv : flt -> flt -> flt := SFdiv prec emax.
Definition fopp : flt -> flt := SFopp.
Definition fabs : flt -> flt := SFabs.
Definition flt_ltb : flt -> flt -> bool := SFltb.
Definition flt_leb : flt -> flt -> bool := SFleb.
Definition flt_eqb : flt -> flt -> bool := SFeqb.

(** Integer to double conversion, rounding to nearest even. (E.g. i2d,
    Core/Utils.hpp 39, 45; NA and Inf: Core/Utils.hpp 34-35.) *)
Definition i2f (z : Z) : flt := binary_normalize prec emax z 0 false.

Definition fzero : flt := S754_zero false.
Definition fone : flt := i2f 1.
Definition fnan : flt := S754_nan.
Definition finf : flt := S754_infinity false.

(** The literal 1.15 as a double: 5179139571476070 * 2^-52.
    (Core/BaseStore.hpp 104, 114, 255, 269, 315.) *)
Definition f115 : flt := S754_finite false 5179139571476070 (-52).
(** The literal 1E-3 as a double: 4611686018427388 / 2^62
    (4611686018427388*2^-62). (Core/Traits.hpp 147, 218, 282, 332.) *)
Definition f1em3 : flt := S754_finite false 4611686018427388 (-62).

(** Truncation towards zero; [None] for NaN and infinities. (For the casts
    of Core/Utils.hpp 37-45.) *)
Definition ftrunc (f : flt) : option Z :=
  match f with
  | S754_zero _ => Some 0
  | S754_finite s m e =>
      let a := if 0 <=? e then Zpos m * 2 ^ e else Zpos m / 2 ^ (- e) in
      Some (if s then - a else a)
  | _ => None
  end.

(** [static_cast<int>(double)]: undefined when the truncated value does not
    fit. (d2i, Core/Utils.hpp 37.) *)
Definition f2int (f : flt) : outcome Z :=
  match ftrunc f with
  | Some z => if in_int z then Done z else Undef UB_cast
  | None => Undef UB_cast
  end.

(** [static_cast<std::size_t>(double)]. (E.g. Allocation/AllocationUtils.hpp
    31, 38.) *)
Definition f2size (f : flt) : outcome Z :=
  match ftrunc f with
  | Some z => if (0 <=? z) && (z <? 2 ^ 64) then Done z else Undef UB_cast
  | None => Undef UB_cast
  end.

(** Conversion to bool: [f != 0], true for NaN. (d2b, Core/Utils.hpp 41;
    is_nan, is_inf: Helper.hpp, ISNA and ISInfinite.) *)
Definition f2b (f : flt) : bool :=
  match f with S754_zero _ => false | _ => true end.

Definition is_nan (f : flt) : bool := match f with S754_nan => true | _ => false end.
Definition is_inf (f : flt) : bool := match f with S754_infinity _ => true | _ => false end.

(** Element types. (bool, int, double: isBID, Core/Concepts.hpp 14;
    SEXPConversions.hpp 40-76.) *)
Inductive ety := TBool | TInt | TDouble.
Inductive val := VB (b : bool) | VI (z : Z) | VD (d : flt).

Definition ty_of (v : val) : ety :=
  match v with VB _ => TBool | VI _ => TInt | VD _ => TDouble end.

(** [T()] (Core/BaseStore.hpp 108, 118, 263, 273, 321.) *)
Definition zero_of (t : ety) : val :=
  match t with TBool => VB false | TInt => VI 0 | TDouble => VD fzero end.

Definition b2z (b : bool) : Z := if b then 1 else 0.

(** Value as an int after integral promotion (bools and ints only).
    (Conversions of Core/Utils.hpp 37-45.) *)
Definition v2f (v : val) : flt :=
  match v with VB b => i2f (b2z b) | VI z => i2f z | VD d => d end.

(** [static_cast<T>(v)] (implicit conversions behave the same). (Conversions
    of Core/Utils.hpp 37-45.) *)
Definition cast (t : ety) (v : val) : outcome val :=
  match t, v with
  | TBool, VB b => Done (VB b)
  | TBool, VI z => Done (VB (negb (z =? 0)))
  | TBool, VD d => Done (VB (f2b d))
  | TInt, VB b => Done (VI (b2z b))
  | TInt, VI z => Done (VI z)
  | TInt, VD d => z <-o f2int d ;; Done (VI z)
  | TDouble, v => Done (VD (v2f v))
  end.

(** std::common_type on the three element types. (Core/Traits.hpp 237, 244,
    250; Coca.hpp 29-72; Allocation/Colon.hpp 51, 69.) *)
Definition common (a b : ety) : ety :=
  match a, b with
  | TDouble, _ | _, TDouble => TDouble
  | TInt, _ | _, TInt => TInt
  | TBool, TBool => TBool
  end.

(** Functions of the C mathematics library; an arbitrary parameter.
    (Core/Traits.hpp 274, 340-378.) *)
Inductive unfun :=
| FSin | FAsin | FSinh | FCos | FAcos | FCosh | FTan | FAtan | FTanh
| FExp | FLog | FSqrt.
Record libm := { lm_un : unfun -> flt -> flt; lm_pow : flt -> flt -> flt }.

(** Integral promotion of a bool / int value; doubles have no integral
    value. (For Core/Traits.hpp 235-376.) *)
Definition v2z (v : val) : option Z :=
  match v with VB b => Some (b2z b) | VI z => Some z | VD _ => None end.

(** Built-in [l + r], [l - r], [l * r] after the usual arithmetic
    conversions: an int result (overflow undefined) or a double. (For
    Core/Traits.hpp 235-376.) *)
Definition arith (zop : Z -> Z -> Z) (fop : flt -> flt -> flt) (l r : val) : outcome val :=
  match v2z l, v2z r with
  | Some a, Some b => z <-o int_res (zop a b) ;; Done (VI z)
  | _, _ => Done (VD (fop (v2f l) (v2f r)))
  end.

Inductive binop :=
| OPlus | OMinus | OTimes | ODiv | OPow
| OEq | OLt | OLe | OGt | OGe | ONe.

(** Core/Traits.hpp 235-253 (PlusTrait, MinusTrait, TimesTrait): computed with
    the built-in operator, then converted to common_type<L, R>. *)
Definition trait_arith zop fop (l r : val) : outcome val :=
  v <-o arith zop fop l r ;; cast (common (ty_of l) (ty_of r)) v.

(** Core/Traits.hpp 254-270 (DivideTrait): always a double division. *)
Definition trait_div (l r : val) : outcome val := Done (VD (fdiv (v2f l) (v2f r))).

(** Core/Traits.hpp 271-276 (PowTrait): std::pow in double, converted to
    common_type<L, R>. *)
Definition trait_pow (lm : libm) (l r : val) : outcome val :=
  cast (common (ty_of l) (ty_of r)) (VD (lm_pow lm (v2f l) (v2f r))).

(** Core/Traits.hpp 277-288 (EqualTrait): fabs(a - b) < 1E-3. *)
Definition trait_eq (l r : val) : outcome val :=
  v <-o arith Z.sub fsub l r ;; Done (VB (flt_ltb (fabs (v2f v)) f1em3)).

(** Core/Traits.hpp 329-338 (UnEqualTrait): fabs(a - b) > 1E-3. *)
Definition trait_ne (l r : val) : outcome val :=
  v <-o arith Z.sub fsub l r ;; Done (VB (flt_ltb f1em3 (fabs (v2f v)))).

(** Built-in comparison after the usual arithmetic conversions. (For
    Core/Traits.hpp 235-376.) *)
Definition compare_vals (zc : Z -> Z -> bool) (fc : flt -> flt -> bool) (l r : val) : outcome val :=
  match v2z l, v2z r with
  | Some a, Some b => Done (VB (zc a b))
  | _, _ => Done (VB (fc (v2f l) (v2f r)))
  end.

(** Core/Traits.hpp 235-338: [Trait::f(l, r)] for every binary operator. *)
Definition bin_f (lm : libm) (op : binop) (l r : val) : outcome val :=
  match op with
  | OPlus => trait_arith Z.add fadd l r
  | OMinus => trait_arith Z.sub fsub l r
  | OTimes => trait_arith Z.mul fmul l r
  | ODiv => trait_div l r
  | OPow => trait_pow lm l r
  | OEq => trait_eq l r
  | OLt => compare_vals Z.ltb flt_ltb l r                       (* 289-298 *)
  | OLe => compare_vals Z.leb flt_leb l r                       (* 299-308 *)
  | OGt => compare_vals (fun a b => b <? a) (fun a b => flt_ltb b a) l r   (* 309-318 *)
  | OGe => compare_vals (fun a b => b <=? a) (fun a b => flt_leb b a) l r  (* Traits.hpp 319-328 *)
  | ONe => trait_ne l r
  end.

Inductive unop := UNeg | UFun (f : unfun).

(** Core/Traits.hpp 340-378: unary traits; UnaryOperation::operator[]
    (UnaryCalculations.hpp 45-52) converts the result to its RetType double.
    [-a] on int is an int negation (overflow undefined). *)
Definition un_f (lm : libm) (op : unop) (v : val) : outcome val :=
  match op with
  | UNeg =>
      match v2z v with
      | Some a => z <-o int_res (- a) ;; Done (VD (i2f z))
      | None => Done (VD (fopp (v2f v)))
      end
  | UFun f => Done (VD (lm_un lm f (v2f v)))
  end.

(** Room reserved for [n] elements: static_cast<std::size_t>(n * 1.15)
    (BaseStore.hpp 104, 255, 269). *)
Definition cap115 (n : Z) : outcome Z := f2size (fmul (i2f n) f115).

(** realloc's version: static_cast<int>(new_size * 1.15) (BaseStore.hpp 315),
    then converted back to size_t. *)
Definition cap115_int (n : Z) : outcome Z :=
  z <-o f2int (fmul (i2f n) f115) ;; Done (wrap64 z).
