(** Vocabulary for arithmetic: values as real numbers, rounding to doubles. *)
From Coq Require Import ZArith Reals List Bool.
From Coq.Floats Require Import SpecFloat.
From Flocq Require Import Core.Core.
From Verif Require Import Base Num FloatBridge.
Open Scope Z_scope.

(** The real number a logical, int or double stands for (NaN and infinities
    stand for none). *)
Inductive stands : val -> R -> Prop :=
| St_bool (b : bool) : stands (VB b) (if b then 1%R else 0%R)
| St_int (z : Z) : - 2 ^ 31 <= z < 2 ^ 31 -> stands (VI z) (IZR z)
| St_double (d : flt) : valid d -> finite d -> stands (VD d) (fR d).

(** d is the double nearest to r (ties to even, [rnd]); beyond the range of the
    doubles it is the infinity of r's sign. *)
Definition nearest (r : R) (d : flt) : Prop :=
  ((Rabs (rnd r) < bpow radix2 1024)%R -> valid d /\ finite d /\ fR d = rnd r) /\
  ((bpow radix2 1024 <= Rabs (rnd r))%R -> d = S754_infinity (Rlt_bool r 0)).

(** The real operation an operator stands for, and where it is defined. *)
Inductive real_of : binop -> (R -> R -> R) -> (R -> Prop) -> Prop :=
| Re_plus : real_of OPlus Rplus (fun _ => True)
| Re_minus : real_of OMinus Rminus (fun _ => True)
| Re_times : real_of OTimes Rmult (fun _ => True)
| Re_div : real_of ODiv Rdiv (fun y => y <> 0%R).
