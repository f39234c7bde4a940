(** Conversions between logical values, ints and doubles, in terms of integers
    and real numbers. *)
From Coq Require Import ZArith Reals List Bool.
From Coq.Floats Require Import SpecFloat.
From Flocq Require Import Core.Core.
From Verif Require Import Base Num FloatBridge.
Open Scope Z_scope.

(** Values a C++ program can hold: ints have 32 bits, doubles 64. *)
Definition machine (v : val) : Prop :=
  match v with VB _ => True | VI z => - 2 ^ 31 <= z < 2 ^ 31 | VD d => valid d end.
Definition has_type (t : ety) (v : val) : Prop :=
  match t, v with TBool, VB _ | TInt, VI _ | TDouble, VD _ => True | _, _ => False end.

(** Everything but zero is true; also what is not a number, and infinity. *)
Definition nonzero (v : val) : Prop :=
  match v with VB b => b = true | VI z => z <> 0 | VD d => finite d -> fR d <> 0%R end.

(** The int between zero and a double that is nearest to it fits 32 bits. *)
Definition representable (t : ety) (v : val) : Prop :=
  match t, v with TInt, VD d => finite d /\ - 2 ^ 31 <= Ztrunc (fR d) < 2 ^ 31 | _, _ => True end.

(** v' is v as a value of type t. *)
Inductive converts : ety -> val -> val -> Prop :=
| Cv_same t v : has_type t v -> converts t v v
| Cv_true v : nonzero v -> converts TBool v (VB true)
| Cv_false v : ~ nonzero v -> converts TBool v (VB false)
| Cv_one : converts TInt (VB true) (VI 1)
| Cv_zero : converts TInt (VB false) (VI 0)
| Cv_cut d z : finite d -> Ztrunc (fR d) = z -> - 2 ^ 31 <= z < 2 ^ 31 -> converts TInt (VD d) (VI z)
| Cv_exact z d : valid d -> finite d -> fR d = IZR z -> d <> S754_zero true -> converts TDouble (VI z) (VD d)
| Cv_bool (b : bool) d : valid d -> finite d -> fR d = (if b then 1 else 0)%R -> d <> S754_zero true -> converts TDouble (VB b) (VD d).

(** Every value of type t is one of type t'. *)
Definition within (t t' : ety) : Prop :=
  match t, t' with TBool, _ | TInt, TInt | TInt, TDouble | TDouble, TDouble => True | _, _ => False end.
