(** Vocabulary of the properties of functions that make vectors. *)
From Coq Require Import ZArith List Bool Reals.
From Verif Require Import Base Num StoreModel VecModel AllocModel FloatBridge Spec SpecExpr SpecSub.
Import ListNotations.
Open Scope Z_scope.

(** Vector x has been made: it holds the elements l of type t and has the
    shape m; its memory has room for the elements and it can be used as any
    other vector, its scratch buffer is as after the default constructor;
    nothing else has changed. *)
Record made (w w' : world) (x : nat) (t : ety) (l : list val) (m : matpar) : Prop := {
  md_step : vstep w w' x;
  md_ok : world_ok w -> world_ok w';
  md_holds : vholds w' x l;
  md_shape : mp (ob w' (OD x)) = m;
  md_own : owning w' x;
  md_ready : ready w' x;
  md_type : sty (ob w' (OD x)) = t;
  md_room : Z.of_nat (length l) <= cap (ob w' (OD x));
  md_temp : exists t', ob w' (OT x) = store_default KBuffer t' }.

(** The argument is (or starts with) the value v. *)
Definition first_is (lm : libm) (w : world) (a : arg) (v : val) : Prop :=
  match a with
  | AS u => u = v
  | AV t e => ty_of v = t /\ elem lm e 0 w = (Done v, w)
  end.

(** The argument has the elements l (a scalar has one). *)
Definition items (lm : libm) (w : world) (a : arg) (l : list val) : Prop :=
  match a with
  | AS u => l = [u]
  | AV t e => yields lm w e l
  end.

(** Variables mentioned by an argument. *)
Definition arg_vars (a : arg) : list nat := match a with AS _ => [] | AV _ e => vars e end.

(** The number an argument stands for as a size: an int, a bool or the integer
    part of a double (below 2^31). *)
Definition size_is (v : val) (n : Z) : Prop :=
  match v with
  | VB b => b2z b = n
  | VI z => z = n
  | VD d => int_part d n /\ n < 2 ^ 31
  end.

(** All elements have the declared type of the argument. *)
Definition typed (a : arg) (l : list val) : Prop := forall u, In u l -> ty_of u = arg_ty a.

(** Nothing was made: vector x does not exist and nothing else has changed. *)
Definition not_made (w w' : world) (x : nat) : Prop :=
  vstep w w' x /\ (world_ok w -> world_ok w') /\ (forall a, ~ owns (ob w' (OD x)) a) /\ (forall a, ~ owns (ob w' (OT x)) a).

(** Position of a type in logical < integer < double. *)
Definition level (t : ety) : nat := match t with TBool => 0 | TInt => 1 | TDouble => 2 end.
(** t is the highest element type among the arguments. *)
Definition highest (t : ety) (args : list arg) : Prop :=
  (exists a, In a args /\ arg_ty a = t) /\ forall a, In a args -> (level (arg_ty a) <= level t)%nat.

(** u is the value v as an element of type t (t is not below the type of v). *)
Definition widened (t : ety) (v u : val) : Prop :=
  match t, v, u with
  | TBool, VB b, VB c => b = c
  | TInt, VI a, VI c => a = c
  | TInt, VB b, VI c => c = if b then 1 else 0
  | TDouble, VD a, VD c => a = c
  | TDouble, VI a, VD c => finite c /\ fR c = IZR a
  | TDouble, VB b, VD c => finite c /\ fR c = if b then 1%R else 0%R
  | _, _, _ => False
  end.
(** ints are 32 bit wide. *)
Definition int32 (v : val) : Prop := match v with VI z => - 2 ^ 31 <= z < 2 ^ 31 | _ => True end.
