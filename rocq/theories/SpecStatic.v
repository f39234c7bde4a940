(** What it means that a program keeps the element types of its vectors. *)
From Coq Require Import ZArith List Bool.
From Verif Require Import Base Num StoreModel VecModel.
Import ListNotations.
Open Scope Z_scope.

(** Every block of memory has one element type, that of all the storage objects
    that point to it; the elements written so far have this type. *)
Definition cells_typed (w : world) : Prop :=
  exists bt : nat -> ety,
    (forall o a, ptr (ob w o) = Some a -> (a < hnext (hp w))%nat /\ bt a = sty (ob w o)) /\
    (forall a own cs v, hblk (hp w) a = Live own cs -> In (Some v) cs -> ty_of v = bt a).

(** Vectors of V have the element types G, also in their scratch buffers. *)
Definition has_types (G : nat -> ety) (V : list nat) (w : world) : Prop :=
  forall x, In x V -> sty (ob w (OD x)) = G x /\ sty (ob w (OT x)) = G x.

(** The type of the number an expression computes for an element: bool for a
    comparison, double for a quotient, a function and a sign (also of ints),
    the common type of the operands otherwise; what is read of a subset of a
    vector has the type of the vector, of a subset of an operation it is a
    double. *)
Definition compares (op : binop) : bool :=
  match op with OEq | OLt | OLe | OGt | OGe | ONe => true | _ => false end.
Fixpoint rtyp (T : nat -> ety) (e : expr) : ety :=
  match e with
  | EVar x => T x
  | ETmp t _ _ => t
  | ESca v => ty_of v
  | ESub (EVar x) _ _ => T x
  | ESub (ETmp t _ _) _ _ => t
  | ESub (ESca v) _ _ => ty_of v
  | ESub _ _ _ => TDouble
  | EBin op l r =>
      if compares op then TBool
      else match op with ODiv => TDouble | _ => common (rtyp T l) (rtyp T r) end
  | EUn _ _ => TDouble
  end.
(** Temporaries hold what their type says (and are not empty, as no vector the
    library makes is). *)
Fixpoint tmps_typed (e : expr) : Prop :=
  match e with
  | ETmp t l _ => l <> [] /\ Forall (fun v => ty_of v = t) l
  | EVar _ | ESca _ => True
  | ESub e _ _ | EUn _ e => tmps_typed e
  | EBin _ l r => tmps_typed l /\ tmps_typed r
  end.

(** The elements of an expression are these truth values. *)
Definition answers (lm : libm) (w : world) (e : expr) (bs : list bool) : Prop :=
  esize w e = Z.of_nat (List.length bs) /\
  forall i, (i < List.length bs)%nat -> fst (elem lm e (Z.of_nat i) w) = Done (VB (nth i bs false)).

(** The positions, below n, of the elements a mask selects; the mask is
    repeated as needed. *)
Definition selected (bs : list bool) (n : nat) : list Z :=
  map Z.of_nat (filter (fun i => nth (Nat.modulo i (List.length bs)) bs false) (seq 0 n)).

(** No comparison, quotient, function, sign or subset of an operation. *)
Fixpoint one_type (e : expr) : Prop :=
  match e with
  | EVar _ | ETmp _ _ _ | ESca _ => True
  | ESub e _ _ => stored e = true
  | EBin op l r => compares op = false /\ op <> ODiv /\ one_type l /\ one_type r
  | EUn _ _ => False
  end.
