(** Loading AllVars objects: what the theorems of C78 are stated with. *)
From Coq Require Import ZArith List Bool.
From Verif Require Import Base Num StoreModel VecModel Spec SpecExpr DerivModel.
Import ListNotations.
Open Scope Z_scope.

(** Vector y is a usable argument, with the elements [us] as doubles: its
    members [d] and [temp] own their elements and hold them. *)
Record argument (w : world) (y : nat) (us : list val) : Prop := {
  ag_own : owning w y;
  ag_cap : sz (ob w (OD y)) <= cap (ob w (OD y));
  ag_tcap : sz (ob w (OT y)) <= cap (ob w (OT y));
  ag_val : exists l, vholds w y l /\ Forall2 (fun v u => cast TDouble v = Done u) l us;
  ag_tmp : exists l, holds w (OT y) l;
  ag_len : us <> [] /\ Z.of_nat (List.length us) <= max_len /\ fits w (Z.of_nat (List.length us)) }.

(** The array of the variables of kind k is default-constructed. *)
Definition empty_slots (k : kind) (w : world) (n : nat) : Prop :=
  forall i, (i < n)%nat ->
    ob w (OD (vslot (DV k i))) = store_default k TDouble /\
    ob w (OT (vslot (DV k i))) = store_default KBuffer TDouble.
(** Vector y is none of them. *)
Definition outside (k : kind) (n y : nat) : Prop := forall i, (i < n)%nat -> y <> vslot (DV k i).
