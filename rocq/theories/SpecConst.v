(** Vocabulary of the properties of constants of derivative programs. *)
From Coq Require Import ZArith List Bool.
From Verif Require Import Base Num StoreModel VecModel DerivModel Spec SpecExpr.
Import ListNotations.
Open Scope Z_scope.

(** varConstants[k] is a vector of doubles without shape (AllVars.hpp 27). *)
Record con_array (w : world) (k : nat) : Prop := {
  ca_kind : kd (ob w (OD (kslot k))) = KBuffer;
  ca_type : sty (ob w (OD (kslot k))) = TDouble;
  ca_shape : mp (ob w (OD (kslot k))) = mp_none;
  ca_ptr : alloc (ob w (OD (kslot k))) = true -> ptr (ob w (OD (kslot k))) <> None }.

(** Afterwards constant k has exactly the elements l, it can be used as before,
    and nothing else has changed. *)
Record con_made (w w' : world) (k : nat) (l : list flt) : Prop := {
  cm_step : step1 w w' (OD (kslot k));
  cm_array : con_array w' k;
  cm_holds : holds w' (OD (kslot k)) (map VD l) }.
