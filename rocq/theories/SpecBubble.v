(** Vocabulary of the bubble sort example. *)
From Coq Require Import ZArith List Bool.
From Verif Require Import Base Num StoreModel VecModel Spec SpecExpr SpecHist.
Import ListNotations.
Open Scope Z_scope.

(** No element is greater than its successor. *)
Fixpoint ascending (l : list flt) : Prop :=
  match l with
  | [] => True
  | a :: r => match r with [] => True | b :: _ => flt_ltb b a = false end /\ ascending r
  end.

(** [l'] is [l] with two neighbours exchanged that are in descending order. *)
Definition one_exchange (l l' : list flt) : Prop :=
  exists p a b q, l = p ++ a :: b :: q /\ flt_ltb b a = true /\ l' = p ++ b :: a :: q.

(** Only the vectors xs changed, in an orderly way: nothing leaked. *)
Record frame (w w' : world) (xs : list nat) : Prop := {
  fr_ok : world_ok w';
  fr_lim : hlim (hp w') = hlim (hp w);
  fr_other : forall y, ~ In y xs -> same_obj w w' (OD y) /\ same_obj w w' (OT y);
  fr_leak : no_leak w -> no_leak w' }.

(** No vector is alive under the name x. *)
Definition gone (w : world) (x : nat) : Prop := unborn w (OD x) /\ unborn w (OT x).

(** The situation at a call of bs(arr): arr has the elements l, the names of the
    locals are distinct and free, and there is enough memory. *)
Definition sort_call (w : world) (arr size temp swapped col s : nat) (l : list flt) : Prop :=
  NoDup [arr; size; temp; swapped; col; s] /\
  world_ok w /\ owning w arr /\ vholds w arr (map VD l) /\ sty (ob w (OD arr)) = TDouble /\
  gone w size /\ gone w temp /\ gone w swapped /\ gone w col /\ unborn w (OT s) /\
  fits w (Z.max 3 (Z.of_nat (List.length l))) /\ Z.of_nat (List.length l) < 2 ^ 31.

(** Afterwards the locals are gone, and but for arr nothing has changed. *)
Definition sort_end (w w' : world) (arr size temp swapped col s : nat) : Prop :=
  frame w w' [arr; size; temp; swapped; s; col] /\
  gone w' size /\ gone w' temp /\ gone w' swapped.
