(** What R receives from a conversion. *)
From Coq Require Import ZArith List Bool.
From Verif Require Import Base Num StoreModel VecModel OutModel.
Import ListNotations.
Open Scope Z_scope.

(** The elements of a numeric object of R are doubles, those of an integer or a
    logical object ints. *)
Definition in_R (t : ety) : ety := match t with TDouble => TDouble | TInt => TInt | TBool => TInt end.

(** R has a new object o of element type t with the elements us and the given
    dimensions; no object and no other memory changed. *)
Definition r_got (w w' : world) (o : robj) (t : ety) (us : list val) (dim : option (Z * Z)) : Prop :=
  r_ty o = t /\ r_dim o = dim /\ hblk (hp w') (r_mem o) = Live OwnR (map Some us) /\
  hblk (hp w) (r_mem o) = Unused /\ ob w' = ob w /\ forall a, a <> r_mem o -> hblk (hp w') a = hblk (hp w) a.
