(** What a garbage collector of R may do and what a conversion owes it. *)
From Coq Require Import ZArith List Bool.
From Verif Require Import Base Num StoreModel VecModel OutModel RgcModel Spec SpecExpr.
Import ListNotations.
Open Scope Z_scope.

(** R has to keep the object in block a: it reaches it or it is protected. *)
Definition holds_on (s : rworld) (a : nat) : Prop := root s a = true \/ In a (pstk s).

(** R keeps the memory of everything the expression reads. *)
Definition secured (s : rworld) (e : expr) : Prop :=
  forall x a cs, In x (vars e) -> ptr (ob (rw s) (OD x)) = Some a -> hblk (hp (rw s)) a = Live OwnR cs -> holds_on s a.

(** Only blocks of R that it does not have to keep were freed; nothing else
    changed but block b. *)
Definition only_garbage (s s' : rworld) (b : nat) : Prop :=
  ob (rw s') = ob (rw s) /\ hlim (hp (rw s')) = hlim (hp (rw s)) /\
  forall a, a <> b -> hblk (hp (rw s')) a = hblk (hp (rw s)) a \/
    (exists cs, hblk (hp (rw s)) a = Live OwnR cs) /\ ~ holds_on s a /\ hblk (hp (rw s')) a = Freed.

(** R keeps the memory of every vector that uses memory of R. *)
Definition all_secured (s : rworld) : Prop :=
  forall o a cs, ptr (ob (rw s) o) = Some a -> hblk (hp (rw s)) a = Live OwnR cs -> holds_on s a.

(** R got a new object with these elements; what was protected before is
    protected now, and nothing else. The program can go on if R keeps the
    memory its vectors use. *)
Definition r_got_g (s s' : rworld) (o : robj) (t : ety) (us : list val) (dim : option (Z * Z)) : Prop :=
  r_ty o = t /\ r_dim o = dim /\ hblk (hp (rw s')) (r_mem o) = Live OwnR (map Some us) /\
  hblk (hp (rw s)) (r_mem o) = Unused /\ only_garbage s s' (r_mem o) /\ pstk s' = pstk s /\ root s' = root s /\
  (all_secured s -> world_shape (rw s')).

(** A number as R stores it: a logical as an integer. *)
Definition number_in_R (v : val) : val := match v with VB b => VI (if b then 1 else 0) | v => v end.
