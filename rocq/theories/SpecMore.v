(** Vocabulary of C98: the same state under another limit of the allocator. *)
From Coq Require Import ZArith.
From Verif Require Import Base StoreModel.
Open Scope Z_scope.

(** The state w with an allocator that serves requests of up to L elements. *)
Definition with_limit (L : Z) (w : world) : world := mkWorld (mkHeap (hnext (hp w)) (hblk (hp w)) L) (ob w).
(** Neither undefined behaviour nor out of memory. *)
Definition finished {A} (r : outcome A) : Prop := match r with Done _ | Thrown (Ass _) => True | _ => False end.
(** m comes to its end with limit L. *)
Definition enough {A} (m : M world A) (w : world) (L : Z) : Prop := finished (fst (m (with_limit L w))).
