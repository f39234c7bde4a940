(** Vocabulary of C101: the same contents in other places. *)
From Coq Require Import ZArith List.
From Verif Require Import Base Num StoreModel OutModel CallModel JumpModel WrapCallModel.
Import ListNotations.
Open Scope Z_scope.

(** What was at address a is at address pi a. *)
Definition ren (pi : nat -> nat) (s : store) : store :=
  mkStore (kd s) (sty s) (option_map pi (ptr s)) (sz s) (cap s) (alloc s) (mp s) (todel s).
Definition ren_obj (pi : nat -> nat) (o : robj) : robj := mkR (r_ty o) (pi (r_mem o)) (r_dim o).
Definition ren_flow (pi : nat -> nat) (f : flow) : flow := match f with Gave o => Gave (ren_obj pi o) | f => f end.
Definition ren_param (pi : nat -> nat) (p : param) : param := mkP (p_name p) (p_type p) (ren_obj pi (p_obj p)).
Definition ren_wparam (pi : nat -> nat) (p : wparam) : wparam := mkW (w_how p) (ren_param pi (w_par p)).

(** The same ending, with a result that is in another place. *)
Definition same_end {A} (r : A -> A) (o o' : outcome A) : Prop :=
  match o, o' with
  | Done x, Done y => y = r x
  | Thrown e, Thrown e' => e' = e
  | Undef u, Undef u' => u' = u
  | _, _ => False
  end.

(** In w' everything of w is in another place: every object that points to
    address a in w points to pi a in w', where the same is.  There may be any
    other memory in w', and another address may be next to be given out.
    Different addresses stay different, and addresses not yet given out
    correspond in the order in which they will be. *)
Record placed (pi : nat -> nat) (w w' : world) : Prop := {
  pl_inj : forall a b, pi a = pi b -> a = b;
  pl_new : forall k, pi (hnext (hp w) + k)%nat = (hnext (hp w') + k)%nat;
  pl_ob : forall o, ob w' o = ren pi (ob w o);
  pl_blk : forall a, hblk (hp w') (pi a) = hblk (hp w) a;
  pl_lim : hlim (hp w') = hlim (hp w) }.
(** The memory of w' that is not that of w. *)
Definition other_kept (pi : nat -> nat) (w1 w2 : world) : Prop :=
  forall a, (forall b, pi b <> a) -> hblk (hp w2) a = hblk (hp w1) a.
