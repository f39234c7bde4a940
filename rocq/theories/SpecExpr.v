(** Meaning of expressions on lists: the specification the vector theorems are
    stated against. *)
From Coq Require Import ZArith List String Bool.
From Verif Require Import Base Num StoreModel VecModel Spec.
Import ListNotations.
Open Scope Z_scope.

(** Variables of an expression. *)
Fixpoint vars (e : expr) : list nat :=
  match e with
  | EVar x => [x]
  | ETmp _ _ _ | ESca _ => []
  | ESub e _ _ => vars e
  | EBin _ l r => vars l ++ vars r
  | EUn _ e => vars e
  end.

(** Element [i] of a list, an out-of-bounds exception beyond its end. *)
Definition pick_val (l : list val) (i : Z) : outcome val :=
  match nth_error l (Z.to_nat i) with
  | Some v => Done v
  | None => Thrown (Ass "Error: out of boundaries --> value beyond size of vector")
  end.

(** Length of the value of an expression when variable x holds the list
    [rho x]: the longer operand decides. *)
Fixpoint xsize (rho : nat -> list val) (e : expr) : Z :=
  match e with
  | EVar x => Z.of_nat (List.length (rho x))
  | ETmp _ l _ => Z.of_nat (List.length l)
  | ESca _ => 1
  | ESub _ ind _ => Z.of_nat (List.length ind)
  | EBin _ l r => Z.max (xsize rho l) (xsize rho r)
  | EUn _ e => xsize rho e
  end.

(** Selecting from a variable or a temporary vector (as opposed to a computed
    operand). *)
Definition plain (e : expr) : bool :=
  match e with EVar _ | ETmp _ _ _ => true | _ => false end.

(** A number read through an operation or a subset arrives as a double. *)
Definition own_type (e : expr) : bool :=
  match e with EBin _ _ _ | EUn _ _ | ESub _ _ _ => false | _ => true end.
Definition read (e : expr) (v : val) : val := if own_type e then v else VD (v2f v).

(** Element [i] of the value: operands are recycled, subsets select. *)
Fixpoint xval (lm : libm) (rho : nat -> list val) (e : expr) (i : Z) : outcome val :=
  match e with
  | EVar x => pick_val (rho x) i
  | ETmp _ l _ => pick_val l i
  | ESca v => Done v
  | ESub e ind _ => v <-o xval lm rho e (nth (Z.to_nat i) ind 0) ;; Done (read e v)
  | EBin op l r =>
      a <-o xval lm rho l (i mod xsize rho l) ;;
      b <-o xval lm rho r (i mod xsize rho r) ;;
      bin_f lm op a b
  | EUn op e => a <-o xval lm rho e i ;; un_f lm op a
  end.

(** The expressions the library evaluates as the reader expects: no empty
    operand, a subset has not more positions than its base has elements, and
    positions into a computed operand are within its length. *)
Fixpoint wf_expr (rho : nat -> list val) (e : expr) : Prop :=
  match e with
  | EVar _ | ETmp _ _ _ | ESca _ => True
  | ESub e ind _ =>
      wf_expr rho e /\ Z.of_nat (List.length ind) <= xsize rho e /\
      (forall j, In j ind -> 0 <= j) /\
      (plain e = false -> forall j, In j ind -> j < xsize rho e)
  | EBin _ l r => wf_expr rho l /\ wf_expr rho r /\ 1 <= xsize rho l /\ 1 <= xsize rho r
  | EUn _ e => wf_expr rho e /\ 1 <= xsize rho e
  end.

(** rho gives the contents of every variable of e. *)
Definition env_of (w : world) (rho : nat -> list val) (e : expr) : Prop :=
  forall x, In x (vars e) -> vholds w x (rho x).

(** The values [us] are those of [e], converted to the element type [t]. *)
Definition value_of (lm : libm) (rho : nat -> list val) (t : ety) (e : expr) (us : list val) : Prop :=
  Z.of_nat (List.length us) = xsize rho e /\
  forall i, (i < List.length us)%nat ->
    exists v, xval lm rho e (Z.of_nat i) = Done v /\ cast t v = Done (nth i us (VB false)).

(** The scratch buffer of vector x can be used (again). *)
Definition can_assign (w : world) (x : nat) : Prop :=
  alloc (ob w (OT x)) = false \/ ptr (ob w (OT x)) <> None.
(** Vector x has memory, and so its scratch buffer stays usable. *)
Definition ready (w : world) (x : nat) : Prop :=
  ptr (ob w (OD x)) <> None /\ can_assign w x.

(** Vector x owns its elements, and so does its scratch buffer. *)
Definition owning (w : world) (x : nat) : Prop :=
  kd (ob w (OD x)) = KBuffer /\ kd (ob w (OT x)) = KBuffer.

(** The memory reserved for vector x and for its scratch buffer is below 2^31
    elements (the code passes sizes through an int). *)
Definition small (w : world) (x : nat) : Prop :=
  cap (ob w (OD x)) < 2 ^ 31 /\ cap (ob w (OT x)) < 2 ^ 31.

(** The largest length for which the reserve of 15% stays below 2^31. *)
Definition max_len : Z := 1867000000.

(** The allocator can serve a vector of n elements with its reserve. *)
Definition fits (w : world) (n : Z) : Prop := 2 * n <= hlim (hp w).

(** All objects but those of vector x, and all foreign memory, are unchanged;
    the invariant holds again; nothing leaked. *)
Record vstep (w w' : world) (x : nat) : Prop := {
  vs_shape : world_shape w';
  vs_lim : hlim (hp w') = hlim (hp w);
  vs_other : forall o, o <> OD x -> o <> OT x -> same_obj w w' o;
  vs_leak : forall b cs, hblk (hp w') b = Live OwnCpp cs ->
      (owns (ob w' (OD x)) b \/ owns (ob w' (OT x)) b) \/
      (hblk (hp w) b = Live OwnCpp cs /\ ~ owns (ob w (OD x)) b /\ ~ owns (ob w (OT x)) b);
  vs_ext : forall b own cs, own <> OwnCpp -> hblk (hp w) b = Live own cs ->
      hblk (hp w') b = Live own cs }.
