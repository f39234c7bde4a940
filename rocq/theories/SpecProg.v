(** Programs of assignments and their meaning on lists: the specification of
    the refinement theorem for vector programs. *)
From Coq Require Import ZArith List String Bool.
From Verif Require Import Base Num StoreModel VecModel Spec SpecExpr SpecHist.
Import ListNotations.
Open Scope Z_scope.

Inductive cmd :=
| CAssign (x : nat) (e : expr)                                   (* x = e *)
| CScalar (x : nat) (v : val)                                    (* x = v *)
| CElem (x : nat) (i : Z) (v : val)                              (* x[i] = v, 0-based *)
| CSub (s x : nat) (ind : list Z) (same : bool) (e : expr)       (* x(ind) = e *)
| CSubScalar (x : nat) (ind : list Z) (v : val).                 (* x(ind) = v *)

Definition run_cmd (lm : libm) (c : cmd) : M world unit :=
  match c with
  | CAssign x e => assign lm x e
  | CScalar x v => assign_scalar x v
  | CElem x i v => s <- st (OD x) ;; v' <- lift (cast (sty s) v) ;; at_wr (OD x) i v'
  | CSub s x ind same e => assign_subset lm s x ind same e
  | CSubScalar x ind v => assign_subset_scalar x ind v
  end.

(** Exceptions of the library are caught and the program goes on; the outcome
    of every command is recorded. *)
Fixpoint run_prog (lm : libm) (cs : list cmd) (w : world) : list (outcome unit) * world :=
  match cs with
  | [] => ([], w)
  | c :: r =>
      match run_cmd lm c w with
      | (Undef u, w') => ([Undef u], w')
      | (o, w') => let (os, w'') := run_prog lm r w' in (o :: os, w'')
      end
  end.

(* ------------------------------------------------------ meaning on lists *)

Definition state := nat -> list val.
Definition setl (rho : state) (x : nat) (l : list val) : state :=
  fun y => if Nat.eqb y x then l else rho y.

Definition msg_zero : exn := Ass "Size has to be larger than 0".
Definition msg_oob : exn := Ass "Error: out of boundaries --> value beyond size of vector".
Definition msg_len : exn := Ass "number of items to replace is not a multiple of replacement length".

Fixpoint zseq (i : Z) (n : nat) : list Z :=
  match n with O => [] | S k => i :: zseq (i + 1) k end.

(** All elements of e in order, converted to type t; the first one that cannot
    be computed decides the outcome. *)
Definition value (lm : libm) (rho : state) (t : ety) (e : expr) : outcome (list val) :=
  omap (fun i => v <-o xval lm rho e i ;; cast t v) (zseq 0 (Z.to_nat (xsize rho e))).

(** Write the values one after the other to the given positions; a position
    beyond the end stops with an exception. *)
Fixpoint scatter (l : list val) (ind : list Z) (us : list val) : outcome unit * list val :=
  match ind, us with
  | j :: ind', u :: us' =>
      if j <? Z.of_nat (List.length l) then scatter (list_set l (Z.to_nat j) u) ind' us'
      else (Thrown msg_oob, l)
  | _, _ => (Done tt, l)
  end.

(** [ty x] is the element type of variable x. *)
Definition spec_cmd (lm : libm) (ty : nat -> ety) (c : cmd) (rho : state) : outcome unit * state :=
  match c with
  | CAssign x e =>
      if xsize rho e =? 0 then (Thrown msg_zero, rho)
      else match value lm rho (ty x) e with
           | Done us => (Done tt, setl rho x us)
           | Thrown ex => (Thrown ex, rho)
           | Undef u => (Undef u, rho)
           end
  | CScalar x v =>
      match cast (ty x) v with
      | Done v' => (Done tt, setl rho x [v'])
      | Thrown ex => (Thrown ex, rho)
      | Undef u => (Undef u, rho)
      end
  | CElem x i v =>
      match cast (ty x) v with
      | Done v' => let (o, l) := scatter (rho x) [i] [v'] in (o, setl rho x l)
      | Thrown ex => (Thrown ex, rho)
      | Undef u => (Undef u, rho)
      end
  | CSub s x ind same e =>
      if negb (xsize rho e =? Z.of_nat (List.length ind)) then (Thrown msg_len, rho)
      else if xsize rho e =? 0 then (Thrown msg_zero, rho)
      else match value lm rho (ty x) e with
           | Done us => let (o, l) := scatter (rho x) ind us in (o, setl rho x l)
           | Thrown ex => (Thrown ex, rho)
           | Undef u => (Undef u, rho)
           end
  | CSubScalar x ind v =>
      if Z.of_nat (List.length ind) =? 0 then (Done tt, rho)
      else match cast (ty x) v with
           | Done v' => let (o, l) := scatter (rho x) ind (repeat v' (List.length ind)) in (o, setl rho x l)
           | Thrown ex => (Thrown ex, rho)
           | Undef u => (Undef u, rho)
           end
  end.

Fixpoint spec_prog (lm : libm) (ty : nat -> ety) (cs : list cmd) (rho : state) : list (outcome unit) * state :=
  match cs with
  | [] => ([], rho)
  | c :: r =>
      match spec_cmd lm ty c rho with
      | (Undef u, rho') => ([Undef u], rho')
      | (o, rho') => let (os, rho'') := spec_prog lm ty r rho' in (o :: os, rho'')
      end
  end.

(** The commands the library executes as written: all variables exist ([V]),
    expressions are [wf_expr], a subset has not more positions than the vector
    has elements, lengths are within what the allocator serves and an int can
    count. *)
Definition cmd_wf (lim : Z) (V : list nat) (rho : state) (c : cmd) : Prop :=
  match c with
  | CAssign x e =>
      In x V /\ incl (vars e) V /\ wf_expr rho e /\ xsize rho e <= max_len /\ 2 * xsize rho e <= lim
  | CScalar x v => In x V /\ 2 <= lim
  | CElem x i v => In x V /\ 0 <= i
  | CSub s x ind same e =>
      ~ In s V /\ In x V /\ incl (vars e) V /\ wf_expr rho e /\ 2 * xsize rho e <= lim /\
      Z.of_nat (List.length ind) <= Z.of_nat (List.length (rho x)) /\ (forall j, In j ind -> 0 <= j)
  | CSubScalar x ind v =>
      In x V /\ Z.of_nat (List.length ind) <= Z.of_nat (List.length (rho x)) /\
      (forall j, In j ind -> 0 <= j)
  end.

Fixpoint prog_wf (lm : libm) (ty : nat -> ety) (lim : Z) (V : list nat) (cs : list cmd) (rho : state) : Prop :=
  match cs with
  | [] => True
  | c :: r =>
      cmd_wf lim V rho c /\
      match spec_cmd lm ty c rho with
      | (Undef u, _) => True
      | (_, rho') => prog_wf lm ty lim V r rho'
      end
  end.

(** The world represents the list state: every variable of V is an owning
    vector with the given elements and type and a usable scratch buffer; the
    allocator serves [lim] elements. *)
Record repr (w : world) (lim : Z) (ty : nat -> ety) (V : list nat) (rho : state) : Prop := {
  re_shape : world_shape w;
  re_lim : hlim (hp w) = lim;
  re_holds : forall x, In x V -> vholds w x (rho x);
  re_own : forall x, In x V -> owning w x;
  re_ready : forall x, In x V -> ready w x;
  re_small : forall x, In x V -> small w x;
  re_type : forall x, In x V -> sty (ob w (OD x)) = ty x;
  re_temp : forall s, ~ In s V -> unborn w (OT s) }.
