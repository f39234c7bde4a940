(** Histories of statements on vectors that own their memory, borrow an array of
    the caller or wrap an R object, without any condition on sizes or positions:
    statements that throw are caught, and the history goes on. *)
From Coq Require Import ZArith List Bool.
From Verif Require Import Base Num StoreModel VecModel Spec SpecExpr SpecHist SpecVec.
Import ListNotations.
Open Scope Z_scope.

(** Undefined behaviour of arithmetic, as opposed to memory accesses. *)
Definition arithmetic (u : ub) : Prop := u = UB_overflow \/ u = UB_cast \/ u = UB_div0.
(** What is assumed of a program: [written]: every element is written before it
    can be read; [wrapped]: the names of the vectors that wrap R objects;
    [lenders]: blocks of the caller or of R with their owners and cells, and how
    many of the cells may change while the program runs. *)
Record mode := Mode { written : bool; wrapped : list nat; lenders : list (nat * owner * list (option val) * nat) }.
Coercion unwrapped (b : bool) : mode := Mode b [] [].
(** In programs that may leave elements of a vector unwritten reading such an
    element is undefined, too. *)
Definition allowed (ini : mode) (u : ub) : Prop := arithmetic u \/ (written ini = false /\ u = UB_uninit).

Inductive scmd :=
| QDeclare (x : nat) (t : ety) (e : expr)      (* Vec x = e *)
| QSized (x : nat) (t : ety) (n : Z)           (* Vec x(SI{n}) *)
| QAssign (x : nat) (e : expr)                 (* x = e *)
| QScalar (x : nat) (v : val)                  (* x = v *)
| QElement (x : nat) (i : Z) (v : val)         (* x[i] = v *)
| QSubset (s x : nat) (ind : list Z) (same : bool) (e : expr)
    (* x(ind) = e; s is the temporary made for the subset; same: e is itself a subset of a variable *)
| QSubsetScalar (x : nat) (ind : list Z) (v : val)
| QRead (e : expr) (i : Z)                     (* e[i] *)
| QIterate (x : nat)                           (* for (auto v : x) *)
| QEnd (x : nat)                               (* x leaves its scope *)
| QArray (x : nat) (t : ety) (l : list val)
    (* an array with the elements l, and Vec x(pointer to it, its length) *)
| QWrap (x : nat) (t : ety) (l : list val) (m : matpar).
    (* an R object with the elements l and the shape m, and Vec x(s) that wraps it *)

(** The calls a statement makes. *)
Definition run_scmd (lm : libm) (c : scmd) : M world unit :=
  match c with
  | QDeclare x t e => vec_of_expr lm x t e
  | QSized x t n => vec_sized x t n
  | QAssign x e => assign lm x e
  | QScalar x v => assign_scalar x v
  | QElement x i v => at_wr (OD x) i v
  | QSubset s x ind same e => assign_subset lm s x ind same e
  | QSubsetScalar x ind v => assign_subset_scalar x ind v
  | QRead e i => elem lm e i ;; ret tt
  | QIterate x => iterate_vec x ;; ret tt
  | QEnd x => vec_end x
  | QArray x t l => fun w => vec_borrow x t (Some (hnext (hp w))) (Z.of_nat (length l)) (user_block w OwnExt l)
  | QWrap x t l m => fun w => vec_sexp x t (Some (hnext (hp w))) (Z.of_nat (length l)) m (user_block w OwnR l)
  end.

Definition inb (x : nat) (V : list nat) : bool := existsb (Nat.eqb x) V.

(** The statement mentions only vectors in scope and declares new ones (other
    programs are rejected by the compiler). *)
Definition in_scope (V : list nat) (c : scmd) : bool :=
  match c with
  | QDeclare x _ e => negb (inb x V) && forallb (fun y => inb y V) (vars e)
  | QSized x _ _ | QArray x _ _ | QWrap x _ _ _ => negb (inb x V)
  | QAssign x e => inb x V && forallb (fun y => inb y V) (vars e)
  | QScalar x _ | QElement x _ _ | QSubsetScalar x _ _ | QIterate x | QEnd x => inb x V
  | QSubset s x _ _ e => inb x V && negb (inb s V) && forallb (fun y => inb y V) (vars e)
  | QRead e _ => forallb (fun y => inb y V) (vars e)
  end.

(** Vectors in scope after the statement. *)
Definition scope_after (V : list nat) (c : scmd) : list nat :=
  match c with
  | QDeclare x _ _ | QSized x _ _ | QArray x _ _ | QWrap x _ _ _ => x :: V
  | QEnd x => filter (fun y => negb (Nat.eqb x y)) V
  | _ => V
  end.

Inductive ending := Finished | NoMemory | Undefined (u : ub).

(** Exceptions other than bad_alloc are caught after each statement. *)
Fixpoint history (lm : libm) (cs : list scmd) (V : list nat) (w : world) : ending * list nat * world :=
  match cs with
  | [] => (Finished, V, w)
  | c :: cs' =>
      if in_scope V c then
        match run_scmd lm c w with
        | (Done _, w') => history lm cs' (scope_after V c) w'
        | (Thrown (Ass _), w') => history lm cs' V w'
        | (Thrown BadAlloc, w') => (NoMemory, V, w')
        | (Undef u, w') => (Undefined u, V, w')
        end
      else history lm cs' V w
  end.

(** Positions are size_t values; lists are not longer than the address space. *)
Fixpoint sizes_ok (e : expr) : Prop :=
  match e with
  | EVar _ | ESca _ => True
  | ETmp _ l _ => Z.of_nat (length l) <= 2 ^ 60
  | ESub e ind _ => sizes_ok e /\ Z.of_nat (length ind) < 2 ^ 64 /\ Forall (fun p => 0 <= p) ind
  | EBin _ l r => sizes_ok l /\ sizes_ok r
  | EUn _ e => sizes_ok e
  end.
Definition cmd_ok (c : scmd) : Prop :=
  match c with
  | QDeclare _ _ e | QAssign _ e => sizes_ok e
  | QSized _ _ n => 0 <= n < 2 ^ 64
  | QElement _ i _ => 0 <= i
  | QSubset _ _ ind _ e => sizes_ok e /\ Forall (fun p => 0 <= p) ind
  | QSubsetScalar _ ind _ => Forall (fun p => 0 <= p) ind
  | QRead e i => sizes_ok e /\ 0 <= i
  | QScalar _ _ | QIterate _ | QEnd _ => True
  | QArray _ _ l | QWrap _ _ l _ => 1 <= Z.of_nat (length l) < 2 ^ 31
  end.

(** R are the names of the vectors that wrap R objects: no value is assigned to
    them as a whole, and they are not enlarged by a subset assignment. *)
Definition cmd_keeps (R : list nat) (c : scmd) : Prop :=
  match c with
  | QDeclare x _ _ | QSized x _ _ | QArray x _ _ | QAssign x _ => ~ In x R
  | QSubset _ x _ same _ => same = true -> ~ In x R
  | QWrap x _ _ _ => In x R
  | _ => True
  end.

(** No right-hand side is a subset of a variable assigned to a subset. *)
Definition other_rhs (c : scmd) : Prop := match c with QSubset _ _ _ same _ => same = false | _ => True end.

(** Vector x uses memory of somebody else: an array of the caller, or the
    elements of an R object (then it is one of [wrapped]).  It has at least one
    element to offer, and all of them have been written; it does not reach beyond
    the cells that may change. *)
Definition lent (ini : mode) (w : world) (x : nat) : Prop :=
  let s := ob w (OD x) in
  (kd s = KBorrow /\ ~ In x (wrapped ini) \/ kd s = KBorrowSEXP /\ todel s = false /\ In x (wrapped ini)) /\
  1 <= cap s < 2 ^ 31 /\ sz s <= cap s /\ (written ini = true -> init_upto (hp w) s (cap s)) /\
  (forall b own cs m, In (b, own, cs, m) (lenders ini) -> ptr s = Some b -> cap s <= Z.of_nat m).
(** Vector x owns its memory or uses memory of somebody else; its scratch buffer
    is always its own. *)
Definition fit (ini : mode) (w : world) (x : nat) : Prop :=
  kd (ob w (OT x)) = KBuffer /\ (kd (ob w (OD x)) = KBuffer /\ ~ In x (wrapped ini) \/ lent ini w x).
(** [written]: all elements of x have been written. *)
Definition live (ini : mode) (w : world) (x : nat) : Prop :=
  fit ini w x /\ (written ini = true -> exists l, vholds w x l).

(** The blocks of D are there, with the same owner and length; a written cell is
    still written, and cells outside those that may change are the same. *)
Definition there (D : list (nat * owner * list (option val) * nat)) (w : world) : Prop :=
  forall b own cs m, In (b, own, cs, m) D -> own <> OwnCpp /\
    exists cs', hblk (hp w) b = Live own cs' /\ length cs' = length cs /\
      (forall i v, nth i cs None = Some v -> exists v', nth i cs' None = Some v') /\
      (forall i, (m <= i)%nat -> nth i cs' None = nth i cs None).

(** The state is sound: every vector in scope has its memory (and all its
    elements), no other vector owns anything, nothing leaked, the blocks of
    others are there, and the allocator serves less than 2^31 elements at a
    time. *)
Record sound_at (ini : mode) (V : list nat) (w : world) : Prop := {
  so_shape : world_shape w;
  so_lim : hlim (hp w) < 2 ^ 31;
  so_live : forall x, In x V -> live ini w x;
  so_dead : forall x, ~ In x V -> unborn w (OD x) /\ unborn w (OT x);
  so_leak : no_leak w;
  so_there : there (lenders ini) w }.
Definition sound : list nat -> world -> Prop := sound_at true.
