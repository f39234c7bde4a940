(** Functions called from R, and R sessions that call them, without any
    condition on what the functions compute. *)
From Coq Require Import ZArith List Bool.
From Verif Require Import Base Num StoreModel VecModel SubsetModel AllocModel ProgModel LangModel OutModel ForeignModel CallModel
  Spec SpecExpr SpecHist SpecSafe SpecLang.
Import ListNotations.
Open Scope Z_scope.

(** The returned expression is not itself a subset (which a local vector can
    hold): the model does not limit the number of positions of a subset by the
    memory. *)
Fixpoint no_subset (e : lexpr) : Prop :=
  match e with
  | LSel _ _ | LSel2 _ _ _ => False
  | LBin _ l r => no_subset l /\ no_subset r
  | LUn _ e => no_subset e
  | _ => True
  end.

(** A function body the compiler accepts; V are the vectors in scope. *)
Fixpoint scoped_fn (V : list nat) (b : fbody) : Prop :=
  match b with
  | FRet _ e => incl (lvars e) V /\ no_subset e
  | FDo p k => scoped V V p /\ scoped_fn V k
  | FIf c a b => incl (lvars c) V /\ scoped_fn V a /\ scoped_fn V b
  | FScal e body => incl (lvars e) V /\ forall v, scoped_fn V (body v)
  | FLet x s t m k => x <> s /\ ~ In x V /\ ~ In s V /\ t = lmaker_ty m /\ incl (mvars m) V /\ scoped_fn (x :: V) k
  | FDecl x _ e k => ~ In x V /\ incl (lvars e) V /\ scoped_fn (x :: V) k
  end.

(** See [writes_all]. *)
Fixpoint writes_all_fn (b : fbody) : Prop :=
  match b with
  | FRet _ _ => True
  | FDo p k => writes_all p /\ writes_all_fn k
  | FIf _ a b => writes_all_fn a /\ writes_all_fn b
  | FScal _ body => forall v, writes_all_fn (body v)
  | FLet _ _ _ _ k | FDecl _ _ _ k => writes_all_fn k
  end.

(** An object of R: all its elements are written and have its type (those of a
    logical one are ints). *)
Definition r_elem (t : ety) (v : val) : Prop :=
  match t, v with
  | TDouble, VD _ | TInt, VI _ | TBool, VI _ => True
  | _, _ => False
  end.
Definition r_real (w : world) (r : robj) : Prop :=
  exists xs, hblk (hp w) (r_mem r) = Live OwnR (map Some xs) /\ Forall (r_elem (r_ty r)) xs.

(** An R session: a call with some arguments; what is done then depends on its
    result, [None] when it threw an exception. *)
Inductive session := SEnd | SCall (ps : list param) (b : fbody) (k : option robj -> session).

(** The arguments of a call are objects R has: at first [av], later also the
    results. *)
Fixpoint session_ok (av : list robj) (s : session) : Prop :=
  match s with
  | SEnd => True
  | SCall ps b k => NoDup (map p_name ps) /\ (forall p, In p ps -> In (p_obj p) av) /\ scoped_fn (rev (map p_name ps)) b /\
      session_ok av (k None) /\ forall o, session_ok (o :: av) (k (Some o))
  end.
Fixpoint session_writes_all (s : session) : Prop :=
  match s with
  | SEnd => True
  | SCall ps b k => writes_all_fn b /\ forall o, session_writes_all (k o)
  end.

(** [inl]: the session is over; [inr]: what stopped it: a function that is still
    running, no memory, or undefined behaviour. *)
Fixpoint run_session (N : nat) (lm : libm) (s : session) (w : world) : (unit + outcome (option robj)) * world :=
  match s with
  | SEnd => (inl tt, w)
  | SCall ps b k =>
      match call N lm ps b w with
      | (Done (Some o), w') => run_session N lm (k (Some o)) w'
      | (Thrown (Ass _), w') => run_session N lm (k None) w'
      | (r, w') => (inr r, w')
      end
  end.
