(** What a collector may do to a call, and what an R program has to observe. *)
From Coq Require Import ZArith List Bool.
From Verif Require Import Base Num StoreModel VecModel SubsetModel AllocModel ProgModel LangModel OutModel ForeignModel CallModel JumpModel RgcModel GcCallModel
  Spec SpecExpr SpecHist SpecSafe SpecLang SpecOut SpecForeign SpecGc SpecCall SpecSession SpecJump.
Import ListNotations.
Open Scope Z_scope.

(** The world of s is w, but for objects of R which it does not have to keep
    and which have been freed. *)
Definition but_garbage (w : world) (s : rworld) : Prop :=
  ob (rw s) = ob w /\ hnext (hp (rw s)) = hnext (hp w) /\ hlim (hp (rw s)) = hlim (hp w) /\
  forall a, hblk (hp (rw s)) a = hblk (hp w) a \/
    (exists cs, hblk (hp w) a = Live OwnR cs) /\ hblk (hp (rw s)) a = Freed /\ ~ holds_on s a.

(** No exception is caught in the statement. *)
Fixpoint no_try (s : jstmt) : Prop :=
  match s with
  | JTry _ _ => False
  | JSeq a b | JIf _ a b => no_try a /\ no_try b
  | JWhile _ a => no_try a
  | JScal _ body | JFor _ _ body => forall v, no_try (body v)
  | JLet _ _ _ _ body | JDecl _ _ _ body => no_try body
  | _ => True
  end.

(** The program only uses objects it has not forgotten; av are the ones it has
    at first. *)
Fixpoint remembers (av : list robj) (p : rprog) : Prop :=
  match p with
  | GEnd => True
  | GCall ps b k => (forall q, In q ps -> In (p_obj q) av) /\ remembers av (k None) /\ forall o, remembers (o :: av) (k (Some o))
  | GMake t vs d k => forall o, remembers (o :: av) (k o)
  | GLook o k => In o av /\ forall cs, remembers av (k cs)
  | GForget keep n k => remembers (filter (fun o => keep (r_mem o)) av) k
  end.

(** Its functions are accepted by the compiler and end with return; its
    vectors have elements of their type. *)
Fixpoint well_made (p : rprog) : Prop :=
  match p with
  | GEnd => True
  | GCall ps b k => NoDup (map p_name ps) /\ scoped_j false (rev (map p_name ps)) (rev (map p_name ps)) b /\ returns b /\ forall o, well_made (k o)
  | GMake t vs d k => Forall (r_elem t) vs /\ forall o, well_made (k o)
  | GLook o k => forall cs, well_made (k cs)
  | GForget keep n k => well_made k
  end.

(** See [writes_all]. *)
Fixpoint program_writes_all (p : rprog) : Prop :=
  match p with
  | GEnd => True
  | GCall ps b k => writes_all_j b /\ forall o, program_writes_all (k o)
  | GMake t vs d k => forall o, program_writes_all (k o)
  | GLook o k => forall cs, program_writes_all (k cs)
  | GForget keep n k => program_writes_all k
  end.
