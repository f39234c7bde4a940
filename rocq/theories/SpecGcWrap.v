(** R programs with functions that use the memory of their arguments: which
    programs may be run. *)
From Coq Require Import ZArith List Bool.
From Verif Require Import Base Num StoreModel VecModel SubsetModel AllocModel ProgModel LangModel OutModel ForeignModel CallModel JumpModel RgcModel GcCallModel WrapCallModel GcWrapModel
  Spec SpecExpr SpecHist SpecSafe SpecLang SpecOut SpecForeign SpecGc SpecCall SpecSession SpecJump SpecWrapCall.
Import ListNotations.
Open Scope Z_scope.

(** The program only uses objects it has not forgotten, and wraps only those it
    knows to have elements; av and nv are the ones it has at first.  Its
    functions are accepted by the compiler and end with return, and neither
    assign a whole value to a wrapping parameter nor resize it. *)
Fixpoint wprog_ok (av nv : list robj) (p : wprog) : Prop :=
  match p with
  | YEnd => True
  | YCall ps b k => wcall_ok ps b /\ returns b /\
      (forall q, In q ps -> In (w_obj q) av /\ (wraps q = true -> In (w_obj q) nv)) /\
      wprog_ok av nv (k None) /\ forall o, wprog_ok (o :: av) nv (k (Some o))
  | YMake t vs d k => Forall (r_elem t) vs /\ forall o, wprog_ok (o :: av) (match vs with [] => nv | _ => o :: nv end) (k o)
  | YLook o k => In o av /\ wprog_ok av nv (k []) /\ forall c cs, wprog_ok av (o :: nv) (k (c :: cs))
  | YForget keep n k => wprog_ok (filter (fun o => keep (r_mem o)) av) (filter (fun o => keep (r_mem o)) nv) k
  end.
(** See [writes_all]. *)
Fixpoint wprog_writes_all (p : wprog) : Prop :=
  match p with
  | YEnd => True
  | YCall ps b k => writes_all_j b /\ forall o, wprog_writes_all (k o)
  | YMake t vs d k => forall o, wprog_writes_all (k o)
  | YLook o k => forall cs, wprog_writes_all (k cs)
  | YForget keep n k => wprog_writes_all k
  end.
(** No call of the program wraps the block. *)
Fixpoint wprog_avoids (a : nat) (p : wprog) : Prop :=
  match p with
  | YEnd => True
  | YCall ps b k => ~ In a (wrapped_mem ps) /\ forall o, wprog_avoids a (k o)
  | YMake t vs d k => forall o, wprog_avoids a (k o)
  | YLook o k => forall cs, wprog_avoids a (k cs)
  | YForget keep n k => wprog_avoids a k
  end.
