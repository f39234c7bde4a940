(** Programs of LangModel: the names they use, and how they end. *)
From Coq Require Import ZArith List Bool.
From Verif Require Import Base Num StoreModel VecModel SubsetModel AllocModel ProgModel LangModel Spec SpecExpr SpecHist SpecSafe.
Import ListNotations.
Open Scope Z_scope.

(** The vectors an expression mentions. *)
Fixpoint lvars (e : lexpr) : list nat :=
  match e with
  | LVar x | LAt x _ | LAt2 x _ _ => [x]
  | LLit _ => []
  | LBin _ l r => lvars l ++ lvars r
  | LUn _ e | LAtOf e _ | LAt2Of e _ _ | LLen e => lvars e
  | LSel e i => lvars e ++ lvars_i i
  | LSel2 e i j => lvars e ++ lvars_i i ++ lvars_i j
  end
with lvars_i (i : lindex) : list nat := match i with LXV _ e => lvars e | _ => [] end.
Definition avars (a : larg) : list nat := match a with LS _ => [] | LV _ e => lvars e end.
Definition mvars (m : lmaker) : list nat :=
  match m with
  | LMVector _ a | LMDim a => avars a
  | LMColon a b | LMRep a b => avars a ++ avars b
  | LMCoca args => flat_map avars args
  | LMMatrix a b c => avars a ++ avars b ++ avars c
  | LMTest _ e => lvars e
  end.

(** A program the compiler accepts: [V] are the vectors it can name, [L] all
    those that exist (the temporary of a range-based for has no name);
    declarations and temporaries are new; a vector made of an r-value has its
    element type. *)
Fixpoint scoped (L V : list nat) (s : lstmt) : Prop :=
  match s with
  | LSkip => True
  | LAssign x e => In x V /\ incl (lvars e) V
  | LScalar x _ | LElem x _ _ | LAtSet x _ _ | LAt2Set x _ _ _ | LFill x _ | LResize x _ => In x V
  | LSub s x i _ e => In x V /\ ~ In s L /\ incl (lvars_i i) V /\ incl (lvars e) V
  | LSubScalar x i _ => In x V /\ incl (lvars_i i) V
  | LSub2 s x i j _ e => In x V /\ ~ In s L /\ incl (lvars_i i) V /\ incl (lvars_i j) V /\ incl (lvars e) V
  | LSub2Scalar x i j _ => In x V /\ incl (lvars_i i) V /\ incl (lvars_i j) V
  | LSeq a b | LTry a b => scoped L V a /\ scoped L V b
  | LIf c a b => incl (lvars c) V /\ scoped L V a /\ scoped L V b
  | LWhile c a => incl (lvars c) V /\ scoped L V a
  | LScal e body => incl (lvars e) V /\ forall v, scoped L V (body v)
  | LFor col m body => ~ In col L /\ incl (mvars m) V /\ forall v, scoped (col :: L) V (body v)
  | LLet x s t m body => x <> s /\ ~ In x L /\ ~ In s L /\ t = lmaker_ty m /\ incl (mvars m) V /\ scoped (x :: L) (x :: V) body
  | LDecl x _ e body => ~ In x L /\ incl (lvars e) V /\ scoped (x :: L) (x :: V) body
  | LSized x _ _ body => ~ In x L /\ scoped (x :: L) (x :: V) body
  end.

(** No statement that can leave elements unwritten: no resize, and no subset of
    a variable assigned to a subset. *)
Fixpoint writes_all (s : lstmt) : Prop :=
  match s with
  | LSub _ _ _ same _ | LSub2 _ _ _ _ same _ => same = false
  | LResize _ _ => False
  | LSeq a b | LTry a b | LIf _ a b => writes_all a /\ writes_all b
  | LWhile _ a => writes_all a
  | LScal _ body | LFor _ _ body => forall v, writes_all (body v)
  | LLet _ _ _ _ body | LDecl _ _ _ body | LSized _ _ _ body => writes_all body
  | _ => True
  end.

(** No statement gives a vector of R, which wraps an R object, another length
    or another value as a whole, and no other vector has its name. *)
Fixpoint keeps (R : list nat) (s : lstmt) : Prop :=
  match s with
  | LAssign x _ | LResize x _ => ~ In x R
  | LSub _ x _ same _ | LSub2 _ x _ _ same _ => same = true -> ~ In x R
  | LSeq a b | LTry a b | LIf _ a b => keeps R a /\ keeps R b
  | LWhile _ a => keeps R a
  | LScal _ body => forall v, keeps R (body v)
  | LFor col _ body => ~ In col R /\ forall v, keeps R (body v)
  | LLet x s _ _ body => ~ In x R /\ ~ In s R /\ keeps R body
  | LDecl x _ _ body | LSized x _ _ body => ~ In x R /\ keeps R body
  | _ => True
  end.

(** How a program over the vectors L may end: normally or by an exception of
    the library with the same vectors; within the bound on the rounds of its
    loops it may not have ended yet, with more vectors; it may run out of
    memory; [allowed]: or be undefined in one of the allowed ways. *)
Definition ends_well (ini : mode) (L : list nat) (r : outcome bool) (w' : world) : Prop :=
  match r with
  | Done true | Thrown (Ass _) => sound_at ini L w'
  | Done false => exists L', incl L L' /\ sound_at ini L' w'
  | Thrown BadAlloc => True
  | Undef u => allowed ini u
  end.
