(** Rewriting programs: what a statement may read and what it may change, as
    far as its text tells. *)
From Coq Require Import ZArith List.
From Verif Require Import Base Num VecModel ProgModel LangModel SpecProg SpecCons SpecLang SpecStmt SpecMat.
Import ListNotations.

(** Statement p mentions no vectors but those of P and changes none but those
    of Q.  A vector that is declared counts as changed. *)
Fixpoint touches (P Q : list nat) (p : lstmt) : Prop :=
  match p with
  | LSkip => True
  | LAssign x e => In x Q /\ incl (lvars e) P
  | LScalar x _ | LElem x _ _ | LAtSet x _ _ | LAt2Set x _ _ _ | LFill x _ | LResize x _ => In x Q
  | LSub _ x i _ e => In x Q /\ incl (lvars_i i) P /\ incl (lvars e) P
  | LSubScalar x i _ => In x Q /\ incl (lvars_i i) P
  | LSub2 _ x i j _ e => In x Q /\ incl (lvars_i i) P /\ incl (lvars_i j) P /\ incl (lvars e) P
  | LSub2Scalar x i j _ => In x Q /\ incl (lvars_i i) P /\ incl (lvars_i j) P
  | LSeq a b | LTry a b => touches P Q a /\ touches P Q b
  | LIf c a b => incl (lvars c) P /\ touches P Q a /\ touches P Q b
  | LWhile c a => incl (lvars c) P /\ touches P Q a
  | LScal e body => incl (lvars e) P /\ forall v, touches P Q (body v)
  | LFor _ m body => incl (mvars m) P /\ forall v, touches P Q (body v)
  | LLet x _ _ m body => In x Q /\ incl (mvars m) P /\ touches P Q body
  | LDecl x _ e body => In x Q /\ incl (lvars e) P /\ touches P Q body
  | LSized x _ _ body => In x Q /\ touches P Q body
  end.

(** Neither list has a vector of the other. *)
Definition apart (A B : list nat) : Prop := forall x, In x A -> ~ In x B.

(** The same elements and the same shapes for the vectors of P. *)
Definition alike (P : list nat) (s t : mstate) : Prop :=
  forall x, In x P -> fst t x = fst s x /\ snd t x = snd s x.

(** A statement with what it mentions and what it changes. *)
Record part := mkPart { code : lstmt; names : list nat; sets : list nat }.
Definition part_ok (a : part) : Prop := incl (sets a) (names a) /\ touches (names a) (sets a) (code a).
(** Neither changes what the other one mentions. *)
Definition independent (a b : part) : Prop := apart (sets a) (names b) /\ apart (sets b) (names a).
Fixpoint in_order (l : list part) : lstmt :=
  match l with [] => LSkip | a :: l' => LSeq (code a) (in_order l') end.

(** Single steps of rewriting; a step may be taken in both directions. *)
Inductive step : lstmt -> lstmt -> Prop :=
| St_assoc a b c : step (LSeq a (LSeq b c)) (LSeq (LSeq a b) c)
| St_skip_l a : step (LSeq LSkip a) a
| St_skip_r a : step (LSeq a LSkip) a
| St_if c a b d : step (LSeq (LIf c a b) d) (LIf c (LSeq a d) (LSeq b d))
| St_scal e f d : step (LSeq (LScal e f) d) (LScal e (fun v => LSeq (f v) d))
| St_try a b c : step (LTry (LTry a b) c) (LTry a (LTry b c))
| St_try_skip a : step (LTry LSkip a) LSkip
| St_unroll c a : step (LWhile c a) (LIf c (LSeq a (LWhile c a)) LSkip)
| St_while_seq c a d : step (LSeq (LWhile c a) d) (LIf c (LSeq a (LSeq (LWhile c a) d)) d).

(** Any number of steps, anywhere in a program; k bounds how many rounds more
    the rewritten program may need. *)
Inductive rewrites : nat -> lstmt -> lstmt -> Prop :=
| Rw_refl p : rewrites 0 p p
| Rw_step p q : step p q -> rewrites 0 p q
| Rw_back p q : step p q -> rewrites 1 q p
| Rw_trans k l p q r : rewrites k p q -> rewrites l q r -> rewrites (k + l) p r
| Rw_weak k l p q : (k <= l)%nat -> rewrites k p q -> rewrites l p q
| Rw_seq k a b a' b' : rewrites k a a' -> rewrites k b b' -> rewrites k (LSeq a b) (LSeq a' b')
| Rw_if k c a b a' b' : rewrites k a a' -> rewrites k b b' -> rewrites k (LIf c a b) (LIf c a' b')
| Rw_while k c a a' : rewrites k a a' -> rewrites k (LWhile c a) (LWhile c a')
| Rw_scal k e f f' : (forall v, rewrites k (f v) (f' v)) -> rewrites k (LScal e f) (LScal e f')
| Rw_for k col m f f' : (forall v, rewrites k (f v) (f' v)) -> rewrites k (LFor col m f) (LFor col m f')
| Rw_let k x s t m a a' : rewrites k a a' -> rewrites k (LLet x s t m a) (LLet x s t m a')
| Rw_decl k x t e a a' : rewrites k a a' -> rewrites k (LDecl x t e a) (LDecl x t e a')
| Rw_sized k x t n a a' : rewrites k a a' -> rewrites k (LSized x t n a) (LSized x t n a')
| Rw_try k a b a' b' : rewrites k a a' -> rewrites k b b' -> rewrites k (LTry a b) (LTry a' b').
