(** Total correctness of programs: rules for reasoning with invariants and
    variants, and Euclid's algorithm. *)
From Coq Require Import String ZArith List.
From Verif Require Import Base Num StoreModel VecModel SubsetModel ProgModel LangModel Spec SpecExpr SpecProg SpecCons SpecStmt SpecMat.
Import ListNotations.
Open Scope Z_scope.

Section Logic.
Variables (lm : libm) (ty : nat -> ety) (lim : Z).

(** What is to be shown: started in memory that holds a state with P, the
    program ends after finitely many rounds (the same end for every larger
    bound), normally in a state with Q or by an exception e in a state with
    X e; nothing leaks. *)
Definition achieves (H V : list nat) (P : mstate -> Prop) (p : lstmt) (Q : mstate -> Prop) (X : exn -> mstate -> Prop) : Prop :=
  forall w s, lalive w lim ty H V s -> P s ->
  exists N0 o w' s', (forall N, (N0 <= N)%nat -> lrun N lm p w = (o, w')) /\ lalive w' lim ty H V s' /\ (no_leak w -> no_leak w') /\
    match o with Done b => b = true /\ Q s' | Thrown e => X e s' | Undef _ => False end.

(** Statements that are one call of the library. *)
Definition simple (p : lstmt) : bool :=
  match p with
  | LSkip | LAssign _ _ | LScalar _ _ | LSub _ _ _ _ _ | LSubScalar _ _ _ | LSub2 _ _ _ _ _ _ | LSub2Scalar _ _ _ _
  | LElem _ _ _ | LAtSet _ _ _ | LAt2Set _ _ _ _ | LFill _ _ => true
  | _ => false
  end.
Definition post (Q : mstate -> Prop) (X : exn -> mstate -> Prop) (r : res) (s : mstate) : Prop :=
  match r with Ended => Q s | Raised e => X e s | Running => False end.

(** An operand that is built and read: what is claimed of its value, or of the
    exception. *)
Definition claimed {A} (o : outcome A) (R : A -> Prop) (X : exn -> Prop) : Prop :=
  match o with Done v => R v | Thrown (Ass m) => X (Ass m) | _ => False end.

(** The rules. *)
Inductive proves : list nat -> list nat -> (mstate -> Prop) -> lstmt -> (mstate -> Prop) -> (exn -> mstate -> Prop) -> Prop :=
(* one call: by its meaning on lists *)
| Pv_call H V (P : mstate -> Prop) p Q X : simple p = true ->
    (forall s, P s -> exists r s', lsem 0 lm ty lim H V p s r s' /\ post Q X r s') -> proves H V P p Q X
| Pv_seq H V (P : mstate -> Prop) a (R : mstate -> Prop) b Q X : proves H V P a R X -> proves H V R b Q X -> proves H V P (LSeq a b) Q X
| Pv_if H V (P A B : mstate -> Prop) c a b Q (X : exn -> mstate -> Prop) :
    (forall s, P s -> exists o, lvalue lm V s c o /\ claimed o (fun v => if truth v then A s else B s) (fun e => X e s)) ->
    proves H V A a Q X -> proves H V B b Q X -> proves H V P (LIf c a b) Q X
(* I n: the invariant with n as the variant; R n: the condition was true *)
| Pv_while H V (I R : nat -> mstate -> Prop) c a (Q : mstate -> Prop) (X : exn -> mstate -> Prop) :
    (forall n s, I n s -> exists o, lvalue lm V s c o /\ claimed o (fun v => if truth v then R n s else Q s) (fun e => X e s)) ->
    (forall n, proves H V (R n) a (fun s => exists k, (k < n)%nat /\ I k s) X) ->
    proves H V (fun s => exists n, I n s) (LWhile c a) Q X
| Pv_scal H V (P : mstate -> Prop) e body (R : val -> mstate -> Prop) Q (X : exn -> mstate -> Prop) :
    (forall s, P s -> exists o, lvalue lm V s e o /\ claimed o (fun v => R v s) (fun e => X e s)) ->
    (forall v, proves H V (R v) (body v) Q X) -> proves H V P (LScal e body) Q X
(* I l: the invariant when the elements l are still to come *)
| Pv_for H V (P : mstate -> Prop) (I : list val -> mstate -> Prop) col m body X : ~ In col (H ++ V) ->
    (forall s, P s -> exists t l d, lcreates lm V lim (fst s) (snd s) m t l d /\ I l s) ->
    (forall v l, proves (col :: H) V (I (v :: l)) (body v) (I l) X) -> proves H V P (LFor col m body) (I []) X
| Pv_let H V (P : mstate -> Prop) x t et m body (R Q : mstate -> Prop) X : ~ In x (H ++ V) -> ~ In t (H ++ V) -> x <> t -> ty x = et ->
    (forall s, P s -> exists l d, lcreates lm V lim (fst s) (snd s) m et l d /\ R (setl (fst s) x l, setd (snd s) x d)) ->
    proves H (x :: V) R body Q X -> proves H V P (LLet x t et m body) Q X
| Pv_decl H V (P : mstate -> Prop) x t e body (R Q : mstate -> Prop) (X : exn -> mstate -> Prop) : ~ In x (H ++ V) -> ty x = t ->
    (forall s, P s -> exists o, lmeans lm V (fst s) (snd s) e o /\ claimed o (fun e' => wf_expr (fst s) e' /\
      1 <= xsize (fst s) e' <= max_len /\ 2 * xsize (fst s) e' <= lim /\
      claimed (value lm (fst s) t e') (fun l => R (setl (fst s) x l, setd (snd s) x (xdims (snd s) e'))) (fun e => X e s)) (fun e => X e s)) ->
    proves H (x :: V) R body Q X -> proves H V P (LDecl x t e body) Q X
| Pv_sized H V (P : mstate -> Prop) x t n body (R Q : mstate -> Prop) (X : exn -> mstate -> Prop) : ~ In x (H ++ V) -> ty x = t ->
    0 <= n < 2 ^ 64 -> 2 * n <= lim -> n <= max_len ->
    (forall s, P s -> if n =? 0 then X msg_zero s else R (setl (fst s) x (repeat (zero t) (Z.to_nat n)), setd (snd s) x None)) ->
    proves H (x :: V) R body Q X -> proves H V P (LSized x t n body) Q X
| Pv_try H V (P : mstate -> Prop) a b Q (X Y : exn -> mstate -> Prop) : proves H V P a Q X -> (forall m, proves H V (X (Ass m)) b Q Y) ->
    (forall s, X BadAlloc s -> Y BadAlloc s) -> proves H V P (LTry a b) Q Y
(* state by state *)
| Pv_each H V (P : mstate -> Prop) p Q X : (forall s0, P s0 -> proves H V (fun s => s = s0) p Q X) -> proves H V P p Q X
| Pv_conseq H V (P P' : mstate -> Prop) p (Q Q' : mstate -> Prop) (X X' : exn -> mstate -> Prop) : (forall s, P' s -> P s) ->
    (forall s, Q s -> Q' s) -> (forall e s, X e s -> X' e s) -> proves H V P p Q X -> proves H V P' p Q' X'.
End Logic.

(** F says nothing about the vectors of S. *)
Definition apart_from (S : list nat) (F : mstate -> Prop) : Prop :=
  forall s t, (forall x, ~ In x S -> fst t x = fst s x /\ snd t x = snd s x) -> F s -> F t.

(** F says nothing but about the vectors of V. *)
Definition about (V : list nat) (F : mstate -> Prop) : Prop :=
  forall s t, (forall x, In x V -> fst t x = fst s x /\ snd t x = snd s x) -> F s -> F t.

(** Euclid's algorithm for int vectors a, b and a third one, t:
      while (b > 0) { if (a >= b) a = a - b; else { t = a; a = b; b = t; } } *)
Definition euclid (a b t : nat) : lstmt :=
  LWhile (LBin OGt (LVar b) (LLit (VI 0)))
    (LIf (LBin OGe (LVar a) (LVar b)) (LAssign a (LBin OMinus (LVar a) (LVar b)))
      (LSeq (LAssign t (LVar a)) (LSeq (LAssign a (LVar b)) (LAssign b (LVar t))))).

(** The sum of the numbers from 1 to n in an int vector s:
      s = 0; for (auto i : colon(1, n)) { s = s + i; } *)
Definition gauss (s col : nat) (n : Z) : lstmt :=
  LSeq (LScalar s (VI 0)) (LFor col (LMColon (LS (VI 1)) (LS (VI n))) (fun v => LAssign s (LBin OPlus (LVar s) (LLit v)))).

(** Division with remainder:
      q = 0; while (a >= b) { a = a - b; q = q + 1; } *)
Definition divide (a b q : nat) : lstmt :=
  LSeq (LScalar q (VI 0)) (LWhile (LBin OGe (LVar a) (LVar b))
    (LSeq (LAssign a (LBin OMinus (LVar a) (LVar b))) (LAssign q (LBin OPlus (LVar q) (LLit (VI 1)))))).

(** A write with a fallback: try { at(x, i) = v; } catch (...) { x = u; } *)
Definition checked (x : nat) (i v u : Z) : lstmt := LTry (LAtSet x (PZ i) (VI v)) (LScalar x (VI u)).
