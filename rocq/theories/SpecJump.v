(** Functions with return, break and continue: which ones the compiler accepts,
    which ones always return, and what they give back, on lists with shapes. *)
From Coq Require Import ZArith List String Bool.
From Verif Require Import Base Num StoreModel VecModel SubsetModel AllocModel ProgModel LangModel OutModel ForeignModel CallModel JumpModel
  Spec SpecExpr SpecHist SpecProg SpecSub SpecAlloc SpecCons SpecStmt SpecMat SpecOut SpecForeign SpecSafe SpecLang SpecCall SpecSession.
Import ListNotations.
Open Scope Z_scope.
Local Notation length := List.length (only parsing).

(** As [scoped]; [loop]: the statement stands in a loop of the function, only
    there break and continue are allowed. *)
Fixpoint scoped_j (loop : bool) (L V : list nat) (s : jstmt) : Prop :=
  match s with
  | JDo p => scoped L V p
  | JBreak | JContinue => loop = true
  | JRet _ e => incl (lvars e) V /\ no_subset e
  | JSeq a b | JTry a b => scoped_j loop L V a /\ scoped_j loop L V b
  | JIf c a b => incl (lvars c) V /\ scoped_j loop L V a /\ scoped_j loop L V b
  | JWhile c a => incl (lvars c) V /\ scoped_j true L V a
  | JScal e body => incl (lvars e) V /\ forall v, scoped_j loop L V (body v)
  | JFor col m body => ~ In col L /\ incl (mvars m) V /\ forall v, scoped_j true (col :: L) V (body v)
  | JLet x s t m body => x <> s /\ ~ In x L /\ ~ In s L /\ t = lmaker_ty m /\ incl (mvars m) V /\ scoped_j loop (x :: L) (x :: V) body
  | JDecl x _ e body => ~ In x L /\ incl (lvars e) V /\ scoped_j loop (x :: L) (x :: V) body
  end.

(** See [writes_all]. *)
Fixpoint writes_all_j (s : jstmt) : Prop :=
  match s with
  | JDo p => writes_all p
  | JBreak | JContinue | JRet _ _ => True
  | JSeq a b | JTry a b | JIf _ a b => writes_all_j a /\ writes_all_j b
  | JWhile _ a => writes_all_j a
  | JScal _ body | JFor _ _ body => forall v, writes_all_j (body v)
  | JLet _ _ _ _ body | JDecl _ _ _ body => writes_all_j body
  end.

(** See [keeps]: the vectors of R keep the memory they have. *)
Fixpoint keeps_j (R : list nat) (s : jstmt) : Prop :=
  match s with
  | JDo p => keeps R p
  | JBreak | JContinue | JRet _ _ => True
  | JSeq a b | JTry a b | JIf _ a b => keeps_j R a /\ keeps_j R b
  | JWhile _ a => keeps_j R a
  | JScal _ body => forall v, keeps_j R (body v)
  | JFor col _ body => ~ In col R /\ forall v, keeps_j R (body v)
  | JLet x s _ _ body => ~ In x R /\ ~ In s R /\ keeps_j R body
  | JDecl x _ _ body => ~ In x R /\ keeps_j R body
  end.

(** Every way through the statement ends with return (or an exception): what
    compilers check in order to warn about a function without return. *)
Fixpoint returns (s : jstmt) : Prop :=
  match s with
  | JRet _ _ => True
  | JDo _ | JBreak | JContinue | JWhile _ _ | JFor _ _ _ => False
  | JSeq a b => returns a \/ returns b
  | JTry a b | JIf _ a b => returns a /\ returns b
  | JScal _ body => forall v, returns (body v)
  | JLet _ _ _ _ body | JDecl _ _ _ body => returns body
  end.

(** How a statement ends. *)
Inductive jend := JNext | JBroke | JAgain | JGave (t : ety) (us : list val) (d : dims) | JFailed (e : exn) | JMore.

Definition of_fres (r : fres) : jend :=
  match r with Given t us d => JGave t us d | Failed e => JFailed e | Unfinished => JMore end.
Definition of_end (r : res) : jend := match r with Ended => JNext | Running => JMore | Raised e => JFailed e end.

(** The elements of o go to k; an exception of the library ends the statement
    in the state it has. *)
Definition jgiven {A} (o : outcome A) (k : A -> mstate -> jend -> mstate -> Prop) (s : mstate) (r : jend) (s' : mstate) : Prop :=
  match o with Done a => k a s r s' | Thrown (Ass m) => r = JFailed (Ass m) /\ s' = s | _ => False end.

(** A round of a loop ended with r1 in s1; k: the rounds that follow. *)
Definition jafter (r1 : jend) (s1 : mstate) (k : mstate -> jend -> mstate -> Prop) (r : jend) (s' : mstate) : Prop :=
  match r1 with
  | JNext | JAgain => k s1 r s'
  | JBroke => r = JNext /\ s' = s1
  | _ => r = r1 /\ s' = s1
  end.
Fixpoint jwhile (k : nat) (cond : mstate -> outcome bool -> Prop) (body : mstate -> jend -> mstate -> Prop)
    (s : mstate) (r : jend) (s' : mstate) : Prop :=
  match k with
  | O => r = JMore /\ s' = s
  | S k' => exists b, cond s b /\
      match b with
      | Done true => exists r1 s1, body s r1 s1 /\ jafter r1 s1 (jwhile k' cond body) r s'
      | Done false => r = JNext /\ s' = s
      | Thrown e => r = JFailed e /\ s' = s
      | Undef _ => False
      end
  end.
Fixpoint jfor (vs : list val) (body : val -> mstate -> jend -> mstate -> Prop) (s : mstate) (r : jend) (s' : mstate) : Prop :=
  match vs with
  | [] => r = JNext /\ s' = s
  | v :: t => exists r1 s1, body v s r1 s1 /\ jafter r1 s1 (jfor t body) r s'
  end.

(** With at most N rounds of every while loop statement p leads from s to s'
    and ends as r says; V, H: as for [lsem]. *)
Fixpoint jsem (N : nat) (lm : libm) (ty : nat -> ety) (lim : Z) (H V : list nat) (p : jstmt)
    (s : mstate) (r : jend) (s' : mstate) : Prop :=
  match p with
  | JDo p => exists r1, lsem N lm ty lim H V p s r1 s' /\ r = of_end r1
  | JBreak => r = JBroke /\ s' = s
  | JContinue => r = JAgain /\ s' = s
  | JRet t e => exists a, lmeans lm V (fst s) (snd s) e a /\
      jgiven a (fun e' s r s' => s' = s /\ exists f, back lm lim s t e' f /\ r = of_fres f) s r s'
  | JSeq a b => exists r1 s1, jsem N lm ty lim H V a s r1 s1 /\
      match r1 with JNext => jsem N lm ty lim H V b s1 r s' | _ => r = r1 /\ s' = s1 end
  | JIf c a b => exists o, lvalue lm V s c o /\
      jgiven o (fun v => if truth v then jsem N lm ty lim H V a else jsem N lm ty lim H V b) s r s'
  | JWhile c a => jwhile N (fun s o => exists v, lvalue lm V s c v /\ (forall e, v = Thrown e -> e <> BadAlloc) /\
      o = (x <-o v ;; Done (truth x))) (jsem N lm ty lim H V a) s r s'
  | JScal e body => exists o, lvalue lm V s e o /\ jgiven o (fun v => jsem N lm ty lim H V (body v)) s r s'
  | JFor col m body => exists t l d, ~ In col (H ++ V) /\ lcreates lm V lim (fst s) (snd s) m t l d /\
      jfor l (fun v => jsem N lm ty lim (col :: H) V (body v)) s r s'
  | JLet x t ety m body => exists l d, ~ In x (H ++ V) /\ ~ In t (H ++ V) /\ x <> t /\ ty x = ety /\
      lcreates lm V lim (fst s) (snd s) m ety l d /\
      jsem N lm ty lim H (x :: V) body (setl (fst s) x l, setd (snd s) x d) r s'
  | JDecl x t e body => ~ In x (H ++ V) /\ ty x = t /\ exists a, lmeans lm V (fst s) (snd s) e a /\
      jgiven a (fun e' s r s' => wf_expr (fst s) e' /\ 1 <= xsize (fst s) e' <= max_len /\ 2 * xsize (fst s) e' <= lim /\
        jgiven (value lm (fst s) t e') (fun us s =>
          jsem N lm ty lim H (x :: V) body (setl (fst s) x us, setd (snd s) x (xdims (snd s) e'))) s r s') s r s'
  | JTry a b => exists r1 s1, jsem N lm ty lim H V a s r1 s1 /\
      match r1 with
      | JFailed (Ass _) => jsem N lm ty lim H V b s1 r s'
      | _ => r = r1 /\ s' = s1
      end
  end.

(** How a call ended; a result is a new object. *)
Definition jends_with (w w' : world) (out : outcome flow) (r : jend) : Prop :=
  match r with
  | JGave t us d => exists o, out = Done (Gave o) /\ r_ty o = t /\ r_dim o = d /\
      hblk (hp w') (r_mem o) = Live OwnR (map Some us) /\ hblk (hp w) (r_mem o) = Unused
  | JFailed e => out = Thrown e
  | JMore => out = Done More
  | JNext => out = Done Next
  | JBroke => out = Done Broke
  | JAgain => out = Done Again
  end.
