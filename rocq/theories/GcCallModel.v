(** Functions called from R, and R programs that call them, under R's garbage
    collector. *)
From Coq Require Import ZArith List String Bool.
From Verif Require Import Base Num StoreModel VecModel SubsetModel AllocModel ProgModel LangModel OutModel ForeignModel CallModel JumpModel RgcModel.
Import ListNotations.
Open Scope Z_scope.

(** As in JumpModel, with the protection stack. (Destructors:
    Core/BaseStore.hpp 236-246; loops: user code.) *)
Definition jscope_g (x : nat) (m : M rworld flow) : M rworld flow := fun s =>
  match m s with
  | (Done More, s1) => (Done More, s1)
  | (Done f, s1) => (_ <- inw (vec_end x) ;; ret f) s1
  | (Thrown (Ass e), s1) => (_ <- inw (vec_end x) ;; throw (Ass e)) s1
  | r => r
  end.
Definition jthen_g (a b : M rworld flow) : M rworld flow :=
  f <- a ;; match f with Next => b | _ => ret f end.
Definition jround_g (f : flow) (next : M rworld flow) : M rworld flow :=
  match f with
  | Next | Again => next
  | Broke => ret Next
  | Gave o => ret (Gave o)
  | More => ret More
  end.
Fixpoint jrounds_g (k : nat) (cond : M rworld bool) (body : M rworld flow) : M rworld flow :=
  match k with
  | O => ret More
  | S k' => b <- cond ;; if b then f <- body ;; jround_g f (jrounds_g k' cond body) else ret Next
  end.
Fixpoint jeach_g (vs : list val) (body : val -> M rworld flow) : M rworld flow :=
  match vs with [] => ret Next | v :: r => f <- body v ;; jround_g f (jeach_g r body) end.

(** JumpModel.jrun, the conversion with the collector. (SEXPConversions.hpp
    38-129.) *)
Fixpoint jrun_g (G : collector) (N : nat) (lm : libm) (s : jstmt) : M rworld flow :=
  match s with
  | JDo p => r <- inw (lrun N lm p) ;; ret (if r then Next else More)
  | JBreak => ret Broke
  | JContinue => ret Again
  | JRet t e => s <- get ;; e' <- lift (lbuild lm (rw s) e) ;; o <- cpp2R_g G lm t e' ;; ret (Gave o)
  | JSeq a b => jthen_g (jrun_g G N lm a) (jrun_g G N lm b)
  | JIf c a b => v <- inw (lcondition lm c) ;; if truth v then jrun_g G N lm a else jrun_g G N lm b
  | JWhile c a => jrounds_g N (v <- inw (lcondition lm c) ;; ret (truth v)) (jrun_g G N lm a)
  | JScal e body => v <- inw (lcondition lm e) ;; jrun_g G N lm (body v)
  | JFor col m body =>
      inw (lmake lm col m) ;;
      jscope_g col (vs <- inw (iterate_vec col) ;; jeach_g vs (fun v => jrun_g G N lm (body v)))
  | JLet x s t m body =>
      inw (lmake lm s m) ;; inw (vec_steal x s t) ;; inw (vec_end s) ;; jscope_g x (jrun_g G N lm body)
  | JDecl x t e body =>
      s <- get ;; e' <- lift (lbuild lm (rw s) e) ;; inw (vec_of_expr lm x t e') ;; jscope_g x (jrun_g G N lm body)
  | JTry a b => fun s =>
      match jrun_g G N lm a s with
      | (Thrown (Ass _), s1) => jrun_g G N lm b s1
      | r => r
      end
  end.
Fixpoint jcall_g (G : collector) (N : nat) (lm : libm) (ps : list param) (b : jstmt) : M rworld flow :=
  match ps with
  | [] => jrun_g G N lm b
  | p :: ps' =>
      inw (vec_default (p_name p) (p_type p)) ;;
      jscope_g (p_name p) (inw (assign_R (p_name p) (p_obj p)) ;; jcall_g G N lm ps' b)
  end.

(** A program in R: calls of functions of the library, vectors made by R
    itself, decisions that depend on the elements of an object, and objects R
    does not need any more ([keep]: the others; the last n entries of the
    protection stack are given up as well, as R does after an error).
    (Auxiliary: not code of /repo; the functions are those of README.md and
    the examples.) *)
Inductive rprog :=
| GEnd
| GCall (ps : list param) (b : jstmt) (k : option robj -> rprog)        (* r <- f(...), None: it threw an exception *)
| GMake (t : ety) (vs : list val) (d : option (Z * Z)) (k : robj -> rprog)
| GLook (o : robj) (k : list (option val) -> rprog)
| GForget (keep : nat -> bool) (n : nat) (k : rprog).

Definition r_cells (w : world) (o : robj) : list (option val) :=
  match hblk (hp w) (r_mem o) with Live _ cs => cs | _ => [] end.
(** R's c(...) and matrix(...). (Auxiliary.) *)
Definition r_make (t : ety) (vs : list val) (d : option (Z * Z)) : M world robj := fun w =>
  let h := hp w in
  let a := hnext h in
  if Z.of_nat (List.length vs) <=? hlim h then
    (Done (mkR t a d),
     set_hp w (mkHeap (S a) (fun a' => if Nat.eqb a' a then Live OwnR (map Some vs) else hblk h a') (hlim h)))
  else (Thrown BadAlloc, w).
Definition r_make_g (G : collector) (t : ety) (vs : list val) (d : option (Z * Z)) : M rworld robj :=
  collect G ;; inw (r_make t vs d).

(** Running it if R never frees anything, and with a collector, where R reaches
    what it got until it forgets it. [inr]: a function that did not end with
    return, no memory, undefined behaviour. (Auxiliary, as run_session.) *)
Fixpoint run_r (N : nat) (lm : libm) (p : rprog) (w : world) : (unit + outcome flow) * world :=
  match p with
  | GEnd => (inl tt, w)
  | GCall ps b k =>
      match jcall N lm ps b w with
      | (Done (Gave o), w') => run_r N lm (k (Some o)) w'
      | (Thrown (Ass _), w') => run_r N lm (k None) w'
      | (r, w') => (inr r, w')
      end
  | GMake t vs d k =>
      match r_make t vs d w with
      | (Done o, w') => run_r N lm (k o) w'
      | (Thrown e, w') => (inr (Thrown e), w')
      | (Undef u, w') => (inr (Undef u), w')
      end
  | GLook o k => run_r N lm (k (r_cells w o)) w
  | GForget _ _ k => run_r N lm k w
  end.
Definition gained (s : rworld) (o : robj) : rworld :=
  mkRW (rw s) (pstk s) (fun a => Nat.eqb a (r_mem o) || root s a).
Fixpoint run_r_g (G : collector) (N : nat) (lm : libm) (p : rprog) (s : rworld) : (unit + outcome flow) * rworld :=
  match p with
  | GEnd => (inl tt, s)
  | GCall ps b k =>
      match jcall_g G N lm ps b s with
      | (Done (Gave o), s') => run_r_g G N lm (k (Some o)) (gained s' o)
      | (Thrown (Ass _), s') => run_r_g G N lm (k None) s'
      | (r, s') => (inr r, s')
      end
  | GMake t vs d k =>
      match r_make_g G t vs d s with
      | (Done o, s') => run_r_g G N lm (k o) (gained s' o)
      | (Thrown e, s') => (inr (Thrown e), s')
      | (Undef u, s') => (inr (Undef u), s')
      end
  | GLook o k => run_r_g G N lm (k (r_cells (rw s) o)) s
  | GForget keep n k => run_r_g G N lm k (mkRW (rw s) (skipn n (pstk s)) (fun a => keep a && root s a))
  end.
