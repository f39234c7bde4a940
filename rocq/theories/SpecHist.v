(** Histories of storage operations: the vocabulary of C05. *)
From Coq Require Import ZArith List String Bool.
From Verif Require Import Base Num StoreModel VecModel Spec.
Import ListNotations.
Open Scope Z_scope.

(** Object o owns nothing: it was never constructed or has been destroyed. *)
Definition unborn (w : world) (o : oid) : Prop := forall a, ~ owns (ob w o) a.

(** The operations a program performs on owning storage objects. *)
Inductive sop :=
| SNew (o : oid) (t : ety) (n : Z)        (* construct with a size *)
| SNewInt (o : oid) (t : ety) (n : Z)     (* construct with an int *)
| SDefault (o : oid) (t : ety)            (* construct without arguments *)
| SCopy (o src : oid)                     (* copy constructor *)
| SMove (o src : oid)                     (* move constructor *)
| SResize (o : oid) (n : Z)
| SFill (o : oid) (v : val)
| SPush (o : oid) (v : val)
| SSet (o : oid) (i : Z) (v : val)        (* o[i] = v *)
| SGet (o : oid) (i : Z)                  (* read o[i] *)
| SAssign (o src : oid)                   (* o = src *)
| SSwap (o src : oid)                     (* moveit: exchange with a scratch buffer *)
| SDestroy (o : oid).

Definition run_op (op : sop) : M world unit :=
  match op with
  | SNew o t n => ctor_size o t n
  | SNewInt o t n => ctor_int o t n
  | SDefault o t => ctor_default o t
  | SCopy o src => ctor_copy o src
  | SMove o src => ctor_move o src
  | SResize o n => resize o n
  | SFill o v => fill o v
  | SPush o v => push_back o v
  | SSet o i v => set_at o i v
  | SGet o i => bind (get_at o i) (fun _ => ret tt)
  | SAssign o src => assign_store o src
  | SSwap o src => moveit o src
  | SDestroy o => destroy o
  end.

(** What the caller has to respect.  Each condition that is not a matter of
    course is needed; see the refuted theorems. *)
Definition op_pre (w : world) (op : sop) : Prop :=
  match op with
  | SNew o _ n | SNewInt o _ n => unborn w o /\ 0 <= n <= 2 ^ 60
  | SDefault o _ => unborn w o
  | SCopy o src => unborn w o /\ o <> src /\ sz (ob w src) <= cap (ob w src)
  | SMove o src => unborn w o /\ o <> src
  | SResize o n => 0 <= n <= 2 ^ 60 /\ (n <= sz (ob w o) \/ cap (ob w o) < n)
  | SFill o v => exists v', cast (sty (ob w o)) v = Done v'
  | SPush o _ => sz (ob w o) <= cap (ob w o) /\
      (sz (ob w o) = cap (ob w o) -> sz (ob w o) <= 933500000)
  | SSet _ i _ | SGet _ i => 0 <= i
  | SAssign o src => sz (ob w o) < sz (ob w src) -> sz (ob w src) <= 1867000000
  | SSwap o src => o <> src /\ alloc (ob w src) = true /\
      sz (ob w src) < 2 ^ 31 /\ cap (ob w src) < 2 ^ 31
  | SDestroy _ => True
  end.

(** Constructors leave no trace when the allocator fails. *)
Definition is_ctor (op : sop) : bool :=
  match op with
  | SNew _ _ _ | SNewInt _ _ _ | SDefault _ _ | SCopy _ _ | SMove _ _ => true
  | _ => false
  end.

(** An exception of the library is caught by the program, which then goes on.
    After a failed allocation it goes on when a constructor failed and stops
    otherwise. *)
Definition continues (op : sop) (e : exn) : bool :=
  match e with Ass _ => true | BadAlloc => is_ctor op end.

Fixpoint exec (ops : list sop) (w : world) : outcome unit * world :=
  match ops with
  | [] => (Done tt, w)
  | op :: r =>
      match run_op op w with
      | (Done _, w') => exec r w'
      | (Thrown e, w') => if continues op e then exec r w' else (Thrown e, w')
      | (Undef u, w') => (Undef u, w')
      end
  end.

(** Every operation respects its precondition in the state it is run in. *)
Fixpoint allowed (ops : list sop) (w : world) : Prop :=
  match ops with
  | [] => True
  | op :: r =>
      op_pre w op /\
      match run_op op w with
      | (Done _, w') => allowed r w'
      | (Thrown e, w') => if continues op e then allowed r w' else True
      | (Undef _, _) => True
      end
  end.
