(** When a program needs no memory: room in a storage object, what stays the
    same in the heap, and the programs in question.  Independent of how the
    model executes programs. *)
From Coq Require Import ZArith List String Bool.
From Verif Require Import Base Num StoreModel VecModel ProgModel LangModel OutModel ForeignModel CallModel JumpModel.
Import ListNotations.
Open Scope Z_scope.

(** A storage object that holds memory for n elements and uses no more. *)
Definition room (n : Z) (s : store) : Prop := alloc s = true /\ n <= cap s < 2 ^ 31 /\ 0 <= sz s <= n.

(** The vectors of V have room for n elements, in use and in reserve; those of R
    have at most n elements. *)
Record steady (V R : nat -> Prop) (n : Z) (w : world) : Prop := {
  st_some : 1 <= n;
  st_kind : forall x, V x -> kd (ob w (OD x)) = KBuffer;
  st_use : forall x, V x -> room n (ob w (OD x));
  st_reserve : forall x, V x -> room n (ob w (OT x));
  st_read : forall x, R x -> sz (ob w (OD x)) <= n }.

(** The same blocks: nothing was asked for, nothing was given back, no block
    changed its size. *)
Definition same_blocks (h h' : heap) : Prop :=
  hnext h' = hnext h /\
  forall a, match hblk h a, hblk h' a with
            | Live o cs, Live o' cs' => o = o' /\ List.length cs = List.length cs'
            | Unused, Unused | Freed, Freed => True
            | _, _ => False
            end.

(** Expressions without subset(): the index store of a subset is memory. *)
Fixpoint plain_e (V R : nat -> Prop) (e : lexpr) : Prop :=
  match e with
  | LVar x => V x \/ R x
  | LLit _ | LAt _ _ | LAt2 _ _ _ => True
  | LBin _ l r => plain_e V R l /\ plain_e V R r
  | LUn _ e | LAtOf e _ | LAt2Of e _ _ | LLen e => plain_e V R e
  | LSel _ _ | LSel2 _ _ _ => False
  end.

(** Programs that make no vectors and assign to those of V only. *)
Fixpoint in_place (V R : nat -> Prop) (n : Z) (p : lstmt) : Prop :=
  match p with
  | LSkip => True
  | LAssign x e => V x /\ plain_e V R e
  | LScalar x _ => V x
  | LElem _ _ _ | LAtSet _ _ _ | LAt2Set _ _ _ _ | LFill _ _ => True
  | LResize x k => V x /\ 1 <= k <= n
  | LSeq a b | LTry a b => in_place V R n a /\ in_place V R n b
  | LIf c a b => plain_e V R c /\ in_place V R n a /\ in_place V R n b
  | LWhile c a => plain_e V R c /\ in_place V R n a
  | LScal e body => plain_e V R e /\ forall v, in_place V R n (body v)
  | _ => False
  end.

(** The same for bodies of functions that leave loops by break and continue; a
    result is a new object of R. *)
Fixpoint j_in_place (V R : nat -> Prop) (n : Z) (b : jstmt) : Prop :=
  match b with
  | JDo p => in_place V R n p
  | JBreak | JContinue => True
  | JSeq a b | JTry a b => j_in_place V R n a /\ j_in_place V R n b
  | JIf c a b => plain_e V R c /\ j_in_place V R n a /\ j_in_place V R n b
  | JWhile c a => plain_e V R c /\ j_in_place V R n a
  | JScal e body => plain_e V R e /\ forall v, j_in_place V R n (body v)
  | _ => False
  end.

(** Assignments of k elements to x, one after the other; the right-hand sides
    may be different ones. *)
Inductive refills (lm : libm) (x : nat) (k : Z) : list expr -> world -> world -> Prop :=
| refills_none w : refills lm x k [] w w
| refills_more e es w w1 w2 : esize w e = k -> assign lm x e w = (Done tt, w1) -> refills lm x k es w1 w2 ->
    refills lm x k (e :: es) w w2.

(** Elements appended one after the other. *)
Inductive pushes (o : oid) : list val -> world -> world -> Prop :=
| pushes_none w : pushes o [] w w
| pushes_more v vs w w1 w2 : push_back o v w = (Done tt, w1) -> pushes o vs w1 w2 -> pushes o (v :: vs) w w2.
