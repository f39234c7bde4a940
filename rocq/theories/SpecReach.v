(** What a run of a program executes: the statements it starts, and in which
    state; and the types the statements state. *)
From Coq Require Import ZArith List Bool.
From Verif Require Import Base Num StoreModel VecModel SubsetModel AllocModel ProgModel LangModel.
Import ListNotations.
Open Scope Z_scope.

(** While [s] runs from [w], statement [s'] is started in the state [w']. *)
Inductive reach (N : nat) (lm : libm) : lstmt -> world -> lstmt -> world -> Prop :=
| r_here s w : reach N lm s w s w
| r_seq1 a b w s' w' : reach N lm a w s' w' -> reach N lm (LSeq a b) w s' w'
| r_seq2 a b w w1 s' w' : lrun N lm a w = (Done true, w1) -> reach N lm b w1 s' w' -> reach N lm (LSeq a b) w s' w'
| r_if c a b w v w1 s' w' : lcondition lm c w = (Done v, w1) -> reach N lm (if truth v then a else b) w1 s' w' ->
    reach N lm (LIf c a b) w s' w'
| r_round c a w v w1 s' w' : lcondition lm c w = (Done v, w1) -> truth v = true -> reach N lm a w1 s' w' ->
    reach N lm (LWhile c a) w s' w'
| r_again c a w v w1 w2 s' w' : lcondition lm c w = (Done v, w1) -> truth v = true -> lrun N lm a w1 = (Done true, w2) ->
    reach N lm (LWhile c a) w2 s' w' -> reach N lm (LWhile c a) w s' w'
| r_scal e body w v w1 s' w' : lcondition lm e w = (Done v, w1) -> reach N lm (body v) w1 s' w' ->
    reach N lm (LScal e body) w s' w'
| r_for col m body w w1 vs v rest w2 w3 s' w' : lmake lm col m w = (Done tt, w1) ->
    iterate_vec col w1 = (Done (vs ++ v :: rest), w2) -> each vs (fun v => lrun N lm (body v)) w2 = (Done true, w3) ->
    reach N lm (body v) w3 s' w' -> reach N lm (LFor col m body) w s' w'
| r_let x s t m body w w1 s' w' : (lmake lm s m ;; vec_steal x s t ;; vec_end s) w = (Done tt, w1) ->
    reach N lm body w1 s' w' -> reach N lm (LLet x s t m body) w s' w'
| r_decl x t e e' body w w1 s' w' : lbuild lm w e = Done e' -> vec_of_expr lm x t e' w = (Done tt, w1) ->
    reach N lm body w1 s' w' -> reach N lm (LDecl x t e body) w s' w'
| r_sized x t n body w w1 s' w' : vec_sized x t (wrap64 n) w = (Done tt, w1) -> reach N lm body w1 s' w' ->
    reach N lm (LSized x t n body) w s' w'
| r_try a b w s' w' : reach N lm a w s' w' -> reach N lm (LTry a b) w s' w'
| r_catch a b w msg w1 s' w' : lrun N lm a w = (Thrown (Ass msg), w1) -> reach N lm b w1 s' w' ->
    reach N lm (LTry a b) w s' w'.

(** The subscripts, with the types they state, of an expression, ... *)
Fixpoint subscripts (e : lexpr) : list (ety * lexpr) :=
  match e with
  | LVar _ | LLit _ | LAt _ _ | LAt2 _ _ _ => []
  | LBin _ l r => subscripts l ++ subscripts r
  | LUn _ e | LAtOf e _ | LAt2Of e _ _ | LLen e => subscripts e
  | LSel e i => subscripts e ++ subscripts_i i
  | LSel2 e i j => subscripts e ++ subscripts_i i ++ subscripts_i j
  end
with subscripts_i (i : lindex) : list (ety * lexpr) :=
  match i with LXV t e => (t, e) :: subscripts e | _ => [] end.
Definition asubs (a : larg) : list (ety * lexpr) := match a with LS _ => [] | LV _ e => subscripts e end.
Definition msubs (m : lmaker) : list (ety * lexpr) :=
  match m with
  | LMVector _ a | LMDim a => asubs a
  | LMColon a b | LMRep a b => asubs a ++ asubs b
  | LMCoca args => flat_map asubs args
  | LMMatrix a b c => asubs a ++ asubs b ++ asubs c
  | LMTest _ e => subscripts e
  end.
(** ... and of the first step of a statement. *)
Definition uses (s : lstmt) : list (ety * lexpr) :=
  match s with
  | LAssign _ e | LIf e _ _ | LWhile e _ | LScal e _ | LDecl _ _ e _ => subscripts e
  | LSub _ _ i _ e => subscripts_i i ++ subscripts e
  | LSubScalar _ i _ => subscripts_i i
  | LSub2 _ _ i j _ e => subscripts_i i ++ subscripts_i j ++ subscripts e
  | LSub2Scalar _ i j _ => subscripts_i i ++ subscripts_i j
  | LFor _ m _ | LLet _ _ _ m _ => msubs m
  | _ => []
  end.

(** The arguments of a call that makes a vector: those whose type is the one of
    the vector ([false]), and those of coca. *)
Definition margs (m : lmaker) : list (bool * larg) :=
  match m with
  | LMVector _ a | LMDim a => [(false, a)]
  | LMColon a b | LMRep a b => [(false, a); (false, b)]
  | LMCoca args => map (pair true) args
  | LMMatrix a b c => [(false, a); (false, b); (false, c)]
  | LMTest _ _ => []
  end.
Definition calls (s : lstmt) : list (bool * larg) :=
  match s with LFor _ m _ | LLet _ _ _ m _ => margs m | _ => [] end.
