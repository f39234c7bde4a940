(** Derivative programs with handlers: which are programs of the library, which
    variables surely have elements. *)
From Coq Require Import ZArith List.
From Verif Require Import Base Num StoreModel VecModel SpecDeriv DerivModel SpecDerivSafe TryModel.
Import ListNotations.

Fixpoint p_assigns (c : avconf) (p : dprog) : Prop :=
  match p with
  | PSkip => True
  | PDo s => assigns c s
  | PSeq a b | PTry a b => p_assigns c a /\ p_assigns c b
  end.

(** Assigned on every way through the program. *)
Fixpoint p_sets (p : dprog) (y : dvar) : Prop :=
  match p with
  | PSkip => False
  | PDo s => y = target s
  | PSeq a b => p_sets a y \/ p_sets b y
  | PTry a b => p_sets a y /\ p_sets b y
  end.

(** Every variable that is read is in V or was assigned before on every way:
    the handler must do with what was known before the try. *)
Fixpoint p_known (V : dvar -> Prop) (p : dprog) : Prop :=
  match p with
  | PSkip => True
  | PDo (DAssign x e) => forall y, In y (dvars e) -> V y
  | PSeq a b => p_known V a /\ p_known (fun y => V y \/ p_sets a y) b
  | PTry a b => p_known V a /\ p_known V b
  end.

(** The statements of a program as one without handlers. *)
Fixpoint p_list (p : list dstmt) : dprog :=
  match p with
  | [] => PSkip
  | s :: p' => PSeq (PDo s) (p_list p')
  end.

(** What executing a program means, rule by rule; only statements refer to the
    model. *)
Inductive goes (lm : libm) (c : avconf) : dprog -> dworld -> outcome unit -> dworld -> Prop :=
| goes_skip d : goes lm c PSkip d (Done tt) d
| goes_do s d r d' : dexec lm c s d = (r, d') -> goes lm c (PDo s) d r d'
| goes_seq a b d d1 r d2 : goes lm c a d (Done tt) d1 -> goes lm c b d1 r d2 -> goes lm c (PSeq a b) d r d2
| goes_out a b d r d1 : goes lm c a d r d1 -> r <> Done tt -> goes lm c (PSeq a b) d r d1
| goes_try a b d r d1 : goes lm c a d r d1 -> (forall m, r <> Thrown (Ass m)) -> goes lm c (PTry a b) d r d1
| goes_catch a b d m d1 r d2 : goes lm c a d (Thrown (Ass m)) d1 -> goes lm c b d1 r d2 -> goes lm c (PTry a b) d r d2.
