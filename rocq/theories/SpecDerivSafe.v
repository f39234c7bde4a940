(** Derivative programs whatever their right-hand sides and lengths: which are
    programs of the library, with which state they start, which variables they
    read before they have elements. *)
From Coq Require Import ZArith List.
From Verif Require Import Base Num StoreModel VecModel Spec SpecDeriv DerivModel.
Import ListNotations.

(** The statement assigns to a Buffer variable of the AllVars object, not [v =
    v]; its constants are no longer than the address space. *)
Definition assigns (c : avconf) (s : dstmt) : Prop :=
  match s with
  | DAssign x e => knd x = KBuffer /\ (num x < nbuf c)%nat /\ e <> DVar x /\
      forall k l, In (k, l) (dcons e) -> (Z.of_nat (length l) < 2 ^ 63)%Z
  end.

(** The AllVars object before the first statement: some Borrow and BorrowSEXP
    variables show memory of the user with these elements (vectors or matrices,
    several may have the same number), everything else is empty. *)
Record begun (ins : inputs) (d : dworld) : Prop := {
  bg_world : world_shape (dw d);
  bg_input : forall x vs, ins x = Some vs ->
    knd x <> KBuffer /\ sty (ob (dw d) (OD (vslot x))) = TDouble /\
    holds (dw d) (OD (vslot x)) (map VD vs);
  bg_rest : forall o, (forall x, ins x <> None -> o <> OD (vslot x)) ->
    ob (dw d) o = store_default KBuffer TDouble }.

(** Every variable that is read is in V or was assigned before. *)
Fixpoint reads_known (V : dvar -> Prop) (p : list dstmt) : Prop :=
  match p with
  | [] => True
  | DAssign x e :: p' =>
      (forall y, In y (dvars e) -> V y) /\ reads_known (fun y => y = x \/ V y) p'
  end.
Definition given (ins : inputs) (x : dvar) : Prop := exists v vs, ins x = Some (v :: vs).

(** The targets of a program. *)
Definition target (s : dstmt) : dvar := match s with DAssign x _ => x end.

(** All storage objects are sound and hold doubles; no block was lost. *)
Definition doubles (w : world) : Prop := forall o, exists l, holds w o (map VD l).
Definition kept_blocks (w w' : world) : Prop := no_leak w -> no_leak w'.

(** However the program ended, the inputs hold what they held; after its end
    every storage object is sound and has only written elements, all doubles;
    after an assertion every storage object is sound; in both cases no block was
    lost; undefined behaviour is at most the division i % 0. *)
Definition ended (ins : inputs) (d d' : dworld) (r : outcome unit) : Prop :=
  (forall x vs, ins x = Some vs -> holds (dw d') (OD (vslot x)) (map VD vs)) /\
  match r with
  | Done _ => world_shape (dw d') /\ doubles (dw d') /\ kept_blocks (dw d) (dw d')
  | Thrown (Ass _) => world_shape (dw d') /\ kept_blocks (dw d) (dw d')
  | Thrown BadAlloc => True
  | Undef u => u = UB_div0
  end.
