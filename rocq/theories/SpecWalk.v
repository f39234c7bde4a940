(** Which right-hand sides can be differentiated, and over how many elements:
    the specification for the derivative types. *)
From Coq Require Import ZArith List Bool.
From Verif Require Import Base Num StoreModel VecModel DerivModel WalkModel Spec SpecVec SpecDeriv.
Import ListNotations.
Open Scope Z_scope.

(** The operations with a rule: sums, differences, products, quotients,
    comparisons and the sine; not powers, the unary minus or another
    function. *)
Inductive has_rule : etype -> Prop :=
| rule_var x : has_rule (TyVar x)
| rule_con ct k : has_rule (TyCon ct k)
| rule_bin op l r : op <> OPow -> has_rule l -> has_rule r -> has_rule (TyBin op l r)
| rule_sin e : has_rule e -> has_rule (TyUn (UFun FSin) e).

(** A right-hand side: its comparisons are comparisons. *)
Fixpoint proper (e : dexpr) : Prop :=
  match e with
  | DVar _ | DCon _ _ _ => True
  | DPlus l r | DMinus l r | DTimes l r | DDivide l r => proper l /\ proper r
  | DCmp op l r => is_cmp op = true /\ proper l /\ proper r
  | DSin e => proper e
  end.

(** The operands that are no operations: vectors of the AllVars object. *)
Fixpoint operands (e : dexpr) : list nat :=
  match e with
  | DVar x => [vslot x]
  | DCon _ k _ => [kslot k]
  | DPlus l r | DMinus l r | DTimes l r | DDivide l r | DCmp _ l r => operands l ++ operands r
  | DSin e => operands e
  end.

(** n is the length of the longest of them. *)
Definition longest (w : world) (e : dexpr) (n : Z) : Prop :=
  (exists s, In s (operands e) /\ n = sz (ob w (OD s))) /\
  forall s, In s (operands e) -> sz (ob w (OD s)) <= n.

(** The operands hold numbers: what [env] says for the variables, and for the
    constants what they were made with. *)
Definition holds_operands (w : world) (env : senv) (e : dexpr) : Prop :=
  (forall x, In x (dvars e) -> vals env x <> [] /\ holds w (OD (vslot x)) (map VD (vals env x))) /\
  (forall k l, In (k, l) (dcons e) -> l <> [] /\ holds w (OD (kslot k)) (map VD l)).
