(** Proofs about the derivative types. *)
From Coq Require Import ZArith List Bool Lia.
From Verif Require Import Base Num StoreModel VecModel DerivModel WalkModel Spec SpecVec SpecDeriv SpecWalk DerivProofs DerivProofs2.
Import ListNotations.
Open Scope Z_scope.

Lemma wbind {A B} (m m' : M dworld A) (f g : A -> M dworld B) : (forall d, m d = m' d) -> (forall a d, f a d = g a d) ->
  forall d, bind m f d = bind m' g d.
Proof. intros H K d. unfold bind. rewrite H. destruct (m' d) as [[a|x|u] d']; auto. Qed.
Lemma wfor n : forall i (f g : Z -> M dworld unit), (forall j d, f j d = g j d) -> forall d, forN n i f d = forN n i g d.
Proof. induction n; intros i f g H d; [reflexivity|]. cbn [forN]. apply wbind; auto. Qed.

Lemma walk_some t : walk t <> None <-> has_rule t.
Proof.
  split.
  - induction t as [x|ct k| |op l IHl r IHr|op e IH]; cbn [walk]; intros H; try constructor; try congruence.
    + destruct op; try discriminate. destruct (walk l), (walk r); try congruence. cbn [cmp_trait] in H. congruence.
    + apply IHl. destruct (walk l); congruence.
    + apply IHr. destruct (walk l), (walk r); congruence.
    + destruct op as [|[]]; try congruence. constructor. apply IH. destruct (walk e); congruence.
  - induction 1 as [x|ct k|op l r N _ IHl _ IHr|e _ IH]; cbn [walk]; try discriminate.
    + destruct (walk l); [|congruence]. destruct (walk r); [|congruence]. destruct op; cbn [cmp_trait]; congruence.
    + destruct (walk e); congruence.
Qed.

(** The type made of a right-hand side. *)
Fixpoint dt (e : dexpr) : dtype :=
  match e with
  | DVar x => VariableT (PVar x)
  | DCon ct k _ => if ct then ConstantT k else VariableT (PCon k)
  | DPlus l r => BinaryT (dt l) (dt r) BPlus
  | DMinus l r => BinaryT (dt l) (dt r) BMinus
  | DTimes l r => QuarternyT (type_of l) (type_of r) (dt l) (dt r) QTimes
  | DDivide l r => QuarternyT (type_of l) (type_of r) (dt l) (dt r) (if is_const_type r then QDivideConst else QDivide)
  | DCmp op l r => BinaryT (dt l) (dt r) (BCmp op)
  | DSin e => UnaryT (dt e)
  end.
Lemma walk_dt e : proper e -> walk (type_of e) = Some (dt e).
Proof.
  induction e; cbn [proper type_of walk dt]; intros P; auto.
  1-3: destruct P as [P1 P2]; now rewrite (IHe1 P1), (IHe2 P2).
  - destruct P as [P1 P2]. rewrite (IHe1 P1), (IHe2 P2). destruct e2; reflexivity.
  - destruct P as [C [P1 P2]]. rewrite (IHe1 P1), (IHe2 P2). destruct op; try discriminate; reflexivity.
  - now rewrite (IHe P).
Qed.
Lemma dt_size w e : tsize w (dt e) = dsize w e.
Proof. induction e; cbn [dt tsize dsize]; rewrite ?IHe1, ?IHe2; auto. now destruct ct. Qed.
Lemma dt_val lm e i : forall d, tval lm (dt e) i d = dval lm e i d.
Proof.
  induction e; cbn [dt tval dval]; intros d; auto.
  - now destruct ct.
  - apply wbind; [exact IHe1|]. intros a d1. now apply wbind.
  - apply wbind; [exact IHe1|]. intros a d1. now apply wbind.
  - apply wbind; [exact IHe1|]. intros a d1. now apply wbind.
  - apply wbind; [exact IHe1|]. intros a d1. apply wbind; [exact IHe2|]. intros b d2. destruct (is_const_type e2); reflexivity.
  - apply wbind; [exact IHe1|]. intros a d1. now apply wbind.
  - now apply wbind.
Qed.
Lemma dt_der lm c e i : forall d, tder lm c (dt e) i d = dder lm c e i d.
Proof.
  induction e; cbn [dt tder dder]; intros d; auto.
  - now destruct ct.
  - apply wbind; [exact IHe1|]. intros a d1. now apply wbind.
  - apply wbind; [exact IHe1|]. intros a d1. now apply wbind.
  - apply wbind; [apply dt_val|]. intros a d1. apply wbind; [apply dt_val|]. intros b d2.
    apply wbind; [exact IHe1|]. intros a' d3. now apply wbind.
  - apply wbind; [apply dt_val|]. intros a d1. apply wbind; [apply dt_val|]. intros b d2.
    apply wbind; [exact IHe1|]. intros a' d3. apply wbind; [exact IHe2|]. intros b' d4. destruct (is_const_type e2); reflexivity.
  - apply wbind; [exact IHe1|]. intros a d1. now apply wbind.
  - assert (L : leaf_type (dt e) = is_leaf e) by (destruct e; cbn [dt leaf_type is_leaf]; auto; now destruct ct).
    rewrite L. destruct (is_leaf e); (apply wbind; [|reflexivity]); [apply dt_val|exact IHe].
Qed.
Lemma walk_assign lm c x e : proper e -> forall d, dassign_walk lm c x e d = dassign_exp lm c x e d.
Proof.
  intros P d. unfold dassign_walk, dassign_exp. rewrite (walk_dt e P). rewrite !dbind_get.
  apply wbind; [reflexivity|]. intros _ d1. apply wbind; [reflexivity|]. intros _ d2. apply wbind; [reflexivity|]. intros _ d3.
  rewrite !dbind_get, dt_size. apply wbind; [|reflexivity].
  intros d4. unfold dfor. apply wfor. intros j d5. apply wbind; [apply dt_der|reflexivity].
Qed.

(** Every type with a rule is that of a right-hand side. *)
Lemma rule_expr t : has_rule t -> exists e, proper e /\ type_of e = t.
Proof.
  induction 1 as [x|ct k|op l r N _ [l' [Pl El]] _ [r' [Pr Er]]|e _ [e' [P E]]].
  - now exists (DVar x).
  - now exists (DCon ct k []).
  - destruct op; try congruence.
    + exists (DPlus l' r'). cbn [proper type_of]. now rewrite El, Er.
    + exists (DMinus l' r'). cbn [proper type_of]. now rewrite El, Er.
    + exists (DTimes l' r'). cbn [proper type_of]. now rewrite El, Er.
    + exists (DDivide l' r'). cbn [proper type_of]. now rewrite El, Er.
    + exists (DCmp OEq l' r'). cbn [proper type_of]. now rewrite El, Er.
    + exists (DCmp OLt l' r'). cbn [proper type_of]. now rewrite El, Er.
    + exists (DCmp OLe l' r'). cbn [proper type_of]. now rewrite El, Er.
    + exists (DCmp OGt l' r'). cbn [proper type_of]. now rewrite El, Er.
    + exists (DCmp OGe l' r'). cbn [proper type_of]. now rewrite El, Er.
    + exists (DCmp ONe l' r'). cbn [proper type_of]. now rewrite El, Er.
  - exists (DSin e'). cbn [proper type_of]. now rewrite E.
Qed.

Lemma longest_two w l r : (forall n, longest w l n -> forall m, longest w r m ->
  (exists s, In s (operands l ++ operands r) /\ (if m <? n then n else m) = sz (ob w (OD s))) /\
  forall s, In s (operands l ++ operands r) -> sz (ob w (OD s)) <= (if m <? n then n else m)).
Proof.
  intros n [[s [Is Es]] Ms] m [[q [Iq Eq]] Mq]. destruct (Z.ltb_spec m n); split.
  - exists s. split; [apply in_or_app; auto|exact Es].
  - intros z H1. apply in_app_or in H1. destruct H1 as [H1|H1]; [apply Ms in H1|apply Mq in H1]; lia.
  - exists q. split; [apply in_or_app; auto|exact Eq].
  - intros z H1. apply in_app_or in H1. destruct H1 as [H1|H1]; [apply Ms in H1|apply Mq in H1]; lia.
Qed.
Lemma dsize_longest w e : longest w e (dsize w e).
Proof.
  induction e; cbn [dsize]; try (apply longest_two; assumption).
  - split; [exists (vslot x)|intros s [<-|[]]]; [split; [now left|reflexivity]|cbn [dsize]; lia].
  - split; [exists (kslot k)|intros s [<-|[]]]; [split; [now left|reflexivity]|cbn [dsize]; lia].
  - exact IHe.
Qed.
Lemma dsize_esize w e : dsize w e = esize w (to_expr e).
Proof.
  induction e; cbn [dsize to_expr esize]; rewrite ?not_sca; auto; rewrite IHe1, IHe2; reflexivity.
Qed.
