(** PlaceProofs for the derivative programs, whose state has a flag besides the
    world. *)
From Coq Require Import ZArith List String Bool Lia FunctionalExtensionality.
From Verif Require Import Base Num StoreModel VecModel ProgModel AvModel DerivModel TryModel SpecPlace PlaceProofs.
Import ListNotations.
Open Scope Z_scope.

Section Place.
Variables (pi : nat -> nat) (N0 N1 : nat) (B : nat -> block).
Hypothesis pi_inj : forall a b, pi a = pi b -> a = b.
Hypothesis pi_next : forall k, pi (N0 + k) = (N1 + k)%nat.
Notation id_ := (fun x => x).

Definition dagree {A} (r : A -> A) (m m' : M dworld A) : Prop := forall d d', rel pi N0 N1 B (dw d) (dw d') -> dinit d' = dinit d ->
  same_end r (fst (m d)) (fst (m' d')) /\ rel pi N0 N1 B (dw (snd (m d))) (dw (snd (m' d'))) /\ dinit (snd (m' d')) = dinit (snd (m d)).
Notation dstill m := (dagree id_ m m).
Lemma dmv_inw {A} r (m m' : M world A) : agree pi N0 N1 B r m m' -> dagree r (inw m) (inw m').
Proof.
  intros H [w b] [w' b'] R E. cbn [dw dinit] in *. unfold inw. cbn [dw dinit]. destruct (H w w' R) as [Q R1].
  destruct (m w) as [o w1], (m' w') as [o' w2]. cbn [fst snd dw dinit] in *. auto.
Qed.
Lemma dmv_bind_r {A C} (q : A -> A) (r : C -> C) (m m' : M dworld A) (f f' : A -> M dworld C) :
  dagree q m m' -> (forall x, dagree r (f x) (f' (q x))) -> dagree r (bind m f) (bind m' f').
Proof.
  intros Hm Hf d d' R Q. destruct (Hm d d' R Q) as [E [R1 Q1]]. unfold bind.
  destruct (m d) as [[x|e|u] d1], (m' d') as [[y|e'|u'] d2]; cbn [fst snd same_end] in *; try contradiction; subst; auto.
  now apply Hf.
Qed.
Lemma dmv_bind {A C} (r : C -> C) (m m' : M dworld A) (f f' : A -> M dworld C) :
  dagree id_ m m' -> (forall x, dagree r (f x) (f' x)) -> dagree r (bind m f) (bind m' f').
Proof. apply dmv_bind_r. Qed.
Ltac stay := split; [reflexivity|split; assumption].
Lemma dmv_ret {A} (x : A) : dstill (ret x). Proof. intros d d' R Q. stay. Qed.
Lemma dmv_lift {A} (x : outcome A) : dstill (lift x). Proof. intros d d' R Q. destruct x; stay. Qed.
Lemma dmv_undef {A} u : dstill (undef (A := A) u). Proof. intros d d' R Q. stay. Qed.
Lemma dmv_ass b m : dstill (ass b m). Proof. intros d d' R Q. unfold ass. destruct b; stay. Qed.
Lemma dmv_get {A} (r : A -> A) (f f' : dworld -> M dworld A) :
  (forall d d', rel pi N0 N1 B (dw d) (dw d') -> dinit d' = dinit d -> dagree r (f d) (f' d')) -> dagree r (bind get f) (bind get f').
Proof. intros H d d' R Q. unfold bind, get. now apply (H d d'). Qed.
Lemma dmv_for n : forall i body body', (forall k, dagree id_ (body k) (body' k)) -> dagree id_ (forN (W := dworld) n i body) (forN n i body').
Proof. induction n as [|n IH]; intros i body body' Hb; cbn [forN]; [apply dmv_ret|]. apply dmv_bind; auto. Qed.
Lemma r_dsize w w' : rel pi N0 N1 B w w' -> dsize w' = dsize w.
Proof.
  intros R. apply functional_extensionality. intros e. induction e; cbn [dsize]; rewrite ?IHe1, ?IHe2, ?IHe, ?(rel_ob _ _ _ _ _ _ R); reflexivity.
Qed.
Ltac dmoving := intros; repeat first
  [ assumption
  | simple apply dmv_ret | simple apply dmv_lift | simple apply dmv_undef | simple apply dmv_ass
  | simple apply dmv_inw; match goal with |- agree _ _ _ _ _ ?m ?m => change (still pi N0 N1 B m) end; first [assumption|solve [auto using mv_resize, mv_any_resize, mv_fill, mv_set_at, mv_get_at, mv_at_rd, mv_at_wr, mv_elem, mv_take_shape, mv_iterate]]
  | simple apply dmv_get; let d := fresh "d" in let d' := fresh "d'" in let R := fresh "R" in let Q := fresh "Q" in intros d d' R Q;
      rewrite ?Q, ?(r_esize _ _ _ _ _ _ R), ?(r_dsize _ _ R), ?(rel_ob _ _ _ _ _ _ R); cbn [sz ren]; try clear d' R Q
  | simple apply dmv_for; intro
  | simple apply dmv_bind; [|intro]
  | match goal with |- dagree _ (if ?b then _ else _) _ => destruct b end ].
Lemma dmv_mk_cons e : dstill (mk_cons e).
Proof. induction e; cbn [mk_cons]; unfold mk_con, dfor; dmoving. Qed.
Lemma dmv_leaf_val s i : dstill (leaf_val s i). Proof. unfold leaf_val. dmoving. Qed.
Lemma dmv_dval lm e : forall i, dstill (dval lm e i).
Proof. induction e; intros i; cbn [dval]; dmoving; auto using dmv_leaf_val. Qed.
Lemma dmv_init c x : dstill (der_init c x).
Proof. unfold der_init. dmoving. intros d1 d2 R Q. split; [reflexivity|split; [exact R|reflexivity]]. Qed.
Lemma dmv_leaf_der c x i : dstill (leaf_der c x i).
Proof. unfold leaf_der. apply dmv_bind; [apply dmv_init|]. dmoving. Qed.
Lemma dmv_dder lm c e : forall i, dstill (dder lm c e i).
Proof. induction e; intros i; cbn [dder]; dmoving; auto using dmv_leaf_der, dmv_dval. Qed.
Lemma dmv_buf_wr c n i v : dstill (buf_wr c n i v).
Proof.
  unfold buf_wr. destruct (Nat.ltb n (nbuf c)); [|dmoving]. apply (dmv_bind_r (ren pi)); [apply dmv_inw; apply mv_st_alone|]. intros t. cbn [sty ren]. dmoving.
Qed.
Lemma dmv_der_wr x i v : dstill (der_wr x i v). Proof. unfold der_wr. dmoving. Qed.
Lemma dmv_exec lm c s : dstill (dexec lm c s).
Proof.
  destruct s as [x e]. cbn [dexec]. apply dmv_bind; [apply dmv_mk_cons|]. intros _.
  destruct e; unfold dassign_con, dassign_var, dassign_exp, dshape, dfor; cbv zeta; dmoving;
    auto using dmv_leaf_val, dmv_leaf_der, dmv_buf_wr, dmv_der_wr, dmv_dder.
Qed.
Lemma dmv_run lm c p : dstill (drun lm c p).
Proof. induction p as [|s p IH]; cbn [drun]; [apply dmv_ret|]. apply dmv_bind; [apply dmv_exec|auto]. Qed.
Lemma dmv_prun lm c p : dstill (prun lm c p).
Proof.
  induction p; cbn [prun]; [apply dmv_ret|apply dmv_exec|now apply dmv_bind|].
  intros d d' R Q. destruct (IHp1 d d' R Q) as [E [R1 Q1]].
  destruct (prun lm c p1 d) as [[x|[e|]|u] d1], (prun lm c p1 d') as [[y|e'|u'] d2]; cbn [fst snd same_end] in *; try contradiction; subst; auto.
  all: first [now apply IHp2|cbn; auto].
Qed.
Lemma dmv_list c x n : forall i, dstill (get_der_list c x i n).
Proof. induction n as [|n IH]; intros i; cbn [get_der_list]; dmoving; auto using dmv_leaf_der. Qed.
Lemma dmv_derivs c x : dstill (get_derivs c x).
Proof. unfold get_derivs. dmoving. apply dmv_list. Qed.
Lemma dmv_vals x : dstill (get_vals x).
Proof. unfold get_vals. dmoving. Qed.
End Place.
