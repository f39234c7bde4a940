(** MoreProofs for the derivative programs, whose state has a flag besides the
    world. *)
From Coq Require Import ZArith List String Bool Lia FunctionalExtensionality.
From Verif Require Import Base Num StoreModel VecModel AvModel DerivModel SpecMore MoreProofs.
Import ListNotations.
Open Scope Z_scope.

Definition dgrows {A} (m : M dworld A) : Prop := forall d L, hlim (hp (dw d)) <= L ->
  hlim (hp (dw (snd (m d)))) = hlim (hp (dw d)) /\
  (~ finished (fst (m d)) \/ m (mkDw (with_limit L (dw d)) (dinit d)) = (fst (m d), mkDw (with_limit L (dw (snd (m d)))) (dinit (snd (m d))))).
Lemma dgrows_inw {A} (m : M world A) : grows m -> dgrows (inw m).
Proof.
  intros H [w b] L LE. cbn [dw dinit] in *. unfold inw. cbn [dw dinit]. destruct (H True I w L LE) as [Q [[_ N]|E]].
  - destruct (m w) as [r w1]. cbn [fst snd dw] in *. auto.
  - rewrite E. destruct (m w) as [r w1]. cbn [fst snd dw dinit] in *. auto.
Qed.
Lemma dgrows_bind {A C} (m : M dworld A) (f : A -> M dworld C) : dgrows m -> (forall x, dgrows (f x)) -> dgrows (bind m f).
Proof.
  intros Hm Hf w L LE. destruct (Hm w L LE) as [Q [B|E]]; unfold bind.
  - destruct (m w) as [[x|e|u] w1]; cbn [fst snd] in *; [elim B; exact I| |]; auto.
  - rewrite E. destruct (m w) as [[x|e|u] w1]; cbn [fst snd] in *; auto.
    rewrite <- Q. apply (Hf x w1 L). now rewrite Q.
Qed.
Ltac stay := split; [reflexivity|right; reflexivity].
Lemma dgrows_ret {A} (x : A) : dgrows (ret x). Proof. intros w L LE. stay. Qed.
Lemma dgrows_lift {A} (x : outcome A) : dgrows (lift x). Proof. intros w L LE. stay. Qed.
Lemma dgrows_undef {A} u : dgrows (A := A) (undef u). Proof. intros w L LE. stay. Qed.
Lemma dgrows_ass b m : dgrows (ass b m). Proof. intros w L LE. unfold ass. destruct b; stay. Qed.
Lemma dgrows_get {A} (f : dworld -> M dworld A) : (forall v, dgrows (f v)) ->
  (forall d L, hlim (hp (dw d)) <= L -> f (mkDw (with_limit L (dw d)) (dinit d)) = f d) -> dgrows (bind get f).
Proof. intros H E w L LE. unfold bind, get. rewrite (E w L LE). now apply (H w). Qed.
Lemma dgrows_for n : forall i body, (forall k, dgrows (body k)) -> dgrows (forN (W := dworld) n i body).
Proof. induction n as [|n IH]; intros i body Hb; cbn [forN]; [apply dgrows_ret|]. apply dgrows_bind; auto. Qed.
Lemma l_esize L w : hlim (hp w) <= L -> esize (with_limit L w) = esize w.
Proof. intros LE. apply r_esize. now exists L. Qed.
Lemma l_dsize L w e : dsize (with_limit L w) e = dsize w e.
Proof. induction e; cbn [dsize]; rewrite ?IHe1, ?IHe2, ?IHe; reflexivity. Qed.
Lemma of_reads {A} (m : M world A) : reads m -> grows m. Proof. intros H P _. apply H. Qed.
Ltac dgrowing := intros; repeat first
  [ assumption
  | simple apply dgrows_ret | simple apply dgrows_lift | simple apply dgrows_undef | simple apply dgrows_ass
  | simple apply dgrows_inw; first [assumption|solve [auto using of_reads, grows_resize, grows_any_resize, grows_fill, grows_set_at, grows_get_at, grows_at_rd, grows_at_wr, grows_elem, grows_take_shape, grows_iterate]
      |intros ? ?; simple apply grows_st]
  | simple apply dgrows_get; [intro|intros ? ? ?; cbn [dw dinit ob with_limit]; rewrite ?l_esize by assumption; rewrite ?l_dsize; reflexivity]
  | simple apply dgrows_for; intro
  | simple apply dgrows_bind; [|intro]
  | match goal with |- dgrows (if ?b then _ else _) => destruct b end ].
Lemma dgrows_mk_cons e : dgrows (mk_cons e).
Proof. induction e; cbn [mk_cons]; unfold mk_con, dfor; dgrowing. Qed.
Lemma dgrows_leaf_val s i : dgrows (leaf_val s i). Proof. unfold leaf_val. dgrowing. Qed.
Lemma dgrows_dval lm e : forall i, dgrows (dval lm e i).
Proof. induction e; intros i; cbn [dval]; dgrowing; auto using dgrows_leaf_val. Qed.
Lemma dgrows_init c x : dgrows (der_init c x).
Proof. unfold der_init. dgrowing. intros d L LE. stay. Qed.
Lemma dgrows_leaf_der c x i : dgrows (leaf_der c x i).
Proof. unfold leaf_der. apply dgrows_bind; [apply dgrows_init|]. dgrowing. Qed.
Lemma dgrows_dder lm c e : forall i, dgrows (dder lm c e i).
Proof. induction e; intros i; cbn [dder]; dgrowing; auto using dgrows_leaf_der, dgrows_dval. Qed.
Lemma dgrows_buf_wr c n i v : dgrows (buf_wr c n i v). Proof. unfold buf_wr. dgrowing. Qed.
Lemma dgrows_der_wr x i v : dgrows (der_wr x i v). Proof. unfold der_wr. dgrowing. Qed.
Lemma dgrows_exec lm c s : dgrows (dexec lm c s).
Proof.
  destruct s as [x e]. cbn [dexec]. apply dgrows_bind; [apply dgrows_mk_cons|]. intros _.
  destruct e; unfold dassign_con, dassign_var, dassign_exp, dshape, dfor; cbv zeta; dgrowing;
    auto using dgrows_leaf_val, dgrows_leaf_der, dgrows_buf_wr, dgrows_der_wr, dgrows_dder.
Qed.
Lemma dgrows_run lm c p : dgrows (drun lm c p).
Proof. induction p as [|s p IH]; cbn [drun]; [apply dgrows_ret|]. apply dgrows_bind; [apply dgrows_exec|auto]. Qed.
Lemma dgrows_list c x n : forall i, dgrows (get_der_list c x i n).
Proof. induction n as [|n IH]; intros i; cbn [get_der_list]; dgrowing; auto using dgrows_leaf_der. Qed.
Lemma dgrows_derivs c x : dgrows (get_derivs c x).
Proof. unfold get_derivs. dgrowing. apply dgrows_list. Qed.
