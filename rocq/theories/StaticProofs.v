(** Programs keep the element types of their vectors. *)
From Coq Require Import ZArith List Bool Lia String.
From Verif Require Import Base Num StoreModel VecModel SubsetModel AllocModel ProgModel LangModel StaticModel Spec SpecExpr SpecHist SpecSafe SpecLang SpecStatic StoreProofs StoreThms VecProofs ConsProofs2 LifeProofs.
From Verif Require LangProofs.
Import ListNotations.
Open Scope Z_scope.
Local Notation length := List.length (only parsing).

Definition ti (bt : nat -> ety) (w : world) : Prop :=
  (forall o a, ptr (ob w o) = Some a -> (a < hnext (hp w))%nat /\ bt a = sty (ob w o)) /\
  (forall a own cs v, hblk (hp w) a = Live own cs -> In (Some v) cs -> ty_of v = bt a).
Section Fixed.
(** Blocks of others that have an element type of their own. *)
Variable fx : nat -> ety -> Prop.
Definition fixed (bt : nat -> ety) (w : world) : Prop := forall a t, fx a t -> (a < hnext (hp w))%nat /\ bt a = t.
Definition ct (w : world) : Prop := exists bt, fixed bt w /\ ti bt w.
Lemma fixed_next bt w w' : hnext (hp w') = hnext (hp w) -> fixed bt w -> fixed bt w'.
Proof. intros E F a t H. rewrite E. now apply F. Qed.
Lemma fixed_fresh bt w w' t0 : hnext (hp w') = S (hnext (hp w)) -> fixed bt w -> fixed (fun a => if Nat.eqb a (hnext (hp w)) then t0 else bt a) w'.
Proof.
  intros E F a t H. destruct (F a t H) as [L <-]. rewrite E. split; [lia|]. now rewrite (proj2 (PeanoNat.Nat.eqb_neq a (hnext (hp w)))) by lia.
Qed.

Definition tys (T : oid -> ety) (w : world) : Prop := forall o, sty (ob w o) = T o.

(* --------------------------------------- operations that keep all the types *)

Definition kp {A} (T : oid -> ety) (Q : A -> Prop) (m : M world A) : Prop :=
  forall w, ct w -> tys T w ->
    match m w with
    | (Done a, w') => ct w' /\ tys T w' /\ Q a
    | (Thrown _, w') => ct w' /\ tys T w'
    | (Undef _, _) => True
    end.
Notation any := (fun _ => True).

Lemma kp_ret {A} T (Q : A -> Prop) a : Q a -> kp T Q (ret a).
Proof. intros H w C Y. cbn. auto. Qed.
Lemma kp_throw {A} T (Q : A -> Prop) e : kp T Q (throw e).
Proof. intros w C Y. cbn. auto. Qed.
Lemma kp_undef {A} T (Q : A -> Prop) u : kp T Q (undef u).
Proof. intros w C Y. cbn. auto. Qed.
Lemma kp_lift {A} T (Q : A -> Prop) o : (forall a, o = Done a -> Q a) -> kp T Q (lift o).
Proof. intros H w C Y. cbn. destruct o; auto. Qed.
Lemma kp_ass T b msg : kp T any (ass b msg).
Proof. destruct b; [now apply kp_ret|apply kp_throw]. Qed.
Lemma kp_bind {A B} T (P : A -> Prop) (Q : B -> Prop) m f : kp T P m -> (forall a, P a -> kp T Q (f a)) -> kp T Q (bind m f).
Proof.
  intros H G w C Y. unfold bind. specialize (H w C Y). destruct (m w) as [[a|e|u] w1]; auto.
  destruct H as [C1 [Y1 P1]]. exact (G a P1 w1 C1 Y1).
Qed.
Lemma kp_weak {A} T (P Q : A -> Prop) m : kp T P m -> (forall a, P a -> Q a) -> kp T Q m.
Proof.
  intros H G w C Y. specialize (H w C Y). destruct (m w) as [[a|e|u] w1]; auto.
  destruct H as [C1 [Y1 P1]]. auto.
Qed.
Lemma kp_get {B} T (Q : B -> Prop) f : (forall w, ct w -> tys T w -> kp T Q (f w)) -> kp T Q (bind get f).
Proof. intros H w C Y. exact (H w C Y w C Y). Qed.
Lemma kp_st {B} T (Q : B -> Prop) o f : (forall s, sty s = T o -> kp T Q (f s)) -> kp T Q (bind (st o) f).
Proof. intros H w C Y. exact (H (ob w o) (Y o) w C Y). Qed.
Lemma kp_if {A} T (Q : A -> Prop) (b : bool) m1 m2 : kp T Q m1 -> kp T Q m2 -> kp T Q (if b then m1 else m2).
Proof. destruct b; auto. Qed.
Lemma kp_for T n i (body : Z -> M world unit) : (forall i, kp T any (body i)) -> kp T any (forN n i body).
Proof.
  intros H. revert i. induction n as [|n IH]; intros i; cbn [forN]; [now apply kp_ret|].
  eapply kp_bind; [apply H|intros _ _; apply IH].
Qed.
Lemma kp_pure {A} T (m : M world A) : (forall w, snd (m w) = w) -> kp T any m.
Proof.
  intros H w C Y. specialize (H w). destruct (m w) as [[a|e|u] w1]; cbn in H; subst; auto.
Qed.

Lemma kp_elem lm T e i : kp T any (elem lm e i).
Proof. apply kp_pure. intros. apply elem_pure. Qed.

Lemma ob_set w o s o' : ob (set_ob w o s) o' = if oid_eqb o' o then s else ob w o'.
Proof. reflexivity. Qed.
Lemma oeq o : oid_eqb o o = true.
Proof. destruct o; cbn; apply PeanoNat.Nat.eqb_refl. Qed.
Lemma oeq_true a b : oid_eqb a b = true -> a = b.
Proof. destruct a, b; cbn; intros H; try discriminate; apply PeanoNat.Nat.eqb_eq in H; congruence. Qed.

Lemma ti_set bt w o s : ti bt w ->
  (forall a, ptr s = Some a -> (a < hnext (hp w))%nat /\ bt a = sty s) -> ti bt (set_ob w o s).
Proof.
  intros [H1 H2] H. split; [|exact H2]. intros o' a. rewrite ob_set. destruct (oid_eqb o' o); [apply H|apply H1].
Qed.
Lemma tys_set T w o s : tys T w -> sty s = T o -> tys T (set_ob w o s).
Proof.
  intros Y H o'. rewrite ob_set. destruct (oid_eqb o' o) eqn:E; [|apply Y]. apply oeq_true in E. now subst.
Qed.

Lemma kp_upd T o f : (forall s, sty (f s) = sty s) -> (forall s a, ptr (f s) = Some a -> ptr s = Some a) ->
  kp T any (upd o f).
Proof.
  intros F1 F2 w [bt [F0 C]] Y. cbn. split; [|split; auto].
  - exists bt. split; [exact F0|]. apply (ti_set bt w o); [exact C|]. intros a Ha. rewrite F1. apply C. now apply F2.
  - apply tys_set; [exact Y|]. rewrite F1. apply Y.
Qed.

Lemma kp_del T p : kp T any (del p).
Proof.
  intros w [bt [F0 C]] Y. unfold del. destruct p as [a|]; cbn; [|split; [now exists bt|auto]].
  destruct (hblk (hp w) a) as [|[ | | ] cs|] eqn:E; auto. split; [|split; [exact Y|exact I]].
  exists bt. split; [exact F0|]. destruct C as [C1 C2]. split; [exact C1|]. intros b own ds v. cbn.
  destruct (Nat.eqb b a); [discriminate|apply C2].
Qed.

(** A fresh block goes to an object. *)
Lemma kp_new {B} T (Q : B -> Prop) o n k :
  (forall a, kp T Q (k a)) -> kp T Q (a <- new_ n ;; upd o (with_ptr (Some a)) ;; k a).
Proof.
  intros K w [bt [F0 [C1 C2]]] Y. unfold bind, new_. destruct (n <=? hlim (hp w)); [|split; [now exists bt|exact Y]].
  apply K; cbn.
  - exists (fun a => if Nat.eqb a (hnext (hp w)) then sty (ob w o) else bt a). split; [now apply (fixed_fresh bt w)|]. split.
    + intros o' a. cbn. destruct (oid_eqb o' o) eqn:E; cbn; intros P.
      * injection P as <-. rewrite PeanoNat.Nat.eqb_refl. split; [lia|reflexivity].
      * destruct (C1 o' a P) as [L1 L2]. split; [lia|]. rewrite (proj2 (PeanoNat.Nat.eqb_neq a (hnext (hp w)))) by lia. exact L2.
    + intros a own cs v. cbn. destruct (Nat.eqb a (hnext (hp w))) eqn:E; [|apply C2].
      intros P. injection P as _ <-. intros V. apply repeat_spec in V. discriminate.
  - intros o'. cbn. destruct (oid_eqb o' o) eqn:E; cbn; [|apply Y]. apply oeq_true in E. subst. apply Y.
Qed.

Lemma ti_rd bt w p i v w' : ti bt w -> rd p i w = (Done v, w') -> exists a, p = Some a /\ ty_of v = bt a.
Proof.
  intros [_ C] E. unfold rd in E. destruct p as [a|]; [|discriminate]. exists a. split; [reflexivity|].
  destruct (hblk (hp w) a) as [|own cs|] eqn:B; try discriminate.
  destruct ((0 <=? i) && (i <? Z.of_nat (length cs)))%bool eqn:R; [|discriminate].
  apply andb_prop in R. destruct R as [R0 R]. apply Z.ltb_lt in R. apply Z.leb_le in R0.
  destruct (nth (Z.to_nat i) cs None) as [u|] eqn:V; [|discriminate]. injection E as -> <-.
  eapply C; [exact B|]. rewrite <- V. apply nth_In.
  lia.
Qed.
Lemma in_list_set {A} (l : list A) i a b : In b (list_set l i a) -> b = a \/ In b l.
Proof.
  revert i. induction l as [|c l IH]; intros [|i]; cbn; try tauto.
  - intros [->|H]; auto.
  - intros [->|H]; auto. destruct (IH _ H); auto.
Qed.
Lemma ti_wr bt w p i v w' : ti bt w -> (forall a, p = Some a -> ty_of v = bt a) -> wr p i v w = (Done tt, w') ->
  ti bt w' /\ ob w' = ob w /\ hnext (hp w') = hnext (hp w).
Proof.
  intros [C1 C2] P E. unfold wr, wrc in E. destruct p as [a|]; [|discriminate].
  destruct (hblk (hp w) a) as [|own cs|] eqn:B; try discriminate.
  destruct ((0 <=? i) && (i <? Z.of_nat (length cs)))%bool; [|discriminate]. injection E as <-.
  split; [|split; reflexivity]. split; [exact C1|]. intros b own' ds u. cbn.
  destruct (Nat.eqb b a) eqn:Eb; [|apply C2]. apply PeanoNat.Nat.eqb_eq in Eb. subst b.
  intros H V. injection H as <- <-. destruct (in_list_set _ _ _ _ V) as [V'|V'].
  - injection V' as ->. now apply P.
  - eapply C2; eauto.
Qed.
Lemma wr_cases p i v w : wr p i v w = (Done tt, snd (wr p i v w)) \/ exists u, fst (wr p i v w) = Undef u.
Proof.
  unfold wr, wrc. destruct p as [a|]; [|right; eexists; reflexivity].
  destruct (hblk (hp w) a); try (right; eexists; reflexivity).
  destruct (_ && _); [left; reflexivity|right; eexists; reflexivity].
Qed.
Lemma rd_cases p i w : (exists v, rd p i w = (Done v, w)) \/ exists u, rd p i w = (Undef u, w).
Proof.
  unfold rd. destruct p as [a|]; [|right; eexists; reflexivity].
  destruct (hblk (hp w) a); try (right; eexists; reflexivity).
  destruct (_ && _); [|right; eexists; reflexivity]. destruct (nth _ _ _); [left|right]; eexists; reflexivity.
Qed.

(** Access through the pointer of an object. *)
Lemma kp_rd T o i : kp T (fun v => ty_of v = T o) (s <- st o ;; rd (ptr s) i).
Proof.
  intros w [bt [F0 C]] Y. unfold bind, st. destruct (rd_cases (ptr (ob w o)) i w) as [[v E]|[u E]]; rewrite E; [|exact I].
  split; [now exists bt|split; [exact Y|]]. destruct (ti_rd _ _ _ _ _ _ C E) as [a [P V]].
  rewrite V. destruct (proj1 C _ _ P) as [_ ->]. apply Y.
Qed.
Lemma kp_wr T o i v : ty_of v = T o -> kp T any (s <- st o ;; wr (ptr s) i v).
Proof.
  intros V w [bt [F0 C]] Y. unfold bind, st. destruct (wr_cases (ptr (ob w o)) i v w) as [E|[u E]].
  - destruct (wr (ptr (ob w o)) i v w) as [r w'] eqn:E'. cbn in E. injection E as ->.
    assert (K : forall a, ptr (ob w o) = Some a -> ty_of v = bt a).
    { intros a P. destruct (proj1 C _ _ P) as [_ ->]. rewrite V. symmetry. apply Y. }
    destruct (ti_wr _ _ _ _ _ _ C K E') as [C' [O' N']].
    split; [exists bt; split; [now apply (fixed_next bt w)|exact C']|split; [|exact I]]. intros o'. rewrite O'. apply Y.
  - destruct (wr (ptr (ob w o)) i v w) as [r w']. cbn in E. subst. exact I.
Qed.
(** The pointer may have been read before. *)
Lemma kp_wr_at T o w0 i v w : ob w = ob w0 -> ct w -> tys T w -> ty_of v = T o ->
  match wr (ptr (ob w0 o)) i v w with
  | (Undef _, _) => True
  | (_, w') => ct w' /\ tys T w' /\ ob w' = ob w0
  end.
Proof.
  intros E [bt [F0 C]] Y V. rewrite <- E. destruct (wr_cases (ptr (ob w o)) i v w) as [E1|[u E1]].
  - destruct (wr (ptr (ob w o)) i v w) as [r w'] eqn:E'. cbn in E1. injection E1 as ->.
    assert (K : forall a, ptr (ob w o) = Some a -> ty_of v = bt a).
    { intros a P. destruct (proj1 C _ _ P) as [_ ->]. rewrite V. symmetry. apply Y. }
    destruct (ti_wr _ _ _ _ _ _ C K E') as [C' [O' N']].
    split; [exists bt; split; [now apply (fixed_next bt w)|exact C']|split; [|congruence]]. intros o'. rewrite O'. apply Y.
  - destruct (wr (ptr (ob w o)) i v w) as [r w']. cbn in E1. subst. exact I.
Qed.


Lemma kp_guard {A} T (Q : A -> Prop) o (b : store -> bool) msg (k : store -> M world A) :
  kp T Q (s <- st o ;; k s) -> kp T Q (s <- st o ;; ass (b s) msg ;; k s).
Proof.
  intros H w C Y. unfold bind at 1, st. unfold bind at 1, ass. destruct (b (ob w o)); cbn; [|auto]. exact (H w C Y).
Qed.
Lemma kp_get_at T o i : kp T (fun v => ty_of v = T o) (get_at o i).
Proof.
  apply (kp_guard T _ o (fun s => alloc s)).
  apply (kp_guard T _ o (fun s => i <? sz s)). apply kp_rd.
Qed.
Lemma kp_set_at T o i v : ty_of v = T o -> kp T any (set_at o i v).
Proof.
  intros V. apply (kp_guard T _ o (fun s => alloc s)).
  apply (kp_guard T _ o (fun s => i <? sz s)). now apply kp_wr.
Qed.
Lemma kp_sexp_set_at T o i v : ty_of v = T o -> kp T any (sexp_set_at o i v).
Proof.
  intros V. apply (kp_guard T _ o (fun s => match ptr s with Some _ => true | None => false end)).
  apply (kp_guard T _ o (fun s => i <? sz s)). now apply kp_wr.
Qed.
Lemma kp_sexp_get_at T o i : kp T (fun v => ty_of v = T o) (sexp_get_at o i).
Proof.
  apply (kp_guard T _ o (fun s => match ptr s with Some _ => true | None => false end)).
  apply (kp_guard T _ o (fun s => i <? sz s)). apply kp_rd.
Qed.
Lemma kp_at_rd T o i : kp T (fun v => ty_of v = T o) (at_rd o i).
Proof. apply kp_st. intros s _. destruct (kd s); [apply kp_get_at|apply kp_get_at|apply kp_sexp_get_at]. Qed.
Lemma kp_at_wr T o i v : ty_of v = T o -> kp T any (at_wr o i v).
Proof. intros V. apply kp_st. intros s _. destruct (kd s); [now apply kp_set_at|now apply kp_set_at|now apply kp_sexp_set_at]. Qed.

(** Loops that write through a pointer read before them. *)
Lemma kp_loop T o (m : Z -> M world val) :
  (forall i w, snd (m i w) = w) -> (forall i, kp T (fun v => ty_of v = T o) (m i)) ->
  forall n i w0 w, ob w = ob w0 -> ct w -> tys T w ->
  match forN n i (fun i => v <- m i ;; wr (ptr (ob w0 o)) i v) w with
  | (Undef _, _) => True
  | (_, w') => ct w' /\ tys T w' /\ ob w' = ob w0
  end.
Proof.
  intros Mp Mv. induction n as [|n IH]; intros i w0 w E C Y; cbn [forN]; [cbn; auto|].
  unfold bind at 1 2. generalize (Mp i w), (Mv i w C Y). destruct (m i w) as [[v|e|u] w1]; cbn; intros ->; intuition.
  pose proof (kp_wr_at T o w0 i v w E C Y H2) as K. destruct (wr (ptr (ob w0 o)) i v w) as [[[]|e|u] w2]; auto.
  destruct K as [C2 [Y2 E2]]. apply IH; auto.
Qed.
Lemma kp_fill T o v : kp T any (fill o v).
Proof.
  intros w C Y. unfold fill. rewrite bind_st. unfold bind, lift.
  destruct (cast (sty (ob w o)) v) as [v'|e|u] eqn:V; auto. unfold for_.
  assert (X : ty_of v' = T o) by (rewrite <- (Y o); eapply ConsProofs2.cast_ty; eauto).
  pose proof (kp_loop T o (fun _ => ret v') (fun _ _ => eq_refl) (fun _ => kp_ret T _ v' X) (Z.to_nat (sz (ob w o))) 0 w w eq_refl C Y) as K.
  change (fun i : Z => v <- ret v' ;; wr (ptr (ob w o)) i v) with (fun i : Z => wr (ptr (ob w o)) i v') in K.
  destruct (forN _ _ _ _) as [[[]|e|u] w']; intuition.
Qed.
Lemma kp_cast {B} T (Q : B -> Prop) t v f : (forall v', ty_of v' = t -> kp T Q (f v')) -> kp T Q (bind (lift (cast t v)) f).
Proof. intros H. eapply kp_bind; [apply kp_lift; intros a Ha; exact (ConsProofs2.cast_ty _ _ _ Ha)|exact H]. Qed.
Lemma kp_fill_expr lm T o e : kp T any (fill_expr lm o e).
Proof.
  intros w C Y. unfold fill_expr. unfold bind at 1, get. unfold bind at 1, st. unfold bind at 1, ass.
  destruct (esize w e =? sz (ob w o)); cbn [ret throw]; [|auto]. unfold for_.
  pose proof (kp_loop T o (fun i => v <- elem lm e i ;; lift (cast (sty (ob w o)) v))) as K.
  specialize (K ltac:(intros; apply bind_pure; [apply elem_pure|reflexivity])).
  assert (K2 : forall i, kp T (fun v => ty_of v = T o) (v <- elem lm e i ;; lift (cast (sty (ob w o)) v))).
  { intros i. eapply kp_bind; [apply kp_elem|]. intros v _. apply kp_lift. intros v' Hv. rewrite <- (Y o). eapply ConsProofs2.cast_ty; eauto. }
  specialize (K K2 (Z.to_nat (sz (ob w o))) 0 w w eq_refl C Y).
  assert (R : forall n i w1, forN n i (fun i => v <- elem lm e i ;; v' <- lift (cast (sty (ob w o)) v) ;; wr (ptr (ob w o)) i v') w1 =
    forN n i (fun i => v <- (v <- elem lm e i ;; lift (cast (sty (ob w o)) v)) ;; wr (ptr (ob w o)) i v) w1).
  { intros n i w1. apply (@forN_ext (fun _ => True)). intros j w2. now rewrite bind_assoc. }
  rewrite R. destruct (forN _ _ _ _) as [[[]|?|?] w']; intuition.
Qed.

(* --------------------------------------------------------- storage objects *)

Ltac kpu := apply kp_upd; [reflexivity|cbn; intros; try discriminate; assumption].

Lemma kp_tail T {B} (Q : B -> Prop) m k : kp T any (A := unit) m -> (kp T Q k) -> kp T Q (m ;; k).
Proof. intros H K. eapply kp_bind; [exact H|auto]. Qed.

Lemma kp_init T o n : kp T any (init o n).
Proof.
  apply kp_st. intros s _. apply kp_tail; [|].
  { apply kp_if; [|now apply kp_ret]. apply kp_tail; [apply kp_ass|]. apply kp_tail; [apply kp_del|kpu]. }
  apply kp_tail; [kpu|]. eapply kp_bind; [apply kp_lift; intros; exact I|]. intros c _.
  apply kp_tail; [kpu|]. apply kp_new. intros a. kpu.
Qed.
Lemma kp_resize T o n : kp T any (resize o n).
Proof.
  apply kp_tail; [apply kp_ass|]. apply kp_st. intros s _. apply kp_if.
  { apply kp_tail; [apply kp_init|apply kp_fill]. }
  apply kp_if; [|kpu].
  apply kp_tail; [apply kp_ass|]. apply kp_tail; [apply kp_del|].
  eapply kp_bind; [apply kp_lift; intros; exact I|]. intros c _.
  apply kp_tail; [kpu|]. apply kp_new. intros a.
  apply kp_tail; [kpu|]. apply kp_tail; [kpu|]. apply kp_fill.
Qed.
Lemma kp_sexp_init T o n : kp T any (sexp_init o n).
Proof.
  apply kp_st. intros s _. apply kp_tail; [|].
  { apply kp_if; [|now apply kp_ret]. apply kp_tail; [apply kp_ass|]. apply kp_tail; [apply kp_del|kpu]. }
  apply kp_tail; [kpu|]. eapply kp_bind; [apply kp_lift; intros; exact I|]. intros c _.
  apply kp_tail; [kpu|]. apply kp_new. intros a. kpu.
Qed.
Lemma kp_sexp_resize T o n : kp T any (sexp_resize o n).
Proof.
  apply kp_tail; [apply kp_ass|]. apply kp_st. intros s _. apply kp_if.
  { apply kp_tail; [apply kp_sexp_init|apply kp_fill]. }
  apply kp_if; [|kpu].
  apply kp_tail; [apply kp_ass|]. apply kp_tail; [apply kp_del|]. apply kp_tail; [kpu|].
  eapply kp_bind; [apply kp_lift; intros; exact I|]. intros c _.
  apply kp_tail; [kpu|]. apply kp_new. intros a.
  apply kp_tail; [kpu|]. apply kp_fill.
Qed.
Lemma kp_borrow_resize T o n : kp T any (borrow_resize o n).
Proof. apply kp_tail; [apply kp_ass|]. apply kp_st. intros s _. apply kp_if; [kpu|apply kp_ass]. Qed.
Lemma kp_any_resize T o n : kp T any (any_resize o n).
Proof. apply kp_st. intros s _. destruct (kd s); [apply kp_resize|apply kp_borrow_resize|apply kp_sexp_resize]. Qed.
Lemma kp_any_destroy T o : kp T any (any_destroy o).
Proof.
  apply kp_st. intros s _. destruct (kd s).
  - apply kp_st. intros s' _. destruct (ptr s'); [|now apply kp_ret]. apply kp_if; [|now apply kp_ret].
    apply kp_tail; [apply kp_del|kpu].
  - now apply kp_ret.
  - apply kp_st. intros s' _. apply kp_if; [|now apply kp_ret]. apply kp_tail; [apply kp_del|kpu].
Qed.
Lemma kp_vec_end T x : kp T any (vec_end x).
Proof.
  unfold vec_end, vec_destroy. repeat (apply kp_tail; [|]); try apply kp_any_destroy; kpu.
Qed.

(** The exchange of two objects of the same type. *)
Lemma kp_swap T o p (f g : store -> store -> store) : T o = T p ->
  (forall s t, sty (f s t) = sty s /\ ptr (f s t) = ptr t) -> (forall s t, sty (g s t) = sty t /\ ptr (g s t) = ptr s) ->
  kp T any (t <- st p ;; s <- st o ;; upd p (fun t => g s t) ;; upd o (fun s => f s t)).
Proof.
  intros E F G w [bt [F0 C]] Y. unfold bind, st, upd. split; [|split; [|exact I]].
  - exists bt. split; [exact F0|]. apply ti_set.
    + apply ti_set; [exact C|]. intros a. destruct (G (ob w o) (ob w p)) as [-> ->]. intros P.
      destruct (proj1 C _ _ P) as [L ->]. split; [exact L|]. rewrite (Y o), (Y p). exact E.
    + intros a. destruct (F (ob (set_ob w p (g (ob w o) (ob w p))) o) (ob w p)) as [-> ->]. intros P.
      destruct (proj1 C _ _ P) as [L ->]. split; [exact L|]. rewrite ob_set.
      destruct (oid_eqb o p); [destruct (G (ob w o) (ob w p)) as [-> _]; reflexivity|]. rewrite (Y o), (Y p). auto.
  - apply tys_set; [apply tys_set; [exact Y|]|].
    + destruct (G (ob w o) (ob w p)) as [-> _]. apply Y.
    + destruct (F (ob (set_ob w p (g (ob w o) (ob w p))) o) (ob w p)) as [-> _]. rewrite ob_set.
      destruct (oid_eqb o p); [destruct (G (ob w o) (ob w p)) as [-> _]; rewrite E; apply Y|apply Y].
Qed.
Lemma kp_moveit T o p : T o = T p -> kp T any (moveit o p).
Proof.
  intros E. apply (kp_swap T o p (fun s t => with_alloc true (with_cap (wrap64 (to_int (cap t))) (with_sz (wrap64 (to_int (sz t))) (with_ptr (ptr t) s))))
    (fun s t => with_cap (cap s) (with_sz (sz s) (with_ptr (ptr s) t)))); auto.
Qed.
Lemma kp_sexp_moveit T o p : T o = T p -> kp T any (sexp_moveit o p).
Proof.
  intros E. apply kp_st. intros s0 _. apply kp_st. intros t0 _. apply kp_tail; [apply kp_if; [apply kp_sexp_resize|now apply kp_ret]|].
  apply (kp_swap T o p (fun s t => with_cap (wrap64 (to_int (cap t))) (with_sz (wrap64 (to_int (sz t))) (with_ptr (ptr t) s)))
    (fun s t => with_cap (cap s) (with_sz (sz s) (with_ptr (ptr s) t)))); auto.
Qed.

(* -------------------------------------------------------------- assignments *)

Lemma kp_take_shape T o e : kp T any (take_shape o e).
Proof.
  apply kp_get. intros w _ _. apply kp_if; [|now apply kp_ret].
  eapply kp_bind; [apply kp_lift; intros; exact I|]. intros r _.
  eapply kp_bind; [apply kp_lift; intros; exact I|]. intros c _. kpu.
Qed.
Lemma kp_fill_temp lm T o t e n : T o = t -> kp T any (fill_temp lm o t e n).
Proof.
  intros E. apply kp_for. intros i. eapply kp_bind; [apply kp_elem|]. intros v _. apply kp_cast. intros v' V.
  apply kp_set_at. congruence.
Qed.
Lemma kp_assign lm T x e : T (OT x) = T (OD x) -> kp T any (assign lm x e).
Proof.
  intros E. apply kp_st. intros s _. destruct (kd s).
  - apply kp_get. intros w _ Y. apply kp_tail; [apply kp_resize|].
    apply kp_tail; [apply kp_fill_temp; rewrite (Y (OD x)); exact E|].
    apply kp_tail; [now apply kp_moveit|]. apply kp_take_shape.
  - apply kp_get. intros w _ Y. apply kp_tail; [apply kp_ass|]. apply kp_tail; [apply kp_resize|].
    apply kp_tail; [apply kp_fill_temp; rewrite (Y (OD x)); exact E|].
    apply kp_tail; [apply kp_ass|]. apply kp_tail; [kpu|].
    apply kp_get. intros w2 _ _. apply kp_tail; [|apply kp_take_shape].
    apply kp_for. intros i. eapply kp_bind; [apply kp_get_at|]. intros v V. apply kp_at_wr. congruence.
  - apply kp_get. intros w _ Y. apply kp_tail; [apply kp_resize|].
    apply kp_tail; [apply kp_fill_temp; rewrite (Y (OD x)); exact E|].
    apply kp_get. intros w2 _ _. apply kp_tail; [apply kp_if; [apply kp_sexp_resize|now apply kp_ret]|].
    apply kp_tail; [now apply kp_sexp_moveit|]. apply kp_take_shape.
Qed.
Lemma kp_assign_scalar T x v : kp T any (assign_scalar x v).
Proof.
  apply kp_st. intros s S.
  assert (K : kp T any (v' <- lift (cast (sty s) v) ;; at_wr (OD x) 0 v')) by (apply kp_cast; intros v' V; apply kp_at_wr; congruence).
  destruct (kd s); (apply kp_tail; [|exact K]); [apply kp_any_resize|kpu|apply kp_any_resize].
Qed.
Lemma kp_sub_wr T x ind k v : ty_of v = T (OD x) -> kp T any (sub_wr x ind k v).
Proof.
  intros V. apply kp_get. intros w _ _. eapply kp_bind; [apply kp_lift; intros; exact I|]. intros j _.
  eapply kp_bind; [apply kp_lift; intros; exact I|]. intros l _. now apply kp_at_wr.
Qed.
Lemma kp_assign_subset_scalar T x ind v : kp T any (assign_subset_scalar x ind v).
Proof.
  apply kp_get. intros w _ Y. apply kp_for. intros i. apply kp_cast. intros v' V. apply kp_sub_wr. rewrite V. apply Y.
Qed.
Lemma kp_scoped {A} T (Q : A -> Prop) o m : kp T Q m -> kp T Q (VecModel.scoped o m).
Proof.
  intros H w C Y. unfold VecModel.scoped. specialize (H w C Y). destruct (m w) as [[a|e|u] w1]; auto.
  - destruct H as [C1 [Y1 P1]]. exact (kp_tail T Q _ _ (kp_any_destroy T o) (kp_ret T Q a P1) w1 C1 Y1).
  - destruct H as [C1 Y1]. exact (kp_tail T Q _ _ (kp_any_destroy T o) (kp_throw T Q e) w1 C1 Y1).
Qed.

(* ------------------------------------------------------ new vectors, programs *)

Definition in_list (L : list nat) (o : oid) : Prop := match o with OD x | OT x => In x L end.
Definition agree (L : list nat) (T T' : oid -> ety) : Prop := forall o, in_list L o -> T' o = T o.
Definition tr {A} (L : list nat) (T : oid -> ety) (Q : A -> (oid -> ety) -> Prop) (m : M world A) : Prop :=
  forall w, ct w -> tys T w ->
    match m w with
    | (Done a, w') => exists T', ct w' /\ tys T' w' /\ agree L T T' /\ Q a T'
    | (Thrown _, w') => exists T', ct w' /\ tys T' w' /\ agree L T T'
    | (Undef _, _) => True
    end.
Lemma agree_refl L T : agree L T T.
Proof. intros o _. reflexivity. Qed.
Lemma agree_trans L T T1 T2 : agree L T T1 -> agree L T1 T2 -> agree L T T2.
Proof. intros H1 H2 o I. rewrite (H2 o I). now apply H1. Qed.
Lemma agree_incl L L' T T' : incl L L' -> agree L' T T' -> agree L T T'.
Proof. intros I H [x|x] J; apply H; now apply I. Qed.

Lemma tr_kp {A} L T (P : A -> Prop) m : kp T P m -> tr L T (fun a T' => P a /\ T' = T) m.
Proof.
  intros H w C Y. specialize (H w C Y). destruct (m w) as [[a|e|u] w1]; auto.
  - destruct H as [C1 [Y1 P1]]. exists T. repeat split; auto; apply agree_refl.
  - destruct H as [C1 Y1]. exists T. repeat split; auto; apply agree_refl.
Qed.
Lemma tr_bind {A B} L T (P : A -> (oid -> ety) -> Prop) (Q : B -> (oid -> ety) -> Prop) m f :
  tr L T P m -> (forall a T', agree L T T' -> P a T' -> tr L T' Q (f a)) -> tr L T Q (bind m f).
Proof.
  intros H G w C Y. unfold bind. specialize (H w C Y). destruct (m w) as [[a|e|u] w1]; auto.
  destruct H as [T1 [C1 [Y1 [A1 P1]]]]. specialize (G a T1 A1 P1 w1 C1 Y1).
  destruct (f a w1) as [[b|e|u] w2]; auto.
  - destruct G as [T2 [C2 [Y2 [A2 P2]]]]. exists T2. repeat (split; auto); eapply agree_trans; eauto.
  - destruct G as [T2 [C2 [Y2 A2]]]. exists T2. repeat (split; auto); eapply agree_trans; eauto.
Qed.
Lemma tr_kbind {A B} L T (P : A -> Prop) (Q : B -> (oid -> ety) -> Prop) m f :
  kp T P m -> (forall a, P a -> tr L T Q (f a)) -> tr L T Q (bind m f).
Proof. intros H G. eapply tr_bind; [apply tr_kp; exact H|]. intros a T' _ [Pa ->]. auto. Qed.
Lemma tr_weak {A} L T (P Q : A -> (oid -> ety) -> Prop) m : tr L T P m -> (forall a T', P a T' -> Q a T') -> tr L T Q m.
Proof.
  intros H G w C Y. specialize (H w C Y). destruct (m w) as [[a|e|u] w1]; auto.
  destruct H as [T1 [C1 [Y1 [A1 P1]]]]. exists T1. auto.
Qed.
Lemma tr_incl {A} L L' T (Q : A -> (oid -> ety) -> Prop) m : incl L L' -> tr L' T Q m -> tr L T Q m.
Proof.
  intros I H w C Y. specialize (H w C Y). destruct (m w) as [[a|e|u] w1]; auto.
  - destruct H as [T1 [C1 [Y1 [A1 P1]]]]. exists T1. repeat (split; auto); eapply agree_incl; eauto.
  - destruct H as [T1 [C1 [Y1 A1]]]. exists T1. repeat (split; auto); eapply agree_incl; eauto.
Qed.
Lemma tr_get {B} L T (Q : B -> (oid -> ety) -> Prop) f :
  (forall w, ct w -> tys T w -> tr L T Q (f w)) -> tr L T Q (bind get f).
Proof. intros H w C Y. exact (H w C Y w C Y). Qed.
Lemma tr_any {A} L T (Q : A -> (oid -> ety) -> Prop) (m : M world A) : kp T any m -> (forall a, Q a T) -> tr L T Q m.
Proof. intros H G. eapply tr_weak; [apply tr_kp; exact H|]. cbn. intros a T' [_ ->]. apply G. Qed.
Lemma tr_throw {A} L T (Q : A -> (oid -> ety) -> Prop) e : tr L T Q (throw e).
Proof. intros w C Y. cbn. exists T. repeat (split; auto). Qed.
Lemma kp_any {A} T (o : outcome A) : kp T any (lift o).
Proof. now apply kp_lift. Qed.

Definition set_t (T : oid -> ety) (o : oid) (t : ety) : oid -> ety := fun o' => if oid_eqb o' o then t else T o'.
Lemma set_t_same T o t : set_t T o t o = t.
Proof. unfold set_t. now rewrite oeq. Qed.
Lemma tys_set_t T w o s : tys T w -> tys (set_t T o (sty s)) (set_ob w o s).
Proof. intros Y o'. rewrite ob_set. unfold set_t. destruct (oid_eqb o' o); [reflexivity|apply Y]. Qed.
Lemma agree_set_t L T o t : ~ in_list L o -> agree L T (set_t T o t).
Proof.
  intros N o' I. unfold set_t. destruct (oid_eqb o' o) eqn:E; [|reflexivity]. apply oeq_true in E. now subst.
Qed.

Lemma tr_default L T o t : ~ in_list L o -> tr L T (fun _ T' => T' = set_t T o t) (ctor_default o t).
Proof.
  intros N w [bt [F0 C]] Y. cbn. exists (set_t T o t). split; [|split; [|split; [now apply agree_set_t|reflexivity]]].
  - exists bt. split; [exact F0|]. apply ti_set; [exact C|]. cbn. discriminate.
  - apply (tys_set_t T w o (store_default KBuffer t) Y).
Qed.
Lemma tr_size L T o t n : ~ in_list L o -> tr L T (fun _ T' => T' = set_t T o t) (ctor_size o t n).
Proof.
  intros N. unfold ctor_size. eapply tr_kbind; [apply kp_any|]. intros c _. eapply tr_kbind; [apply kp_ass|]. intros _ _.
  intros w [bt [F0 [C1 C2]]] Y. unfold bind at 1, new_. destruct (c <=? hlim (hp w)).
  2: { exists T. split; [now exists bt|split; [exact Y|apply agree_refl]]. }
  set (w1 := set_hp w _). set (bt1 := fun a => if Nat.eqb a (hnext (hp w)) then t else bt a).
  assert (K1 : ti bt1 w1).
  { split.
    - intros o' a P. destruct (C1 o' a P) as [L1 L2]. split; [cbn; lia|]. unfold bt1.
      rewrite (proj2 (PeanoNat.Nat.eqb_neq a (hnext (hp w)))) by lia. exact L2.
    - intros a own cs v. cbn. unfold bt1. destruct (Nat.eqb a (hnext (hp w))) eqn:E; [|apply C2].
      intros P. injection P as _ <-. intros V. apply repeat_spec in V. discriminate. }
  assert (Loop : forall k i w2, ti bt1 w2 -> ob w2 = ob w -> hnext (hp w2) = S (hnext (hp w)) ->
    match forN k i (fun i => wr (Some (hnext (hp w))) i (zero_of t)) w2 with
    | (Done _, w3) => ti bt1 w3 /\ ob w3 = ob w /\ hnext (hp w3) = S (hnext (hp w))
    | (Thrown _, _) => False
    | (Undef _, _) => True
    end).
  { induction k as [|k IH]; intros i w2 K2 O2 H2; cbn [forN]; [cbn; auto|]. unfold bind.
    destruct (wr_cases (Some (hnext (hp w))) i (zero_of t) w2) as [E|[u E]].
    - destruct (wr _ i (zero_of t) w2) as [r w3] eqn:E3. cbn in E. injection E as ->.
      assert (Z : forall a, Some (hnext (hp w)) = Some a -> ty_of (zero_of t) = bt1 a).
      { intros a Ha. injection Ha as <-. unfold bt1. rewrite PeanoNat.Nat.eqb_refl. now destruct t. }
      destruct (ti_wr _ _ _ _ _ _ K2 Z E3) as [K3 [O3 H3]]. apply IH; congruence.
    - destruct (wr _ i (zero_of t) w2) as [r w3]. cbn in E. subst. exact I. }
  unfold bind, for_. specialize (Loop (Z.to_nat c) 0 w1 K1 eq_refl eq_refl).
  destruct (forN _ _ _ w1) as [[[]|e|u] w3]; [|contradiction|exact I]. destruct Loop as [K3 [O3 H3]]. cbn.
  exists (set_t T o t). split; [|split; [|split; [now apply agree_set_t|reflexivity]]].
  - exists bt1. split; [unfold bt1; now apply (fixed_fresh bt w)|]. apply (ti_set bt1 w3 o); [exact K3|]. cbn. intros a Ha. injection Ha as <-. rewrite H3. split; [lia|].
    unfold bt1. now rewrite PeanoNat.Nat.eqb_refl.
  - apply (tys_set_t T w3 o (mkStore KBuffer t (Some (hnext (hp w))) n c true mp_none false)).
    intros o'. rewrite O3. apply Y.
Qed.
Lemma notin_d (L : list nat) x : ~ In x L -> ~ in_list L (OD x) /\ ~ in_list L (OT x).
Proof. cbn. auto. Qed.
Definition vec_t (T : oid -> ety) x t t2 := set_t (set_t T (OD x) t) (OT x) t2.
Lemma tr_sized L T x t n : ~ In x L -> tr L T (fun _ T' => T' = vec_t T x t t) (vec_sized x t n).
Proof.
  intros N. destruct (notin_d L x N) as [N1 N2]. eapply tr_bind; [now apply tr_size|]. cbn. intros _ T1 _ ->.
  now apply tr_default.
Qed.
Lemma vec_t_d T x t t2 : vec_t T x t t2 (OD x) = t.
Proof. unfold vec_t, set_t. cbn. now rewrite PeanoNat.Nat.eqb_refl. Qed.
Lemma vec_t_t T x t t2 : vec_t T x t t2 (OT x) = t2.
Proof. unfold vec_t, set_t. cbn. now rewrite PeanoNat.Nat.eqb_refl. Qed.
Lemma kp_built T x m : kp T any m -> kp T any (built x m).
Proof.
  intros H w C Y. unfold built. specialize (H w C Y). destruct (m w) as [[a|e|u] w1]; auto.
  destruct H as [C1 Y1]. exact (kp_tail T _ _ _ (kp_vec_end T x) (kp_throw T any e) w1 C1 Y1).
Qed.
Lemma tr_default_vec L T x t : ~ In x L -> tr L T (fun _ T' => T' = vec_t T x t t) (vec_default x t).
Proof.
  intros N. destruct (notin_d L x N) as [N1 N2]. eapply tr_bind; [now apply tr_default|]. cbn. intros _ T1 _ ->.
  now apply tr_default.
Qed.
Lemma tr_of_expr lm L T x t e : ~ In x L -> tr L T (fun _ T' => T' = vec_t T x t t) (vec_of_expr lm x t e).
Proof.
  intros N. unfold vec_of_expr. apply tr_get. intros w _ _. eapply tr_bind; [now apply tr_default_vec|]. cbn. intros _ T1 _ ->.
  set (T1 := vec_t T x t t). apply tr_any; [|reflexivity].
  assert (K : kp T1 any ((if 0 <? esize w e then resize (OD x) (esize w e) else upd (OD x) (with_sz (esize w e))) ;;
       fill_temp lm (OD x) t e (esize w e) ;; take_shape (OD x) e)).
  { apply kp_tail; [apply kp_if; [apply kp_resize|kpu]|]. apply kp_tail; [apply kp_fill_temp; apply vec_t_d|apply kp_take_shape]. }
  intros w1 C Y. specialize (K w1 C Y). destruct (bind _ _ w1) as [[a|ex|u] w2]; auto.
  destruct K as [C1 Y1]. exact (kp_tail T1 any _ _ (kp_any_destroy T1 _) (kp_throw T1 any ex) w2 C1 Y1).
Qed.
Lemma tr_steal L T x s t : ~ In x L -> T (OD s) = t -> x <> s ->
  tr L T (fun _ T' => T' = vec_t T x t t) (vec_steal x s t).
Proof.
  intros N E D. destruct (notin_d L x N) as [N1 N2]. eapply tr_bind with (P := fun _ T' => T' = set_t T (OD x) t);
    [|cbn; intros _ T1 _ ->; now apply tr_default].
  unfold ctor_steal. eapply tr_bind; [now apply tr_default|]. cbn. intros _ T1 _ ->. apply tr_any; [|reflexivity].
  intros w [bt [F0 C]] Y. rewrite bind_st. set (T1 := set_t T (OD x) t) in *.
  assert (K : forall w, ct w -> tys T1 w -> forall p, (forall a, p = Some a -> exists bt, fixed bt w /\ ti bt w /\ (a < hnext (hp w))%nat /\ bt a = t) ->
    ct (set_ob w (OD x) (with_ptr p (ob w (OD x)))) /\ tys T1 (set_ob w (OD x) (with_ptr p (ob w (OD x))))).
  { intros w1 [bt1 [F1 C1]] Y1 p P. split; [|apply tys_set; [exact Y1|apply Y1]]. destruct p as [a|].
    - destruct (P a eq_refl) as [bt2 [F2 [C2 [L2 B2]]]]. exists bt2. split; [exact F2|]. apply ti_set; [exact C2|]. cbn. intros b Hb. injection Hb as <-.
      rewrite (Y1 (OD x)). unfold T1. rewrite set_t_same. auto.
    - exists bt1. split; [exact F1|]. apply ti_set; [exact C1|]. cbn. discriminate. }
  set (s0 := ob w (OD s)).
  pose (w2 := set_ob (set_ob (set_ob (set_ob w (OD x) (with_alloc (alloc s0) (ob w (OD x)))) (OD s) (with_sz 0 s0)) (OD x)
     (with_sz (sz s0) (with_alloc (alloc s0) (ob w (OD x))))) (OD s) (with_ptr None (with_sz 0 s0))).
  assert (C2 : ti bt w2).
  { repeat apply ti_set; try exact C; cbn; try discriminate; intros a Ha; exact (proj1 C _ _ Ha). }
  assert (Y2 : tys T1 w2) by (repeat apply tys_set; try exact Y; cbn; apply Y).
  destruct (K w2 (ex_intro _ bt (conj F0 C2)) Y2 (ptr s0)) as [C3 Y3].
  { intros a Ha. exists bt. split; [exact F0|]. split; [exact C2|]. destruct (proj1 C _ _ Ha) as [L9 ->]. split; [exact L9|].
    rewrite (Y (OD s)). unfold T1, set_t. cbn. rewrite (proj2 (PeanoNat.Nat.eqb_neq s x)) by congruence. exact E. }
  set (w3 := set_ob w2 (OD x) (with_ptr (ptr s0) (ob w2 (OD x)))) in *.
  assert (R : (upd (OD x) (with_alloc (alloc s0)) ;; upd (OD s) (with_sz 0) ;; upd (OD x) (with_sz (sz s0)) ;;
     upd (OD s) (with_ptr None) ;; upd (OD x) (with_ptr (ptr s0)) ;;
     (if ismat (mp s0) then upd (OD x) (with_mp (mkMP true (rows (mp s0)) (cols (mp s0)))) else ret tt)) w =
     (if ismat (mp s0) then upd (OD x) (with_mp (mkMP true (rows (mp s0)) (cols (mp s0)))) else ret tt) w3).
  { assert (D1 : oid_eqb (OD s) (OD x) = false) by (cbn; apply PeanoNat.Nat.eqb_neq; congruence).
    assert (D2 : oid_eqb (OD x) (OD s) = false) by (cbn; apply PeanoNat.Nat.eqb_neq; congruence).
    unfold bind, upd. unfold w3, w2. rewrite !ob_set, !D1, !D2, !oeq. reflexivity. }
  rewrite R.
  assert (K2 : kp T1 any (if ismat (mp s0) then upd (OD x) (with_mp (mkMP true (rows (mp s0)) (cols (mp s0)))) else ret tt)).
  { apply kp_if; [kpu|now apply kp_ret]. }
  exact (K2 w3 C3 Y3).
Qed.

(* ------------------------------------------------------------------ makers *)

Lemma kp_arg_first lm T a : kp T any (arg_first lm a).
Proof. destruct a; [now apply kp_ret|apply kp_elem]. Qed.
Lemma kp_rep_loop lm T x t e : T (OD x) = t -> forall n i c, kp T any (rep_loop lm x t e n i c).
Proof.
  intros E. induction n as [|n IH]; intros i c; cbn [rep_loop]; [now apply kp_ret|].
  eapply kp_bind; [apply kp_elem|]. intros v _. apply kp_cast. intros v' V.
  apply kp_tail; [apply kp_set_at; congruence|]. apply kp_get. intros w _ _. apply IH.
Qed.
Lemma kp_count_loop {A} T x go (put : A -> val) next : (forall a, ty_of (put a) = T (OD x)) ->
  forall fuel s c, kp T any (count_loop x go put next fuel s c).
Proof.
  intros E. induction fuel as [|k IH]; intros s c; cbn [count_loop]; [apply kp_undef|]. apply kp_if; [|now apply kp_ret].
  apply kp_tail; [now apply kp_set_at|]. eapply kp_bind; [apply kp_any|]. intros s' _. apply IH.
Qed.
Lemma kp_coca_fill lm T x t : T (OD x) = t -> forall args i, kp T any (coca_fill lm x t args i).
Proof.
  intros E. induction args as [|[v|u e] r IH]; intros i; cbn [coca_fill]; [now apply kp_ret| |].
  - apply kp_cast. intros v' V. apply kp_tail; [apply kp_set_at; congruence|apply IH].
  - apply kp_get. intros w _ _. apply kp_tail; [|apply IH]. apply kp_for. intros j.
    eapply kp_bind; [apply kp_elem|]. intros v _. apply kp_cast. intros v' V. apply kp_set_at. congruence.
Qed.
Definition made_t {A} (s : nat) (t : ety) : A -> (oid -> ety) -> Prop := fun _ T' => T' (OD s) = t.

Lemma tr_matrix L T x t r c : ~ In x L -> tr L T (fun _ T' => T' = vec_t T x t t) (vec_matrix x t r c).
Proof.
  intros N. destruct (notin_d L x N) as [N1 N2]. unfold vec_matrix.
  eapply tr_bind; [now apply tr_size|]. cbn. intros _ T1 _ ->.
  eapply tr_bind; [now apply tr_default|]. cbn. intros _ T1 _ ->. apply tr_any; [kpu|reflexivity].
Qed.
Lemma tr_create L T x vt v : ~ In x L -> tr L T (made_t x TDouble) (create_rvec x vt v).
Proof.
  intros N. destruct (notin_d L x N) as [N1 N2]. unfold create_rvec. eapply tr_kbind; [apply kp_any|]. intros n _.
  eapply tr_kbind; [apply kp_ass|]. intros _ _. eapply tr_bind; [now apply tr_size|]. cbn. intros _ T1 _ ->.
  eapply tr_weak; [now apply tr_default|]. intros a T' ->. apply (vec_t_d T x TDouble vt).
Qed.
Lemma tr_made L T x t m : ~ In x L -> (forall T', T' (OD x) = t -> kp T' any m) ->
  forall n, tr L T (made_t x t) (vec_sized x t n ;; built x m).
Proof.
  intros N H n. eapply tr_bind; [now apply tr_sized|]. cbn. intros _ T1 _ ->. apply tr_any.
  - apply kp_built, H, vec_t_d.
  - intros a. apply vec_t_d.
Qed.
Lemma build_arg_ty lm w a a' : lbuild_arg lm w a = Done a' -> arg_ty a' = larg_ty a.
Proof. destruct a as [v|t e]; cbn; [now intros [= <-]|]. destruct (lbuild lm w e); cbn; intros [= <-]; reflexivity. Qed.
Lemma build_args_ty lm w args : forall args', omap (lbuild_arg lm w) args = Done args' -> coca_type args' = lcoca_ty args.
Proof.
  induction args as [|a r IH]; intros args'; cbn [omap]; [now intros [= <-]|].
  destruct (lbuild_arg lm w a) as [a'|?|?] eqn:A; try discriminate. cbn [obind].
  destruct (omap (lbuild_arg lm w) r) as [r'|?|?] eqn:R; try discriminate. cbn [obind]. intros [= <-].
  specialize (IH r' eq_refl). pose proof (build_arg_ty _ _ _ _ A) as E. destruct r as [|b r].
  - cbn in R. injection R as <-. exact E.
  - cbn [omap] in R. destruct (lbuild_arg lm w b) as [b'|?|?]; try discriminate. cbn [obind] in R.
    destruct (omap (lbuild_arg lm w) r) as [r1|?|?]; try discriminate. injection R as <-.
    change (coca_type (a' :: b' :: r1)) with (common (arg_ty a') (coca_type (b' :: r1))).
    change (lcoca_ty (a :: b :: r)) with (common (larg_ty a) (lcoca_ty (b :: r))). congruence.
Qed.
Lemma kp_done {A} T (o : outcome A) : kp T (fun a => o = Done a) (lift o).
Proof. now apply kp_lift. Qed.

Lemma tr_make lm L T s m : ~ In s L -> tr L T (made_t s (lmaker_ty m)) (lmake lm s m).
Proof.
  intros N. unfold lmake. apply tr_get. intros w _ _. destruct m as [vt a|a b|i t|args|i r c|inf e|a]; cbn [lmaker_ty].
  - eapply tr_kbind; [apply kp_any|]. intros [v|t e] _; cbn [vector_fn]; [now apply tr_create|].
    apply tr_get. intros w1 _ _. eapply tr_kbind; [apply kp_ass|]. intros _ _. eapply tr_kbind; [apply kp_elem|]. intros v _.
    now apply tr_create.
  - eapply tr_kbind; [apply kp_done|]. intros a' A. eapply tr_kbind; [apply kp_done|]. intros b' B.
    rewrite <- (build_arg_ty _ _ _ _ A), <- (build_arg_ty _ _ _ _ B). unfold colon_fn.
    eapply tr_kbind; [apply kp_arg_first|]. intros x _. eapply tr_kbind; [apply kp_lift; intros y Y; exact (ConsProofs2.cast_ty _ _ _ Y)|]. intros x' X.
    eapply tr_kbind; [apply kp_arg_first|]. intros y _. eapply tr_kbind; [apply kp_lift; intros z Y; exact (ConsProofs2.cast_ty _ _ _ Y)|]. intros y' Y.
    rewrite <- X. destruct x' as [p|p|p], y' as [q|q|q]; try (apply tr_throw).
    + unfold colon_int. eapply tr_kbind; [apply kp_any|]. intros d _. eapply tr_kbind; [apply kp_any|]. intros d1 _.
      eapply tr_kbind; [apply kp_any|]. intros n _. apply tr_made; [exact N|]. intros T' E.
      apply kp_if; apply kp_count_loop; intros z; symmetry; exact E.
    + unfold colon_dbl. eapply tr_kbind; [apply kp_any|]. intros n _. apply tr_made; [exact N|]. intros T' E.
      apply kp_if; apply kp_count_loop; intros z; symmetry; exact E.
  - eapply tr_kbind; [apply kp_done|]. intros i' I'. eapply tr_kbind; [apply kp_any|]. intros t' _.
    rewrite <- (build_arg_ty _ _ _ _ I'). unfold rep_fn. eapply tr_kbind; [apply kp_arg_first|]. intros v _.
    eapply tr_kbind; [apply kp_any|]. intros n _. destruct i' as [u|u e]; cbn [arg_ty].
    + apply tr_made; [exact N|]. intros T' _. apply kp_fill.
    + apply tr_get. intros w1 _ _. apply tr_made; [exact N|]. intros T' E. now apply kp_rep_loop.
  - eapply tr_kbind; [apply kp_done|]. intros args' A. rewrite <- (build_args_ty _ _ _ _ A). unfold coca_fn.
    apply tr_get. intros w1 _ _. eapply tr_kbind; [apply kp_any|]. intros n _. apply tr_made; [exact N|]. intros T' E. now apply kp_coca_fill.
  - eapply tr_kbind; [apply kp_done|]. intros i' I'. eapply tr_kbind; [apply kp_any|]. intros r' _. eapply tr_kbind; [apply kp_any|]. intros c' _.
    rewrite <- (build_arg_ty _ _ _ _ I'). unfold matrix_fn.
    eapply tr_kbind; [apply kp_arg_first|]. intros v _. eapply tr_kbind; [apply kp_any|]. intros n _.
    eapply tr_kbind; [apply kp_arg_first|]. intros u _. eapply tr_kbind; [apply kp_any|]. intros k _.
    eapply tr_bind; [now apply tr_matrix|]. cbn. intros _ T1 _ ->. apply tr_any; [|intros; apply vec_t_d].
    apply kp_built. destruct i'; [apply kp_fill|apply kp_fill_expr].
  - eapply tr_kbind; [apply kp_any|]. intros e' _. unfold test_fn. apply tr_get. intros w1 _ _. apply tr_made; [exact N|]. intros T' E.
    apply kp_for. intros j. eapply kp_bind; [apply kp_elem|]. intros v _. apply kp_set_at. symmetry. exact E.
  - eapply tr_kbind; [apply kp_any|]. intros [v|t e] _; cbn [dim_fn].
    { apply tr_throw. }
    apply tr_get. intros w1 _ _. eapply tr_kbind; [apply kp_ass|]. intros _ _. apply tr_made; [exact N|]. intros T' E.
    eapply kp_bind; [apply kp_any|]. intros r _. apply kp_tail; [apply kp_set_at; symmetry; exact E|].
    eapply kp_bind; [apply kp_any|]. intros c _. apply kp_set_at. symmetry. exact E.
Qed.

(* ---------------------------------------------------------------- programs *)

Definition temps_ok (V : list nat) (T : oid -> ety) : Prop := forall x, In x V -> T (OT x) = T (OD x).
Lemma temps_agree L V T T' : incl V L -> agree L T T' -> temps_ok V T -> temps_ok V T'.
Proof. intros I A H x Hx. rewrite (A (OT x)), (A (OD x)); [now apply H| |]; cbn; auto. Qed.
Lemma temps_vec V T x t : temps_ok V T -> ~ In x V -> temps_ok (x :: V) (vec_t T x t t).
Proof.
  intros H N y Hy. unfold vec_t, set_t. cbn. destruct (Nat.eqb y x) eqn:E; [reflexivity|].
  apply PeanoNat.Nat.eqb_neq in E. destruct Hy as [->|Hy]; [congruence|now apply H].
Qed.
Notation whatever := (fun _ _ => True).
Lemma tr_true {A} L T (m : M world A) : kp T any m -> tr L T whatever m.
Proof. intros H. now apply tr_any. Qed.
Lemma tr_lscope L T x (m : M world bool) : tr L T whatever m -> tr L T whatever (lscope x m).
Proof.
  intros H w C Y. unfold lscope. specialize (H w C Y). destruct (m w) as [[[|]|[e|]|u] w1]; auto.
  - destruct H as [T1 [C1 [Y1 [A1 _]]]].
    pose proof (kp_tail T1 any _ _ (kp_vec_end T1 x) (kp_ret T1 any true I) w1 C1 Y1) as K.
    destruct (bind _ _ w1) as [[a|ex|u] w2]; auto; exists T1; intuition.
  - destruct H as [T1 [C1 [Y1 A1]]].
    pose proof (kp_tail T1 any _ _ (kp_vec_end T1 x) (kp_throw (A := bool) T1 any (Ass e)) w1 C1 Y1) as K.
    destruct (bind _ _ w1) as [[a|ex|u] w2]; auto; exists T1; intuition.
Qed.
Lemma tr_andthen V L T a b : incl V L -> temps_ok V T -> tr L T whatever a ->
  (forall T', agree L T T' -> temps_ok V T' -> tr L T' whatever b) -> tr L T whatever (andthen a b).
Proof.
  intros I H A B. eapply tr_bind; [exact A|]. intros r T' G _. destruct r.
  - apply B; [exact G|]. eapply temps_agree; eauto.
  - apply tr_true. now apply kp_ret.
Qed.
Lemma kp_condition lm T c : kp T any (lcondition lm c).
Proof.
  apply kp_get. intros w _ _. eapply kp_bind; [apply kp_any|]. intros e _. unfold to_scalar, vat.
  eapply kp_bind; [apply kp_elem|]. intros v _. now apply kp_ret.
Qed.
Lemma kp_walk T p : forall n i, kp T any (walk p i n).
Proof.
  induction n as [|n IH]; intros i; cbn [walk]; [now apply kp_ret|].
  eapply kp_bind; [apply kp_pure; intros w; destruct (rd_cases p i w) as [[v ->]|[u ->]]; reflexivity|]. intros v _.
  eapply kp_bind; [apply IH|]. intros vs _. now apply kp_ret.
Qed.
Lemma tr_each V L (body : val -> M world bool) : incl V L ->
  (forall v T, temps_ok V T -> tr L T whatever (body v)) ->
  forall vs T, temps_ok V T -> tr L T whatever (each vs body).
Proof.
  intros I H. induction vs as [|v vs IH]; intros T O; cbn [each]; [apply tr_true; now apply kp_ret|].
  eapply tr_andthen; eauto.
Qed.
Lemma tr_rounds V L c (body : M world bool) : incl V L -> (forall T, kp T any c) ->
  (forall T, temps_ok V T -> tr L T whatever body) ->
  forall N T, temps_ok V T -> tr L T whatever (rounds_of N c body).
Proof.
  intros I Hc H. induction N as [|N IH]; intros T O; cbn [rounds_of]; [apply tr_true; now apply kp_ret|].
  eapply tr_kbind; [apply Hc|]. intros [|] _; [|apply tr_true; now apply kp_ret].
  eapply tr_andthen; eauto.
Qed.
Lemma tr_done {A} L T (m : M world A) : tr L T whatever m -> tr L T whatever (m ;; ret true).
Proof. intros H. eapply tr_bind; [exact H|]. intros _ T' _ _. apply tr_true. now apply kp_ret. Qed.

Lemma tr_assign_subset lm V L T s x ind same e : ~ In s L -> incl V L -> In x V ->
  tr L T whatever (assign_subset lm s x ind same e).
Proof.
  intros N I X. unfold assign_subset. apply tr_get. intros w _ Y.
  eapply tr_bind; [apply tr_default; exact N|]. cbn. intros _ T1 _ ->. apply tr_true.
  assert (D : set_t T (OT s) (sty (ob w (OD x))) (OD x) = sty (ob w (OD x))) by (unfold set_t; cbn; symmetry; apply Y).
  apply kp_scoped. apply kp_tail; [apply kp_ass|]. apply kp_tail; [apply kp_resize|].
  apply kp_tail; [apply kp_fill_temp; apply set_t_same|]. apply kp_get. intros w1 _ _.
  apply kp_tail; [apply kp_if; [apply kp_any_resize|now apply kp_ret]|].
  apply kp_for. intros i. eapply kp_bind; [apply kp_get_at|]. intros v Hv. eapply kp_bind; [apply kp_any|]. intros k _.
  apply kp_sub_wr. rewrite Hv, set_t_same. symmetry. exact D.
Qed.

Lemma run_typed lm N : forall s L V T, incl V L -> SpecLang.scoped L V s -> temps_ok V T -> tr L T whatever (lrun N lm s).
Proof.
  induction s; intros L V T I S O; cbn [lrun]; cbn [SpecLang.scoped] in S.
  - apply tr_true. now apply kp_ret.
  - apply tr_get. intros w _ _. eapply tr_kbind; [apply kp_any|]. intros e' _. apply tr_done, tr_true, kp_assign. now apply O.
  - apply tr_done, tr_true, kp_assign_scalar.
  - destruct S as [S1 [S2 S3]]. apply tr_get. intros w _ _. do 3 (eapply tr_kbind; [apply kp_any|]; intros ? _).
    apply tr_done. eapply tr_assign_subset; eauto.
  - apply tr_get. intros w _ _. do 2 (eapply tr_kbind; [apply kp_any|]; intros ? _). apply tr_done, tr_true, kp_assign_subset_scalar.
  - destruct S as [S1 [S2 S3]]. apply tr_get. intros w _ _. do 4 (eapply tr_kbind; [apply kp_any|]; intros ? _).
    apply tr_done. eapply tr_assign_subset; eauto.
  - apply tr_get. intros w _ _. do 3 (eapply tr_kbind; [apply kp_any|]; intros ? _). apply tr_done, tr_true, kp_assign_subset_scalar.
  - apply tr_get. intros w _ Y. apply tr_true. apply kp_cast. intros v' Hv. apply kp_tail; [|now apply kp_ret].
    apply kp_at_wr. rewrite Hv. apply Y.
  - apply tr_get. intros w _ Y. apply tr_true. apply kp_cast. intros v' Hv. apply kp_tail; [|now apply kp_ret].
    unfold at_vec_set. intros w1 C1 Y1. rewrite bind_get. unfold bind, lift. destruct (at_pos w1 x i) as [k|?|?]; auto.
    apply (kp_wr T (OD x) k v'); auto. rewrite Hv. apply Y.
  - apply tr_get. intros w _ Y. apply tr_true. apply kp_cast. intros v' Hv. apply kp_tail; [|now apply kp_ret].
    unfold at_mat_set. intros w1 C1 Y1. rewrite bind_get. unfold bind, lift. destruct (at_mat_pos w1 x i j) as [k|?|?]; auto.
    apply (kp_wr T (OD x) k v'); auto. rewrite Hv. apply Y.
  - apply tr_done, tr_true, kp_fill.
  - apply tr_done, tr_true, kp_any_resize.
  - destruct S as [S1 S2]. eapply tr_andthen; eauto.
  - destruct S as [_ [S1 S2]]. eapply tr_kbind; [apply kp_condition|]. intros v _. destruct (truth v); eauto.
  - destruct S as [_ S1]. eapply tr_rounds; eauto. intros T'. eapply kp_bind; [apply kp_condition|]. intros v _. now apply kp_ret.
  - destruct S as [_ S1]. eapply tr_kbind; [apply kp_condition|]. intros v _. eauto.
  - destruct S as [S1 [_ S2]]. eapply tr_bind; [now apply tr_make|]. cbn. intros _ T1 A1 _. apply tr_lscope.
    assert (O1 : temps_ok V T1) by (eapply temps_agree; eauto).
    assert (I1 : incl V (col :: L)) by (intros y Hy; right; auto).
    eapply tr_kbind with (P := any).
    { unfold iterate_vec. apply kp_st. intros s _. apply kp_walk. }
    intros vs _. apply (tr_incl L (col :: L)); [intros y Hy; now right|].
    eapply tr_each; [exact I1| |exact O1]. intros v T2 O2. eapply H; eauto.
  - destruct S as [S1 [S2 [S3 [-> [_ S4]]]]]. eapply tr_bind; [now apply tr_make|]. unfold made_t. intros _ T1 A1 E1.
    eapply tr_bind; [apply tr_steal; [exact S2|exact E1|exact S1]|]. cbn. intros _ T2 _ ->.
    eapply tr_kbind; [apply kp_vec_end|]. intros _ _. apply tr_lscope.
    assert (NV : ~ In x V) by (intros Hx; apply S2; now apply I).
    apply (tr_incl L (x :: L)); [intros y Hy; now right|]. eapply IHs; [|exact S4|].
    + intros y [->|Hy]; [now left|right; auto].
    + apply temps_vec; [eapply temps_agree; eauto|exact NV].
  - destruct S as [S2 [_ S4]]. apply tr_get. intros w _ _. eapply tr_kbind; [apply kp_any|]. intros e' _.
    eapply tr_bind; [now apply tr_of_expr|]. cbn. intros _ T2 _ ->. apply tr_lscope.
    assert (NV : ~ In x V) by (intros Hx; apply S2; now apply I).
    apply (tr_incl L (x :: L)); [intros y Hy; now right|]. eapply IHs; [|exact S4|].
    + intros y [->|Hy]; [now left|right; auto].
    + now apply temps_vec.
  - destruct S as [S2 S4].
    eapply tr_bind; [now apply tr_sized|]. cbn. intros _ T2 _ ->. apply tr_lscope.
    assert (NV : ~ In x V) by (intros Hx; apply S2; now apply I).
    apply (tr_incl L (x :: L)); [intros y Hy; now right|]. eapply IHs; [|exact S4|].
    + intros y [->|Hy]; [now left|right; auto].
    + now apply temps_vec.
  - destruct S as [S1 S2]. intros w C Y. pose proof (IHs1 L V T I S1 O w C Y) as K.
    destruct (lrun N lm s1 w) as [[a|[e|]|u] w1]; auto. destruct K as [T1 [C1 [Y1 A1]]].
    assert (O1 : temps_ok V T1) by (eapply temps_agree; eauto).
    pose proof (IHs2 L V T1 I S2 O1 w1 C1 Y1) as K2. destruct (lrun N lm s2 w1) as [[a|?|u] w2]; auto.
    + destruct K2 as [T2 [C2 [Y2 [A2 _]]]]. exists T2. repeat (split; auto). eapply agree_trans; eauto.
    + destruct K2 as [T2 [C2 [Y2 A2]]]. exists T2. repeat (split; auto). eapply agree_trans; eauto.
Qed.

End Fixed.
Notation any := (fun _ => True).
Notation whatever := (fun _ _ => True).

Definition nothing (a : nat) (t : ety) : Prop := False.
Lemma ct_nothing w : ct nothing w <-> cells_typed w.
Proof. split; intros [bt H]; exists bt; [apply H|]. split; [intros a t []|exact H]. Qed.

(* ------------------------------------------------------- types of expressions *)

Lemma bin_ty lm op a b v : bin_f lm op a b = Done v ->
  ty_of v = if compares op then TBool else match op with ODiv => TDouble | _ => common (ty_of a) (ty_of b) end.
Proof.
  destruct op; cbn [bin_f compares]; unfold trait_arith, trait_div, trait_pow, trait_eq, trait_ne, compare_vals; intros H.
  1-3: destruct (arith _ _ a b) as [u|?|?]; try discriminate; cbn [obind] in H; exact (ConsProofs2.cast_ty _ _ _ H).
  - now injection H as <-.
  - exact (ConsProofs2.cast_ty _ _ _ H).
  - destruct (arith _ _ a b) as [u|?|?]; try discriminate. now injection H as <-.
  - destruct (v2z a), (v2z b); now injection H as <-.
  - destruct (v2z a), (v2z b); now injection H as <-.
  - destruct (v2z a), (v2z b); now injection H as <-.
  - destruct (v2z a), (v2z b); now injection H as <-.
  - destruct (arith _ _ a b) as [u|?|?]; try discriminate. now injection H as <-.
Qed.
Lemma un_ty lm op a v : un_f lm op a = Done v -> ty_of v = TDouble.
Proof.
  destruct op; cbn [un_f]; [|now intros [= <-]]. destruct (v2z a) as [z|]; [|now intros [= <-]].
  destruct (int_res (- z)); try discriminate. now intros [= <-].
Qed.
Lemma bind_fst {A B} (m : M world A) (f : A -> M world B) w v : snd (m w) = w -> fst (bind m f w) = Done v ->
  exists a, fst (m w) = Done a /\ fst (f a w) = Done v.
Proof. unfold bind. destruct (m w) as [[a|e|u] w1]; cbn; intros ->; intros H; try discriminate. eauto. Qed.

Definition types_of (w : world) : nat -> ety := fun x => sty (ob w (OD x)).
Lemma elem_typed lm w : cells_typed w -> forall e i v, tmps_typed e -> fst (elem lm e i w) = Done v -> ty_of v = rtyp (types_of w) e.
Proof.
  intros C. induction e as [x|t l m|u|e IH ind m|op l IHl r IHr|op e IH]; intros i v Tm H.
  - cbn [elem] in H. pose proof (kp_at_rd nothing (fun o => sty (ob w o)) (OD x) i w (proj2 (ct_nothing w) C) (fun _ => eq_refl)) as K.
    destruct (at_rd (OD x) i w) as [[a|?|?] w1]; cbn in H; try discriminate. injection H as ->. apply K.
  - cbn [elem] in H. destruct (i <? Z.of_nat (length l)) eqn:E; [|discriminate]. injection H as <-. destruct Tm as [Ne F].
    cbn [rtyp]. apply Z.ltb_lt in E. eapply (proj1 (Forall_forall _ _) F). apply nth_In.
    destruct l; [congruence|]. cbn [length] in *. lia.
  - cbn in H. now injection H as <-.
  - cbn [elem] in H. rewrite bind_get in H. apply bind_fst in H; [|reflexivity]. destruct H as [k [_ H]].
    apply bind_fst in H; [|reflexivity]. destruct H as [j [_ H]]. apply bind_fst in H; [|apply elem_pure]. destruct H as [a [Ha H]].
    injection H as <-. apply IH in Ha; [|exact Tm]. unfold as_ret. destruct e; exact Ha || reflexivity.
  - cbn [elem] in H. rewrite bind_get in H. destruct Tm as [Tl Tr].
    assert (P : forall e, snd ((if is_sca e then elem lm e 0 else k <- lift (modz i (esize w e)) ;; elem lm e k) w) = w).
    { intros e. destruct (is_sca e); [apply elem_pure|]. apply bind_pure; [reflexivity|intros; apply elem_pure]. }
    apply bind_fst in H; [|apply P]. destruct H as [a [Ha H]].
    apply bind_fst in H; [|apply P]. destruct H as [b [Hb H]]. cbn [lift fst] in H.
    assert (Q : forall e, (forall i v, tmps_typed e -> fst (elem lm e i w) = Done v -> ty_of v = rtyp (types_of w) e) ->
       tmps_typed e -> forall v, fst ((if is_sca e then elem lm e 0 else k <- lift (modz i (esize w e)) ;; elem lm e k) w) = Done v ->
       ty_of v = rtyp (types_of w) e).
    { intros e IH Te u Hu. destruct (is_sca e); [eauto|]. apply bind_fst in Hu; [|reflexivity]. destruct Hu as [k [_ Hu]]. eauto. }
    rewrite (bin_ty _ _ _ _ _ H), (Q l IHl Tl a Ha), (Q r IHr Tr b Hb). reflexivity.
  - cbn [elem] in H. rewrite bind_get in H. apply bind_fst in H.
    + destruct H as [a [_ H]]. exact (un_ty _ _ _ _ H).
    + destruct (is_sca e); [apply elem_pure|]. apply bind_pure; [reflexivity|intros; apply elem_pure].
Qed.
Lemma vat_typed lm w e i v : cells_typed w -> tmps_typed e -> fst (vat lm e i w) = Done v ->
  ty_of v = if stored e then styp w e else TDouble.
Proof.
  intros C Tm H. unfold vat in H. apply bind_fst in H; [|apply elem_pure]. destruct H as [a [Ha H]]. injection H as <-.
  apply elem_typed in Ha; [|exact C|exact Tm]. unfold as_ret. destruct e; exact Ha || reflexivity.
Qed.

Lemma rd_typed w o i v : cells_typed w -> fst (rd (ptr (ob w o)) i w) = Done v -> ty_of v = sty (ob w o).
Proof.
  intros C H. pose proof (kp_rd nothing (fun o => sty (ob w o)) o i w (proj2 (ct_nothing w) C) (fun _ => eq_refl)) as K. rewrite bind_st in K.
  destruct (rd _ i w) as [[a|?|?] w1]; cbn in H; try discriminate. injection H as ->. apply K.
Qed.
Lemma build_typed lm w G V : cells_typed w -> has_types G V w ->
  (forall e, incl (lvars e) V -> forall e', lbuild lm w e = Done e' -> styp w e' = ltyp G e /\ stored e' = lstored e /\ tmps_typed e') /\
  (forall i : lindex, True).
Proof.
  intros C HG. apply LangProofs.lexpr_lindex_ind; intros; auto.
  - cbn in *. injection H0 as <-. cbn. split; [apply HG; apply H; now left|auto].
  - cbn in *. injection H0 as <-. cbn. auto.
  - cbn [lbuild lvars] in *. destruct (lbuild lm w l) as [l'|?|?]; try discriminate. cbn [obind] in H2.
    destruct (lbuild lm w r) as [r'|?|?]; try discriminate. cbn [obind] in H2. injection H2 as <-.
    destruct (H ltac:(intros y Hy; apply H1, in_or_app; auto) l' eq_refl) as [E1 [_ T1]].
    destruct (H0 ltac:(intros y Hy; apply H1, in_or_app; auto) r' eq_refl) as [E2 [_ T2]]. cbn. rewrite E1, E2. auto.
  - cbn [lbuild lvars] in *. destruct (lbuild lm w e) as [e1|?|?]; try discriminate. cbn [obind] in H1. injection H1 as <-.
    destruct (H H0 e1 eq_refl) as [E1 [_ T1]]. cbn. auto.
  - cbn [lbuild lvars] in *. destruct (lbuild lm w e) as [e1|?|?]; try discriminate. cbn [obind] in H2.
    destruct (lbuild_index lm w i) as [i1|?|?]; try discriminate. cbn [obind] in H2. unfold subset_vec in H2.
    destruct (calc_ind_vector _ _ _ _); try discriminate. cbn [obind] in H2. injection H2 as <-.
    destruct (H ltac:(intros y Hy; apply H1, in_or_app; auto) e1 eq_refl) as [E1 [_ T1]]. cbn. auto.
  - cbn [lbuild lvars] in *. destruct (lbuild lm w e) as [e1|?|?]; try discriminate. cbn [obind] in H3.
    destruct (lbuild_index lm w i) as [i1|?|?]; try discriminate. cbn [obind] in H3.
    destruct (lbuild_index lm w j) as [j1|?|?]; try discriminate. cbn [obind] in H3. unfold subset_mat in H3.
    destruct (calc_ind_matrix _ _ _ _ _); try discriminate. cbn [obind] in H3. injection H3 as <-.
    destruct (H ltac:(intros y Hy; apply H2, in_or_app; auto) e1 eq_refl) as [E1 [_ T1]]. cbn. auto.
  - cbn [lbuild lvars] in *. destruct (fst (at_vec x i w)) as [v|?|?] eqn:E; try discriminate. cbn [obind] in H0. injection H0 as <-.
    cbn. split; [|auto]. unfold at_vec in E. rewrite bind_get in E. apply bind_fst in E; [|reflexivity]. destruct E as [k [_ E]].
    rewrite (rd_typed w (OD x) k v C E). apply HG. apply H. now left.
  - cbn [lbuild lvars] in *. destruct (fst (at_mat x i j w)) as [v|?|?] eqn:E; try discriminate. cbn [obind] in H0. injection H0 as <-.
    cbn. split; [|auto]. unfold at_mat in E. rewrite bind_get in E. apply bind_fst in E; [|reflexivity]. destruct E as [k [_ E]].
    rewrite (rd_typed w (OD x) k v C E). apply HG. apply H. now left.
  - cbn [lbuild lvars] in *. destruct (lbuild lm w e) as [e1|?|?]; try discriminate. cbn [obind] in H1.
    destruct (fst (at_expr lm e1 i w)) as [v|?|?] eqn:E; try discriminate. cbn [obind] in H1. injection H1 as <-.
    destruct (H H0 e1 eq_refl) as [E1 [S1 T1]]. cbn [styp stored lstored tmps_typed ltyp]. split; [|auto].
    unfold at_expr in E. apply bind_fst in E; [|reflexivity]. destruct E as [k [_ E]]. rewrite (vat_typed _ _ _ _ _ C T1 E), S1, E1. reflexivity.
  - cbn [lbuild lvars] in *. destruct (lbuild lm w e) as [e1|?|?]; try discriminate. cbn [obind] in H1.
    destruct (fst (at_mat_expr lm e1 i j w)) as [v|?|?] eqn:E; try discriminate. cbn [obind] in H1. injection H1 as <-.
    destruct (H H0 e1 eq_refl) as [E1 [S1 T1]]. cbn [styp stored lstored tmps_typed ltyp]. split; [|auto].
    unfold at_mat_expr in E. rewrite bind_get in E. apply bind_fst in E; [|unfold ass; destruct (eim w e1); reflexivity]. destruct E as [_ [_ E]].
    do 3 (apply bind_fst in E; [|reflexivity]; destruct E as [? [_ E]]). cbv zeta in E.
    apply bind_fst in E; [|unfold ass; destruct (_ <? _); reflexivity]. destruct E as [_ [_ E]].
    rewrite (vat_typed _ _ _ _ _ C T1 E), S1, E1. reflexivity.
  - cbn [lbuild lvars] in *. destruct (lbuild lm w e) as [e1|?|?]; try discriminate. cbn [obind] in H1. injection H1 as <-. cbn. auto.
Qed.
