(** Functions called from R keep the element types of all blocks, wrapped ones
    included. *)
From Coq Require Import ZArith List Bool Lia String.
From Verif Require Import Base Num StoreModel VecModel SubsetModel AllocModel ProgModel LangModel StaticModel OutModel ForeignModel CallModel JumpModel WrapCallModel
  Spec SpecExpr SpecHist SpecSafe SpecLang SpecStatic SpecJump SpecWrapCall StoreProofs StoreThms VecProofs ConsProofs2 LifeProofs StaticProofs.
Import ListNotations.
Open Scope Z_scope.
Local Notation length := List.length (only parsing).

Definition more_fx (fx : nat -> ety -> Prop) (b : nat) (t : ety) : nat -> ety -> Prop := fun a u => fx a u \/ (a = b /\ u = t).
Lemma ct_more fx b t w : ct (more_fx fx b t) w -> ct fx w.
Proof. intros [bt [F C]]. exists bt. split; [|exact C]. intros a u H. apply F. now left. Qed.

(** A fresh block, of the library or of R. *)
Definition fresh_of (own : owner) (n : Z) : M world nat := fun w =>
  if n <=? hlim (hp w) then
    let h := hp w in
    let a := hnext h in
    (Done a, set_hp w (mkHeap (S a) (fun a' => if Nat.eqb a' a then Live own (repeat None (Z.to_nat n)) else hblk h a') (hlim h)))
  else (Thrown BadAlloc, w).

Section Typed.
Variable fx : nat -> ety -> Prop.

Lemma kp_fresh own t n {A} T (Q : A -> Prop) k : (forall a, kp (more_fx fx a t) T Q (k a)) -> kp fx T Q (bind (fresh_of own n) k).
Proof.
  intros K w [bt [F0 [C1 C2]]] Y. unfold bind, fresh_of. destruct (n <=? hlim (hp w)); [|split; [now exists bt|exact Y]].
  set (a := hnext (hp w)). set (w1 := set_hp w _).
  assert (C : ct (more_fx fx a t) w1).
  { exists (fun b => if Nat.eqb b a then t else bt b). split; [|split].
    - intros b u [H|[-> ->]].
      + now apply (fixed_fresh fx bt w w1 t eq_refl F0).
      + rewrite PeanoNat.Nat.eqb_refl. split; [unfold w1, a; cbn; lia|reflexivity].
    - intros o b P. destruct (C1 o b P) as [L1 L2]. split; [unfold w1; cbn; lia|].
      rewrite (proj2 (PeanoNat.Nat.eqb_neq b a)) by (unfold a; lia). exact L2.
    - intros b own' cs v. unfold w1. cbn [hp set_hp hblk]. fold a. destruct (Nat.eqb b a) eqn:E; [|apply C2].
      intros P. injection P as _ <-. intros V. apply repeat_spec in V. discriminate. }
  specialize (K a w1 C Y). destruct (k a w1) as [[x|e|u] w2]; auto.
  - destruct K as [K1 K2]. split; [now apply ct_more in K1|exact K2].
  - destruct K as [K1 K2]. split; [now apply ct_more in K1|exact K2].
Qed.
Lemma kp_fixed_wr T a t i v : fx a t -> ty_of v = t -> kp fx T any (wr (Some a) i v).
Proof.
  intros H V w [bt [F0 C]] Y. destruct (wr_cases (Some a) i v w) as [E|[u E]].
  - destruct (wr (Some a) i v w) as [r w'] eqn:E'. cbn in E. injection E as ->.
    assert (K : forall b, Some a = Some b -> ty_of v = bt b).
    { intros b [= <-]. destruct (F0 a t H) as [_ ->]. exact V. }
    destruct (ti_wr fx _ _ _ _ _ _ C K E') as [C' [O' N']].
    split; [exists bt; split; [now apply (fixed_next fx bt w)|exact C']|split; [|exact I]]. intros o'. rewrite O'. apply Y.
  - destruct (wr (Some a) i v w) as [r w']. cbn in E. subst. exact I.
Qed.
Lemma kp_fixed_ptr T o a : fx a (T o) -> kp fx T any (upd o (with_ptr (Some a))).
Proof.
  intros H w [bt [F0 C]] Y. cbn. split; [|split; [|exact I]].
  - exists bt. split; [exact F0|]. apply ti_set; [exact C|]. cbn. intros b [= <-]. destruct (F0 _ _ H) as [L ->]. split; [exact L|symmetry; apply Y].
  - apply tys_set; [exact Y|apply Y].
Qed.
End Typed.

Ltac kpu := apply kp_upd; [reflexivity|cbn; intros; try discriminate; assumption].
Section Calls.
Variable fx : nat -> ety -> Prop.

Lemma kp_rd_raw T p i : kp fx T any (rd p i).
Proof. apply kp_pure. intros w. destruct (rd_cases p i w) as [[v ->]|[u ->]]; reflexivity. Qed.
Lemma kp_cpp2R lm T t e : kp fx T any (cpp2R lm t e).
Proof.
  unfold cpp2R. apply kp_get. intros w _ _.
  assert (L : forall (fx' : nat -> ety -> Prop) d a, fx' a (r_cell t) -> kp fx' T any (for_int (esize w e) (fun i => v <- elem lm e i ;; v' <- lift (cast (r_cell t) v) ;; wr (Some a) i v') ;; ret (mkR t a d))).
  { intros fx' d a H. apply kp_tail; [|now apply kp_ret]. unfold for_int. apply kp_for. intros i. apply kp_tail.
    - eapply kp_bind; [apply kp_elem|]. intros v _. apply kp_cast. intros v' V. now apply (kp_fixed_wr fx' T a (r_cell t)).
    - eapply kp_bind; [apply kp_any|]. intros z _. now apply kp_ret. }
  assert (F : forall n d, kp fx T any (ret_ <- (a <- r_new n ;; ret (mkR t a d)) ;;
    for_int (esize w e) (fun i => v <- elem lm e i ;; v' <- lift (cast (r_cell t) v) ;; wr (Some (r_mem ret_)) i v') ;; ret ret_)).
  { intros n d w1 C Y. rewrite bind_assoc. revert w1 C Y. apply (kp_fresh fx OwnR (r_cell t)). intros a. cbn [bind ret].
    intros w1 C Y. apply (L (more_fx fx a (r_cell t)) d a); auto. now right. }
  destruct (eim w e); [|apply F]. intros w1 C Y. rewrite bind_assoc. revert w1 C Y. eapply kp_bind; [apply kp_any|]. intros nr _.
  intros w1 C Y. rewrite bind_assoc. revert w1 C Y. eapply kp_bind; [apply kp_any|]. intros nc _.
  intros w1 C Y. rewrite bind_assoc. revert w1 C Y. apply kp_tail; [apply kp_ass|].
  unfold r_matrix. intros w1 C Y. rewrite bind_assoc. revert w1 C Y. apply kp_tail; [apply kp_ass|].
  intros w1 C Y. rewrite bind_assoc. revert w1 C Y. apply kp_tail; [apply kp_ass|]. apply F.
Qed.
Lemma kp_assign_R T x r : kp fx T any (assign_R x r).
Proof.
  unfold assign_R, init_sexp. apply kp_st. intros s Es. apply kp_tail.
  { apply kp_if; [|now apply kp_ret]. apply kp_tail; [apply kp_ass|]. apply kp_tail; [apply kp_del|]. kpu. }
  apply kp_tail; [apply kp_ass|]. eapply kp_bind with (P := fun _ => True).
  { apply kp_pure. intros w. unfold r_length. destruct (hblk (hp w) (r_mem r)) as [|[] cs|]; try reflexivity. destruct (_ <=? _); reflexivity. }
  intros n _. apply kp_tail; [kpu|]. apply kp_tail; [kpu|]. apply (kp_fresh fx OwnCpp (sty s)). intros a.
  assert (H : more_fx fx a (sty s) a (sty s)) by (now right).
  apply kp_tail; [apply kp_fixed_ptr; now rewrite <- Es|]. apply kp_tail; [kpu|]. apply kp_tail; [|kpu].
  unfold r_copy, for_. apply kp_for. intros i. eapply kp_bind; [apply kp_pure; intros w; destruct (rd_cases (Some (r_mem r)) i w) as [[v ->]|[u ->]]; reflexivity|].
  intros v _. apply kp_cast. intros v' V. now apply (kp_fixed_wr _ T a (sty s)).
Qed.
Lemma tr_wrap L T x r : ~ In x L -> (r_ty r = TDouble -> fx (r_mem r) TDouble) ->
  tr fx L T (fun _ T' => T' = vec_t T x TDouble TDouble) (vec_wrap x r).
Proof.
  intros N H. destruct (notin_d L x N) as [N1 N2]. unfold vec_wrap. eapply tr_bind with (P := fun _ T' => T' = set_t T (OD x) TDouble);
    [|cbn; intros _ T1 _ ->; now apply tr_default].
  unfold sexp_wrap. destruct (r_is TDouble r) eqn:Ri; [|apply tr_throw].
  assert (Et : r_ty r = TDouble) by (unfold r_is in Ri; destruct (r_ty r); try discriminate; reflexivity).
  eapply tr_kbind with (P := fun _ => True); [now apply kp_ret|]. intros _ _. eapply tr_kbind with (P := fun _ => True).
  { apply kp_pure. intros w. unfold r_length. destruct (hblk (hp w) (r_mem r)) as [|[] cs|]; try reflexivity. destruct (_ <=? _); reflexivity. }
  intros n _ w [bt [F0 C]] Y. cbn. eexists. split; [|split; [|split; [|reflexivity]]].
  - exists bt. split; [exact F0|]. apply ti_set; [exact C|]. cbn. intros b [= <-]. exact (F0 _ _ (H Et)).
  - now apply tys_set_t.
  - now apply agree_set_t.
Qed.

(* ------------------------------------------------- functions with jumps *)

Lemma tr_jscope L T x (m : M world flow) : tr fx L T whatever m -> tr fx L T whatever (jscope x m).
Proof.
  intros H w C Y. unfold jscope. specialize (H w C Y). destruct (m w) as [[f|[e|]|u] w1]; auto.
  - destruct H as [T1 [C1 [Y1 [A1 _]]]].
    pose proof (kp_tail fx T1 any _ _ (kp_vec_end fx T1 x) (kp_ret fx T1 any f I) w1 C1 Y1) as K.
    destruct f; try (destruct (bind _ _ w1) as [[a|ex|u] w2]; auto; exists T1; intuition).
  - destruct H as [T1 [C1 [Y1 A1]]].
    pose proof (kp_tail fx T1 any _ _ (kp_vec_end fx T1 x) (kp_throw fx (A := flow) T1 any (Ass e)) w1 C1 Y1) as K.
    destruct (bind _ _ w1) as [[a|ex|u] w2]; auto; exists T1; intuition.
Qed.
Lemma tr_flow L T (f : flow) : tr fx L T whatever (ret f).
Proof. apply tr_true. now apply kp_ret. Qed.
Lemma tr_jround L T f (m : M world flow) : tr fx L T whatever m -> tr fx L T whatever (jround f m).
Proof. intros H. destruct f; cbn [jround]; auto using tr_flow. Qed.
Lemma tr_jeach V L (body : val -> M world flow) : incl V L ->
  (forall v T, temps_ok V T -> tr fx L T whatever (body v)) ->
  forall vs T, temps_ok V T -> tr fx L T whatever (jeach vs body).
Proof.
  intros I H. induction vs as [|v vs IH]; intros T O; cbn [jeach]; [apply tr_flow|].
  eapply tr_bind; [now apply H|]. intros f T' A _. apply tr_jround. apply IH. eapply temps_agree; eauto.
Qed.
Lemma tr_jrounds V L c (body : M world flow) : incl V L -> (forall T, kp fx T any c) ->
  (forall T, temps_ok V T -> tr fx L T whatever body) ->
  forall N T, temps_ok V T -> tr fx L T whatever (jrounds N c body).
Proof.
  intros I Hc H. induction N as [|N IH]; intros T O; cbn [jrounds]; [apply tr_flow|].
  eapply tr_kbind; [apply Hc|]. intros [|] _; [|apply tr_flow].
  eapply tr_bind; [now apply H|]. intros f T' A _. apply tr_jround. apply IH. eapply temps_agree; eauto.
Qed.

Lemma jrun_typed lm N : forall s loop L V T, incl V L -> scoped_j loop L V s -> temps_ok V T -> tr fx L T whatever (jrun N lm s).
Proof.
  induction s; intros loop L V T I S O; cbn [jrun]; cbn [scoped_j] in S.
  - eapply tr_bind; [eapply run_typed; eauto|]. intros r T' _ _. apply tr_flow.
  - apply tr_flow.
  - apply tr_flow.
  - apply tr_get. intros w _ _. eapply tr_kbind; [apply kp_any|]. intros e' _. eapply tr_kbind; [apply kp_cpp2R|]. intros o _. apply tr_flow.
  - destruct S as [S1 S2]. unfold jthen. eapply tr_bind; [eauto|]. intros f T' A _. destruct f; try apply tr_flow. eapply IHs2; eauto. eapply temps_agree; eauto.
  - destruct S as [_ [S1 S2]]. eapply tr_kbind; [apply kp_condition|]. intros v _. destruct (truth v); eauto.
  - destruct S as [_ S1]. eapply tr_jrounds; eauto. intros T'. eapply kp_bind; [apply kp_condition|]. intros v _. now apply kp_ret.
  - destruct S as [_ S1]. eapply tr_kbind; [apply kp_condition|]. intros v _. eauto.
  - destruct S as [S1 [_ S2]]. eapply tr_bind; [now apply tr_make|]. cbn. intros _ T1 A1 _. apply tr_jscope.
    assert (O1 : temps_ok V T1) by (eapply temps_agree; eauto).
    assert (I1 : incl V (col :: L)) by (intros y Hy; right; auto).
    eapply tr_kbind with (P := any).
    { unfold iterate_vec. apply kp_st. intros s _. apply kp_walk. }
    intros vs _. apply (tr_incl fx L (col :: L)); [intros y Hy; now right|].
    eapply tr_jeach; [exact I1| |exact O1]. intros v T2 O2. eapply H; eauto.
  - destruct S as [S1 [S2 [S3 [-> [_ S4]]]]]. eapply tr_bind; [now apply tr_make|]. unfold made_t. intros _ T1 A1 E1.
    eapply tr_bind; [apply tr_steal; [exact S2|exact E1|exact S1]|]. cbn. intros _ T2 _ ->.
    eapply tr_kbind; [apply kp_vec_end|]. intros _ _. apply tr_jscope.
    assert (NV : ~ In x V) by (intros Hx; apply S2; now apply I).
    apply (tr_incl fx L (x :: L)); [intros y Hy; now right|]. eapply IHs; [|exact S4|].
    + intros y [->|Hy]; [now left|right; auto].
    + apply temps_vec; [eapply temps_agree; eauto|exact NV].
  - destruct S as [S2 [_ S4]]. apply tr_get. intros w _ _. eapply tr_kbind; [apply kp_any|]. intros e' _.
    eapply tr_bind; [now apply tr_of_expr|]. cbn. intros _ T2 _ ->. apply tr_jscope.
    assert (NV : ~ In x V) by (intros Hx; apply S2; now apply I).
    apply (tr_incl fx L (x :: L)); [intros y Hy; now right|]. eapply IHs; [|exact S4|].
    + intros y [->|Hy]; [now left|right; auto].
    + now apply temps_vec.
  - destruct S as [S1 S2]. intros w C Y. pose proof (IHs1 loop L V T I S1 O w C Y) as K.
    destruct (jrun N lm s1 w) as [[a|[e|]|u] w1]; auto. destruct K as [T1 [C1 [Y1 A1]]].
    assert (O1 : temps_ok V T1) by (eapply temps_agree; eauto).
    pose proof (IHs2 loop L V T1 I S2 O1 w1 C1 Y1) as K2. destruct (jrun N lm s2 w1) as [[a|?|u] w2]; auto.
    + destruct K2 as [T2 [C2 [Y2 [A2 _]]]]. exists T2. repeat (split; auto). eapply agree_trans; eauto.
    + destruct K2 as [T2 [C2 [Y2 A2]]]. exists T2. repeat (split; auto). eapply agree_trans; eauto.
Qed.

Lemma wcall_typed lm N b : forall ps L T, NoDup (map w_name ps) -> (forall p, In p ps -> ~ In (w_name p) L) ->
  scoped_j false (rev (map w_name ps) ++ L) (rev (map w_name ps) ++ L) b -> temps_ok L T ->
  (forall p, In p ps -> wraps p = true -> r_ty (w_obj p) = TDouble -> fx (r_mem (w_obj p)) TDouble) ->
  tr fx L T whatever (wcall N lm ps b).
Proof.
  induction ps as [|[h p] ps IH]; intros L T ND NL Sc O Fx; cbn [wcall].
  - eapply jrun_typed; eauto. apply incl_refl.
  - cbn [map rev] in ND, Sc. apply NoDup_cons_iff in ND. destruct ND as [Np ND]. rewrite <- app_assoc in Sc. cbn [app] in Sc.
    change (w_name (mkW h p)) with (p_name p) in *.
    assert (Nx : ~ In (p_name p) L) by (apply (NL (mkW h p)); now left).
    assert (NL' : forall q, In q ps -> ~ In (w_name q) (p_name p :: L)).
    { intros q Hq [E|Hl]; [|apply (NL q); [now right|exact Hl]]. apply Np. rewrite E. now apply in_map. }
    assert (Fx' : forall q, In q ps -> wraps q = true -> r_ty (w_obj q) = TDouble -> fx (r_mem (w_obj q)) TDouble) by (intros q Hq; apply Fx; now right).
    destruct h.
    + eapply tr_bind; [now apply tr_default_vec|]. cbn. intros _ T2 _ ->. apply tr_jscope. eapply tr_kbind; [apply kp_assign_R|]. intros _ _.
      apply (tr_incl fx L (p_name p :: L)); [intros y Hy; now right|]. apply IH; auto. now apply temps_vec.
    + eapply tr_bind; [apply tr_wrap; [exact Nx|]; intros Et; apply (Fx (mkW ByWrap p)); [now left|reflexivity|exact Et]|]. cbn. intros _ T2 _ ->.
      apply tr_jscope. apply (tr_incl fx L (p_name p :: L)); [intros y Hy; now right|]. apply IH; auto. now apply temps_vec.
Qed.
End Calls.
