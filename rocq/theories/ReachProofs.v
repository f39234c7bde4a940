(** Programs that state the types the compiler finds: everything they start
    states the types its vectors have. *)
From Coq Require Import ZArith List Bool Lia String.
From Verif Require Import Base Num StoreModel VecModel SubsetModel AllocModel ProgModel LangModel StaticModel Spec SpecExpr SpecHist SpecSafe SpecLang SpecStatic SpecReach StoreProofs StoreThms VecProofs ConsProofs2 LifeProofs StaticProofs.
From Verif Require LangProofs.
Import ListNotations.
Open Scope Z_scope.
Local Notation length := List.length (only parsing).

Definition good (V : list nat) (G : nat -> ety) (T : oid -> ety) : Prop := forall x, In x V -> T (OD x) = G x /\ T (OT x) = G x.
Lemma good_temps V G T : good V G T -> temps_ok V T.
Proof. intros H x I. destruct (H x I) as [-> ->]. reflexivity. Qed.
Lemma good_agree L V G T T' : incl V L -> agree L T T' -> good V G T -> good V G T'.
Proof. intros I A H x Hx. rewrite (A (OD x)), (A (OT x)) by (cbn; auto). now apply H. Qed.
Lemma good_vec V G T x t : good V G T -> good (x :: V) (with_ty G x t) (vec_t T x t t).
Proof.
  intros H y Hy. unfold with_ty. destruct (Nat.eqb y x) eqn:E.
  - apply PeanoNat.Nat.eqb_eq in E. subst y. split; [apply vec_t_d|apply vec_t_t].
  - assert (In y V) by (destruct Hy as [->|Hy]; [rewrite PeanoNat.Nat.eqb_refl in E; discriminate|exact Hy]).
    unfold vec_t, set_t. cbn. rewrite E. now apply H.
Qed.
Lemma good_has V G T w : tys T w -> good V G T -> has_types G V w.
Proof. intros Y H x Hx. rewrite !Y. now apply H. Qed.
Lemma incl_cons2 (V L : list nat) x : incl V L -> incl (x :: V) (x :: L).
Proof. intros I y [->|Hy]; [now left|right; auto]. Qed.

(** Steps of a run, in a typed world. *)
Definition typed (T : oid -> ety) (w : world) : Prop := ct nothing w /\ tys T w.
Lemma step_tr {A} L T Q (m : M world A) w a w' : tr nothing L T Q m -> typed T w -> m w = (Done a, w') ->
  exists T', typed T' w' /\ agree L T T' /\ Q a T'.
Proof. intros H [C Y] E. specialize (H w C Y). rewrite E in H. destruct H as [T' [C' [Y' [A' Q']]]]. exists T'. repeat (split; auto). Qed.
Lemma step_thrown {A} L T Q (m : M world A) w e w' : tr nothing L T Q m -> typed T w -> m w = (Thrown e, w') ->
  exists T', typed T' w' /\ agree L T T'.
Proof. intros H [C Y] E. specialize (H w C Y). rewrite E in H. destruct H as [T' [C' [Y' A']]]. exists T'. repeat (split; auto). Qed.
Lemma step_cond lm T c w v w1 : typed T w -> lcondition lm c w = (Done v, w1) -> typed T w1.
Proof. intros [C Y] E. pose proof (kp_condition nothing lm T c w C Y) as K. rewrite E in K. split; apply K. Qed.

Lemma reach_typed N lm s w s' w' : reach N lm s w s' w' -> forall L V G T, incl V L -> SpecLang.scoped L V s -> annot G s ->
  good V G T -> typed T w ->
  exists L' V' G' T', incl V' L' /\ SpecLang.scoped L' V' s' /\ annot G' s' /\ good V' G' T' /\ typed T' w'.
Proof.
  induction 1; intros L V G T I S A Gd Ty; cbn [SpecLang.scoped annot] in S, A.
  - exists L, V, G, T. auto.
  - destruct S, A. eauto.
  - destruct S as [S1 S2], A as [A1 A2].
    destruct (step_tr L T _ _ _ _ _ (run_typed nothing lm N a L V T I S1 (good_temps _ _ _ Gd)) Ty H) as [T1 [Ty1 [G1 _]]].
    apply (IHreach L V G T1); auto. eapply good_agree; eauto.
  - destruct S as [_ [S1 S2]], A as [_ [A1 A2]]. pose proof (step_cond _ _ _ _ _ _ Ty H). destruct (truth v); eauto.
  - destruct S as [_ S1], A as [_ A1]. pose proof (step_cond _ _ _ _ _ _ Ty H). eauto.
  - pose proof (step_cond _ _ _ _ _ _ Ty H) as Ty1. destruct S as [S0 S1], A as [A0 A1].
    destruct (step_tr L T _ _ _ _ _ (run_typed nothing lm N a L V T I S1 (good_temps _ _ _ Gd)) Ty1 H1) as [T1 [Ty2 [G1 _]]].
    apply (IHreach L V G T1); cbn [SpecLang.scoped annot]; auto. eapply good_agree; eauto.
  - destruct S as [_ S1], A as [_ A1]. pose proof (step_cond _ _ _ _ _ _ Ty H). eauto.
  - destruct S as [S1 [_ S2]], A as [_ A2].
    destruct (step_tr L T _ _ _ _ _ (tr_make nothing lm L T col m S1) Ty H) as [T1 [Ty1 [G1 _]]].
    assert (Gd1 : good V G T1) by (eapply good_agree; eauto).
    assert (K : kp nothing T1 any (iterate_vec col)) by (unfold iterate_vec; apply kp_st; intros s _; apply kp_walk).
    destruct Ty1 as [C1 Y1]. specialize (K w1 C1 Y1). rewrite H0 in K. destruct K as [C2 [Y2 _]].
    assert (I1 : incl V (col :: L)) by (intros y Hy; right; auto).
    assert (K : tr nothing (col :: L) T1 whatever (each vs (fun v => lrun N lm (body v)))).
    { eapply tr_each; [exact I1| |eapply good_temps; eauto]. intros u T2 O2. eapply run_typed; eauto. }
    destruct (step_tr _ _ _ _ _ _ _ K (conj C2 Y2) H1) as [T3 [Ty3 [G3 _]]].
    eapply IHreach; [exact I1|apply S2|apply A2| |exact Ty3]. eapply good_agree; eauto.
  - destruct S as [S1 [S2 [S3 [-> [_ S4]]]]], A as [_ [_ A]].
    assert (K : tr nothing L T (fun _ T' => good (x :: V) (with_ty G x (lmaker_ty m)) T') (lmake lm s m ;; vec_steal x s (lmaker_ty m) ;; vec_end s)).
    { eapply tr_bind; [now apply tr_make|]. unfold made_t. intros _ T1 A1 E1.
      eapply tr_bind; [apply tr_steal; [exact S2|exact E1|exact S1]|]. cbn. intros _ T2 _ ->.
      apply tr_any; [apply kp_vec_end|]. intros _. apply good_vec. eapply good_agree; eauto. }
    destruct (step_tr _ _ _ _ _ _ _ K Ty H) as [T1 [Ty1 [_ Gd1]]].
    eapply IHreach; [apply incl_cons2; exact I|exact S4|exact A|exact Gd1|exact Ty1].
  - destruct S as [S2 [_ S4]], A as [_ A].
    destruct (step_tr _ _ _ _ _ _ _ (tr_of_expr nothing lm L T x t e' S2) Ty H0) as [T1 [Ty1 [_ ->]]].
    eapply IHreach; [apply incl_cons2; exact I|exact S4|exact A|apply good_vec; exact Gd|exact Ty1].
  - destruct S as [S2 S4].
    destruct (step_tr _ _ _ _ _ _ _ (tr_sized nothing L T x t (wrap64 n) S2) Ty H) as [T1 [Ty1 [_ ->]]].
    eapply IHreach; [apply incl_cons2; exact I|exact S4|exact A|apply good_vec; exact Gd|exact Ty1].
  - destruct S, A. eauto.
  - destruct S as [S1 S2], A as [A1 A2].
    destruct (step_thrown L T _ _ _ _ _ (run_typed nothing lm N a L V T I S1 (good_temps _ _ _ Gd)) Ty H) as [T1 [Ty1 G1]].
    apply (IHreach L V G T1); auto. eapply good_agree; eauto.
Qed.

(** The subscripts of an annotated expression. *)
Lemma subs_ok G V :
  (forall e, eannot G e -> incl (lvars e) V -> forall t e0, In (t, e0) (subscripts e) -> t = ltyp G e0 /\ incl (lvars e0) V) /\
  (forall i, iannot G i -> incl (lvars_i i) V -> forall t e0, In (t, e0) (subscripts_i i) -> t = ltyp G e0 /\ incl (lvars e0) V).
Proof.
  apply LangProofs.lexpr_lindex_ind; cbn [eannot iannot lvars lvars_i subscripts subscripts_i]; intros;
    repeat match goal with
    | H : _ /\ _ |- _ => destruct H
    | H : In _ (_ ++ _) |- _ => apply in_app_or in H; destruct H
    | H : In _ (_ :: _) |- _ => destruct H as [[= <- <-]|H]
    | H : In _ [] |- _ => destruct H
    | H : incl (?a ++ ?b) V |- _ =>
        let H1 := fresh in let H2 := fresh in
        assert (H1 : incl a V) by (intros y Hy; apply H; apply in_or_app; auto);
        assert (H2 : incl b V) by (intros y Hy; apply H; apply in_or_app; auto); clear H
    end; eauto.
Qed.
