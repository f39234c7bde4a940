(** Functions with return, break and continue do what their meaning on lists
    says. *)
From Coq Require Import ZArith List String Bool Lia.
From Verif Require Import Base Num StoreModel VecModel SubsetModel AllocModel ProgModel LangModel OutModel ForeignModel CallModel JumpModel
  Spec SpecExpr SpecVec SpecHist SpecProg SpecSub SpecAlloc SpecCons SpecStmt SpecMat SpecOut SpecForeign SpecSafe SpecLang SpecCall SpecSession SpecJump
  CapProofs StoreProofs StoreOps StoreThms StoreThms2 VecProofs VecThms VecAssign VecEval SubsetProofs SubsetThms
  AllocProofs AllocProofs2 ConsProofs ConsProofs2 ProgProofs ProgProofs2 ProgThms LangProofs MatProofs MatThms
  OutProofs ForeignProofs HideProofs CallProofs JumpProofs.
Import ListNotations.
Open Scope Z_scope.
Local Notation length := List.length (only parsing).

Section Follow.
Variables (N : nat) (lm : libm) (ty : nat -> ety) (lim : Z).

Definition jended (H V : list nat) (w w' : world) (out : outcome flow) (r : jend) (s' : mstate) : Prop :=
  match r with
  | JGave t us d => exists o, out = Done (Gave o) /\ r_ty o = t /\ r_dim o = d /\
      hidden (r_mem o) (Live OwnR (map Some us)) w' /\ (forall b B, B <> Unused -> hidden b B w -> b <> r_mem o)
  | JFailed e => out = Thrown e /\ e <> BadAlloc
  | JMore => out = Done More
  | JNext => out = Done Next
  | JBroke => out = Done Broke
  | JAgain => out = Done Again
  end /\ (r <> JMore -> lalive w' lim ty H V s') /\ (no_leak w -> no_leak w').

Definition jfollows (H V : list nat) (m : M world flow) (S : mstate -> jend -> mstate -> Prop) : Prop :=
  forall w s r s', lalive w lim ty H V s -> S s r s' -> exists out w', m w = (out, w') /\ jended H V w w' out r s'.

Lemma jended_before H V w w1 w' out r s' : (forall b B, hidden b B w -> hidden b B w1) -> (no_leak w -> no_leak w1) ->
  jended H V w1 w' out r s' -> jended H V w w' out r s'.
Proof.
  intros Hh NL [X [Y Z]]. split; [|split; [exact Y|auto]]. destruct r; auto.
  destruct X as [o [X1 [X2 [X3 [X4 X5]]]]]. exists o. split; [exact X1|]. split; [exact X2|]. split; [exact X3|]. split; [exact X4|].
  intros b B NB Hb. apply (X5 b B NB). now apply Hh.
Qed.
Lemma jended_raise H V w (s : mstate) m : lalive w lim ty H V s -> jended H V w w (Thrown (Ass m)) (JFailed (Ass m)) s.
Proof. intros A. split; [split; [reflexivity|discriminate]|]. split; auto. Qed.

(** Leaving the scope of x (of a vector the loop runs over, or of a variable). *)
Lemma jscope_ended H1 V1 H2 V2 w0 x m w out w1 r s' :
  (forall w, lalive w lim ty H1 V1 s' -> exists w', vec_end x w = (Done tt, w') /\ lalive w' lim ty H2 V2 s' /\ (no_leak w -> no_leak w')) ->
  m w = (out, w1) -> jended H1 V1 w0 w1 out r s' -> exists out' w', jscope x m w = (out', w') /\ jended H2 V2 w0 w' out' r s'.
Proof.
  intros En E [X [Y Z]]. unfold jscope. rewrite E. destruct r as [| | |t us d|e|].
  1-3: (subst out; destruct (En w1 (Y ltac:(discriminate))) as [w2 [E2 [A2 L2]]]; eexists _, w2; rewrite (bind_done _ _ _ _ _ E2);
    split; [reflexivity|]; split; [reflexivity|]; split; auto).
  - destruct X as [o [-> [X2 [X3 [X4 X5]]]]]. destruct (En w1 (Y ltac:(discriminate))) as [w2 [E2 [A2 L2]]].
    eexists _, w2. rewrite (bind_done _ _ _ _ _ E2). split; [reflexivity|]. split; [|split; auto].
    exists o. split; [reflexivity|]. split; [exact X2|]. split; [exact X3|]. split; [|exact X5].
    eapply hidden_by; [intros; apply hides_vec_end|exact E2|exact X4].
  - destruct X as [-> NB]. destruct e as [m'|]; [|contradiction]. destruct (En w1 (Y ltac:(discriminate))) as [w2 [E2 [A2 L2]]].
    eexists _, w2. rewrite (bind_done _ _ _ _ _ E2). split; [reflexivity|]. split; [split; [reflexivity|discriminate]|split; auto].
  - subst out. eexists _, w1. split; [reflexivity|]. split; [reflexivity|]. split; [contradiction|exact Z].
Qed.

Lemma follows_round H V f m S w w1 r1 s1 r s' : jfollows H V m S -> jended H V w w1 (Done f) r1 s1 -> (forall b B, hidden b B w -> hidden b B w1) ->
  jafter r1 s1 S r s' -> exists out w', jround f m w1 = (out, w') /\ jended H V w w' out r s'.
Proof.
  intros F [X [Y Z]] Hh A. destruct r1 as [| | |t us d|e|]; cbn [jafter] in A.
  - injection X as ->. cbn [jround]. destruct (F w1 s1 r s' (Y ltac:(discriminate)) A) as [out [w' [E J]]]. exists out, w'. split; [exact E|]. eapply jended_before; eauto.
  - injection X as ->. destruct A as [-> ->]. eexists _, w1. split; [reflexivity|]. split; [reflexivity|]. split; [|exact Z]. intros _. apply Y. discriminate.
  - injection X as ->. cbn [jround]. destruct (F w1 s1 r s' (Y ltac:(discriminate)) A) as [out [w' [E J]]]. exists out, w'. split; [exact E|]. eapply jended_before; eauto.
  - destruct A as [-> ->]. destruct X as [o [X1 X2]]. injection X1 as ->. eexists _, w1. split; [reflexivity|]. split; [|auto]. exists o. auto.
  - destruct X. discriminate.
  - destruct A as [-> ->]. injection X as ->. eexists _, w1. split; [reflexivity|]. split; [reflexivity|]. auto.
Qed.
Lemma follows_step H V m next S1 S2 : (forall b B, hides True (fun _ => False) b B m) -> jfollows H V m S1 -> jfollows H V next S2 ->
  jfollows H V (f <- m ;; jround f next) (fun s r s' => exists r1 s1, S1 s r1 s1 /\ jafter r1 s1 S2 r s').
Proof.
  intros Hm F1 F2 w s r s' A [r1 [s1 [X1 X2]]]. destruct (F1 w s r1 s1 A X1) as [out [w1 [E1 J1]]].
  pose proof (hidden_by m w out w1 Hm E1) as Hh. destruct out as [f|e|u].
  - rewrite (bind_done _ _ _ _ _ E1). eapply follows_round; eauto.
  - unfold bind. rewrite E1. destruct J1 as [X [Y Z]]. destruct r1; try discriminate; [destruct X; destruct H0; discriminate|].
    destruct X2 as [-> ->]. eexists _, w1. split; [reflexivity|]. split; auto.
  - destruct J1 as [X _]. destruct r1; try discriminate; [destruct X as [o [X _]]; discriminate|destruct X; discriminate].
Qed.
Lemma follows_each H V body B : (forall v b C, hides True (fun _ => False) b C (body v)) -> (forall v, jfollows H V (body v) (B v)) ->
  forall vs, jfollows H V (jeach vs body) (jfor vs B).
Proof.
  intros Hb F. induction vs as [|v vs IH]; cbn [jeach jfor].
  - intros w s r s' A [-> ->]. eexists _, w. split; [reflexivity|]. split; [reflexivity|]. auto.
  - apply follows_step; auto.
Qed.
Lemma follows_rounds H V cond body (C : mstate -> outcome bool -> Prop) B :
  (forall w s b, lalive w lim ty H V s -> C s b -> cond w = (b, w) /\ forall e, b = Thrown e -> e <> BadAlloc) ->
  (forall b D, hides True (fun _ => False) b D body) -> jfollows H V body B -> forall k, jfollows H V (jrounds k cond body) (jwhile k C B).
Proof.
  intros Fc Hb Fb. induction k as [|k IH]; intros w s r s' A X; cbn [jwhile jrounds] in *.
  - destruct X as [-> ->]. eexists _, w. split; [reflexivity|]. split; [reflexivity|]. split; [contradiction|auto].
  - destruct X as [b [Cb X]]. destruct (Fc w s b A Cb) as [E Ne]. destruct b as [[]|e|u]; [| | |contradiction].
    + rewrite (bind_done _ _ _ _ _ E). apply (follows_step H V body (jrounds k cond body) B (jwhile k C B) Hb Fb IH w s r s' A X).
    + destruct X as [-> ->]. rewrite (bind_done _ _ _ _ _ E). eexists _, w. split; [reflexivity|]. split; [reflexivity|]. auto.
    + destruct X as [-> ->]. unfold bind. rewrite E. eexists _, w. split; [reflexivity|]. split; [split; [reflexivity|now apply Ne]|]. auto.
Qed.

Lemma jrun_follows p : forall H V, jfollows H V (jrun N lm p) (jsem N lm ty lim H V p).
Proof.
  induction p as [p| | |t e|a IHa b IHb|c a IHa b IHb|c a IHa|e body IH|col m body IH|x t et m body IH|x t e body IH|a IHa b IHb];
    intros H V w s r s' A X; cbn [jrun jsem] in *;
    pose proof (proj1 (proj1 A)) as R; pose proof (proj2 A) as D;
    pose proof (lbuild_lmeans lm lim ty V w (fst s) (snd s) R D) as [LB LI];
    pose proof (lmeans_vars lm V (fst s) (snd s)) as [MV MI].
  - destruct X as [r1 [X ->]]. destruct (lrun_follows N lm ty lim p H V w s r1 s' A X) as [w1 [E1 [Q1 L1]]].
    unfold bind. rewrite E1. destruct r1 as [| |e]; cbn [of_res of_end lreached] in *.
    + eexists _, w1. split; [reflexivity|]. split; [reflexivity|]. auto.
    + eexists _, w1. split; [reflexivity|]. split; [reflexivity|]. split; [contradiction|exact L1].
    + eexists _, w1. split; [reflexivity|]. split; [split; [reflexivity|]|auto]. apply (lsem_tame N lm ty lim p H V s e s' X).
  - destruct X as [-> ->]. eexists _, w. split; [reflexivity|]. split; [reflexivity|]. auto.
  - destruct X as [-> ->]. eexists _, w. split; [reflexivity|]. split; [reflexivity|]. auto.
  - destruct X as [a [M X]]. rewrite bind_get, (LB _ _ M). destruct a as [e'|[m|]|u]; cbn [jgiven] in X; try contradiction.
    + destruct X as [-> [f [B ->]]]. rewrite bind_lift_done.
      destruct (cpp2R_back_in lm lim ty H V w s t e' f A (MV _ _ M) B) as [out [w' [E [X [Y Z]]]]].
      unfold bind. rewrite E. destruct f as [rt us d|y|]; cbn [of_fres].
      * destruct X as [o [-> X]]. eexists _, w'. split; [reflexivity|]. split; [|auto]. exists o. split; [reflexivity|]. apply X.
      * destruct X as [-> NB]. eexists _, w'. split; [reflexivity|]. split; auto.
      * destruct X.
    + destruct X as [-> ->]. eexists _, w. split; [reflexivity|]. now apply jended_raise.
  - destruct X as [r1 [s1 [X1 X2]]]. destruct (IHa H V w s r1 s1 A X1) as [out [w1 [E1 J1]]]. unfold jthen.
    assert (Hh : forall b B, hidden b B w -> hidden b B w1) by (eapply hidden_by; [intros; apply hides_jrun|exact E1]).
    unfold bind. rewrite E1. destruct r1 as [| | |t us d|e|].
    + destruct J1 as [-> [Y Z]]. destruct (IHb H V w1 s1 r s' (Y ltac:(discriminate)) X2) as [out [w2 [E2 J2]]].
      exists out, w2. split; [exact E2|]. eapply jended_before; eauto.
    + destruct X2 as [-> ->]. pose proof J1 as [-> _]. eexists _, w1. split; [reflexivity|exact J1].
    + destruct X2 as [-> ->]. pose proof J1 as [-> _]. eexists _, w1. split; [reflexivity|exact J1].
    + destruct X2 as [-> ->]. pose proof J1 as [[o [-> _]] _]. eexists _, w1. split; [reflexivity|exact J1].
    + destruct X2 as [-> ->]. pose proof J1 as [[-> _] _]. eexists _, w1. split; [reflexivity|exact J1].
    + destruct X2 as [-> ->]. pose proof J1 as [-> _]. eexists _, w1. split; [reflexivity|exact J1].
  - destruct X as [o [Dv X]]. destruct s as [rho sh]. pose proof (lvalue_here lm lim ty V w rho sh R D c o Dv) as E.
    destruct o as [v|[m|]|u]; try contradiction; cbn [jgiven] in X.
    + rewrite (bind_done _ _ _ _ _ E). destruct (truth v); [apply (IHa H V w _ r s' A X)|apply (IHb H V w _ r s' A X)].
    + unfold bind. rewrite E. destruct X as [-> ->]. eexists _, w. split; [reflexivity|]. now apply jended_raise.
  - refine (follows_rounds H V _ _ _ _ _ _ (IHa H V) N w s r s' A X); [|intros; apply hides_jrun].
    intros w1 [rho1 sh1] b [A1 D1] [v [Dv [Ne ->]]]. pose proof (lvalue_here lm lim ty V w1 rho1 sh1 (proj1 A1) D1 c v Dv) as E.
    split; [unfold bind; rewrite E; destruct v; reflexivity|]. intros e Q. apply Ne. destruct v; try discriminate. now injection Q as ->.
  - destruct X as [o [Dv X]]. destruct s as [rho sh]. pose proof (lvalue_here lm lim ty V w rho sh R D e o Dv) as E.
    destruct o as [v|[m|]|u]; try contradiction; cbn [jgiven] in X.
    + rewrite (bind_done _ _ _ _ _ E). apply (IH v H V w _ r s' A X).
    + unfold bind. rewrite E. destruct X as [-> ->]. eexists _, w. split; [reflexivity|]. now apply jended_raise.
  - destruct X as [t [l [d [Nc [Cr X]]]]].
    destruct (lmake_creates lm lim ty w H V (fst s) (snd s) col m t l d (proj1 A) D Nc Cr) as [w1 [E1 Md]].
    rewrite (bind_done _ _ _ _ _ E1).
    destruct (lalive_made lim ty w w1 H V s col t l _ A Nc Md) as [A1 L1].
    destruct (follows_each (col :: H) V (fun v => jrun N lm (body v)) _ (fun v b C => hides_jrun True (fun _ => False) b C N lm (body v)) (fun v => IH v (col :: H) V) l w1 s r s' A1 X)
      as [out [w2 [E2 J2]]].
    destruct (jscope_ended (col :: H) V H V w1 col (vs <- iterate_vec col ;; jeach vs (fun v => jrun N lm (body v))) w1 out w2 r s') as [out' [w3 [E3 J3]]]; [| |exact J2|].
    + intros w4 A4. now apply lalive_end.
    + rewrite (bind_done _ _ _ _ _ (iterate_vec_holds w1 col l (re_shape _ _ _ _ _ (proj1 (proj1 A1))) (md_holds _ _ _ _ _ _ Md))). exact E2.
    + exists out', w3. split; [exact E3|]. eapply jended_before; [|exact L1|exact J3].
      eapply hidden_by; [intros; apply hides_lmake|exact E1].
  - destruct X as [l [d [Nx [Nt [Ne [Tx [Cr X]]]]]]].
    destruct (lmake_creates lm lim ty w H V (fst s) (snd s) t m et l d (proj1 A) D Nt Cr) as [w1 [E1 Md]].
    rewrite (bind_done _ _ _ _ _ E1).
    destruct (lalive_declared lim ty w w1 H V s x t et l d A Nx Nt Ne Tx Md) as [w2 [E2 [A2 L2]]].
    assert (Hh : forall b B, hidden b B w -> hidden b B w2).
    { intros b B Hb. eapply (hidden_by (vec_steal x t et ;; vec_end t)); [|exact E2|eapply hidden_by; [intros; apply hides_lmake|exact E1|exact Hb]].
      intros b' B'. apply hides_bind; [apply hides_vec_steal|intros _; apply hides_vec_end]. }
    rewrite <- bind_assoc, (bind_done _ _ _ _ _ E2).
    destruct (IH H (x :: V) w2 _ r s' A2 X) as [out [w3 [E3 J3]]].
    destruct (jscope_ended H (x :: V) H V w2 x (jrun N lm body) w2 out w3 r s') as [out' [w4 [E4 J4]]]; [|exact E3|exact J3|].
    + intros w5 A5. now apply lalive_end_var.
    + exists out', w4. split; [exact E4|]. eapply jended_before; eauto.
  - destruct X as [Nx [Tx [a [M X]]]]. rewrite bind_get, (LB _ _ M).
    destruct a as [e'|[m|]|u]; try contradiction; cbn [jgiven] in X.
    2: { destruct X as [-> ->]. eexists _, w. split; [reflexivity|]. now apply jended_raise. }
    rewrite bind_lift_done. destruct X as [WF [Bs [Fl X]]]. pose proof (MV _ _ M) as Vs.
    assert (Nv : ~ In x V) by (intros Hx; apply Nx, in_or_app; auto).
    pose proof (vec_of_expr_run lm w x t e' (fst s) (re_shape _ _ _ _ _ R)) as CR.
    unfold cons_result in CR. specialize (CR (proj2 (proj2 (proj1 A)) x Nx) (re_temp _ _ _ _ _ R x Nv)).
    assert (Nve : ~ In x (vars e')) by (intros Hx; apply Nv, Vs, Hx).
    specialize (CR Nve (fun y Hy => re_holds _ _ _ _ _ R y (Vs y Hy)) WF (proj1 Bs)).
    assert (Ft : fits w (xsize (fst s) e')) by (unfold fits; rewrite (re_lim _ _ _ _ _ R); lia). specialize (CR Ft).
    destruct (value lm (fst s) t e') as [us|[m|]|u]; try contradiction; cbn [jgiven] in X.
    + destruct CR as [w1 [E1 Md]]. rewrite (bind_done _ _ _ _ _ E1).
      destruct (lalive_var lim ty w w1 H V s x t us _ (xdims (snd s) e') A Nx Tx Md) as [A1 L1].
      { rewrite shape_dims, (xdims_here V w (snd s) D e' Vs). cbn. unfold received. now destruct (xdims (dims_in w) e'). }
      { eapply vec_of_expr_cap; [|exact E1]. rewrite (size_here lim ty V w (fst s) R); auto. }
      destruct (IH H (x :: V) w1 _ r s' A1 X) as [out [w3 [E3 J3]]].
      destruct (jscope_ended H (x :: V) H V w1 x (jrun N lm body) w1 out w3 r s') as [out' [w4 [E4 J4]]]; [|exact E3|exact J3|].
      * intros w5 A5. now apply lalive_end_var.
      * exists out', w4. split; [exact E4|]. eapply jended_before; [|exact L1|exact J4].
        eapply hidden_by; [|exact E1]. intros b B. apply hides_vec_of_expr.
    + destruct CR as [w1 [E1 Md]]. unfold bind. rewrite E1. destruct X as [-> ->].
      destruct (lalive_not lim ty w w1 H V s x A Nx Md) as [A1 L1]. eexists _, w1. split; [reflexivity|].
      split; [split; [reflexivity|discriminate]|]. auto.
  - destruct X as [r1 [s1 [X1 X2]]]. destruct (IHa H V w s r1 s1 A X1) as [out [w1 [E1 J1]]]. rewrite E1.
    assert (Hh : forall b B, hidden b B w -> hidden b B w1) by (eapply hidden_by; [intros; apply hides_jrun|exact E1]).
    destruct r1 as [| | |t us d|[m|]|].
    + destruct X2 as [-> ->]. pose proof J1 as [-> _]. eexists _, w1. split; [reflexivity|exact J1].
    + destruct X2 as [-> ->]. pose proof J1 as [-> _]. eexists _, w1. split; [reflexivity|exact J1].
    + destruct X2 as [-> ->]. pose proof J1 as [-> _]. eexists _, w1. split; [reflexivity|exact J1].
    + destruct X2 as [-> ->]. pose proof J1 as [[o [-> _]] _]. eexists _, w1. split; [reflexivity|exact J1].
    + destruct J1 as [[-> _] [Y Z]]. destruct (IHb H V w1 s1 r s' (Y ltac:(discriminate)) X2) as [out [w2 [E2 J2]]].
      exists out, w2. split; [exact E2|]. eapply jended_before; eauto.
    + destruct J1 as [[_ NB] _]. now destruct NB.
    + destruct X2 as [-> ->]. pose proof J1 as [-> _]. eexists _, w1. split; [reflexivity|exact J1].
Qed.

(** The parameters are loaded as in CallProofs. *)
Lemma jcall_load ps2 b r (s s' : mstate) : forall ps1 V w V1,
  (forall x, In x V1 <-> In x V \/ In x (map p_name ps1)) ->
  (forall w1, lalive w1 lim ty [] V1 s -> exists out w', jcall N lm ps2 b w1 = (out, w') /\ jended [] V1 w1 w' out r s') ->
  NoDup (map p_name ps1) -> (forall p, In p ps1 -> ~ In (p_name p) V) -> (forall p, In p ps1 -> ty (p_name p) = p_type p) ->
  Forall (passed w s) ps1 -> lalive w lim ty [] V s ->
  exists out w', jcall N lm (ps1 ++ ps2) b w = (out, w') /\ jended [] V w w' out r s'.
Proof.
  induction ps1 as [|p ps1 IH]; intros V w V1 EV Q ND NV TY PA A.
  - cbn [app]. destruct (Q w) as [out [w' [E [F1 [F2 F3]]]]].
    { eapply lalive_perm; [exact A|]. intros x. rewrite EV. cbn. tauto. }
    exists out, w'. split; [exact E|]. split; [exact F1|]. split; [|exact F3].
    intros NU. eapply lalive_perm; [exact (F2 NU)|]. intros x. rewrite EV. cbn. tauto.
  - cbn [app jcall]. inversion PA as [|? ? P1 P2]; subst. cbn [map] in ND. inversion ND as [|? ? N1 N2]; subst.
    pose proof P1 as [xs [RH [RT [CV [DM HL]]]]].
    pose proof (NV p (or_introl eq_refl)) as Np.
    destruct (load_made w (p_name p) (p_type p) (p_obj p) xs (fst s (p_name p))) as [w1 [w2 [E1 [E2 [Md Ca]]]]]; auto.
    { apply (re_shape _ _ _ _ _ (proj1 (proj1 A))). } { apply (proj2 (proj2 (proj1 A))). exact Np. }
    { apply (re_temp _ _ _ _ _ (proj1 (proj1 A))). exact Np. }
    rewrite (bind_done _ _ _ _ _ E1).
    destruct (lalive_var lim ty w w2 [] V s (p_name p) (p_type p) _ _ (r_dim (p_obj p)) A Np (TY p (or_introl eq_refl)) Md) as [A2 L2]; [|exact Ca|].
    { unfold SpecForeign.dims_of, SpecCons.dims_of. destruct (r_dim (p_obj p)) as [[nr nc]|]; reflexivity. }
    destruct (IH (p_name p :: V) w2 V1) as [out [w3 [E3 F3]]]; auto.
    { intros x. rewrite EV. cbn [map In]. tauto. }
    { intros q Hq [E|Hv]; [|now apply (NV q (or_intror Hq))]. apply N1. rewrite E. now apply in_map. }
    { intros q Hq. apply TY. now right. }
    { eapply Forall_impl; [|exact P2]. intros q. apply passed_kept with (x := p_name p). apply Md. }
    { eapply lalive_ext; [exact A2|]. intros x Hx. cbn [fst snd]. destruct (Nat.eq_dec x (p_name p)) as [->|Nx].
      - rewrite setl_same, setd_same. auto.
      - rewrite setl_other, setd_other; auto. }
    assert (H1 : forall b B, hidden b B w -> hidden b B w1) by (eapply hidden_by; [intros; apply hides_vec_default|exact E1]).
    assert (H2 : forall b B, hidden b B w1 -> hidden b B w2) by (eapply hidden_by; [intros; apply hides_assign_R|exact E2]).
    assert (E4 : (assign_R (p_name p) (p_obj p) ;; jcall N lm (ps1 ++ ps2) b) w1 = (out, w3)) by (rewrite (bind_done _ _ _ _ _ E2); exact E3).
    assert (F4 : jended [] (p_name p :: V) w w3 out r s') by (eapply jended_before; [|exact L2|exact F3]; auto).
    eapply (jscope_ended [] (p_name p :: V) [] V w); [|exact E4|exact F4]. intros w5 A5. now apply lalive_end_var.
Qed.

Lemma jcall_follows ps b (s : mstate) r s' w : at_rest w -> hlim (hp w) = lim -> NoDup (map p_name ps) ->
  (forall p, In p ps -> ty (p_name p) = p_type p) -> Forall (passed w s) ps -> jsem N lm ty lim [] (map p_name ps) b s r s' ->
  exists out w', jcall N lm ps b w = (out, w') /\ jended [] [] w w' out r s'.
Proof.
  intros AR HL ND TY PA X. rewrite <- (app_nil_r ps).
  apply (jcall_load [] b r s s' ps [] w (map p_name ps)); auto.
  - intros x. cbn. tauto.
  - intros w1 A. cbn [jcall]. eapply jrun_follows; eauto.
  - now apply rest_alive.
Qed.

Lemma jended_seen ps b w out w' r s' : at_rest w -> jcall N lm ps b w = (out, w') -> jended [] [] w w' out r s' ->
  jends_with w w' out r /\ foreign_kept w w' /\ (r <> JMore -> at_rest w' /\ hlim (hp w') = lim).
Proof.
  intros AR E [X [Y Z]]. split; [|split; [eapply jcall_foreign; eauto|]].
  - destruct r as [| | |t us d|e|]; cbn [jends_with]; try exact X; [|tauto].
    destruct X as [o [X1 [X2 [X3 [X4 X5]]]]]. exists o. split; [exact X1|]. split; [exact X2|]. split; [exact X3|].
    split; [apply X4; exact Logic.I|].
    assert (Q : forall B, hblk (hp w) (r_mem o) = B -> B <> Unused -> False).
    { intros B EB NB. apply (X5 (r_mem o) B NB); [now apply rest_hidden|reflexivity]. }
    destruct (hblk (hp w) (r_mem o)) eqn:EB; [reflexivity|destruct (Q _ eq_refl); discriminate..].
  - intros NU. pose proof (Y NU) as A. destruct AR as [W [K NL]].
    assert (W' : world_shape w') by apply (re_shape _ _ _ _ _ (proj1 (proj1 A))).
    assert (K' : forall o, kd (ob w' o) = KBuffer).
    { intros o. pose proof (jcall_kinds N lm ps b w o (fun o => proj1 (K o))) as Q. now rewrite E in Q. }
    assert (U : forall o a, ~ owns (ob w' o) a).
    { intros [y|y] a; [apply (proj2 (proj2 (proj1 A)) y); intros []|apply (re_temp _ _ _ _ _ (proj1 (proj1 A)) y); intros []]. }
    split; [split; [exact W'|split]|apply (re_lim _ _ _ _ _ (proj1 (proj1 A)))].
    + intros o. split; [apply K'|]. destruct (ptr (ob w' o)) as [a|] eqn:P; [|reflexivity].
      exfalso. apply (U o a). split; [exact P|]. unfold owner_of. now rewrite K'.
    + intros a cs Ha. assert (N0 : no_leak w) by (intros a' cs' H'; destruct (NL a' cs' H')).
      destruct (Z N0 a cs Ha) as [o Ho]. now apply (U o a).
Qed.
End Follow.
