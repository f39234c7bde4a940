(** Functions with return, break and continue: memory safety, how they end,
    and the functions without jumps among them. *)
From Coq Require Import ZArith List String Bool Lia.
From Verif Require Import Base Num StoreModel VecModel SubsetModel AllocModel ProgModel LangModel OutModel ForeignModel CallModel JumpModel
  Spec SpecExpr SpecVec SpecHist SpecProg SpecSub SpecAlloc SpecStmt SpecMat SpecOut SpecForeign SpecSafe SpecLang SpecCall SpecSession SpecJump
  StoreProofs StoreOps StoreThms StoreThms2 VecProofs VecThms VecAssign VecEval AllocProofs2 ProgProofs LendProofs SafeProofs LangProofs
  MatThms OutProofs ForeignProofs HideProofs CallProofs CallSafe.
Import ListNotations.
Open Scope Z_scope.
Local Notation length := List.length (only parsing).

(* ------------------------------------------------------- blocks not touched *)

Section Hide.
Variables (P : Prop) (Q : oid -> Prop) (a : nat) (B : block).
Local Notation hides := (hides P Q a B).

Lemma hides_jscope x m : hides m -> hides (jscope x m).
Proof.
  intros Hm w H. specialize (Hm w H). unfold jscope.
  assert (Kp : forall f : flow, hides (bind (vec_end x) (fun _ => ret f))) by (intros f; apply hides_bind; [apply hides_vec_end|intros _; apply hides_ret]).
  destruct (m w) as [[[| | |o|]|[e|]|u] w1]; cbn [snd] in Hm; auto; try now apply Kp.
  assert (Kt : hides (bind (vec_end x) (fun _ => throw (A := flow) (Ass e)))) by (apply hides_bind; [apply hides_vec_end|intros _; apply hides_throw]).
  now apply Kt.
Qed.
Lemma hides_jround f m : hides m -> hides (jround f m).
Proof. intros H. destruct f; cbn [jround]; auto; apply hides_ret. Qed.
Lemma hides_jrounds k c b : hides c -> hides b -> hides (jrounds k c b).
Proof.
  intros Hc Hb. induction k as [|k IH]; cbn [jrounds]; [apply hides_ret|]. apply hides_bind; [exact Hc|]. intros []; [|apply hides_ret].
  apply hides_bind; [exact Hb|]. intros f. now apply hides_jround.
Qed.
Lemma hides_jeach vs b : (forall v, hides (b v)) -> hides (jeach vs b).
Proof.
  intros Hb. induction vs as [|v r IH]; cbn [jeach]; [apply hides_ret|]. apply hides_bind; [apply Hb|]. intros f. now apply hides_jround.
Qed.
Lemma hides_jrun N lm s : hides (jrun N lm s).
Proof.
  induction s; cbn [jrun].
  - apply hides_bind; [apply hides_lrun|]. intros r. apply hides_ret.
  - apply hides_ret.
  - apply hides_ret.
  - intros w H. rewrite bind_get. revert w H. assert (K : forall w0, hides (e' <- lift (lbuild lm w0 e) ;; o <- cpp2R lm t e' ;; ret (Gave o))).
    { intros w0. apply hides_bind; [apply hides_lift|]. intros e'. apply hides_bind; [apply hides_cpp2R|]. intros o. apply hides_ret. }
    intros w H. now apply K.
  - unfold jthen. apply hides_bind; [exact IHs1|]. intros []; try apply hides_ret. exact IHs2.
  - apply hides_bind; [apply hides_lcondition|]. intros v. now destruct (truth v).
  - apply hides_jrounds; [|exact IHs]. apply hides_bind; [apply hides_lcondition|]. intros v. apply hides_ret.
  - apply hides_bind; [apply hides_lcondition|]. intros v. apply H.
  - apply hides_bind; [apply hides_lmake|]. intros _. apply hides_jscope. apply hides_bind; [apply hides_iterate|]. intros vs. now apply hides_jeach.
  - apply hides_bind; [apply hides_lmake|]. intros _. apply hides_bind; [apply hides_vec_steal|]. intros _. apply hides_bind; [apply hides_vec_end|]. intros _.
    now apply hides_jscope.
  - intros w H. rewrite bind_get. assert (K : forall w0, hides (e' <- lift (lbuild lm w0 e) ;; vec_of_expr lm x t e' ;; jscope x (jrun N lm s))).
    { intros w0. apply hides_bind; [apply hides_lift|]. intros e'. apply hides_bind; [apply hides_vec_of_expr|]. intros _. now apply hides_jscope. }
    now apply K.
  - intros w H. specialize (IHs1 w H). destruct (jrun N lm s1 w) as [[y|[e|]|u] w1]; cbn [snd] in IHs1; auto.
Qed.
Lemma hides_jcall N lm ps b : hides (jcall N lm ps b).
Proof.
  induction ps as [|p ps IH]; cbn [jcall]; [apply hides_jrun|].
  apply hides_bind; [apply hides_vec_default|]. intros _. apply hides_jscope. apply hides_bind; [apply hides_assign_R|]. intros _. exact IH.
Qed.
End Hide.

(* ----------------------------------------------------- how a function ends *)

(** A statement outside loops does not end with break or continue. *)
Definition stays (loop : bool) (f : flow) : Prop := loop = false -> f <> Broke /\ f <> Again.
Definition ends_in (Q : flow -> Prop) (m : M world flow) : Prop := forall w f w', m w = (Done f, w') -> Q f.

Lemma ends_in_bind {A} Q (m : M world A) f : (forall a, ends_in Q (f a)) -> ends_in Q (bind m f).
Proof. intros H w r w'. unfold bind. destruct (m w) as [[a|e|u] w1]; try discriminate. apply H. Qed.
Lemma ends_in_ret (Q : flow -> Prop) f : Q f -> ends_in Q (ret f).
Proof. intros H w r w' [= <- <-]. exact H. Qed.
Lemma ends_in_scope Q x m : ends_in Q m -> ends_in Q (jscope x m).
Proof.
  intros H w f w'. unfold jscope. specialize (H w).
  destruct (m w) as [[g|[e|]|u] w1]; try discriminate.
  - assert (K : Q g) by (now apply (H g w1)). destruct g; unfold bind; try (intros [= <- <-]; exact K);
      (destruct (vec_end x w1) as [[[]|e|u] w2]; try discriminate; intros [= <- <-]; exact K).
  - unfold bind. destruct (vec_end x w1) as [[[]|y|u] w2]; discriminate.
Qed.
Lemma ends_in_imp (P Q : flow -> Prop) m : (forall f, P f -> Q f) -> ends_in P m -> ends_in Q m.
Proof. intros H E w f w' X. eauto. Qed.

Definition loops (f : flow) : Prop := f <> Broke /\ f <> Again.
Lemma round_loops f m : ends_in loops m -> ends_in loops (jround f m).
Proof. intros H. destruct f; cbn [jround]; auto; apply ends_in_ret; split; discriminate. Qed.
Lemma rounds_loops k c b : ends_in loops (jrounds k c b).
Proof.
  induction k as [|k IH]; cbn [jrounds]; [apply ends_in_ret; split; discriminate|]. apply ends_in_bind. intros []; [|apply ends_in_ret; split; discriminate].
  apply ends_in_bind. intros f. now apply round_loops.
Qed.
Lemma each_loops vs b : ends_in loops (jeach vs b).
Proof.
  induction vs as [|v r IH]; cbn [jeach]; [apply ends_in_ret; split; discriminate|]. apply ends_in_bind. intros f. now apply round_loops.
Qed.

Lemma jrun_stays N lm s : forall loop L V, scoped_j loop L V s -> ends_in (stays loop) (jrun N lm s).
Proof.
  induction s; intros loop L V Sc; cbn [scoped_j jrun] in *.
  - apply ends_in_bind. intros r. apply ends_in_ret. intros _. destruct r; split; discriminate.
  - apply ends_in_ret. intros E. congruence.
  - apply ends_in_ret. intros E. congruence.
  - repeat (apply ends_in_bind; intros ?). apply ends_in_ret. intros _. split; discriminate.
  - destruct Sc as [Sa Sb]. intros w f w'. unfold jthen, bind. specialize (IHs1 loop L V Sa w).
    destruct (jrun N lm s1 w) as [[g|e|u] w1]; try discriminate.
    assert (K : stays loop g) by (now apply (IHs1 g w1)).
    destruct g; try (intros [= <- <-]; exact K). now apply (IHs2 loop L V).
  - destruct Sc as [_ [Sa Sb]]. apply ends_in_bind. intros v. destruct (truth v); eauto.
  - eapply ends_in_imp; [|apply rounds_loops]. intros f Hf _. exact Hf.
  - destruct Sc as [_ Sb]. apply ends_in_bind. intros v. eapply H. apply Sb.
  - apply ends_in_bind. intros _. apply ends_in_scope. apply ends_in_bind. intros vs. eapply ends_in_imp; [|apply each_loops]. intros f Hf _. exact Hf.
  - destruct Sc as [_ [_ [_ [_ [_ Sb]]]]]. repeat (apply ends_in_bind; intros ?). apply ends_in_scope. eauto.
  - destruct Sc as [_ [_ Sb]]. repeat (apply ends_in_bind; intros ?). apply ends_in_scope. eauto.
  - destruct Sc as [Sa Sb]. intros w f w'. specialize (IHs1 loop L V Sa w).
    destruct (jrun N lm s1 w) as [[g|[e|]|u] w1]; try discriminate; [intros [= <- <-]; now apply (IHs1 g w1)|]. now apply (IHs2 loop L V).
Qed.

(** A statement all of whose ways return does not come to its end. *)
Definition gives (f : flow) : Prop := f <> Next.
Lemma jrun_returns N lm s : returns s -> ends_in gives (jrun N lm s).
Proof.
  induction s; intros Re; cbn [returns jrun] in *; try contradiction.
  - repeat (apply ends_in_bind; intros ?). apply ends_in_ret. discriminate.
  - intros w f w'. unfold jthen, bind. destruct Re as [Re|Re].
    + specialize (IHs1 Re w). destruct (jrun N lm s1 w) as [[g|e|u] w1]; try discriminate.
      assert (K : gives g) by (now apply (IHs1 g w1)). destruct g; try (intros [= <- <-]; exact K). now destruct K.
    + destruct (jrun N lm s1 w) as [[g|e|u] w1]; try discriminate. destruct g; try (intros [= <- <-]; discriminate). now apply IHs2.
  - destruct Re as [Ra Rb]. apply ends_in_bind. intros v. destruct (truth v); auto.
  - apply ends_in_bind. intros v. now apply H.
  - repeat (apply ends_in_bind; intros ?). apply ends_in_scope. auto.
  - repeat (apply ends_in_bind; intros ?). apply ends_in_scope. auto.
  - destruct Re as [Ra Rb]. intros w f w'. specialize (IHs1 Ra w).
    destruct (jrun N lm s1 w) as [[g|[e|]|u] w1]; try discriminate; [intros [= <- <-]; now apply (IHs1 g w1)|]. now apply IHs2.
Qed.
Lemma jcall_ends_in Q N lm ps b : ends_in Q (jrun N lm b) -> ends_in Q (jcall N lm ps b).
Proof.
  intros H. induction ps as [|p ps IH]; cbn [jcall]; [exact H|]. apply ends_in_bind. intros _. apply ends_in_scope. apply ends_in_bind. intros _. exact IH.
Qed.

(* ---------------------------------------------------------- memory safety *)

Section Mode.
Variable ini : mode.

Definition jends (L : list nat) (r : outcome flow) (w' : world) : Prop :=
  match r with
  | Done (Gave o) => sound_at ini L w' /\ given_to_R w' o
  | Done More => exists L', incl L L' /\ sound_at ini L' w'
  | Done _ | Thrown (Ass _) => sound_at ini L w'
  | Thrown BadAlloc => True
  | Undef u => allowed ini u
  end.

Lemma jends_quiet {A} L (P : A -> Prop) O m (f : A -> M world flow) w : sound_at ini L w -> ob w = O -> quiet ini L O P m ->
  (forall a w1, sound_at ini L w1 -> ob w1 = O -> P a -> let (r, w') := f a w1 in jends L r w') ->
  let (r, w') := bind m f w in jends L r w'.
Proof.
  intros S E H K. specialize (H w S E). unfold bind. destruct (m w) as [[a|e|u] w1]; [|destruct e; [apply H|exact I]|exact H].
  destruct H as [S1 [E1 Pa]]. now apply K.
Qed.
Lemma jends_lift {A} L (P : A -> Prop) r (f : A -> M world flow) w : sound_at ini L w -> good ini P r ->
  (forall a, P a -> let (r, w') := f a w in jends L r w') ->
  let (r, w') := bind (lift r) f w in jends L r w'.
Proof. intros S G K. unfold bind, lift. destruct r as [a|[m|]|u]; cbn in G; [now apply K|exact S|exact I|exact G]. Qed.
Lemma jends_safely {A} L L' (m : M world A) (f : A -> M world flow) w : (let (r, w1) := m w in safely ini L L' r w1) ->
  (forall a w1, m w = (Done a, w1) -> sound_at ini L' w1 -> let (r, w') := f a w1 in jends L r w') ->
  let (r, w') := bind m f w in jends L r w'.
Proof. intros H K. unfold bind. destruct (m w) as [[a|[e|]|u] w1]; cbn [safely] in H; [now apply K|exact H|exact I|exact H]. Qed.
Lemma jends_makes {A} L x t (m : M world A) (f : A -> M world flow) w : (let (r, w1) := m w in makes ini L x t r w1) ->
  (forall a w1, sound_at ini (x :: L) w1 -> crafted w1 x t -> let (r, w') := f a w1 in jends L r w') ->
  let (r, w') := bind m f w in jends L r w'.
Proof. intros H K. unfold bind. destruct (m w) as [[a|[e|]|u] w1]; cbn [makes] in H; [destruct H; now apply K|exact H|exact I|exact H]. Qed.

Lemma jends_scope L x (m : M world flow) w : ~ In x L -> (let (r, w1) := m w in jends (x :: L) r w1) ->
  let (r, w') := jscope x m w in jends L r w'.
Proof.
  intros Nx H. unfold jscope. destruct (m w) as [[[| | |o|]|[e|]|u] w1]; cbn [jends] in H.
  1-3,6: (destruct (sound_pop ini L w1 x H Nx) as [w2 [E2 S2]]; rewrite (bind_done _ _ _ _ _ E2); exact S2).
  - destruct H as [S G]. destruct (sound_pop ini L w1 x S Nx) as [w2 [E2 S2]]. rewrite (bind_done _ _ _ _ _ E2). split; [exact S2|].
    eapply given_kept; [|exact E2|exact G]. intros b B. apply hides_vec_end.
  - destruct H as [L' [I' S']]. exists L'. split; [|exact S']. intros y Hy. apply I'. now right.
  - exact I.
  - exact H.
Qed.
Lemma jends_round L f (m : M world flow) w : jends L (Done f) w -> (sound_at ini L w -> let (r, w') := m w in jends L r w') ->
  let (r, w') := jround f m w in jends L r w'.
Proof. intros H K. destruct f; cbn [jround ret]; [now apply K|exact H|now apply K|exact H|exact H]. Qed.
Lemma jends_rounds L (c : M world bool) (b : M world flow) : (forall w, sound_at ini L w -> quiet ini L (ob w) (fun _ => True) c) ->
  (forall w, sound_at ini L w -> let (r, w') := b w in jends L r w') ->
  forall k w, sound_at ini L w -> let (r, w') := jrounds k c b w in jends L r w'.
Proof.
  intros Hc Hb. induction k as [|k IH]; intros w S; cbn [jrounds]; [exists L; split; [apply incl_refl|exact S]|].
  eapply (jends_quiet L (fun _ => True) (ob w)); [exact S|reflexivity|now apply Hc|]. intros [|] w1 S1 _ _; [|exact S1].
  specialize (Hb w1 S1). unfold bind. destruct (b w1) as [[f|[e|]|u] w2]; [|exact Hb|exact I|exact Hb]. apply jends_round; [exact Hb|]. apply IH.
Qed.
Lemma jends_each L vs (body : val -> M world flow) : (forall v w, sound_at ini L w -> let (r, w') := body v w in jends L r w') ->
  forall w, sound_at ini L w -> let (r, w') := jeach vs body w in jends L r w'.
Proof.
  intros H. induction vs as [|v vs IH]; intros w S; cbn [jeach]; [exact S|].
  specialize (H v w S). unfold bind. destruct (body v w) as [[f|[e|]|u] w2]; [|exact H|exact I|exact H]. apply jends_round; [exact H|]. apply IH.
Qed.

Lemma jrun_ends N lm s : forall loop L V w, incl V L -> scoped_j loop L V s -> (written ini = true -> writes_all_j s) -> keeps_j (wrapped ini) s -> sound_at ini L w ->
  let (r, w') := jrun N lm s w in jends L r w'.
Proof.
  induction s; intros loop L V w VL Sc Wr Kp SO; cbn [scoped_j writes_all_j keeps_j jrun] in *;
    pose proof (good_lbuild ini lm L V w SO VL) as [BE BI].
  - pose proof (lrun_ends ini N lm p L V w VL Sc Wr Kp SO) as Q.
    unfold bind. destruct (lrun N lm p w) as [[[|]|[m|]|u] w1]; exact Q.
  - exact SO.
  - exact SO.
  - destruct Sc as [He Ns]. rewrite bind_get. pose proof (BE e He) as G. unfold bind at 1. cbn [lift].
    destruct (lbuild lm w e) as [e'|[m|]|u] eqn:Eb; cbn in G; [|exact SO|exact I|exact G].
    pose proof (cpp2R_safe ini lm t e' L V w SO VL G (small_esize ini lm L V w SO VL e e' Ns He Eb)) as Q.
    unfold bind. destruct (cpp2R lm t e' w) as [[o|[m|]|u] w1]; exact Q.
  - destruct Sc as [Sa Sb]. destruct Kp as [Ka Kb]. assert (G : let (r, w1) := jrun N lm s1 w in jends L r w1) by (eapply IHs1; eauto; intros E; apply (Wr E)).
    unfold jthen, bind. destruct (jrun N lm s1 w) as [[[| | |o|]|[m|]|u] w1]; try exact G. eapply IHs2; eauto. intros E; apply (Wr E).
  - destruct Sc as [Hc [Sa Sb]]. destruct Kp as [Ka Kb]. eapply (jends_quiet L (fun _ => True) (ob w)); [exact SO|reflexivity|now apply (quiet_condition ini lm L V)|].
    intros v w1 S1 _ _. destruct (truth v); [eapply IHs1|eapply IHs2]; eauto; intros E; apply (Wr E).
  - destruct Sc as [Hc Sa]. apply jends_rounds; auto.
    + intros w1 S1. eapply quiet_bind; [now apply (quiet_condition ini lm L V)|]. intros v _. now apply quiet_ret.
    + intros w1 S1. eapply IHs; eauto.
  - destruct Sc as [Hc Sb]. eapply (jends_quiet L (fun _ => True) (ob w)); [exact SO|reflexivity|now apply (quiet_condition ini lm L V)|].
    intros v w1 S1 _ _. eapply H; eauto.
  - destruct Sc as [Nc [Hm Sb]]. destruct Kp as [Kc Kb]. eapply jends_makes; [now apply (lmake_makes ini lm L V)|]. intros _ w1 S1 C1.
    apply jends_scope; [exact Nc|]. destruct (so_live _ _ _ S1 col (or_introl eq_refl)) as [O1 I1].
    destruct (iterate_calm ini w1 col (so_shape _ _ _ S1) I1) as [r [E C]]. unfold bind. rewrite E.
    destruct r as [vs|[m1|]|u]; [|exact S1|exact I|now apply C].
    apply jends_each; [|exact S1]. intros v w2 S2. eapply (H v); eauto. intros y Hy; right; auto.
  - destruct Sc as [Ne [Nx [Ns [Et [Hm Sb]]]]]. destruct Kp as [Kx [Ks Kb]]. subst t. eapply jends_makes; [now apply (lmake_makes ini lm L V)|]. intros _ w1 S1 C1.
    destruct (steal_sound ini L w1 x s _ S1 Kx C1 Nx Ns Ne) as [w2 [E2 S2]].
    rewrite <- bind_assoc, (bind_done _ _ _ _ _ E2). apply jends_scope; [exact Nx|].
    eapply IHs; eauto. intros y [<-|Hy]; [now left|right; auto].
  - destruct Sc as [Nx [He Sb]]. destruct Kp as [Kx Kb]. rewrite bind_get. eapply jends_lift; [exact SO|now apply BE|]. intros e' F.
    eapply (jends_safely L (x :: L)); [apply declare_safely; auto; [intros y Hy; apply VL, F, Hy|apply F]|].
    intros _ w1 _ S1. apply jends_scope; [exact Nx|]. eapply IHs; eauto. intros y [<-|Hy]; [now left|right; auto].
  - destruct Sc as [Sa Sb]. destruct Kp as [Ka Kb]. assert (G : let (r, w1) := jrun N lm s1 w in jends L r w1) by (eapply IHs1; eauto; intros E; apply (Wr E)).
    destruct (jrun N lm s1 w) as [[f|[m|]|u] w1]; try exact G. eapply IHs2; eauto. intros E; apply (Wr E).
Qed.

End Mode.
Lemma keeps_j_nil s : keeps_j [] s.
Proof. induction s; cbn [keeps_j]; auto using keeps_nil. Qed.

Section Ini.
Variable ini : bool.

Lemma jcall_ends N lm b ps : forall L w, NoDup (map p_name ps) -> (forall p, In p ps -> ~ In (p_name p) L) ->
  scoped_j false (rev (map p_name ps) ++ L) (rev (map p_name ps) ++ L) b -> (ini = true -> writes_all_j b) ->
  (forall p, In p ps -> r_real w (p_obj p)) -> sound_at ini L w ->
  let (r, w') := jcall N lm ps b w in jends ini L r w'.
Proof.
  induction ps as [|p ps IH]; intros L w ND NL Sc Wr Re SO; cbn [jcall].
  - eapply jrun_ends; eauto using keeps_j_nil. apply incl_refl.
  - cbn [map rev] in ND, Sc. apply NoDup_cons_iff in ND. destruct ND as [Np ND]. rewrite <- app_assoc in Sc. cbn [app] in Sc.
    assert (Nx : ~ In (p_name p) L) by (apply NL; now left).
    destruct (load_safe ini L w (p_name p) (p_type p) (p_obj p) SO (fun q => q) Nx (Re p (or_introl eq_refl))) as [w1 [E1 [S1 [SO1 Q]]]].
    rewrite (bind_done _ _ _ _ _ E1). apply jends_scope; [exact Nx|].
    unfold bind. destruct (assign_R (p_name p) (p_obj p) w1) as [[[]|[m|]|u] w2].
    + destruct Q as [S2 SO2]. apply IH; auto.
      * intros q Hq [E|Hl]; [|apply (NL q); [now right|exact Hl]]. apply Np. rewrite E. now apply in_map.
      * intros q Hq. eapply real_kept; [|apply Re; right; exact Hq]. intros a own cs NO Ha. eapply (vs_ext _ _ _ S2); eauto.
    + subst w2. exact SO1.
    + exact I.
    + destruct Q.
Qed.

Lemma jcall_kinds N lm ps b w o : (forall o, kd (ob w o) = KBuffer) -> kd (ob (snd (jcall N lm ps b w)) o) = KBuffer.
Proof.
  intros K. apply (hides_jcall False (fun _ => True) 0%nat Unused N lm ps b w); [|exact Logic.I]. split; [tauto|]. split; [tauto|]. auto.
Qed.
Lemma jcall_foreign N lm ps b w r w' : at_rest w -> jcall N lm ps b w = (r, w') -> foreign_kept w w'.
Proof.
  intros AR E a own cs NO Ha. pose proof (rest_hidden w a _ AR Ha ltac:(discriminate)) as Hh.
  apply (hides_jcall True (fun _ => False) a _ N lm ps b w) in Hh. rewrite E in Hh. now apply Hh.
Qed.
Lemma jsound_rest N lm ps b w r w' : at_rest w -> jcall N lm ps b w = (r, w') -> sound_at ini [] w' -> at_rest w'.
Proof.
  intros [W [K NL]] E [A B C D F]. assert (K' : forall o, kd (ob w' o) = KBuffer).
  { intros o. pose proof (jcall_kinds N lm ps b w o (fun o => proj1 (K o))) as Q. now rewrite E in Q. }
  assert (U : forall o a, ~ owns (ob w' o) a) by (intros [y|y] a; apply (D y); intros Hy; destruct Hy).
  split; [exact A|]. split.
  - intros o. split; [apply K'|]. destruct (ptr (ob w' o)) as [a|] eqn:P; [|reflexivity].
    exfalso. apply (U o a). split; [exact P|]. unfold owner_of. now rewrite K'.
  - intros a cs Ha. destruct (F a cs Ha) as [o Ho]. now apply (U o a).
Qed.

Lemma jcall_safe N lm ps b w : at_rest w -> hlim (hp w) < 2 ^ 31 -> NoDup (map p_name ps) ->
  scoped_j false (rev (map p_name ps)) (rev (map p_name ps)) b ->
  (ini = true -> writes_all_j b) -> (forall p, In p ps -> r_real w (p_obj p)) ->
  let (r, w') := jcall N lm ps b w in
  foreign_kept w w' /\
  match r with
  | Done (Gave o) => at_rest w' /\ hlim (hp w') < 2 ^ 31 /\ r_real w' o
  | Done Next => ~ returns b /\ at_rest w' /\ hlim (hp w') < 2 ^ 31
  | Thrown (Ass _) => at_rest w' /\ hlim (hp w') < 2 ^ 31
  | Done Broke | Done Again => False
  | Done More | Thrown BadAlloc => True
  | Undef u => allowed ini u
  end.
Proof.
  intros AR HL ND Sc Wr Re.
  pose proof (jcall_ends N lm b ps [] w ND (fun _ _ H => H) ltac:(now rewrite app_nil_r) Wr Re (rest_sound ini w AR HL (fun _ _ _ _ q => match q with end))) as Q.
  pose proof (jcall_ends_in _ N lm ps b (jrun_stays N lm b false _ _ Sc) w) as St.
  pose proof (fun R => jcall_ends_in _ N lm ps b (jrun_returns N lm b R) w) as Rt.
  destruct (jcall N lm ps b w) as [r w'] eqn:E. split; [eapply jcall_foreign; eauto|].
  destruct r as [[| | |o|]|[m|]|u]; cbn [jends] in Q; auto.
  - split; [|split; [eapply jsound_rest; eauto|apply Q]]. intros R. now apply (Rt R Next w').
  - now destruct (St Broke w' eq_refl eq_refl).
  - now destruct (St Again w' eq_refl eq_refl).
  - destruct Q as [S [us [[Hh _] F]]]. split; [eapply jsound_rest; eauto|]. split; [apply S|]. exists us. split; [apply Hh; exact Logic.I|exact F].
  - split; [eapply jsound_rest; eauto|apply Q].
Qed.
End Ini.

(* ------------------------------------------ functions without jumps in loops *)

Definition flow_of (o : option robj) : flow := match o with Some o => Gave o | None => More end.
Definition omapped {A B} (f : A -> B) (r : outcome A) : outcome B :=
  match r with Done a => Done (f a) | Thrown e => Thrown e | Undef u => Undef u end.
Definition as_flow (m : M world (option robj)) (m' : M world flow) : Prop :=
  forall w, m' w = let (r, w') := m w in (omapped flow_of r, w').

Lemma as_flow_bind {A} (m : M world A) f f' : (forall a, as_flow (f a) (f' a)) -> as_flow (bind m f) (bind m f').
Proof. intros H w. unfold bind. destruct (m w) as [[a|e|u] w1]; [apply H|reflexivity|reflexivity]. Qed.
Lemma as_flow_life x m m' : as_flow m m' -> as_flow (lifetime x m) (jscope x m').
Proof.
  intros H w. unfold jscope, lifetime. rewrite (H w). destruct (m w) as [[[o|]|[e|]|u] w1]; cbn [omapped flow_of]; try reflexivity;
    unfold bind; destruct (vec_end x w1) as [[[]|y|v] w2]; reflexivity.
Qed.
Lemma frun_flow N lm b : as_flow (frun N lm b) (jrun N lm (of_fbody b)).
Proof.
  induction b; cbn [frun jrun of_fbody].
  - apply as_flow_bind. intros w0. apply as_flow_bind. intros e'. apply as_flow_bind. intros o w. reflexivity.
  - intros w. unfold jthen, bind. destruct (lrun N lm p w) as [[[]|e|u] w1]; try reflexivity. apply IHb.
  - apply as_flow_bind. intros v. now destruct (truth v).
  - apply as_flow_bind. intros v. apply H.
  - repeat (apply as_flow_bind; intros ?). now apply as_flow_life.
  - repeat (apply as_flow_bind; intros ?). now apply as_flow_life.
Qed.
Lemma call_flow N lm ps b : as_flow (call N lm ps b) (jcall N lm ps (of_fbody b)).
Proof.
  induction ps as [|p ps IH]; cbn [call jcall]; [apply frun_flow|]. apply as_flow_bind. intros _. apply as_flow_life. apply as_flow_bind. intros _. exact IH.
Qed.

(* --------------------------------------------------- more rounds of loops *)

Definition jmore (m m' : M world flow) : Prop := forall w o w', m w = (o, w') -> o <> Done More -> m' w = (o, w').
Lemma jmore_refl m : jmore m m. Proof. intros w o w' E _. exact E. Qed.
Lemma jmore_bind {A} (m : M world A) f f' : (forall a, jmore (f a) (f' a)) -> jmore (bind m f) (bind m f').
Proof. intros F w o w'. unfold bind. destruct (m w) as [[a|e|u] w1]; auto. apply F. Qed.
Lemma jmore_bind2 m m' f f' : jmore m m' -> (forall a, jmore (f a) (f' a)) -> (forall w, f More w = (Done More, w)) -> jmore (bind m f) (bind m' f').
Proof.
  intros H F Z w o w'. specialize (H w). unfold bind. destruct (m w) as [[a|e|u] w1].
  - destruct a; try (rewrite (H _ _ eq_refl) by discriminate; apply F). rewrite Z. intros [= <- <-] X. contradiction.
  - rewrite (H _ _ eq_refl) by discriminate. auto.
  - rewrite (H _ _ eq_refl) by discriminate. auto.
Qed.
Lemma jmore_scope x m m' : jmore m m' -> jmore (jscope x m) (jscope x m').
Proof.
  intros F w o w'. unfold jscope. specialize (F w). destruct (m w) as [[[| | |r|]|[e|]|u] w1]; try (rewrite (F _ _ eq_refl) by discriminate; auto; fail).
  intros [= <- <-] X. contradiction.
Qed.
Lemma jmore_round f m m' : jmore m m' -> jmore (jround f m) (jround f m').
Proof. intros H. destruct f; cbn [jround]; auto; apply jmore_refl. Qed.
Lemma jmore_rounds c b b' : jmore b b' -> forall k k', (k <= k')%nat -> jmore (jrounds k c b) (jrounds k' c b').
Proof.
  intros H. induction k as [|k IH]; intros k' L; cbn [jrounds].
  - intros w o w' [= <- <-] X. contradiction.
  - destruct k' as [|k']; [lia|]. cbn [jrounds]. apply jmore_bind. intros []; [|apply jmore_refl].
    apply jmore_bind2; [exact H| |reflexivity]. intros f. apply jmore_round, IH. lia.
Qed.
Lemma jmore_each b b' : (forall v, jmore (b v) (b' v)) -> forall vs, jmore (jeach vs b) (jeach vs b').
Proof.
  intros H. induction vs as [|v vs IH]; cbn [jeach]; [apply jmore_refl|]. apply jmore_bind2; [apply H| |reflexivity]. intros f. now apply jmore_round.
Qed.
Lemma jrun_more lm s : forall N N', (N <= N')%nat -> jmore (jrun N lm s) (jrun N' lm s).
Proof.
  induction s; intros N N' L; cbn [jrun]; try apply jmore_refl.
  - intros w o w'. unfold bind. pose proof (lrun_more lm p N N' L w) as Q. destruct (lrun N lm p w) as [[[]|e|u] w1];
      try (rewrite (Q _ _ eq_refl) by discriminate; auto; fail). intros [= <- <-] X. contradiction.
  - unfold jthen. apply jmore_bind2; [auto| |reflexivity]. intros []; auto; apply jmore_refl.
  - apply jmore_bind. intros v. destruct (truth v); auto.
  - apply jmore_rounds; auto.
  - apply jmore_bind. intros v. auto.
  - apply jmore_bind. intros _. apply jmore_scope, jmore_bind. intros vs. apply jmore_each. auto.
  - repeat (apply jmore_bind; intros ?). apply jmore_scope. auto.
  - repeat (apply jmore_bind; intros ?). apply jmore_scope. auto.
  - intros w o w'. pose proof (IHs1 N N' L w) as Q. destruct (jrun N lm s1 w) as [[f|[e|]|u] w1].
    + intros [= <- <-] X. now rewrite (Q _ _ eq_refl X).
    + rewrite (Q _ _ eq_refl) by discriminate. now apply IHs2.
    + rewrite (Q _ _ eq_refl) by discriminate. auto.
    + rewrite (Q _ _ eq_refl) by discriminate. auto.
Qed.
Lemma jcall_more lm b : forall ps N N', (N <= N')%nat -> jmore (jcall N lm ps b) (jcall N' lm ps b).
Proof.
  induction ps as [|p ps IH]; intros N N' L; cbn [jcall]; [now apply jrun_more|].
  apply jmore_bind. intros _. apply jmore_scope. apply jmore_bind. intros _. auto.
Qed.
