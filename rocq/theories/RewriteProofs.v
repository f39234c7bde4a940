(** Meanings depend on, and change, only the vectors that are mentioned. *)
From Coq Require Import String ZArith List Bool Lia Permutation Floats.SpecFloat.
From Verif Require Import Base Num StoreModel VecModel SubsetModel AllocModel ProgModel LangModel FloatBridge
  Spec SpecExpr SpecHist SpecProg SpecSub SpecAlloc SpecCons SpecStmt SpecMat SpecLang SpecRewrite VecEval SubsetProofs SubsetThms ProgProofs ProgProofs2 ProgThms LangProofs MatProofs MatThms.
Import ListNotations.
Open Scope Z_scope.
Local Notation length := List.length (only parsing).

Lemma incl_appl' {A} (a b P : list A) : incl (a ++ b) P -> incl a P.
Proof. intros H x Hx. apply H, in_or_app. now left. Qed.
Lemma incl_appr' {A} (a b P : list A) : incl (a ++ b) P -> incl b P.
Proof. intros H x Hx. apply H, in_or_app. now right. Qed.
#[local] Hint Resolve incl_appl' incl_appr' : core.

(* ------------------------------------------------------------ expressions *)

Lemma lmeans_scope lm V V' rho sh :
  (forall e o, lmeans lm V rho sh e o -> incl (lvars e) V' -> lmeans lm V' rho sh e o) /\
  (forall i o, lmeans_index lm V rho sh i o -> incl (lvars_i i) V' -> lmeans_index lm V' rho sh i o).
Proof.
  apply lexpr_lindex_ind; intros; cbn [lmeans lmeans_index lvars lvars_i] in *; auto.
  - destruct H as [_ ->]. split; [apply H0; now left|reflexivity].
  - destruct H1 as [a [b [M1 [M2 E]]]]. exists a, b. split; [eauto|]. split; eauto.
  - destruct H0 as [a [M1 E]]. exists a. split; eauto.
  - destruct H1 as [a [b [M1 [M2 E]]]]. exists a, b. split; [eauto|]. split; eauto.
  - destruct H2 as [a [b [c [M1 [M2 [M3 E]]]]]]. exists a, b, c. split; [eauto|]. split; [eauto|]. split; eauto.
  - destruct H as [z [_ E]]. exists z. split; [apply H0; now left|exact E].
  - destruct H as [_ E]. split; [apply H0; now left|exact E].
  - destruct H0 as [a [z [M1 E]]]. exists a, z. split; eauto.
  - destruct H0 as [a [M1 E]]. exists a. split; eauto.
  - destruct H0 as [a [M1 E]]. exists a. split; eauto.
  - destruct H0 as [a [M1 E]]. exists a. split; eauto.
Qed.
Lemma lmeans_in lm V P rho sh e e' : lmeans lm V rho sh e (Done e') -> incl (lvars e) P -> incl (vars e') P.
Proof. intros M I. apply (proj1 (lmeans_vars lm P rho sh) e). now apply (proj1 (lmeans_scope lm V P rho sh)). Qed.
Lemma lmeans_index_in lm V P rho sh i i' : lmeans_index lm V rho sh i (Done i') -> incl (lvars_i i) P -> incl (index_vars i') P.
Proof. intros M I. apply (proj2 (lmeans_vars lm P rho sh) i). now apply (proj2 (lmeans_scope lm V P rho sh)). Qed.

Section Ext.
Variables (lm : libm) (P : list nat) (rho rho' : state) (sh sh' : shapes).
Hypothesis A : forall x, In x P -> rho' x = rho x /\ sh' x = sh x.

Lemma xsize_alike e : incl (vars e) P -> xsize rho' e = xsize rho e.
Proof.
  induction e; cbn [xsize vars]; intros I; auto.
  - now rewrite (proj1 (A x (I x (or_introl eq_refl)))).
  - rewrite IHe1, IHe2; eauto.
Qed.
Lemma xval_alike e : incl (vars e) P -> forall i, xval lm rho' e i = xval lm rho e i.
Proof.
  induction e; cbn [xval vars]; intros I i; auto.
  - now rewrite (proj1 (A x (I x (or_introl eq_refl)))).
  - now rewrite IHe.
  - rewrite !xsize_alike by eauto. rewrite IHe1 by eauto. destruct (xval lm rho e1 _); cbn; [|reflexivity|reflexivity].
    now rewrite IHe2 by eauto.
  - now rewrite IHe.
Qed.
Lemma xdims_alike e : incl (vars e) P -> xdims sh' e = xdims sh e.
Proof. intros I. apply xdims_ext. intros x Hx. apply A, I, Hx. Qed.
Lemma wf_alike e : incl (vars e) P -> wf_expr rho e -> wf_expr rho' e.
Proof.
  induction e; cbn [wf_expr vars]; intros I W; auto.
  - destruct W as [W1 W2]. rewrite xsize_alike by exact I. auto.
  - destruct W as [W1 [W2 W3]]. rewrite !xsize_alike by eauto. repeat (split; eauto); apply W3.
  - destruct W as [W1 W2]. rewrite xsize_alike by exact I. auto.
Qed.
Lemma denotes_alike e l : incl (vars e) P -> denotes lm rho e l -> denotes lm rho' e l.
Proof.
  intros I [L X]. split; [now rewrite xsize_alike|]. intros i Hi. rewrite xval_alike by exact I. now apply X.
Qed.
Lemma value_alike t e : incl (vars e) P -> value lm rho' t e = value lm rho t e.
Proof.
  intros I. unfold value. rewrite xsize_alike by exact I. apply omap_ext. intros i _. now rewrite xval_alike.
Qed.
Lemma picks_alike d i ps : incl (index_vars i) P -> picks lm rho d i ps -> picks lm rho' d i ps.
Proof.
  intros I X. destruct X; cbn [index_vars] in I; try (econstructor; eauto using wf_alike, denotes_alike; fail).
Qed.
Lemma selected_alike d i ps : incl (index_vars i) P -> selected lm rho d i ps -> selected lm rho' d i ps.
Proof.
  intros I X. destruct X; cbn [index_vars] in I; try (econstructor; eauto using wf_alike, denotes_alike; fail).
Qed.
Lemma cells_alike e i j ps d : incl (vars e) P -> incl (index_vars i) P -> incl (index_vars j) P ->
  cells lm rho sh e i j ps d -> cells lm rho' sh' e i j ps d.
Proof.
  intros I1 I2 I3 [nr [nc [rs [cs [D [X [B1 [B2 [S1 [S2 E]]]]]]]]]]. exists nr, nc, rs, cs.
  rewrite xdims_alike, xsize_alike by exact I1. repeat (split; auto using selected_alike).
Qed.

Lemma lmeans_alike V :
  (forall e o, lmeans lm V rho sh e o -> incl (lvars e) P -> lmeans lm V rho' sh' e o) /\
  (forall i o, lmeans_index lm V rho sh i o -> incl (lvars_i i) P -> lmeans_index lm V rho' sh' i o).
Proof.
  apply lexpr_lindex_ind; intros; cbn [lmeans lmeans_index lvars lvars_i] in *; auto.
  - destruct H1 as [a [b [M1 [M2 E]]]]. exists a, b. split; [eauto|]. split; eauto.
  - destruct H0 as [a [M1 E]]. exists a. split; eauto.
  - destruct H1 as [a [b [M1 [M2 E]]]]. exists a, b. split; [eauto|]. split; [eauto|].
    destruct a as [e1|?|?]; [|exact E|exact E]. destruct b as [i1|?|?]; [|exact E|exact E].
    assert (I1 : incl (vars e1) P) by (eapply lmeans_in; eauto). assert (I2 : incl (index_vars i1) P) by (eapply lmeans_index_in; eauto).
    destruct E as [ps [W [X E]]]. exists ps. split; [now apply wf_alike|]. split; [|exact E]. rewrite xsize_alike by exact I1. now apply picks_alike.
  - destruct H2 as [a [b [c [M1 [M2 [M3 E]]]]]]. exists a, b, c. split; [eauto|]. split; [eauto|]. split; [eauto|].
    destruct a as [e1|?|?]; [|exact E|exact E]. destruct b as [i1|?|?]; [|exact E|exact E]. destruct c as [j1|?|?]; [|exact E|exact E].
    assert (I1 : incl (vars e1) P) by (eapply lmeans_in; eauto). assert (I2 : incl (index_vars i1) P) by (eapply lmeans_index_in; eauto).
    assert (I3 : incl (index_vars j1) P) by (eapply lmeans_index_in; eauto).
    destruct E as [ps [d [W [X E]]]]. exists ps, d. split; [now apply wf_alike|]. split; [|exact E]. now apply cells_alike.
  - destruct H as [z E]. exists z. now rewrite (proj1 (A x (H0 x (or_introl eq_refl)))).
  - destruct (A x (H0 x (or_introl eq_refl))) as [-> ->]. exact H.
  - destruct H0 as [a [z [M1 [Z1 [Z2 E]]]]]. exists a, z. split; [eauto|]. split; [exact Z1|]. split; [exact Z2|].
    destruct a as [e1|?|?]; [|exact E|exact E]. assert (I1 : incl (vars e1) P) by (eapply lmeans_in; eauto).
    rewrite xsize_alike, xval_alike by exact I1. destruct E as [W E]. split; [now apply wf_alike|exact E].
  - destruct H0 as [a [M1 E]]. exists a. split; [eauto|].
    destruct a as [e1|?|?]; [|exact E|exact E]. assert (I1 : incl (vars e1) P) by (eapply lmeans_in; eauto).
    destruct E as [W E]. split; [now apply wf_alike|]. rewrite xdims_alike by exact I1. destruct (xdims sh e1) as [[nr nc]|]; [|exact E].
    destruct E as [r [c [k [ins E]]]]. exists r, c, k, ins. rewrite xsize_alike, xval_alike by exact I1. exact E.
  - destruct H0 as [a [M1 [W E]]]. exists a. split; [eauto|]. split.
    + intros e1 ->. assert (I1 : incl (vars e1) P) by (eapply lmeans_in; eauto). destruct (W e1 eq_refl) as [W1 W2].
      rewrite xsize_alike by exact I1. split; [now apply wf_alike|exact W2].
    + rewrite E. destruct a as [e1|?|?]; cbn [obind]; [|reflexivity|reflexivity]. now rewrite xsize_alike by (eapply lmeans_in; eauto).
  - destruct H0 as [a [M1 E]]. exists a. split; eauto.
Qed.

Lemma larg_alike V a l : incl (avars a) P -> larg_is lm V rho sh a l -> larg_is lm V rho' sh' a l.
Proof.
  destruct a as [v|t e]; cbn [larg_is avars]; auto. intros I [e' [M [W D]]].
  assert (I1 : incl (vars e') P) by (eapply lmeans_in; eauto). exists e'. split; [now apply (proj1 (lmeans_alike V))|].
  split; [now apply wf_alike|now apply denotes_alike].
Qed.
Lemma counts_alike V a n : incl (avars a) P -> counts lm V rho sh a n -> counts lm V rho' sh' a n.
Proof. intros I [us [X E]]. exists us. split; [now apply larg_alike|exact E]. Qed.
Lemma lcreates_alike V lim m t l d : incl (mvars m) P -> lcreates lm V lim rho sh m t l d -> lcreates lm V lim rho' sh' m t l d.
Proof.
  intros I [L X]. split; [exact L|]. destruct m; cbn [mvars] in I.
  - destruct X as [v [n [X E]]]. exists v, n. split; [now apply larg_alike|exact E].
  - destruct X as [us [vs [p [q [X1 [X2 E]]]]]]. exists us, vs, p, q. split; [apply larg_alike; eauto|]. split; [apply larg_alike; eauto|exact E].
  - destruct X as [us [k [X1 [X2 [X3 [X4 E]]]]]]. exists us, k. split; [apply larg_alike; eauto|]. split; [exact X2|]. split; [exact X3|].
    split; [apply counts_alike; eauto|exact E].
  - destruct X as [ls [X E]]. exists ls. split; [|exact E]. clear E L. induction X as [|a l0 args ls0 X1 X2 IH]; constructor.
    + apply larg_alike; [|exact X1]. cbn [flat_map] in I. eauto.
    + apply IH. cbn [flat_map] in I. eauto.
  - destruct X as [r [c [X1 [X2 [X3 [X4 [X5 E]]]]]]]. exists r, c. split; [apply counts_alike; eauto|]. split; [apply counts_alike; eauto|].
    split; [exact X3|]. split; [exact X4|]. split; [exact X5|]. destruct inp; [exact E|]. destruct E as [E1 E2]. split; [apply larg_alike; eauto|exact E2].
  - destruct X as [e' [us [bs [M [W [D E]]]]]]. exists e', us, bs. assert (I1 : incl (vars e') P) by (eapply lmeans_in; eauto).
    split; [now apply (proj1 (lmeans_alike V))|]. split; [now apply wf_alike|]. split; [now apply denotes_alike|exact E].
  - destruct a as [v|t0 e]; [exact X|]. destruct X as [e' [r [c [M [D E]]]]]. exists e', r, c.
    split; [now apply (proj1 (lmeans_alike V))|]. split; [|exact E]. rewrite xdims_alike; [exact D|]. eapply lmeans_in; eauto.
Qed.
End Ext.

(* ------------------------------------------------------------- statements *)

Lemma setl_at rho x l y : setl rho x l y = if Nat.eqb y x then l else rho y.
Proof. reflexivity. Qed.
Lemma alike_set P (s t : mstate) x l d : alike P s t ->
  alike P (setl (fst s) x l, setd (snd s) x d) (setl (fst t) x l, setd (snd t) x d).
Proof.
  intros A y Hy. cbn [fst snd]. unfold setd. rewrite !setl_at. destruct (Nat.eqb y x); [auto|]. now apply A.
Qed.
Lemma alike_setl P (s t : mstate) x l : alike P s t -> alike P (setl (fst s) x l, snd s) (setl (fst t) x l, snd t).
Proof.
  intros A y Hy. cbn [fst snd]. rewrite !setl_at. destruct (A y Hy) as [-> ->]. auto.
Qed.
Lemma alike_refl P s : alike P s s.
Proof. intros x _. auto. Qed.
Lemma alike_sym P s t : alike P s t -> alike P t s.
Proof. intros A x Hx. destruct (A x Hx) as [-> ->]. auto. Qed.
Lemma alike_trans P s t u : alike P s t -> alike P t u -> alike P s u.
Proof. intros A B x Hx. destruct (B x Hx) as [-> ->]. now apply A. Qed.

Definition cmd_vars (c : cmd) : list nat :=
  match c with
  | CAssign x e | CSub _ x _ _ e => x :: vars e
  | CScalar x _ | CElem x _ _ | CSubScalar x _ _ => [x]
  end.
Definition target (c : cmd) : nat :=
  match c with CAssign x _ | CSub _ x _ _ _ | CScalar x _ | CElem x _ _ | CSubScalar x _ _ => x end.

(** The meaning of a statement carries over to a state that agrees on P, and
    changes nothing outside Q. *)
Definition moves (P : list nat) (B : mstate -> res -> mstate -> Prop) : Prop :=
  forall s t r s', alike P s t -> B s r s' -> exists t', B t r t' /\ alike P s' t'.
Definition stays (Q : list nat) (B : mstate -> res -> mstate -> Prop) : Prop :=
  forall s r s', B s r s' -> forall x, ~ In x Q -> fst s' x = fst s x /\ snd s' x = snd s x.

Section Does.
Variables (lm : libm) (ty : nat -> ety) (lim : Z) (V : list nat).

Lemma spec_cmd_alike P (s t : mstate) c : incl (cmd_vars c) P -> alike P s t ->
  fst (spec_cmd lm ty c (fst t)) = fst (spec_cmd lm ty c (fst s)) /\
  forall x, In x P -> snd (spec_cmd lm ty c (fst t)) x = snd (spec_cmd lm ty c (fst s)) x.
Proof.
  intros I A. assert (A' : forall x, In x P -> fst t x = fst s x) by (intros x Hx; apply A, Hx).
  assert (S1 : forall x l y, In y P -> setl (fst t) x l y = setl (fst s) x l y)
    by (intros x l y Hy; rewrite !setl_at; destruct (Nat.eqb y x); auto).
  assert (T : In (target c) P) by (apply I; destruct c; now left).
  assert (Et : fst t (target c) = fst s (target c)) by auto.
  assert (Iv : forall x e, incl (x :: vars e) P -> incl (vars e) P) by (intros x e X y Hy; apply X; now right).
  destruct c; cbn [spec_cmd cmd_vars target] in *.
  - rewrite (xsize_alike P _ _ _ _ A) by eauto. rewrite (value_alike lm P _ _ _ _ A) by eauto.
    destruct (_ =? 0); [cbn; auto|]. destruct (value lm (fst s) (ty x) e); cbn; auto.
  - destruct (cast (ty x) v); cbn; auto.
  - destruct (cast (ty x) v); cbn [fst snd]; auto. rewrite Et. destruct (scatter (fst s x) [i] [a]); cbn; auto.
  - rewrite (xsize_alike P _ _ _ _ A) by eauto. rewrite (value_alike lm P _ _ _ _ A) by eauto.
    destruct (negb _); [cbn; auto|]. destruct (_ =? 0); [cbn; auto|]. destruct (value lm (fst s) (ty x) e); cbn [fst snd]; auto.
    rewrite Et. destruct (scatter (fst s x) ind a); cbn; auto.
  - destruct (_ =? 0); [cbn; auto|]. destruct (cast (ty x) v); cbn [fst snd]; auto.
    rewrite Et. destruct (scatter (fst s x) ind _); cbn; auto.
Qed.
Lemma cmd_wf_alike P (s t : mstate) c : incl (cmd_vars c) P -> alike P s t -> cmd_wf lim V (fst s) c -> cmd_wf lim V (fst t) c.
Proof.
  intros I A. assert (T : In (target c) P) by (apply I; destruct c; now left).
  assert (Et : fst t (target c) = fst s (target c)) by (apply A, T).
  assert (Iv : forall x e, incl (x :: vars e) P -> incl (vars e) P) by (intros x e X y Hy; apply X; now right).
  destruct c; cbn [cmd_wf cmd_vars target] in *; auto.
  - intros [W1 [W2 [W3 W4]]]. rewrite (xsize_alike P _ _ _ _ A) by eauto. split; [exact W1|]. split; [exact W2|].
    split; [apply (wf_alike P (fst s) (fst t) _ _ A); eauto|exact W4].
  - intros [W1 [W2 [W3 [W4 W5]]]]. rewrite (xsize_alike P _ _ _ _ A) by eauto. rewrite Et. split; [exact W1|]. split; [exact W2|].
    split; [exact W3|]. split; [apply (wf_alike P (fst s) (fst t) _ _ A); eauto|exact W5].
  - now rewrite Et.
Qed.
Lemma moves_does P c : incl (cmd_vars c) P -> moves P (does lm ty lim V c).
Proof.
  intros I s t r s' A [W [E ->]]. destruct (spec_cmd_alike P s t c I A) as [F1 F2].
  eexists. split; [split; [now apply (cmd_wf_alike P s t)|]; split; [now rewrite F1|reflexivity]|].
  intros x Hx. cbn [fst snd]. split; [now apply F2|]. rewrite F1.
  destruct c; cbn [shapes_after]; try (apply A, Hx). destruct (fst (spec_cmd lm ty (CAssign x0 e) (fst s))); try (apply A, Hx).
  unfold setd. cbn [cmd_vars] in I. rewrite (xdims_alike P _ _ _ _ A) by (intros y Hy; apply I; now right).
  rewrite (proj2 (A x0 (I x0 (or_introl eq_refl)))). destruct (Nat.eqb x x0); [reflexivity|]. apply A, Hx.
Qed.
Lemma stays_does Q c : In (target c) Q -> stays Q (does lm ty lim V c).
Proof.
  intros T s r s' [W [E ->]] x Hx. assert (N : Nat.eqb x (target c) = false) by (apply Nat.eqb_neq; intros ->; auto).
  assert (S1 : forall l, setl (fst s) (target c) l x = fst s x) by (intros l; rewrite setl_at; now rewrite N).
  cbn [fst snd]. split.
  - destruct c; cbn [spec_cmd target] in *; repeat match goal with |- context [match ?d with _ => _ end] =>
      match d with context [match _ with _ => _ end] => fail 1 | _ => destruct d end end; cbn [snd]; auto.
  - destruct c; cbn [shapes_after target] in *; auto. destruct (fst (spec_cmd lm ty (CAssign x0 e) (fst s))); auto. unfold setd. now rewrite N.
Qed.
End Does.

Lemma moves_given P {A} (o : outcome A) k : (forall a, o = Done a -> moves P (k a)) -> moves P (given o k).
Proof.
  intros M s t r s' Al X. destruct o as [a|e|u]; cbn [given] in *; [now apply (M a eq_refl s)| |contradiction].
  destruct e; try contradiction. destruct X as [-> ->]. exists t. auto.
Qed.
Lemma stays_given Q {A} (o : outcome A) k : (forall a, o = Done a -> stays Q (k a)) -> stays Q (given o k).
Proof.
  intros M s r s' X. destruct o as [a|e|u]; cbn [given] in *; [exact (M a eq_refl s r s' X)| |contradiction].
  destruct e; try contradiction. destruct X as [-> ->]. auto.
Qed.
Lemma moves_after P C r1 : moves P C -> forall s t r s', alike P s t -> after r1 s C r s' -> exists t', after r1 t C r t' /\ alike P s' t'.
Proof.
  intros M s t r s' A X. destruct r1; cbn [after] in *; [now apply (M s)| |]; destruct X as [-> ->]; exists t; auto.
Qed.
Lemma stays_after Q C r1 : stays Q C -> stays Q (fun s => after r1 s C).
Proof. intros M s r s' X. destruct r1; cbn [after] in *; [exact (M s r s' X)| |]; destruct X as [-> ->]; auto. Qed.
Lemma stays_seq Q B C : stays Q B -> stays Q C -> stays Q (fun s r s' => exists r1 s1, B s r1 s1 /\ after r1 s1 C r s').
Proof.
  intros M1 M2 s r s' [r1 [s1 [X1 X2]]] x Hx. destruct (M1 s r1 s1 X1 x Hx) as [<- <-]. now apply (stays_after Q C r1 M2 s1 r).
Qed.
Lemma moves_seq P B C : moves P B -> moves P C -> moves P (fun s r s' => exists r1 s1, B s r1 s1 /\ after r1 s1 C r s').
Proof.
  intros M1 M2 s t r s' A [r1 [s1 [X1 X2]]]. destruct (M1 s t r1 s1 A X1) as [t1 [Y1 A1]].
  destruct (moves_after P C r1 M2 s1 t1 r s' A1 X2) as [t' [Y2 A2]]. exists t'. split; [now exists r1, t1|exact A2].
Qed.
Lemma moves_each P B : (forall v, moves P (B v)) -> forall vs, moves P (each_spec vs B).
Proof.
  intros M vs. induction vs as [|v vs IH]; cbn [each_spec].
  - intros s t r s' A [-> ->]. now exists t.
  - now apply moves_seq.
Qed.
Lemma stays_each Q B : (forall v, stays Q (B v)) -> forall vs, stays Q (each_spec vs B).
Proof.
  intros M vs. induction vs as [|v vs IH]; cbn [each_spec].
  - intros s r s' [-> ->]. auto.
  - now apply stays_seq.
Qed.
Lemma moves_while P (C : mstate -> outcome bool -> Prop) B : (forall s t o, alike P s t -> C s o -> C t o) -> moves P B ->
  forall k, moves P (while_spec k C B).
Proof.
  intros MC MB k. induction k as [|k IH]; cbn [while_spec]; intros s t r s' A X.
  - destruct X as [-> ->]. now exists t.
  - destruct X as [b [X1 X2]]. destruct b as [[]|e|u].
    + destruct (moves_seq P B (while_spec k C B) MB IH s t r s' A X2) as [t' [Y A']]. exists t'. split; [|exact A'].
      exists (Done true). split; [now apply (MC s)|exact Y].
    + destruct X2 as [-> ->]. exists t. split; [|exact A]. exists (Done false). split; [now apply (MC s)|auto].
    + destruct X2 as [-> ->]. exists t. split; [|exact A]. exists (Thrown e). split; [now apply (MC s)|auto].
    + contradiction.
Qed.
Lemma stays_while Q (C : mstate -> outcome bool -> Prop) B : stays Q B -> forall k, stays Q (while_spec k C B).
Proof.
  intros MB k. induction k as [|k IH]; cbn [while_spec]; intros s r s' X.
  - destruct X as [-> ->]. auto.
  - destruct X as [b [X1 X2]]. destruct b as [[]|e|u]; [|destruct X2 as [-> ->]; auto|destruct X2 as [-> ->]; auto|contradiction].
    now apply (stays_seq Q B (while_spec k C B) MB IH s r s').
Qed.
Lemma lvalue_alike lm V P s t e o : incl (lvars e) P -> alike P s t -> lvalue lm V s e o -> lvalue lm V t e o.
Proof.
  intros I A [a [M [W E]]]. exists a. split; [now apply (proj1 (lmeans_alike lm P (fst s) (fst t) (snd s) (snd t) A V))|].
  assert (J : forall e', a = Done e' -> incl (vars e') P) by (intros e' ->; eapply lmeans_in; eauto). split.
  - intros e' Ee. destruct (W e' Ee) as [W1 W2]. rewrite (xsize_alike P _ _ _ _ A) by eauto.
    split; [apply (wf_alike P (fst s) (fst t) _ _ A); eauto|exact W2].
  - rewrite E. destruct a as [e'|?|?]; cbn [obind]; try reflexivity. now rewrite (xval_alike lm P _ _ _ _ A) by eauto.
Qed.

Section Stmt.
Variables (N : nat) (lm : libm) (ty : nat -> ety) (lim : Z) (P Q : list nat).
Hypothesis QP : incl Q P.

Lemma cons_incl x (l : list nat) : In x Q -> incl l P -> incl (x :: l) P.
Proof. intros Hx I y [<-|Hy]; auto. Qed.

Lemma lsem_stays p : touches P Q p -> forall H V, stays Q (lsem N lm ty lim H V p).
Proof.
  induction p; cbn [touches lsem]; intros T H0 V.
  - intros s r s' [-> ->]. auto.
  - destruct T as [T1 T2]. intros s r s' [a [_ X]]. revert X. apply stays_given. intros e' _. now apply stays_does.
  - now apply stays_does.
  - destruct T as [T1 T2]. intros s0 r s' [_ [_ [a [b [_ [_ X]]]]]]. revert X. apply stays_given. intros i' _ s1 r1 s1' [ps [_ X]].
    revert X. apply stays_given. intros e' _. now apply stays_does.
  - destruct T as [T1 T2]. intros s0 r s' [_ [a [_ X]]]. revert X. apply stays_given. intros i' _ s1 r1 s1' [ps [_ X]].
    revert X. now apply stays_does.
  - destruct T as [T1 T2]. intros s0 r s' [_ [_ [a [b [c [_ [_ [_ X]]]]]]]]. revert X. apply stays_given. intros i' _. apply stays_given.
    intros j' _ s1 r1 s1' [ps [d [_ X]]]. revert X. apply stays_given. intros e' _. now apply stays_does.
  - destruct T as [T1 T2]. intros s0 r s' [_ [a [b [_ [_ X]]]]]. revert X. apply stays_given. intros i' _. apply stays_given.
    intros j' _ s1 r1 s1' [ps [d [_ X]]]. revert X. now apply stays_does.
  - intros s r s' [_ X]. revert X. now apply stays_does.
  - intros s r s' [z [_ [_ [_ [_ X]]]]]. destruct (_ && _); [revert X; now apply stays_does|]. destruct X as [_ [_ ->]]. auto.
  - intros s r s' [_ [_ X]]. destruct (snd s x) as [[nr nc]|]; [|destruct X as [_ [_ ->]]; auto].
    destruct X as [a [b [k [ins [_ [_ [_ X]]]]]]]. destruct ins; [revert X; now apply stays_does|]. destruct X as [_ [_ ->]]. auto.
  - intros s r s' [_ [v' [_ [_ ->]]]] y Hy. cbn [fst snd]. rewrite setl_at. replace (Nat.eqb y x) with false; [auto|].
    symmetry. apply Nat.eqb_neq. intros ->. auto.
  - intros s r s' [].
  - destruct T as [T1 T2]. apply stays_seq; auto.
  - destruct T as [T1 [T2 T3]]. intros s r s' [o [_ X]]. revert X. apply stays_given. intros v _. destruct (truth v); auto.
  - destruct T as [T1 T2]. apply stays_while. auto.
  - destruct T as [T1 T2]. intros s r s' [o [_ X]]. revert X. apply stays_given. intros v _. auto.
  - destruct T as [T1 T2]. intros s r s' [t [l [d [_ [_ X]]]]]. revert X. apply stays_each. auto.
  - destruct T as [T1 [T2 T3]]. intros s0 r s' [l [d [_ [_ [_ [_ [_ X]]]]]]] y Hy.
    destruct (IHp T3 _ _ _ _ _ X y Hy) as [-> ->]. cbn [fst snd]. unfold setd. rewrite setl_at. replace (Nat.eqb y x) with false; [auto|].
    symmetry. apply Nat.eqb_neq. intros ->. auto.
  - destruct T as [T1 [T2 T3]]. intros s0 r s' [_ [_ [a [_ X]]]]. revert X. apply stays_given. intros e' _ s1 r1 s1' [_ [_ [_ X]]].
    revert X. apply stays_given. intros us _ s2 r2 s2' X y Hy.
    destruct (IHp T3 _ _ _ _ _ X y Hy) as [-> ->]. cbn [fst snd]. unfold setd. rewrite setl_at. replace (Nat.eqb y x) with false; [auto|].
    symmetry. apply Nat.eqb_neq. intros ->. auto.
  - destruct T as [T1 T2]. intros s0 r s' [_ [_ [_ [_ [_ X]]]]] y Hy. destruct (n =? 0); [destruct X as [_ ->]; auto|].
    destruct (IHp T2 _ _ _ _ _ X y Hy) as [-> ->]. cbn [fst snd]. unfold setd. rewrite setl_at. replace (Nat.eqb y x) with false; [auto|].
    symmetry. apply Nat.eqb_neq. intros ->. auto.
  - destruct T as [T1 T2]. intros s r s' [r1 [s1 [X1 X2]]] y Hy. destruct (IHp1 T1 _ _ _ _ _ X1 y Hy) as [<- <-].
    destruct r1 as [| |[]]; try (destruct X2 as [_ ->]; auto; fail). now apply (IHp2 T2 H0 V s1 r s').
Qed.

Lemma means_alike V s t e a : alike P s t -> incl (lvars e) P -> lmeans lm V (fst s) (snd s) e a -> lmeans lm V (fst t) (snd t) e a.
Proof. intros A I M. now apply (proj1 (lmeans_alike lm P (fst s) (fst t) (snd s) (snd t) A V)). Qed.
Lemma means_index_alike V s t i a : alike P s t -> incl (lvars_i i) P -> lmeans_index lm V (fst s) (snd s) i a -> lmeans_index lm V (fst t) (snd t) i a.
Proof. intros A I M. now apply (proj2 (lmeans_alike lm P (fst s) (fst t) (snd s) (snd t) A V)). Qed.
Lemma moves_pick x i' (k : list Z -> mstate -> res -> mstate -> Prop) : In x P -> incl (index_vars i') P -> (forall ps, moves P (k ps)) ->
  moves P (fun s r s' => exists ps, picks lm (fst s) (Z.of_nat (length (fst s x))) i' ps /\ k ps s r s').
Proof.
  intros Px I M s t r s' A [ps [X Y]]. destruct (M ps s t r s' A Y) as [t' [Y' A']]. exists t'. split; [|exact A']. exists ps.
  split; [|exact Y']. rewrite (proj1 (A x Px)). now apply (picks_alike lm P (fst s) (fst t) _ _ A).
Qed.
Lemma moves_cells x i' j' (k : list Z -> mstate -> res -> mstate -> Prop) : In x P -> incl (index_vars i') P -> incl (index_vars j') P ->
  (forall ps, moves P (k ps)) ->
  moves P (fun s r s' => exists ps d, cells lm (fst s) (snd s) (EVar x) i' j' ps d /\ k ps s r s').
Proof.
  intros Px I J M s t r s' A [ps [d [X Y]]]. destruct (M ps s t r s' A Y) as [t' [Y' A']]. exists t'. split; [|exact A']. exists ps, d.
  split; [|exact Y']. apply (cells_alike lm P (fst s) (fst t) _ _ A); auto. intros y [<-|[]]. exact Px.
Qed.

Lemma lsem_moves p : touches P Q p -> forall H V, moves P (lsem N lm ty lim H V p).
Proof.
  induction p; cbn [touches lsem]; intros T H0 V.
  - intros s t r s' A [-> ->]. now exists t.
  - destruct T as [T1 T2]. intros s t r s' A [a [M X]].
    assert (K : moves P (given a (fun e' => does lm ty lim V (CAssign x e')))).
    { apply moves_given. intros e' ->. apply moves_does. cbn [cmd_vars]. apply cons_incl; [exact T1|]. eapply lmeans_in; eauto. }
    destruct (K s t r s' A X) as [t' [X' A']]. exists t'. split; [|exact A']. exists a. split; [now apply (means_alike V s t)|exact X'].
  - apply moves_does. cbn [cmd_vars]. now apply cons_incl.
  - destruct T as [T1 [T2 T3]]. intros s0 t0 r s' A [N1 [N2 [a [b [M1 [M2 X]]]]]].
    assert (K : moves P (given a (fun i' u r u' => exists ps, picks lm (fst u) (Z.of_nat (length (fst u x))) i' ps /\
        given b (fun e' => does lm ty lim V (CSub s x ps same e')) u r u'))).
    { apply moves_given. intros i' ->. apply moves_pick; [auto|eapply lmeans_index_in; eauto|]. intros ps. apply moves_given. intros e' ->.
      apply moves_does. cbn [cmd_vars]. apply cons_incl; [exact T1|]. eapply lmeans_in; eauto. }
    destruct (K _ _ r s' A X) as [t' [X' A']]. exists t'. split; [|exact A']. split; [exact N1|]. split; [exact N2|]. exists a, b.
    split; [eapply means_index_alike; eauto|]. split; [eapply means_alike; eauto|exact X'].
  - destruct T as [T1 T2]. intros s0 t0 r s' A [N2 [a [M1 X]]].
    assert (K : moves P (given a (fun i' s r s' => exists ps, picks lm (fst s) (Z.of_nat (length (fst s x))) i' ps /\
        does lm ty lim V (CSubScalar x ps v) s r s'))).
    { apply moves_given. intros i' ->. apply moves_pick; [auto|eapply lmeans_index_in; eauto|]. intros ps.
      apply moves_does. cbn [cmd_vars]. now apply cons_incl. }
    destruct (K _ _ r s' A X) as [t' [X' A']]. exists t'. split; [|exact A']. split; [exact N2|]. exists a.
    split; [eapply means_index_alike; eauto|exact X'].
  - destruct T as [T1 [T2 [T3 T4]]]. intros s0 t0 r s' A [N1 [N2 [a [b [c [M1 [M2 [M3 X]]]]]]]].
    assert (K : moves P (given a (fun i' => given b (fun j' u r u' => exists ps d, cells lm (fst u) (snd u) (EVar x) i' j' ps d /\
        given c (fun e' => does lm ty lim V (CSub s x ps same e')) u r u')))).
    { apply moves_given. intros i' ->. apply moves_given. intros j' ->.
      apply moves_cells; [auto|eapply lmeans_index_in; eauto|eapply lmeans_index_in; eauto|]. intros ps. apply moves_given. intros e' ->.
      apply moves_does. cbn [cmd_vars]. apply cons_incl; [exact T1|]. eapply lmeans_in; eauto. }
    destruct (K _ _ r s' A X) as [t' [X' A']]. exists t'. split; [|exact A']. split; [exact N1|]. split; [exact N2|]. exists a, b, c.
    split; [eapply means_index_alike; eauto|]. split; [eapply means_index_alike; eauto|]. split; [eapply means_alike; eauto|exact X'].
  - destruct T as [T1 [T2 T3]]. intros s0 t0 r s' A [N2 [a [b [M1 [M2 X]]]]].
    assert (K : moves P (given a (fun i' => given b (fun j' s r s' => exists ps d, cells lm (fst s) (snd s) (EVar x) i' j' ps d /\
        does lm ty lim V (CSubScalar x ps v) s r s')))).
    { apply moves_given. intros i' ->. apply moves_given. intros j' ->.
      apply moves_cells; [auto|eapply lmeans_index_in; eauto|eapply lmeans_index_in; eauto|]. intros ps.
      apply moves_does. cbn [cmd_vars]. now apply cons_incl. }
    destruct (K _ _ r s' A X) as [t' [X' A']]. exists t'. split; [|exact A']. split; [exact N2|]. exists a, b.
    split; [eapply means_index_alike; eauto|]. split; [eapply means_index_alike; eauto|exact X'].
  - intros s t r s' A [B X]. assert (K : moves P (does lm ty lim V (CElem x k v))) by (apply moves_does; cbn [cmd_vars]; now apply cons_incl).
    destruct (K _ _ r s' A X) as [t' [X' A']]. exists t'. auto.
  - intros s t r s' A [z [Z1 [Z2 [Z3 [Z4 X]]]]]. destruct (A x (QP x T)) as [E1 E2].
    assert (K : moves P (does lm ty lim V (CElem x (z - 1) v))) by (apply moves_does; cbn [cmd_vars]; now apply cons_incl).
    destruct (_ && _) eqn:Eb in X.
    + destruct (K _ _ r s' A X) as [t' [X' A']]. exists t'. split; [|exact A']. exists z. rewrite E1, Eb. auto.
    + destruct X as [X1 [X2 ->]]. exists t. split; [|exact A]. exists z. rewrite E1, Eb. repeat (split; auto).
  - intros s t r s' A [Z1 [Z2 X]]. destruct (A x (QP x T)) as [E1 E2]. rewrite E1, E2. destruct (snd s x) as [[nr nc]|].
    + destruct X as [a [b [k [ins [Y1 [Y2 [Y3 X]]]]]]]. destruct ins.
      * assert (K : moves P (does lm ty lim V (CElem x k v))) by (apply moves_does; cbn [cmd_vars]; now apply cons_incl).
        destruct (K _ _ r s' A X) as [t' [X' A']]. exists t'. split; [|exact A']. split; [exact Z1|]. split; [exact Z2|].
        exists a, b, k, true. auto.
      * destruct X as [X1 [X2 ->]]. exists t. split; [|exact A]. split; [exact Z1|]. split; [exact Z2|]. exists a, b, k, false. repeat (split; auto).
    + destruct X as [X1 [X2 ->]]. exists t. split; [|exact A]. repeat (split; auto).
  - intros s t r s' A [Z1 [v' [Z2 [-> ->]]]]. eexists. split; [split; [exact Z1|]; exists v'; split; [exact Z2|]; split; reflexivity|].
    rewrite (proj1 (A x (QP x T))). now apply alike_setl.
  - intros s t r s' A [].
  - destruct T as [T1 T2]. apply moves_seq; auto.
  - destruct T as [T1 [T2 T3]]. intros s t r s' A [o [L X]].
    assert (K : moves P (given o (fun v => if truth v then lsem N lm ty lim H0 V p1 else lsem N lm ty lim H0 V p2)))
      by (apply moves_given; intros v _; destruct (truth v); auto).
    destruct (K s t r s' A X) as [t' [X' A']]. exists t'. split; [|exact A']. exists o. split; [eapply lvalue_alike; eauto|exact X'].
  - destruct T as [T1 T2]. apply moves_while; [|auto]. intros s t o A [v [L E]]. exists v. split; [eapply lvalue_alike; eauto|exact E].
  - destruct T as [T1 T2]. intros s t r s' A [o [L X]].
    assert (K : moves P (given o (fun v => lsem N lm ty lim H0 V (body v)))) by (apply moves_given; auto).
    destruct (K s t r s' A X) as [t' [X' A']]. exists t'. split; [|exact A']. exists o. split; [eapply lvalue_alike; eauto|exact X'].
  - destruct T as [T1 T2]. intros s t r s' A [t0 [l [d [N1 [C X]]]]].
    assert (K : moves P (each_spec l (fun v => lsem N lm ty lim (col :: H0) V (body v)))) by (apply moves_each; auto).
    destruct (K s t r s' A X) as [t' [X' A']]. exists t'. split; [|exact A']. exists t0, l, d. split; [exact N1|]. split; [|exact X'].
    now apply (lcreates_alike lm P (fst s) (fst t) _ _ A).
  - destruct T as [T1 [T2 T3]]. intros s0 t0 r s' A [l [d [N1 [N2 [N3 [N4 [C X]]]]]]].
    destruct (IHp T3 _ _ _ _ r s' (alike_set P s0 t0 x l d A) X) as [t' [X' A']]. exists t'. split; [|exact A']. exists l, d.
    split; [exact N1|]. split; [exact N2|]. split; [exact N3|]. split; [exact N4|]. split; [|exact X'].
    now apply (lcreates_alike lm P (fst s0) (fst t0) _ _ A).
  - destruct T as [T1 [T2 T3]]. intros s0 t0 r s' A [N1 [N2 [a [M X]]]].
    assert (K : moves P (given a (fun e' s r s' => wf_expr (fst s) e' /\ 1 <= xsize (fst s) e' <= max_len /\ 2 * xsize (fst s) e' <= lim /\
        given (value lm (fst s) t e') (fun us s =>
          lsem N lm ty lim H0 (x :: V) p (setl (fst s) x us, setd (snd s) x (xdims (snd s) e'))) s r s'))).
    { apply moves_given. intros e' -> s1 t1 r1 s1' A1 [W1 [W2 [W3 X1]]]. assert (I : incl (vars e') P) by (eapply lmeans_in; eauto).
      rewrite (xsize_alike P _ _ _ _ A1) by exact I. rewrite (value_alike lm P _ _ _ _ A1) by exact I.
      assert (K : moves P (given (value lm (fst s1) t e') (fun us s =>
          lsem N lm ty lim H0 (x :: V) p (setl (fst s) x us, setd (snd s) x (xdims (snd s) e'))))).
      { apply moves_given. intros us _ s2 t2 r2 s2' A2 X2. rewrite (xdims_alike P _ _ _ _ A2) by exact I.
        now apply (IHp T3 _ _ _ _ r2 s2' (alike_set P s2 t2 x us _ A2)). }
      destruct (K _ _ _ _ A1 X1) as [t' [X' A']]. exists t'. split; [|exact A'].
      split; [apply (wf_alike P (fst s1) (fst t1) _ _ A1); auto|]. auto. }
    destruct (K _ _ r s' A X) as [t' [X' A']]. exists t'. split; [|exact A']. split; [exact N1|]. split; [exact N2|]. exists a.
    split; [eapply means_alike; eauto|exact X'].
  - destruct T as [T1 T2]. intros s0 t0 r s' A [N1 [N2 [N3 [N4 [N5 X]]]]]. destruct (n =? 0).
    + destruct X as [-> ->]. exists t0. split; [|exact A]. repeat (split; auto); apply N3.
    + destruct (IHp T2 _ _ _ _ r s' (alike_set P s0 t0 x _ _ A) X) as [t' [X' A']]. exists t'. split; [|exact A'].
      repeat (split; auto); apply N3.
  - destruct T as [T1 T2]. intros s t r s' A [r1 [s1 [X1 X2]]]. destruct (IHp1 T1 _ _ _ _ _ _ A X1) as [t1 [Y1 A1]].
    assert (K : match r1 with Raised (Ass _) => True | _ => r = r1 /\ s' = s1 end -> match r1 with Raised (Ass _) => False | _ => True end ->
      exists t', lsem N lm ty lim H0 V (LTry p1 p2) t r t' /\ alike P s' t').
    { intros E F. exists t1. destruct r1 as [| |[]]; try contradiction; destruct E as [-> ->]; (split; [|exact A1]); eexists _, t1; (split; [exact Y1|]); split; reflexivity. }
    destruct r1 as [| |[m|]]; try (apply K; [exact X2|exact I]; fail).
    destruct (IHp2 T2 _ _ _ _ _ _ A1 X2) as [t' [Y2 A2]]. exists t'. split; [|exact A2]. exists (Raised (Ass m)), t1. auto.
Qed.
End Stmt.

(* ----------------------------------------------------------- independence *)

Definition same_state (s t : mstate) : Prop := forall x, fst t x = fst s x /\ snd t x = snd s x.
Lemma same_state_trans s t u : same_state s t -> same_state t u -> same_state s u.
Proof. intros A B x. destruct (B x) as [-> ->]. apply A. Qed.

Section Parts.
Variables (N : nat) (lm : libm) (ty : nat -> ety) (lim : Z) (H V : list nat).

(** From the vectors mentioned to all. *)
Lemma lsem_all P Q p s t r s' : incl Q P -> touches P Q p -> lsem N lm ty lim H V p s r s' -> alike P s t ->
  exists t', lsem N lm ty lim H V p t r t' /\ forall x, (fst t x = fst s x /\ snd t x = snd s x) \/ In x P -> fst t' x = fst s' x /\ snd t' x = snd s' x.
Proof.
  intros I T X A. destruct (lsem_moves N lm ty lim P Q I p T H V s t r s' A X) as [t' [Y A']]. exists t'. split; [exact Y|].
  intros x Hx. destruct (in_dec Nat.eq_dec x P) as [Px|Nx]; [now apply A'|]. destruct Hx as [[E1 E2]|Hx]; [|contradiction].
  assert (Nq : ~ In x Q) by auto.
  destruct (lsem_stays N lm ty lim P Q p T H V s r s' X x Nq) as [-> ->].
  destruct (lsem_stays N lm ty lim P Q p T H V t r t' Y x Nq) as [-> ->]. auto.
Qed.
Lemma lsem_same P Q p s t r s' : incl Q P -> touches P Q p -> lsem N lm ty lim H V p s r s' -> same_state s t ->
  exists t', lsem N lm ty lim H V p t r t' /\ same_state s' t'.
Proof.
  intros I T X A. destruct (lsem_all P Q p s t r s' I T X) as [t' [Y E]]; [intros x _; apply A|].
  exists t'. split; [exact Y|]. intros x. apply E. left. apply A.
Qed.

Lemma swap_two a b s s1 s2 : part_ok a -> part_ok b -> independent a b ->
  lsem N lm ty lim H V (code a) s Ended s1 -> lsem N lm ty lim H V (code b) s1 Ended s2 ->
  exists t1 t2, lsem N lm ty lim H V (code b) s Ended t1 /\ lsem N lm ty lim H V (code a) t1 Ended t2 /\ same_state s2 t2.
Proof.
  intros [Ia Ta] [Ib Tb] [D1 D2] X1 X2. set (P1 := names a) in *. set (Q1 := sets a) in *. set (P2 := names b) in *. set (Q2 := sets b) in *.
  pose proof (lsem_stays N lm ty lim P1 Q1 _ Ta H V _ _ _ X1) as F1. pose proof (lsem_stays N lm ty lim P2 Q2 _ Tb H V _ _ _ X2) as F2.
  destruct (lsem_moves N lm ty lim P2 Q2 Ib _ Tb H V s1 s Ended s2) as [t1 [Y1 A1]]; [|exact X2|].
  { intros x Hx. destruct (F1 x) as [-> ->]; [|auto]. intros Q. now apply (D1 x). }
  pose proof (lsem_stays N lm ty lim P2 Q2 _ Tb H V _ _ _ Y1) as G1.
  destruct (lsem_moves N lm ty lim P1 Q1 Ia _ Ta H V s t1 Ended s1) as [t2 [Y2 A2]]; [|exact X1|].
  { intros x Hx. apply G1. intros Q. now apply (D2 x). }
  pose proof (lsem_stays N lm ty lim P1 Q1 _ Ta H V _ _ _ Y2) as G2.
  exists t1, t2. split; [exact Y1|]. split; [exact Y2|]. intros x.
  destruct (in_dec Nat.eq_dec x Q1) as [Hq|Nq].
  - destruct (A2 x (Ia x Hq)) as [-> ->]. destruct (F2 x) as [-> ->]; [|auto]. intros Hb. now apply (D2 x Hb), Ia.
  - destruct (G2 x Nq) as [-> ->]. destruct (in_dec Nat.eq_dec x P2) as [Hp|Np]; [now apply A1|].
    assert (Nb : ~ In x Q2) by auto. destruct (G1 x Nb) as [-> ->]. destruct (F2 x Nb) as [-> ->]. destruct (F1 x Nq) as [-> ->]. auto.
Qed.

Lemma in_order_same l : Forall part_ok l -> forall s t s', lsem N lm ty lim H V (in_order l) s Ended s' -> same_state s t ->
  exists t', lsem N lm ty lim H V (in_order l) t Ended t' /\ same_state s' t'.
Proof.
  induction 1 as [|a l [Ia Ta] F IH]; intros s t s' X A.
  - destruct X as [_ ->]. exists t. split; [split; reflexivity|exact A].
  - destruct X as [r1 [s1 [X1 X2]]]. destruct r1; try (destruct X2; discriminate). cbn [after] in X2.
    destruct (lsem_same _ _ _ s t Ended s1 Ia Ta X1 A) as [t1 [Y1 A1]]. destruct (IH s1 t1 s' X2 A1) as [t' [Y2 A2]].
    exists t'. split; [|exact A2]. exists Ended, t1. auto.
Qed.
Lemma pairs_perm l l' : Permutation l l' -> ForallOrdPairs independent l -> ForallOrdPairs independent l'.
Proof.
  induction 1 as [|a l l' Pm IH|a b l|l1 l2 l3 P1 IH1 P2 IH2]; intros F; auto.
  - inversion F as [|a' l0 F1 F2]; subst. constructor; [|auto]. now apply (Permutation_Forall Pm).
  - inversion F as [|a' l0 F1 F2]; subst. inversion F2 as [|a' l0 F3 F4]; subst. inversion F1 as [|x y [E1 E2] F5]; subst.
    constructor; [constructor; [split; auto|exact F3]|]. now constructor.
Qed.
Lemma in_order_perm l l' : Permutation l l' -> Forall part_ok l -> ForallOrdPairs independent l ->
  forall s s', lsem N lm ty lim H V (in_order l) s Ended s' -> exists t', lsem N lm ty lim H V (in_order l') s Ended t' /\ same_state s' t'.
Proof.
  induction 1 as [|a l l' Pm IH|a b l|l1 l2 l3 P1 IH1 P2 IH2]; intros Ok F s s' X.
  - exists s'. split; [exact X|]. intros x. auto.
  - inversion Ok; subst. inversion F; subst. destruct X as [r1 [s1 [X1 X2]]]. destruct r1; try (destruct X2; discriminate). cbn [after] in X2.
    destruct (IH ltac:(assumption) ltac:(assumption) s1 s' X2) as [t' [Y A]]. exists t'. split; [|exact A]. exists Ended, s1. auto.
  - inversion Ok as [|b' l0 Ob Ok1]; subst. inversion Ok1 as [|a' l0 Oa Ok2]; subst. inversion F as [|b' l0 F1 F2]; subst.
    inversion F1 as [|x y Ind F5]; subst. destruct X as [r1 [s1 [X1 X2]]]. destruct r1; try (destruct X2; discriminate). cbn [after] in X2.
    destruct X2 as [r2 [s2 [X2 X3]]]. destruct r2; try (destruct X3; discriminate). cbn [after] in X3.
    destruct (swap_two b a s s1 s2 Ob Oa Ind X1 X2) as [t1 [t2 [Y1 [Y2 A]]]].
    destruct (in_order_same l Ok2 s2 t2 s' X3 A) as [t' [Y3 A']]. exists t'. split; [|exact A'].
    exists Ended, t1. split; [exact Y1|]. exists Ended, t2. auto.
  - destruct (IH1 Ok F s s' X) as [t1 [Y1 A1]].
    assert (Ok2 : Forall part_ok l2) by now apply (Permutation_Forall P1).
    destruct (IH2 Ok2 (pairs_perm _ _ P1 F) s t1 Y1) as [t' [Y2 A2]]. exists t'. split; [exact Y2|]. now apply (same_state_trans s' t1).
Qed.
End Parts.

(* ------------------------------------------------------ rewriting anywhere *)

Lemma more_trans (a b c : M world bool) : more a b -> more b c -> more a c.
Proof. intros F G w o w' E NR. apply G; [|exact NR]. now apply F. Qed.
Lemma more_eq (a b : M world bool) : (forall w, a w = b w) -> more a b.
Proof. intros F w o w' E _. now rewrite <- F. Qed.
Lemma more_try (a a' b b' : M world bool) : more a a' -> more b b' ->
  more (fun w => match a w with (Thrown (Ass _), w1) => b w1 | r => r end)
       (fun w => match a' w with (Thrown (Ass _), w1) => b' w1 | r => r end).
Proof.
  intros F G w o w'. specialize (F w). destruct (a w) as [[[]|[e|]|u] w1].
  - rewrite (F _ _ eq_refl) by discriminate. auto.
  - intros [= <- <-] X. contradiction.
  - rewrite (F _ _ eq_refl) by discriminate. apply G.
  - rewrite (F _ _ eq_refl) by discriminate. auto.
  - rewrite (F _ _ eq_refl) by discriminate. auto.
Qed.
Lemma loop_step lm c k body w : rounds_of (S k) (v <- lcondition lm c ;; ret (truth v)) body w =
  (v <- lcondition lm c ;; if truth v then andthen body (rounds_of k (v <- lcondition lm c ;; ret (truth v)) body) else ret true) w.
Proof. cbn [rounds_of]. unfold bind, ret. destruct (lcondition lm c w) as [[v|e|u] w1]; reflexivity. Qed.
Lemma unroll_there N lm c a : more (lrun N lm (LWhile c a)) (lrun N lm (LIf c (LSeq a (LWhile c a)) LSkip)).
Proof.
  intros w o w' E NR. destruct N as [|k]; [cbn [lrun rounds_of] in E; unfold ret in E; congruence|].
  cbn [lrun] in E |- *. rewrite loop_step in E. revert E NR. apply more_bind. intros v. destruct (truth v); [|apply more_refl].
  apply more_andthen; [apply more_refl|]. apply more_rounds; [apply more_refl|lia].
Qed.
Lemma unroll_back N lm c a : more (lrun N lm (LIf c (LSeq a (LWhile c a)) LSkip)) (lrun (S N) lm (LWhile c a)).
Proof.
  intros w o w' E NR. cbn [lrun] in E |- *. rewrite loop_step. revert E NR. apply more_bind. intros v. destruct (truth v); [|apply more_refl].
  apply more_andthen; [apply lrun_more; lia|]. apply more_rounds; [apply lrun_more; lia|lia].
Qed.

(** The steps other than unrolling do not change anything. *)
Lemma seq_assoc N lm a b c w : lrun N lm (LSeq a (LSeq b c)) w = lrun N lm (LSeq (LSeq a b) c) w.
Proof. cbn [lrun]. unfold andthen, bind, ret. destruct (lrun N lm a w) as [[[]|?|?] w1]; auto. Qed.
Lemma seq_if N lm c a b d w : lrun N lm (LSeq (LIf c a b) d) w = lrun N lm (LIf c (LSeq a d) (LSeq b d)) w.
Proof. cbn [lrun]. unfold andthen, bind, ret. destruct (lcondition lm c w) as [[v|?|?] w1]; auto. now destruct (truth v). Qed.
Lemma seq_scal N lm e f d w : lrun N lm (LSeq (LScal e f) d) w = lrun N lm (LScal e (fun v => LSeq (f v) d)) w.
Proof. cbn [lrun]. unfold andthen, bind, ret. destruct (lcondition lm e w) as [[v|?|?] w1]; auto. Qed.
Lemma try_try N lm a b c w : lrun N lm (LTry (LTry a b) c) w = lrun N lm (LTry a (LTry b c)) w.
Proof. cbn [lrun]. destruct (lrun N lm a w) as [[[]|[m|]|?] w1]; auto. Qed.
Lemma seq_skip N lm a w : lrun N lm (LSeq a LSkip) w = lrun N lm a w.
Proof. cbn [lrun]. unfold andthen, bind, ret. destruct (lrun N lm a w) as [[[]|?|?] w1]; auto. Qed.

Lemma while_seq_shape N lm c a d w :
  lrun N lm (LSeq (LIf c (LSeq a (LWhile c a)) LSkip) d) w = lrun N lm (LIf c (LSeq a (LSeq (LWhile c a) d)) d) w.
Proof.
  rewrite seq_if. cbn [lrun]. unfold bind at 1 3. destruct (lcondition lm c w) as [[v|?|?] w1]; auto. destruct (truth v); [|reflexivity].
  symmetry. apply (seq_assoc N lm a (LWhile c a) d w1).
Qed.

Lemma step_there lm p q : step p q -> forall N, more (lrun N lm p) (lrun N lm q).
Proof.
  intros St N. destruct St.
  - apply more_eq. intros w. apply seq_assoc.
  - apply more_eq. intros w. reflexivity.
  - apply more_eq. intros w. apply seq_skip.
  - apply more_eq. intros w. apply seq_if.
  - apply more_eq. intros w. apply seq_scal.
  - apply more_eq. intros w. apply try_try.
  - apply more_eq. intros w. reflexivity.
  - apply unroll_there.
  - apply (more_trans _ (lrun N lm (LSeq (LIf c (LSeq a (LWhile c a)) LSkip) d))); [|apply more_eq; intros w; apply while_seq_shape].
    cbn [lrun]. apply more_andthen; [apply unroll_there|apply more_refl].
Qed.
Lemma step_back lm p q : step p q -> forall N, more (lrun N lm q) (lrun (S N) lm p).
Proof.
  intros St N. assert (Up : forall q, (forall w, lrun N lm p w = lrun N lm q w) -> more (lrun N lm q) (lrun (S N) lm p)).
  { intros q' Eq. apply (more_trans _ (lrun N lm p)); [apply more_eq; intros w; now rewrite Eq|apply lrun_more; lia]. }
  destruct St.
  - apply Up. intros w. apply seq_assoc.
  - apply Up. intros w. reflexivity.
  - apply Up. intros w. apply seq_skip.
  - apply Up. intros w. apply seq_if.
  - apply Up. intros w. apply seq_scal.
  - apply Up. intros w. apply try_try.
  - apply Up. intros w. reflexivity.
  - apply unroll_back.
  - apply (more_trans _ (lrun N lm (LSeq (LIf c (LSeq a (LWhile c a)) LSkip) d))); [apply more_eq; intros w; symmetry; apply while_seq_shape|].
    apply (more_andthen _ (lrun (S N) lm (LWhile c a)) _ (lrun (S N) lm d)); [apply unroll_back|apply lrun_more; lia].
Qed.
Lemma rewrites_more lm k p q : rewrites k p q -> forall N, more (lrun N lm p) (lrun (N + k) lm q).
Proof.
  induction 1; intros N.
  - rewrite Nat.add_0_r. apply more_refl.
  - rewrite Nat.add_0_r. now apply step_there.
  - rewrite Nat.add_1_r. now apply step_back.
  - rewrite Nat.add_assoc. eapply more_trans; [apply IHrewrites1|apply IHrewrites2].
  - eapply more_trans; [apply IHrewrites|]. apply lrun_more. lia.
  - cbn [lrun]. now apply more_andthen.
  - cbn [lrun]. apply more_bind. intros v. destruct (truth v); auto.
  - cbn [lrun]. apply more_rounds; [auto|lia].
  - cbn [lrun]. apply more_bind. intros v. apply H0.
  - cbn [lrun]. apply more_bind. intros _. apply more_lscope, more_bind. intros vs. apply more_each. intros v. apply H0.
  - cbn [lrun]. apply more_bind. intros _. apply more_bind. intros _. apply more_bind. intros _. now apply more_lscope.
  - cbn [lrun]. apply more_bind. intros w. apply more_bind. intros e'. apply more_bind. intros _. now apply more_lscope.
  - cbn [lrun]. apply more_bind. intros _. now apply more_lscope.
  - cbn [lrun]. now apply more_try.
Qed.
