(** The rules for total correctness are sound. *)
From Coq Require Import String ZArith List Bool Lia Wf_nat.
From Verif Require Import Base Num StoreModel VecModel SubsetModel ProgModel LangModel Spec SpecExpr SpecProg SpecCons SpecStmt SpecMat SpecHoare
  MatThms PropMat.
Import ListNotations.
Open Scope Z_scope.

Section Sound.
Variables (lm : libm) (ty : nat -> ety) (lim : Z).

(** The same on lists. *)
Definition tot (H V : list nat) (P : mstate -> Prop) (p : lstmt) (Q : mstate -> Prop) (X : exn -> mstate -> Prop) : Prop :=
  forall s, P s -> exists N0 r s', (forall N, (N0 <= N)%nat -> lsem N lm ty lim H V p s r s') /\ post Q X r s'.

Lemma simple_rounds H V p N N' s r s' : simple p = true -> lsem N lm ty lim H V p s r s' -> lsem N' lm ty lim H V p s r s'.
Proof. destruct p; try discriminate; intros _; exact (fun x => x). Qed.

Lemma claimed_given {A} (o : outcome A) (R : A -> Prop) X : claimed o R X ->
  (exists v, o = Done v /\ R v) \/ (exists m, o = Thrown (Ass m) /\ X (Ass m)).
Proof. destruct o as [v|[m|]|u]; cbn [claimed]; intros C; [left; eauto|right; eauto|destruct C|destruct C]. Qed.

Definition cond_spec (V : list nat) (c : lexpr) (s : mstate) (o : outcome bool) : Prop :=
  exists v, lvalue lm V s c v /\ (forall e, v = Thrown e -> e <> BadAlloc) /\ o = (x <-o v ;; Done (truth x)).

Lemma while_tot V c (B : nat -> mstate -> res -> mstate -> Prop) (I R : nat -> mstate -> Prop) (Q : mstate -> Prop) (X : exn -> mstate -> Prop) :
  (forall n s, I n s -> exists o, lvalue lm V s c o /\ claimed o (fun v => if truth v then R n s else Q s) (fun e => X e s)) ->
  (forall n s, R n s -> exists N0 r s', (forall N, (N0 <= N)%nat -> B N s r s') /\ post (fun s => exists k, (k < n)%nat /\ I k s) X r s') ->
  forall n s, I n s -> exists N0 r s', (forall N k, (N0 <= N)%nat -> (n < k)%nat -> while_spec k (cond_spec V c) (B N) s r s') /\ post Q X r s'.
Proof.
  intros HC HB n. induction n as [n IH] using lt_wf_ind. intros s Is. destruct (HC n s Is) as [o [Lo Co]].
  destruct (claimed_given _ _ _ Co) as [[v [-> Rv]]|[m [-> Xm]]].
  - destruct (truth v) eqn:F.
    + destruct (HB n s Rv) as [N1 [r1 [s1 [B1 P1]]]].
      assert (Cs : cond_spec V c s (Done true)) by (exists (Done v); split; [exact Lo|split; [discriminate|cbn [obind]; now rewrite F]]).
      destruct r1 as [| |e]; cbn [post] in P1.
      * destruct P1 as [k1 [L1 I1]]. destruct (IH k1 L1 s1 I1) as [N2 [r [s' [W2 P2]]]].
        exists (Nat.max N1 N2), r, s'. split; [|exact P2]. intros N k LN Lk. destruct k as [|k]; [lia|].
        cbn [while_spec]. exists (Done true). split; [exact Cs|]. exists Ended, s1. split; [apply B1; lia|]. cbn [after]. apply W2; lia.
      * destruct P1.
      * exists N1, (Raised e), s1. split; [|exact P1]. intros N k LN Lk. destruct k as [|k]; [lia|].
        cbn [while_spec]. exists (Done true). split; [exact Cs|]. exists (Raised e), s1. split; [apply B1; lia|]. now split.
    + exists 0%nat, Ended, s. split; [|exact Rv]. intros N k _ Lk. destruct k as [|k]; [lia|].
      cbn [while_spec]. exists (Done false). split; [|now split]. exists (Done v). split; [exact Lo|]. split; [discriminate|]. cbn [obind]. now rewrite F.
  - exists 0%nat, (Raised (Ass m)), s. split; [|exact Xm]. intros N k _ Lk. destruct k as [|k]; [lia|].
    cbn [while_spec]. exists (Thrown (Ass m)). split; [|now split]. exists (Thrown (Ass m)). split; [exact Lo|]. split; [|reflexivity].
    intros e E. injection E as <-. discriminate.
Qed.

Lemma each_tot (B : nat -> val -> mstate -> res -> mstate -> Prop) (I : list val -> mstate -> Prop) X l : forall s, I l s ->
  (forall v t s, I (v :: t) s -> exists N0 r s', (forall N, (N0 <= N)%nat -> B N v s r s') /\ post (I t) X r s') ->
  exists N0 r s', (forall N, (N0 <= N)%nat -> each_spec l (B N) s r s') /\ post (I []) X r s'.
Proof.
  induction l as [|v t IH]; intros s Is HB.
  - exists 0%nat, Ended, s. split; [intros; now split|exact Is].
  - destruct (HB v t s Is) as [N1 [r1 [s1 [B1 P1]]]]. destruct r1 as [| |e]; cbn [post] in P1.
    + destruct (IH s1 P1 HB) as [N2 [r [s' [W2 P2]]]]. exists (Nat.max N1 N2), r, s'. split; [|exact P2]. intros N L. cbn [each_spec].
      exists Ended, s1. split; [apply B1; lia|]. cbn [after]. apply W2. lia.
    + destruct P1.
    + exists N1, (Raised e), s1. split; [|exact P1]. intros N L. cbn [each_spec]. exists (Raised e), s1. split; [apply B1; lia|]. now split.
Qed.

Lemma proves_tot H V P p Q X : proves lm ty lim H V P p Q X -> tot H V P p Q X.
Proof.
  induction 1 as [H V P p Q X Si C|H V P a R b Q X _ IHa _ IHb|H V P A B c a b Q X C _ IHa _ IHb|H V I R c a Q X C _ IH
    |H V P e body R Q X C _ IH|H V P I col m body X Hc C _ IH|H V P x t et m body R Q X Hx Ht Hn Ty C _ IH
    |H V P x t e body R Q X Hx Ty C _ IH|H V P x t n body R Q X Hx Ty B64 Bl Bn C _ IH|H V P a b Q X Y _ IHa _ IHb NB|H V P p Q X _ IH
    |H V P P' p Q Q' X X' HP HQ HX _ IH]; intros s Ps.
  - destruct (C s Ps) as [r [s' [L O]]]. exists 0%nat, r, s'. split; [|exact O]. intros N _. exact (simple_rounds H V p 0 N s r s' Si L).
  - destruct (IHa s Ps) as [N1 [r1 [s1 [L1 P1]]]]. destruct r1 as [| |e]; cbn [post] in P1.
    + destruct (IHb s1 P1) as [N2 [r [s' [L2 P2]]]]. exists (Nat.max N1 N2), r, s'. split; [|exact P2]. intros N L. cbn [lsem].
      exists Ended, s1. split; [apply L1; lia|]. cbn [after]. apply L2. lia.
    + destruct P1.
    + exists N1, (Raised e), s1. split; [|exact P1]. intros N L. cbn [lsem]. exists (Raised e), s1. split; [apply L1; lia|]. now split.
  - destruct (C s Ps) as [o [Lo Co]]. destruct (claimed_given _ _ _ Co) as [[v [-> Rv]]|[m [-> Xm]]].
    + destruct (truth v) eqn:F.
      * destruct (IHa s Rv) as [N1 [r [s' [L1 P1]]]]. exists N1, r, s'. split; [|exact P1]. intros N L. cbn [lsem].
        exists (Done v). split; [exact Lo|]. cbn [given]. rewrite F. now apply L1.
      * destruct (IHb s Rv) as [N1 [r [s' [L1 P1]]]]. exists N1, r, s'. split; [|exact P1]. intros N L. cbn [lsem].
        exists (Done v). split; [exact Lo|]. cbn [given]. rewrite F. now apply L1.
    + exists 0%nat, (Raised (Ass m)), s. split; [|exact Xm]. intros N _. cbn [lsem]. exists (Thrown (Ass m)). split; [exact Lo|now split].
  - destruct Ps as [n In']. destruct (while_tot V c (fun N => lsem N lm ty lim H V a) I R Q X C IH n s In') as [N1 [r [s' [L1 P1]]]].
    exists (Nat.max N1 (S n)), r, s'. split; [|exact P1]. intros N L. cbn [lsem]. apply L1; lia.
  - destruct (C s Ps) as [o [Lo Co]]. destruct (claimed_given _ _ _ Co) as [[v [-> Rv]]|[m [-> Xm]]].
    + destruct (IH v s Rv) as [N1 [r [s' [L1 P1]]]]. exists N1, r, s'. split; [|exact P1].
      intros N L. cbn [lsem]. exists (Done v). split; [exact Lo|]. cbn [given]. now apply L1.
    + exists 0%nat, (Raised (Ass m)), s. split; [|exact Xm]. intros N _. cbn [lsem]. exists (Thrown (Ass m)). split; [exact Lo|now split].
  - destruct (C s Ps) as [t [l [d [Cr Il]]]].
    destruct (each_tot (fun N v => lsem N lm ty lim (col :: H) V (body v)) I X l s Il) as [N1 [r [s' [L1 P1]]]].
    + intros v todo s1 I1. exact (IH v todo s1 I1).
    + exists N1, r, s'. split; [|exact P1]. intros N L. cbn [lsem]. exists t, l, d. split; [exact Hc|]. split; [exact Cr|]. now apply L1.
  - destruct (C s Ps) as [l [d [Cr Rs]]]. destruct (IH _ Rs) as [N1 [r [s' [L1 P1]]]]. exists N1, r, s'. split; [|exact P1].
    intros N L. cbn [lsem]. exists l, d. do 4 (split; [assumption|]). split; [exact Cr|]. now apply L1.
  - destruct (C s Ps) as [o [Lo Co]]. destruct (claimed_given _ _ _ Co) as [[e' [-> [Wf [Sz [Li Cv]]]]]|[m [-> Xm]]].
    + destruct (claimed_given _ _ _ Cv) as [[l [Va Rs]]|[m [Va Xm]]].
      * destruct (IH _ Rs) as [N1 [r [s' [L1 P1]]]]. exists N1, r, s'. split; [|exact P1].
        intros N L. cbn [lsem]. split; [exact Hx|]. split; [exact Ty|]. exists (Done e'). split; [exact Lo|]. cbn [given].
        split; [exact Wf|]. split; [exact Sz|]. split; [exact Li|]. rewrite Va. cbn [given]. now apply L1.
      * exists 0%nat, (Raised (Ass m)), s. split; [|exact Xm]. intros N _. cbn [lsem]. split; [exact Hx|]. split; [exact Ty|].
        exists (Done e'). split; [exact Lo|]. cbn [given]. split; [exact Wf|]. split; [exact Sz|]. split; [exact Li|]. rewrite Va. now split.
    + exists 0%nat, (Raised (Ass m)), s. split; [|exact Xm]. intros N _. cbn [lsem]. split; [exact Hx|]. split; [exact Ty|].
      exists (Thrown (Ass m)). split; [exact Lo|now split].
  - pose proof (C s Ps) as Cs. destruct (n =? 0) eqn:E0.
    + exists 0%nat, (Raised msg_zero), s. split; [|exact Cs]. intros N _. cbn [lsem]. rewrite E0. do 5 (split; [assumption|]). now split.
    + destruct (IH _ Cs) as [N1 [r [s' [L1 P1]]]]. exists N1, r, s'. split; [|exact P1]. intros N L. cbn [lsem]. rewrite E0.
      do 5 (split; [assumption|]). now apply L1.
  - destruct (IHa s Ps) as [N1 [r1 [s1 [L1 P1]]]]. destruct r1 as [| |[m|]]; cbn [post] in P1.
    + exists N1, Ended, s1. split; [|exact P1]. intros N L. cbn [lsem]. exists Ended, s1. split; [apply L1; lia|]. now split.
    + destruct P1.
    + destruct (IHb m s1 P1) as [N2 [r [s' [L2 P2]]]]. exists (Nat.max N1 N2), r, s'. split; [|exact P2]. intros N L. cbn [lsem].
      exists (Raised (Ass m)), s1. split; [apply L1; lia|]. apply L2. lia.
    + exists N1, (Raised BadAlloc), s1. split; [|exact (NB s1 P1)]. intros N L. cbn [lsem]. exists (Raised BadAlloc), s1. split; [apply L1; lia|]. now split.
  - exact (IH s Ps s eq_refl).
  - destruct (IH s (HP s Ps)) as [N1 [r [s' [L1 P1]]]]. exists N1, r, s'. split; [exact L1|]. destruct r; cbn [post] in *; auto.
Qed.

(* ------------------------------------------------------ the rules suffice *)

Lemma proves_never H V p Q X : proves lm ty lim H V (fun _ => False) p Q X.
Proof. apply Pv_each. intros s0 []. Qed.
Lemma proves_post H V P p (Q Q' : mstate -> Prop) (X X' : exn -> mstate -> Prop) : proves lm ty lim H V P p Q X ->
  (forall s, Q s -> Q' s) -> (forall e s, X e s -> X' e s) -> proves lm ty lim H V P p Q' X'.
Proof. intros D HQ HX. apply (Pv_conseq lm ty lim H V P P p Q Q' X X'); auto. Qed.

(** What the meaning says of one start. *)
Lemma lsem_proves N p : forall H V s r s', lsem N lm ty lim H V p s r s' -> r <> Running ->
  proves lm ty lim H V (fun q => q = s) p (fun q => r = Ended /\ q = s') (fun e q => r = Raised e /\ q = s').
Proof.
  assert (Post : forall r s', r <> Running -> post (fun q => r = Ended /\ q = s') (fun e q => r = Raised e /\ q = s') r s')
    by (intros [| |e] s' NR; cbn [post]; auto).
  assert (Th : forall {A} (o : outcome A) k s r s', given o k s r s' -> r <> Running ->
    claimed o (fun v => k v s r s') (fun e => r = Raised e /\ s = s')).
  { intros A o k s r s' G NR. destruct o as [v|[m|]|u]; cbn [given claimed] in *; [exact G|destruct G as [-> ->]; now split|exact G|exact G]. }
  induction p as [| x e|x v|t x i same e|x i v|t x i j same e|x i j v|x k v|x i v|x i j v|x v|x n|a IHa b IHb|c a IHa b IHb|c a IHa|e body IHb|col m body IHb
    |x t et m body IHb|x t e body IHb|x t n body IHb|a IHa b IHb];
    intros H V s r s' L NR;
    try (apply Pv_call; [reflexivity|]; intros q ->; exists r, s'; split; [exact L|now apply Post]).
  - destruct L.
  - cbn [lsem] in L. destruct L as [r1 [s1 [L1 L2]]]. destruct r1 as [| |e]; cbn [after] in L2.
    + apply (Pv_seq lm ty lim H V _ a (fun q => q = s1)); [|now apply IHb].
      apply (proves_post _ _ _ _ _ _ _ _ (IHa H V s Ended s1 L1 ltac:(discriminate))); [tauto|intros e q [E _]; discriminate].
    + destruct L2 as [-> _]. congruence.
    + destruct L2 as [-> ->]. apply (Pv_seq lm ty lim H V _ a (fun _ => False)); [|apply proves_never].
      apply (proves_post _ _ _ _ _ _ _ _ (IHa H V s (Raised e) s1 L1 NR)); [intros q [E _]; discriminate|auto].
  - cbn [lsem] in L. destruct L as [o [Lo G]].
    apply (Pv_if lm ty lim H V _ (fun q => q = s /\ lsem N lm ty lim H V a s r s') (fun q => q = s /\ lsem N lm ty lim H V b s r s')).
    + intros q ->. exists o. split; [exact Lo|]. apply Th in G; [|exact NR]. destruct o as [v|[m|]|u]; cbn [claimed] in *; [|exact G..].
      destruct (truth v); now split.
    + apply Pv_each. intros q [-> La]. now apply IHa.
    + apply Pv_each. intros q [-> Lb]. now apply IHb.
  - cbn [lsem] in L.
    apply (Pv_conseq lm ty lim H V (fun q => exists n, while_spec n (cond_spec V c) (lsem N lm ty lim H V a) q r s') _ _
      (fun q => r = Ended /\ q = s') _ (fun e q => r = Raised e /\ q = s') _); [intros q ->; exists N; exact L|auto|auto|].
    apply (Pv_while lm ty lim H V _ (fun n q => exists k r1 s1, n = S k /\ lsem N lm ty lim H V a q r1 s1 /\
      after r1 s1 (while_spec k (cond_spec V c) (lsem N lm ty lim H V a)) r s')).
    + intros n q W. destruct n as [|n]; cbn [while_spec] in W; [destruct W as [-> _]; congruence|].
      destruct W as [b [[v [Lv [Nv Eb]]] W]]. exists v. split; [exact Lv|]. destruct v as [v|e|u]; cbn [obind] in Eb; subst b; cbn [claimed].
      * destruct (truth v); [|destruct W as [-> ->]; now split]. destruct W as [r1 [s1 [W1 W2]]]. exists n, r1, s1. auto.
      * destruct W as [-> ->]. destruct e as [m|]; [now split|elim (Nv BadAlloc eq_refl eq_refl)].
      * destruct W.
    + intros n. apply Pv_each. intros q [k [r1 [s1 [-> [L1 W]]]]]. destruct r1 as [| |e]; cbn [after] in W.
      * apply (proves_post _ _ _ _ _ _ _ _ (IHa H V q Ended s1 L1 ltac:(discriminate))); [|intros e q1 [E _]; discriminate].
        intros q1 [_ ->]. exists k. split; [lia|exact W].
      * destruct W as [-> _]. congruence.
      * destruct W as [-> ->]. apply (proves_post _ _ _ _ _ _ _ _ (IHa H V q (Raised e) s1 L1 NR)); [intros q1 [E _]; discriminate|auto].
  - cbn [lsem] in L. destruct L as [o [Lo G]].
    apply (Pv_scal lm ty lim H V _ e body (fun v q => q = s /\ lsem N lm ty lim H V (body v) s r s')).
    + intros q ->. exists o. split; [exact Lo|]. apply Th in G; [|exact NR]. destruct o as [v|[m|]|u]; cbn [claimed] in *; [|exact G..]. now split.
    + intros v. apply Pv_each. intros q [-> La]. now apply IHb.
  - cbn [lsem] in L. destruct L as [t [l [d [Hc [Cr E]]]]].
    apply (proves_post H V _ _ (fun q => each_spec [] (fun v => lsem N lm ty lim (col :: H) V (body v)) q r s') _ (fun e q => r = Raised e /\ q = s') _);
      [|intros q [-> ->]; now split|auto].
    apply (Pv_for lm ty lim H V _ (fun l q => each_spec l (fun v => lsem N lm ty lim (col :: H) V (body v)) q r s') col m body _ Hc).
    + intros q ->. exists t, l, d. now split.
    + intros v l1. apply Pv_each. intros q E1. cbn [each_spec] in E1. destruct E1 as [r1 [s1 [L1 E1]]]. destruct r1 as [| |e]; cbn [after] in E1.
      * apply (proves_post _ _ _ _ _ _ _ _ (IHb v (col :: H) V q Ended s1 L1 ltac:(discriminate))); [|intros e q1 [X _]; discriminate].
        intros q1 [_ ->]. exact E1.
      * destruct E1 as [-> _]. congruence.
      * destruct E1 as [-> ->]. apply (proves_post _ _ _ _ _ _ _ _ (IHb v (col :: H) V q (Raised e) s1 L1 NR)); [intros q1 [X _]; discriminate|auto].
  - cbn [lsem] in L. destruct L as [l [d [Hx [Ht [Hn [Ty [Cr L]]]]]]].
    apply (Pv_let lm ty lim H V _ x t et m body (fun q => q = (setl (fst s) x l, setd (snd s) x d)) _ _ Hx Ht Hn Ty).
    + intros q ->. exists l, d. now split.
    + now apply IHb.
  - cbn [lsem] in L. destruct L as [Hx [Ty [o [Lo G]]]].
    apply (Pv_decl lm ty lim H V _ x t e body (fun q => lsem N lm ty lim H (x :: V) body q r s') _ _ Hx Ty).
    + intros q ->. exists o. split; [exact Lo|]. apply Th in G; [|exact NR]. destruct o as [v|[m|]|u]; cbn [claimed] in *; [|exact G..].
      destruct G as [Wf [Sz [Li G]]]. do 3 (split; [assumption|]). exact (Th _ _ _ _ _ _ G NR).
    + apply Pv_each. intros q Lq. now apply IHb.
  - cbn [lsem] in L. destruct L as [Hx [Ty [B64 [Bl [Bn L]]]]].
    apply (Pv_sized lm ty lim H V _ x t n body (fun q => lsem N lm ty lim H (x :: V) body q r s') _ _ Hx Ty B64 Bl Bn).
    + intros q ->. destruct (n =? 0); [destruct L as [-> ->]; now split|exact L].
    + apply Pv_each. intros q Lq. now apply IHb.
  - cbn [lsem] in L. destruct L as [r1 [s1 [L1 L2]]].
    assert (D : r1 <> Running) by (intros ->; destruct L2 as [-> _]; congruence).
    apply (Pv_try lm ty lim H V _ a b _ (fun e q => r1 = Raised e /\ q = s1)).
    + apply (proves_post _ _ _ _ _ _ _ _ (IHa H V s r1 s1 L1 D)); [|auto]. intros q [-> ->]. destruct L2 as [-> ->]. now split.
    + intros m. apply Pv_each. intros q [-> ->]. now apply IHb.
    + intros q [-> ->]. destruct L2 as [-> ->]. now split.
Qed.

Lemma meant_proves H V (P : mstate -> Prop) p (Q : mstate -> Prop) (X : exn -> mstate -> Prop) :
  (forall s, P s -> exists N r s', lsem N lm ty lim H V p s r s' /\ post Q X r s') -> proves lm ty lim H V P p Q X.
Proof.
  intros T. apply Pv_each. intros s Ps. destruct (T s Ps) as [N [r [s' [L O]]]].
  assert (NR : r <> Running) by (intros ->; destruct O).
  apply (proves_post _ _ _ _ _ _ _ _ (lsem_proves N p H V s r s' L NR)); [intros q [-> ->]; exact O|intros e q [-> ->]; exact O].
Qed.

(* ---------------------------------------------------------- handy rules *)

Lemma rule_if H V (P : mstate -> Prop) c a b Q X (f : mstate -> val) : (forall s, P s -> lvalue lm V s c (Done (f s))) ->
  proves lm ty lim H V (fun s => P s /\ truth (f s) = true) a Q X -> proves lm ty lim H V (fun s => P s /\ truth (f s) = false) b Q X ->
  proves lm ty lim H V P (LIf c a b) Q X.
Proof.
  intros C Da Db. apply (Pv_if lm ty lim H V P _ _ c a b Q X) with (2 := Da) (3 := Db). intros s Ps. exists (Done (f s)). split; [now apply C|].
  cbn [claimed]. destruct (truth (f s)) eqn:F; now split.
Qed.
Lemma rule_while H V (I : mstate -> Prop) c a X (f : mstate -> val) (variant : mstate -> nat) : (forall s, I s -> lvalue lm V s c (Done (f s))) ->
  (forall n, proves lm ty lim H V (fun s => I s /\ truth (f s) = true /\ variant s = n) a (fun s => I s /\ (variant s < n)%nat) X) ->
  proves lm ty lim H V I (LWhile c a) (fun s => I s /\ truth (f s) = false) X.
Proof.
  intros C D. apply (Pv_conseq lm ty lim H V (fun s => exists n, I s /\ variant s = n) I _ (fun s => I s /\ truth (f s) = false) _ X X); auto.
  - intros s Is. exists (variant s). now split.
  - apply (Pv_while lm ty lim H V (fun n s => I s /\ variant s = n) (fun n s => I s /\ truth (f s) = true /\ variant s = n)).
    + intros n s [Is Vs]. exists (Done (f s)). split; [now apply C|]. cbn [claimed]. destruct (truth (f s)) eqn:F; auto.
    + intros n. apply (proves_post _ _ _ _ _ _ _ _ (D n)); [|auto]. intros s [Is L]. exists (variant s). auto.
Qed.
Lemma rule_for H V (I : list val -> mstate -> Prop) col m body X t l d : ~ In col (H ++ V) ->
  (forall s, I [] s -> lcreates lm V lim (fst s) (snd s) m t l d) ->
  (forall seen v todo, l = seen ++ v :: todo -> proves lm ty lim (col :: H) V (I seen) (body v) (I (seen ++ [v])) X) ->
  proves lm ty lim H V (I []) (LFor col m body) (I l) X.
Proof.
  intros Hc C D. apply (proves_post H V (I []) _ (fun s => exists seen, seen ++ [] = l /\ I seen s) (I l) X X); [|intros s [seen [<- Is]]; now rewrite app_nil_r|auto].
  apply (Pv_for lm ty lim H V (I []) (fun todo s => exists seen, seen ++ todo = l /\ I seen s) col m body X Hc).
  - intros s Is. exists t, l, d. split; [now apply C|]. now exists [].
  - intros v todo. apply Pv_each. intros s [seen [E Is]].
    apply (Pv_conseq lm ty lim (col :: H) V (I seen) _ _ (I (seen ++ [v])) _ X X); [intros q ->; exact Is| |auto|now apply (D seen v todo)].
    intros q Iq. exists (seen ++ [v]). split; [rewrite <- app_assoc; exact E|exact Iq].
Qed.

Lemma tot_achieves H V P p Q X : tot H V P p Q X -> achieves lm ty lim H V P p Q X.
Proof.
  intros T w s A Ps. destruct (T s Ps) as [N0 [r [s' [L O]]]].
  destruct (c81_programs N0 lm ty lim H V p w s r s' A (L N0 (le_n _))) as [w' [E [Re NL]]].
  exists N0, (of_res r), w', s'. destruct r as [| |e]; cbn [post of_res lreached] in *; [|destruct O|].
  - split; [|split; [exact Re|split; [exact NL|split; [reflexivity|exact O]]]]. intros N LN. apply (c81_rounds N0 N lm p w _ w' LN E). discriminate.
  - split; [|split; [exact Re|split; [exact NL|exact O]]]. intros N LN. apply (c81_rounds N0 N lm p w _ w' LN E). discriminate.
Qed.
End Sound.
