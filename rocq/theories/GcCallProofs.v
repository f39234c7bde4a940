(** A collector changes nothing for the functions R calls. *)
From Coq Require Import ZArith List String Bool Lia Arith.
From Verif Require Import Base Num StoreModel VecModel SubsetModel AllocModel ProgModel LangModel OutModel ForeignModel CallModel JumpModel RgcModel GcCallModel
  Spec SpecExpr SpecHist SpecSafe SpecLang SpecOut SpecForeign SpecGc SpecCall SpecSession SpecJump SpecGcCall
  StoreProofs VecProofs OutProofs GcProofs BlindProofs SafeProofs LangProofs CallSafe JumpProofs.
Import ListNotations.
Open Scope Z_scope.
Local Notation length := List.length (only parsing).

Definition none (a : nat) : Prop := False.
(** w: never anything freed, s: with a collector.  On the blocks of Q they
    agree.  X: blocks of R that the library uses meanwhile, which R reaches. *)
Definition held (X T : nat -> Prop) (w : world) (s : rworld) : Prop := forall a, X a -> ~ T a /\ root s a = true /\ (a < hnext (hp w))%nat.
Definition gsimX (X : nat -> Prop) (Q : nat -> Prop) (w : world) (s : rworld) : Prop := exists T B1 B2,
  rel T X B1 B2 w (rw s) /\ (forall a, T a \/ ~ T a) /\
  (forall a, T a -> B2 a = B1 a \/ (exists cs, B1 a = Live OwnR cs) /\ B2 a = Freed /\ kept s a = false) /\
  (forall a, Q a -> seen T B1 B2 a) /\ held X T w s.
Lemma held_none T w s : held none T w s. Proof. intros a []. Qed.
Lemma held_moved X T w s w1 s1 : held X T w s -> root s1 = root s -> (hnext (hp w) <= hnext (hp w1))%nat -> held X T w1 s1.
Proof. intros H E L a Xa. destruct (H a Xa) as [H1 [H2 H3]]. split; [exact H1|]. split; [congruence|lia]. Qed.
Section Wrap.
Context {X : nat -> Prop}.
Notation gsim := (gsimX X).
Lemma gsim_weak (Q Q' : nat -> Prop) w s : (forall a, Q' a -> Q a) -> gsim Q w s -> gsim Q' w s.
Proof. intros H [T [B1 [B2 [R [D [S [K V]]]]]]]. exists T, B1, B2. split; [exact R|]. split; [exact D|]. split; [exact S|]. split; [|exact V]. auto. Qed.
Lemma gsim_none (Q : nat -> Prop) w s : gsim Q w s -> gsim none w s.
Proof. apply gsim_weak. intros a []. Qed.
Lemma gsim_blk Q w s a : gsim Q w s -> Q a -> hblk (hp (rw s)) a = hblk (hp w) a.
Proof. intros [T [B1 [B2 [R [D [S [K V]]]]]]] H. apply (seen_blk _ _ _ _ _ _ _ R (K a H)). Qed.
Lemma gsim_kept Q w s a : gsim Q w s -> kept s a = true -> hblk (hp (rw s)) a = hblk (hp w) a.
Proof.
  intros [T [B1 [B2 [R [D [S [K V]]]]]]] H. apply (seen_blk _ _ _ _ _ _ _ R). destruct (D a) as [Ta|]; [|now right].
  left. split; [exact Ta|]. destruct (S a Ta) as [E|[_ [_ E]]]; congruence.
Qed.
Lemma gsim_add Q w s a : gsim Q w s -> kept s a = true -> gsim (fun b => a = b \/ Q b) w s.
Proof.
  intros [T [B1 [B2 [R [D [S [K V]]]]]]] H. exists T, B1, B2. split; [exact R|]. split; [exact D|]. split; [exact S|]. split; [|exact V]. intros b [<-|Qb]; auto.
  destruct (D a) as [Ta|]; [|now right]. left. split; [exact Ta|]. destruct (S a Ta) as [E|[_ [_ E]]]; congruence.
Qed.
Lemma gsim_garbage Q w s : gsim Q w s -> but_garbage w s.
Proof.
  intros [T [B1 [B2 [R [D [S [K V]]]]]]]. destruct R as [R1 R2 R3 R4 R5 R6 R7 R8]. split; [exact R1|]. split; [exact R2|]. split; [exact R3|].
  intros a. destruct (D a) as [Ta|Na]; [|left; auto]. destruct (R5 a Ta) as [E1 E2]. rewrite E1, E2.
  destruct (S a Ta) as [E|[E [F N]]]; [now left|right]. split; [exact E|]. split; [exact F|]. rewrite <- kept_holds. congruence.
Qed.
Lemma gsim_same w s st rt : rw s = w -> (forall a, X a \/ ~ X a) -> (forall o, ptr (ob w o) = None) -> (forall a cs, hblk (hp w) a = Live OwnR cs -> (a < hnext (hp w))%nat) ->
  (forall a, X a -> rt a = true /\ (a < hnext (hp w))%nat) -> gsim (fun _ => True) w (mkRW (rw s) st rt).
Proof.
  intros E XD P L XR. exists (fun a => (exists cs, hblk (hp w) a = Live OwnR cs) /\ ~ X a), (hblk (hp w)), (hblk (hp w)). cbn [rw]. rewrite E.
  assert (D : forall a, ((exists cs, hblk (hp w) a = Live OwnR cs) /\ ~ X a) \/ ~ ((exists cs, hblk (hp w) a = Live OwnR cs) /\ ~ X a)).
  { intros a. destruct (XD a) as [Xa|Na]; [right; tauto|]. destruct (hblk (hp w) a) as [|[] cs|]; try (right; intros [[c H] _]; discriminate). left. eauto. }
  split; [|split; [|split; [|split]]].
  - constructor; auto.
    + intros a [[cs H] _]. eapply L; eauto.
    + intros o a H. now rewrite P in H.
    + intros a cs H. destruct (XD a); [now right|left]. split; [eauto|assumption].
  - exact D.
  - intros a _. now left.
  - intros a _. destruct (D a) as [Ta|Na]; [left|now right]. split; [exact Ta|reflexivity].
  - intros a Xa. destruct (XR a Xa) as [H1 H2]. split; [tauto|]. now split.
Qed.

(** What happened to the protection stack: [l] are new objects on it. *)
Definition moved (bal : Prop) (w : world) (s : rworld) (w1 : world) (s1 : rworld) : Prop :=
  root s1 = root s /\ (hnext (hp w) <= hnext (hp w1))%nat /\
  exists l, pstk s1 = l ++ pstk s /\ (forall a, In a l -> (hnext (hp w) <= a)%nat) /\ (bal -> l = []).
Definition step {A} (Q : nat -> Prop) (q : A -> nat -> Prop) (bal : Prop) (m : M world A) (mg : M rworld A) : Prop :=
  forall w s, gsim Q w s -> exists o w1 s1, m w = (o, w1) /\ mg s = (o, s1) /\
    gsim (match o with Done x => q x | _ => none end) w1 s1 /\ moved (bal /\ exists x, o = Done x) w s w1 s1.

Lemma moved_refl bal w s : moved bal w s w s.
Proof. split; [reflexivity|]. split; [lia|]. exists []. split; [reflexivity|]. split; [intros a []|reflexivity]. Qed.
Lemma moved_trans (b1 b2 b3 : Prop) w s w1 s1 w2 s2 : (b3 -> b1 /\ b2) -> moved b1 w s w1 s1 -> moved b2 w1 s1 w2 s2 -> moved b3 w s w2 s2.
Proof.
  intros Hb [R1 [L1 [l1 [P1 [F1 Z1]]]]] [R2 [L2 [l2 [P2 [F2 Z2]]]]]. split; [congruence|]. split; [lia|]. exists (l2 ++ l1).
  split; [now rewrite P2, P1, app_assoc|]. split.
  - intros a Ia. apply in_app_or in Ia. destruct Ia as [Ia|Ia]; [apply F2 in Ia; lia|auto].
  - intros Hb3. destruct (Hb Hb3) as [H1 H2]. now rewrite (Z1 H1), (Z2 H2).
Qed.
Lemma moved_weak (b1 b2 : Prop) w s w1 s1 : (b2 -> b1) -> moved b1 w s w1 s1 -> moved b2 w s w1 s1.
Proof. intros H [R [L [l [P [F Z]]]]]. split; [exact R|]. split; [exact L|]. exists l. auto. Qed.

Lemma kept_same w w' st rt a : kept (mkRW w st rt) a = kept (mkRW w' st rt) a. Proof. reflexivity. Qed.
Lemma step_inw_keep {A} (Q : nat -> Prop) (m : M world A) w s : (forall T X B1 B2, (forall a, Q a -> seen T B1 B2 a) -> blind T X B1 B2 m) -> gsim Q w s ->
  exists o w1 s1, m w = (o, w1) /\ inw m s = (o, s1) /\ gsim Q w1 s1 /\ pstk s1 = pstk s /\ root s1 = root s /\ (hnext (hp w) <= hnext (hp w1))%nat.
Proof.
  intros Hm [T [B1 [B2 [R [D [S [K V]]]]]]]. destruct (Hm T X B1 B2 K 0%nat w (rw s) R (Nat.le_0_l _)) as [E [R1 L]]. unfold inw.
  destruct (m w) as [o w1], (m (rw s)) as [o2 w2]; cbn [fst snd] in *; subst o2. exists o, w1, (mkRW w2 (pstk s) (root s)).
  split; [reflexivity|]. split; [reflexivity|]. split; [|auto]. exists T, B1, B2. split; [exact R1|]. split; [exact D|]. split; [exact S|]. split; [exact K|].
  eapply held_moved; [exact V|reflexivity|exact L].
Qed.
Lemma step_inw {A} (Q : nat -> Prop) (q : A -> nat -> Prop) bal (m : M world A) : (forall T X B1 B2, (forall a, Q a -> seen T B1 B2 a) -> blind T X B1 B2 m) ->
  (forall x a, q x a -> Q a) -> step Q q bal m (inw m).
Proof.
  intros Hm Hq w s S. destruct (step_inw_keep Q m w s Hm S) as [o [w1 [s1 [E [E' [S1 [P [R L]]]]]]]]. exists o, w1, s1.
  split; [exact E|]. split; [exact E'|]. split.
  - eapply gsim_weak; [|exact S1]. destruct o as [x|e|u]; [apply Hq|intros b []|intros b []].
  - split; [exact R|]. split; [exact L|]. exists []. split; [exact P|]. split; [intros a []|reflexivity].
Qed.
Lemma step_pure {A} (m : M world A) : (forall T X B1 B2, blind T X B1 B2 m) -> forall bal, step none (fun _ => none) bal m (inw m).
Proof. intros H bal. apply step_inw; auto. Qed.
Lemma step_bind {A B} Q q1 q2 bal (m : M world A) mg (f : A -> M world B) fg : step Q q1 bal m mg ->
  (forall x, step (q1 x) q2 bal (f x) (fg x)) -> step Q q2 bal (bind m f) (bind mg fg).
Proof.
  intros H K w s S. destruct (H w s S) as [o [w1 [s1 [E [E' [S1 M1]]]]]]. unfold bind. rewrite E, E'. destruct o as [x|e|u].
  - destruct (K x w1 s1 S1) as [o2 [w2 [s2 [E2 [E2' [S2 M2]]]]]]. exists o2, w2, s2. split; [exact E2|]. split; [exact E2'|]. split; [exact S2|].
    eapply moved_trans; [|exact M1|exact M2]. intros [Hb Hx]. split; split; eauto.
  - exists (Thrown e), w1, s1. split; [reflexivity|]. split; [reflexivity|]. split; [exact S1|]. eapply moved_weak; [|exact M1]. intros [_ [y Hy]]. discriminate.
  - exists (Undef u), w1, s1. split; [reflexivity|]. split; [reflexivity|]. split; [exact S1|]. eapply moved_weak; [|exact M1]. intros [_ [y Hy]]. discriminate.
Qed.
Lemma step_ret {A} (Q : nat -> Prop) (q : A -> nat -> Prop) bal x : (forall a, q x a -> Q a) -> step Q q bal (ret x) (ret x).
Proof. intros H w s S. exists (Done x), w, s. split; [reflexivity|]. split; [reflexivity|]. split; [|apply moved_refl]. eapply gsim_weak; eauto. Qed.
Lemma step_lift {A} (Q : nat -> Prop) bal (x : outcome A) : step Q (fun _ => none) bal (lift x) (lift x).
Proof. intros w s S. exists x, w, s. split; [reflexivity|]. split; [reflexivity|]. split; [|apply moved_refl]. destruct x; eapply gsim_none; eauto. Qed.
Lemma step_weak {A} (Q Q' : nat -> Prop) q (b b' : Prop) (m : M world A) mg : (forall a, Q a -> Q' a) -> (b' -> b) -> step Q q b m mg -> step Q' q b' m mg.
Proof.
  intros H Hb K w s S. destruct (K w s) as [o [w1 [s1 [E [E' [S1 M1]]]]]]; [eapply gsim_weak; eauto|]. exists o, w1, s1.
  split; [exact E|]. split; [exact E'|]. split; [exact S1|]. eapply moved_weak; [|exact M1]. intuition.
Qed.

(* -------------------------------------------------------------- conversion *)

Lemma gsim_collect Q G w s : gsim Q w s -> gsim none w (snd (collect G s)).
Proof.
  intros [T [B1 [B2 [R [D [S [K V]]]]]]]. exists T, B1, (hblk (hp (swept G s))). destruct R as [R1 R2 R3 R4 R5 R6 R7 R8]. split; [|split; [exact D|split; [|split]]].
  - constructor; auto.
    + intros a Na. rewrite <- (R4 a Na). destruct (swept_blk G s a) as [E|[[cs E] [H0 _]]]; [exact E|]. rewrite (R4 a Na) in E. destruct (R8 a cs E) as [Ta|Xa]; [contradiction|].
      exfalso. destruct (V a Xa) as [_ [Ra _]]. apply H0. apply kept_holds. unfold kept. now rewrite Ra.
    + intros a Ta. split; [apply R5; auto|reflexivity].
  - intros a Ta. destruct (R5 a Ta) as [E1 E2]. destruct (swept_blk G s a) as [E|[[cs E] [N F]]].
    + rewrite E, E2. destruct (S a Ta) as [H|[H1 [H2 H3]]]; auto.
    + right. rewrite E2 in E. destruct (S a Ta) as [H|[H1 [H2 H3]]].
      * split; [exists cs; congruence|]. split; [exact F|]. destruct (kept (snd (collect G s)) a) eqn:Ke; [|reflexivity]. elim N. now apply kept_holds.
      * congruence.
  - intros a [].
  - exact V.
Qed.

Definition alone (b : nat) (w : world) : Prop := (forall o, ptr (ob w o) <> Some b) /\ (b < hnext (hp w))%nat.
Lemma r_new_sim n Q w s : gsim Q w s -> forall o w1, r_new n w = (o, w1) ->
  exists s1, inw (r_new n) s = (o, s1) /\ pstk s1 = pstk s /\ root s1 = root s /\
    match o with
    | Done b => b = hnext (hp w) /\ hnext (hp w1) = S (hnext (hp w)) /\ alone b w1 /\
        exists T B1 B2, rel T (fun a => X a \/ b = a) B1 B2 w1 (rw s1) /\ (forall a, T a \/ ~ T a) /\ ~ T b /\ ~ X b /\ held X T w1 s1 /\
        (forall a, T a -> B2 a = B1 a \/ (exists cs, B1 a = Live OwnR cs) /\ B2 a = Freed /\ kept s1 a = false)
    | _ => w1 = w /\ s1 = s
    end.
Proof.
  intros [T [B1 [B2 [R [D [S [K V]]]]]]] o w1. unfold inw, r_new. rewrite (rel_lim _ _ _ _ _ _ R), (rel_next _ _ _ _ _ _ R).
  destruct (n <=? _); intros [= <- <-]; eexists; (split; [reflexivity|]); (split; [reflexivity|]); (split; [reflexivity|]).
  - cbn [fst snd rw hp ob set_hp hnext]. split; [reflexivity|]. split; [reflexivity|]. 
    assert (NT : ~ T (hnext (hp w))) by (intros Q'; pose proof (rel_low _ _ _ _ _ _ R _ Q'); lia). split.
    { split; [|cbn; lia]. intros o E. cbn in E. destruct (rel_ptr _ _ _ _ _ _ R o _ E). lia. }
    assert (NX : ~ X (hnext (hp w))) by (intros Q'; destruct (V _ Q') as [_ [_ L]]; lia).
    exists T, B1, B2. destruct R as [R1 R2 R3 R4 R5 R6 R7 R8]. split; [|split; [exact D|split; [exact NT|split; [exact NX|split; [|auto]]]]].
    2: { eapply held_moved; [exact V|reflexivity|cbn; lia]. }
    constructor; cbn; auto.
    + intros a Na. destruct (a =? _)%nat; auto.
    + intros a Ta. destruct (Nat.eqb_spec a (hnext (hp w))) as [->|_]; auto. contradiction.
    + intros a Ta. specialize (R6 a Ta). lia.
    + intros o. eapply fine_up; [|apply R7]. lia.
    + intros a cs. destruct (Nat.eqb_spec a (hnext (hp w))) as [->|_]; [auto|]. intros E. destruct (R8 a cs E); auto.
  - split; [reflexivity|]. now destruct s.
Qed.

(** The object under construction: nothing points to it, R protects it or not. *)
Definition raw (b : nat) (w : world) (s : rworld) : Prop := alone b w /\ exists T B1 B2, rel T (fun a => X a \/ b = a) B1 B2 w (rw s) /\ (forall a, T a \/ ~ T a) /\ ~ T b /\
  ~ X b /\ held X T w s /\
  forall a, T a -> B2 a = B1 a \/ (exists cs, B1 a = Live OwnR cs) /\ B2 a = Freed /\ kept s a = false.
Lemma raw_sim b w s : raw b w s -> gsim (eq b) w s.
Proof.
  intros [[P L] [T [B1 [B2 [R [D [N [NX [V S]]]]]]]]]. pose proof (rel_same _ _ _ _ _ _ R b N) as Eb.
  exists (fun a => T a \/ b = a), (hblk (hp w)), (hblk (hp (rw s))).
  destruct R as [R1 R2 R3 R4 R5 R6 R7 R8]. split; [|split; [|split; [|split]]].
  - constructor; auto.
    + intros a [Ta| <-]; auto.
    + intros o a H. destruct (R7 o a H) as [N1 N2]. split; [|exact N2]. intros [Ta| <-]; [contradiction|]. now apply (P o).
    + intros a cs H. destruct (R8 a cs H) as [|[|]]; auto.
  - intros a. destruct (D a); [now left; left|]. destruct (Nat.eq_dec b a); [now left; right|]. right. tauto.
  - intros a [Ta| <-]; [|now left]. destruct (R5 a Ta) as [E1 E2]. rewrite E1, E2. auto.
  - intros a <-. left. split; [now right|now rewrite Eb].
  - intros a Xa. destruct (V a Xa) as [V1 V2]. split; [|exact V2]. intros [Ta| <-]; contradiction.
Qed.
Lemma raw_protect b w s : raw b w s -> raw b w (mkRW (rw s) (b :: pstk s) (root s)).
Proof.
  intros [Al [T [B1 [B2 [R [D [N [NX [V S]]]]]]]]]. split; [exact Al|]. exists T, B1, B2. split; [exact R|]. split; [exact D|]. split; [exact N|]. split; [exact NX|]. split; [exact V|].
  intros a Ta. destruct (S a Ta) as [H|[H1 [H2 H3]]]; auto. right. split; [exact H1|]. split; [exact H2|].
  unfold kept in *. cbn [pstk root existsb]. destruct (Nat.eqb_spec a b) as [->|_]; [contradiction|exact H3].
Qed.
Lemma raw_run b (m : M world unit) w s : (forall T X B1 B2, ~ T b -> blind T X B1 B2 m) -> (forall v, ob (snd (m v)) = ob v) -> raw b w s ->
  exists o w1 s1, m w = (o, w1) /\ inw m s = (o, s1) /\ raw b w1 s1 /\ pstk s1 = pstk s /\ root s1 = root s /\ (hnext (hp w) <= hnext (hp w1))%nat.
Proof.
  intros Hm Ho [[A1 A2] [T [B1 [B2 [R [D [N [NX [V S]]]]]]]]]. destruct (Hm T (fun a => X a \/ b = a) B1 B2 N 0%nat w (rw s) R (Nat.le_0_l _)) as [E [R1 L]]. specialize (Ho w).
  unfold inw. destruct (m w) as [o w1], (m (rw s)) as [o2 w2]; cbn [fst snd] in *; subst o2. exists o, w1, (mkRW w2 (pstk s) (root s)).
  split; [reflexivity|]. split; [reflexivity|]. split; [|auto]. split; [split; [rewrite Ho; exact A1|lia]|]. exists T, B1, B2.
  split; [exact R1|]. split; [exact D|]. split; [exact N|]. split; [exact NX|]. split; [|exact S]. eapply held_moved; [exact V|reflexivity|exact L].
Qed.

(** An allocation with the result protected. *)
Definition opened (o : outcome robj) (w : world) (s : rworld) (w1 : world) (s1 : rworld) : Prop :=
  root s1 = root s /\ (hnext (hp w) <= hnext (hp w1))%nat /\
  match o with
  | Done r => r_mem r = hnext (hp w) /\ raw (r_mem r) w1 s1 /\ pstk s1 = r_mem r :: pstk s
  | _ => gsim none w1 s1 /\ pstk s1 = pstk s
  end.
Definition opens (m : M world robj) (g : M rworld robj) : Prop := forall w s, gsim none w s ->
  exists o w1 s1, m w = (o, w1) /\ g s = (o, s1) /\ opened o w s w1 s1.
Lemma opens_new G n (mk : nat -> robj) : (forall a, r_mem (mk a) = a) ->
  opens (a <- r_new n ;; ret (mk a)) (o <- (collect G ;; inw (a <- r_new n ;; ret (mk a))) ;; protect o).
Proof.
  intros Hk w s S. pose proof (gsim_collect _ G _ _ S) as S1. set (s0 := snd (collect G s)) in *. destruct (r_new n w) as [o w1] eqn:E.
  destruct (r_new_sim n none w s0 S1 o w1 E) as [s1 [E' [P [R MM]]]].
  assert (EG : forall (f : unit -> M rworld robj), bind (collect G) f s = f tt s0) by reflexivity.
  assert (EI : inw (a <- r_new n ;; ret (mk a)) s0 = (match o with Done a => Done (mk a) | Thrown e => Thrown e | Undef u => Undef u end, s1)).
  { unfold inw in *. unfold bind, ret. destruct (r_new n (rw s0)) as [[x|e|u] w2]; cbn [fst snd] in *; inversion E'; subst; reflexivity. }
  rewrite gassoc, EG. unfold bind at 1. rewrite E. destruct o as [b|e|u].
  - destruct MM as [-> [L [Al XX]]]. eexists (Done (mk (hnext (hp w)))), w1, (mkRW (rw s1) (hnext (hp w) :: pstk s1) (root s1)).
    split; [reflexivity|]. split; [unfold bind at 1; rewrite EI; unfold protect; now rewrite Hk|]. split; [exact R|]. split; [cbn [hp]; rewrite L; lia|].
    rewrite Hk. split; [reflexivity|]. split; [apply raw_protect; now split|]. cbn. now rewrite P.
  - destruct MM as [-> ->]. exists (Thrown e), w, s0. split; [reflexivity|]. split; [unfold bind at 1; now rewrite EI|]. split; [reflexivity|]. split; [lia|]. split; [exact S1|reflexivity].
  - destruct MM as [-> ->]. exists (Undef u), w, s0. split; [reflexivity|]. split; [unfold bind at 1; now rewrite EI|]. split; [reflexivity|]. split; [lia|]. split; [exact S1|reflexivity].
Qed.
Lemma opens_throw e g : (forall s, g s = (Thrown e, s)) -> opens (throw e) g.
Proof.
  intros E w s S. exists (Thrown e), w, s. split; [reflexivity|]. split; [apply E|]. split; [reflexivity|]. split; [lia|]. now split.
Qed.
Lemma opens_vector G t n : opens (r_vector t n) (o <- r_vector_g G t n ;; protect o).
Proof. apply (opens_new G n (fun a => mkR t a None)). reflexivity. Qed.
Lemma opens_matrix G t nr nc : opens (r_matrix t nr nc) (o <- r_matrix_g G t nr nc ;; protect o).
Proof.
  unfold r_matrix_g. unfold r_matrix at 1. cbv zeta. intros w s S. rewrite gassoc. 
  destruct ((0 <=? to_int nr) && (0 <=? to_int nc)) eqn:E1; [rewrite gass_true, bind_ass_true|now apply (opens_throw (Ass "negative extents to matrix"))].
  rewrite gassoc. destruct (to_int nr * to_int nc <=? int_max) eqn:E2; [rewrite gass_true, bind_ass_true|now apply (opens_throw (Ass "allocMatrix: too many elements specified"))].
  replace (inw (r_matrix t nr nc)) with (inw (a <- r_new (to_int nr * to_int nc) ;; ret (mkR t a (Some (to_int nr, to_int nc))))).
  - now apply (opens_new G (to_int nr * to_int nc) (fun a => mkR t a (Some (to_int nr, to_int nc)))).
  - unfold r_matrix. cbv zeta. rewrite E1, E2. reflexivity.
Qed.

Lemma forN_ob n : forall (body : Z -> M world unit) i, (forall k v, ob (snd (body k v)) = ob v) -> forall v, ob (snd (forN n i body v)) = ob v.
Proof.
  induction n as [|n IH]; intros body i H v; cbn [forN]; [reflexivity|]. unfold bind. specialize (H i v) as Hi. destruct (body i v) as [[[]|e|u] v1]; cbn [snd] in *; auto.
  rewrite IH; auto.
Qed.
Lemma wr_ob p i x v : ob (snd (wr p i x v)) = ob v.
Proof. unfold wr, wrc. destruct p as [a|]; auto. destruct (hblk (hp v) a); auto. destruct (_ && _); auto. Qed.
Lemma fill_blind lm e t n b T Y B1 B2 : ~ T b ->
  blind T Y B1 B2 (for_int n (fun i => v <- elem lm e i ;; v' <- lift (cast (r_cell t) v) ;; wr (Some b) i v')).
Proof.
  intros N K. unfold for_int. apply blind_forN. intros k. apply blind_bind.
  - apply blind_bind; [apply blind_elem|]. intros v. apply blind_bind; [apply blind_lift|]. intros v'. apply blind_wr. now intros a [= <-].
  - intros _. apply blind_bind; [apply blind_lift|]. intros _. apply blind_ret.
Qed.
Lemma fill_ob lm e t n b w : ob (snd (for_int n (fun i => v <- elem lm e i ;; v' <- lift (cast (r_cell t) v) ;; wr (Some b) i v') w)) = ob w.
Proof.
  apply forN_ob. intros k v. unfold bind, lift. pose proof (elem_pure lm e k v) as P. destruct (elem lm e k v) as [[y|x|u] v1]; cbn [snd] in P; subst v1; auto.
  destruct (cast (r_cell t) y) as [y'|x|u]; auto. pose proof (wr_ob (Some b) k y' v) as Q. destruct (wr (Some b) k y' v) as [[[]|x|u] v2]; auto.
  destruct (int_res (k + 1)); auto.
Qed.

Lemma beq {W A B} (m : M W A) (f : A -> M W B) w : bind m f w =
  match m w with (Done a, w1) => f a w1 | (Thrown e, w1) => (Thrown e, w1) | (Undef u, w1) => (Undef u, w1) end.
Proof. reflexivity. Qed.
Lemma step_cpp2R G lm t e : step none (fun o => eq (r_mem o)) True (cpp2R lm t e) (cpp2R_g G lm t e).
Proof.
  intros w s S.
  set (m0 := if eim w e then nr <- lift (edim rows w e) ;; nc <- lift (edim cols w e) ;;
       ass (esize w e =? wrap64 (nr * nc)) "size does not match ncol*nrow" ;; r_matrix t nr nc else r_vector t (esize w e)).
  set (g0 := if eim w e then nr <- lift (edim rows w e) ;; nc <- lift (edim cols w e) ;;
       ass (esize w e =? wrap64 (nr * nc)) "size does not match ncol*nrow" ;; o <- r_matrix_g G t nr nc ;; protect o else o <- r_vector_g G t (esize w e) ;; protect o).
  assert (O : opens m0 g0).
  { unfold m0, g0. destruct (eim w e); [|apply opens_vector]. intros v q Sq.
    assert (St : forall x : outcome robj, (forall r, x <> Done r) -> exists o w1 s1, (x, v) = (o, w1) /\ (x, q) = (o, s1) /\ opened o v q w1 s1).
    { intros x Hx. exists x, v, q. split; [reflexivity|]. split; [reflexivity|]. split; [reflexivity|]. split; [lia|]. destruct x as [r| |]; [now elim (Hx r)|now split|now split]. }
    unfold bind at 1 4. unfold lift. destruct (edim rows w e) as [nr|x|u]; [|apply (St (Thrown x)); discriminate|apply (St (Undef u)); discriminate].
    unfold bind at 1 3. destruct (edim cols w e) as [nc|x|u]; [|apply (St (Thrown x)); discriminate|apply (St (Undef u)); discriminate].
    destruct (esize w e =? wrap64 (nr * nc)); [rewrite bind_ass_true, gass_true; now apply opens_matrix|].
    rewrite bind_ass_false, gass_false. apply (St (Thrown (Ass "size does not match ncol*nrow"))). discriminate. }
  assert (E1 : cpp2R lm t e w = bind m0 (fun r => for_int (esize w e) (fun i => v <- elem lm e i ;; v' <- lift (cast (r_cell t) v) ;; wr (Some (r_mem r)) i v') ;; ret r) w) by reflexivity.
  assert (E2 : cpp2R_g G lm t e s = bind g0 (fun r => inw (for_int (esize w e) (fun i => v <- elem lm e i ;; v' <- lift (cast (r_cell t) v) ;; wr (Some (r_mem r)) i v')) ;;
    unprotect 1 ;; ret r) s).
  { unfold g0. destruct S as [T [B1 [B2 [R _]]]]. unfold cpp2R_g. rewrite gget. cbv zeta.
    rewrite (r_esize _ _ _ _ _ _ R), (r_eim _ _ _ _ _ _ R), !(r_edim _ _ _ _ _ _ R). reflexivity. }
  rewrite E1, E2. clear E1 E2. destruct (O w s S) as [o [w1 [s1 [E1 [E2 [R [L MM]]]]]]]. rewrite (beq m0), (beq g0), E1, E2. destruct o as [r|x|u].
  - destruct MM as [Hr [Ra P]].
    destruct (raw_run (r_mem r) _ w1 s1 (fun T Y B1 B2 => fill_blind lm e t (esize w e) (r_mem r) T Y B1 B2) (fill_ob lm e t (esize w e) (r_mem r)) Ra)
      as [o2 [w2 [s2 [F1 [F2 [Ra2 [P2 [R2 L2]]]]]]]]. rewrite (beq (for_int _ _)), (beq (inw _)), F1, F2. destruct o2 as [[]|x|u].
    + assert (U : (unprotect 1 ;; ret r) s2 = (Done r, mkRW (rw s2) (pstk s) (root s2))) by (unfold bind, unprotect; rewrite P2, P; reflexivity).
      rewrite U. exists (Done r), w2, (mkRW (rw s2) (pstk s) (root s2)). split; [reflexivity|]. split; [reflexivity|]. split.
      * apply raw_sim in Ra2. destruct Ra2 as [T [B1 [B2 [Rr [D [S2 [K V]]]]]]]. exists T, B1, B2. split; [exact Rr|]. split; [exact D|]. split; [|split; [exact K|exact V]].
        intros a Ta. destruct (S2 a Ta) as [H|[H1 [H2 H3]]]; auto. right. split; [exact H1|]. split; [exact H2|].
        unfold kept in *. cbn [pstk root]. rewrite P2, P in H3. cbn [existsb] in H3. destruct (root s2 a); [exact H3|]. cbn [orb] in *. now destruct (a =? r_mem r)%nat.
      * split; [cbn; congruence|]. split; [lia|]. exists []. split; [reflexivity|]. split; [intros a []|reflexivity].
    + exists (Thrown x), w2, s2. split; [reflexivity|]. split; [reflexivity|]. split; [eapply gsim_none, raw_sim; exact Ra2|].
      split; [congruence|]. split; [lia|]. exists [r_mem r]. split; [now rewrite P2, P|]. split; [|intros [_ [y Hy]]; discriminate].
      intros a [<-|[]]. lia.
    + exists (Undef u), w2, s2. split; [reflexivity|]. split; [reflexivity|]. split; [eapply gsim_none, raw_sim; exact Ra2|].
      split; [congruence|]. split; [lia|]. exists [r_mem r]. split; [now rewrite P2, P|]. split; [|intros [_ [y Hy]]; discriminate].
      intros a [<-|[]]. lia.
  - exists (Thrown x), w1, s1. split; [reflexivity|]. split; [reflexivity|]. split; [apply MM|]. split; [exact R|]. split; [exact L|]. exists []. split; [apply MM|]. split; [intros a []|reflexivity].
  - exists (Undef u), w1, s1. split; [reflexivity|]. split; [reflexivity|]. split; [apply MM|]. split; [exact R|]. split; [exact L|]. exists []. split; [apply MM|]. split; [intros a []|reflexivity].
Qed.

(* --------------------------------------------------------------- functions *)

Definition gave (f : flow) : nat -> Prop := match f with Gave o => eq (r_mem o) | _ => none end.
Lemma keep_end Q x w s : gsim Q w s ->
  exists o w1 s1, vec_end x w = (o, w1) /\ inw (vec_end x) s = (o, s1) /\ gsim Q w1 s1 /\ pstk s1 = pstk s /\ root s1 = root s /\ (hnext (hp w) <= hnext (hp w1))%nat.
Proof. apply step_inw_keep. intros T Y B1 B2 _. apply blind_vec_end. Qed.
Lemma moved_keep (b : Prop) w s w1 s1 w2 s2 : moved b w s w1 s1 -> pstk s2 = pstk s1 -> root s2 = root s1 -> (hnext (hp w1) <= hnext (hp w2))%nat -> moved b w s w2 s2.
Proof. intros [R [L [l [P [F Z]]]]] E1 E2 L2. split; [congruence|]. split; [lia|]. exists l. split; [congruence|]. auto. Qed.
Lemma step_jscope Q bal x m mg : step Q gave bal m mg -> step Q gave bal (jscope x m) (jscope_g x mg).
Proof.
  intros H w s S. destruct (H w s S) as [o [w1 [s1 [E [E' [S1 M1]]]]]]. unfold jscope, jscope_g. rewrite E, E'.
  assert (Same : exists o' w' s', (o, w1) = (o', w') /\ (o, s1) = (o', s') /\ gsim (match o' with Done y => gave y | _ => none end) w' s' /\ moved (bal /\ exists y, o' = Done y) w s w' s')
    by (exists o, w1, s1; auto).
  assert (Go : forall (k : outcome flow) f, gsim (match k with Done y => gave y | _ => none end) w1 s1 -> ((exists y, k = Done y) -> exists y, o = Done y) ->
     (forall v, bind (vec_end x) f v = match vec_end x v with (Done _, v') => (k, v') | (Thrown e, v') => (Thrown e, v') | (Undef u, v') => (Undef u, v') end) -> forall fg,
     (forall v, bind (inw (vec_end x)) fg v = match inw (vec_end x) v with (Done _, v') => (k, v') | (Thrown e, v') => (Thrown e, v') | (Undef u, v') => (Undef u, v') end) ->
     exists o' w' s', bind (vec_end x) f w1 = (o', w') /\ bind (inw (vec_end x)) fg s1 = (o', s') /\ gsim (match o' with Done y => gave y | _ => none end) w' s' /\ moved (bal /\ exists y, o' = Done y) w s w' s').
  { intros k f Sk Hk Ef fg Efg. destruct (keep_end _ x w1 s1 Sk) as [o2 [w2 [s2 [F [F' [S2 [P2 [R2 L2]]]]]]]]. rewrite Ef, Efg, F, F'.
    assert (MM : moved (bal /\ exists y, k = Done y) w s w2 s2) by (eapply moved_keep; eauto; eapply moved_weak; [|exact M1]; intuition).
    destruct o2 as [y|e|u].
    - exists k, w2, s2. auto.
    - exists (Thrown e), w2, s2. split; [reflexivity|]. split; [reflexivity|]. split; [eapply gsim_none; exact S2|]. eapply moved_weak; [|exact MM]. intros [_ [y Hy]]. discriminate.
    - exists (Undef u), w2, s2. split; [reflexivity|]. split; [reflexivity|]. split; [eapply gsim_none; exact S2|]. eapply moved_weak; [|exact MM]. intros [_ [y Hy]]. discriminate. }
  destruct o as [[| | |r|]|[e|]|u]; try exact Same.
  - apply (Go (Done Next)); eauto.
  - apply (Go (Done Broke)); eauto.
  - apply (Go (Done Again)); eauto.
  - apply (Go (Done (Gave r))); eauto.
  - apply (Go (Thrown (Ass e))); eauto.
Qed.
Lemma step_jround bal f m mg : step none gave bal m mg -> step (gave f) gave bal (jround f m) (jround_g f mg).
Proof. intros H. destruct f; cbn [jround jround_g]; auto; apply step_ret; auto. Qed.
Lemma step_jthen bal a ag b bg : step none gave bal a ag -> step none gave bal b bg -> step none gave bal (jthen a b) (jthen_g ag bg).
Proof. intros Ha Hb. unfold jthen, jthen_g. eapply step_bind; [exact Ha|]. intros []; auto; apply step_ret; auto. Qed.
Lemma step_jrounds bal k c cg b bg : step none (fun _ => none) bal c cg -> step none gave bal b bg -> step none gave bal (jrounds k c b) (jrounds_g k cg bg).
Proof.
  intros Hc Hb. induction k as [|k IH]; cbn [jrounds jrounds_g]; [now apply step_ret|]. eapply step_bind; [exact Hc|]. intros []; [|now apply step_ret].
  eapply step_bind; [exact Hb|]. intros f. now apply step_jround.
Qed.
Lemma step_jeach bal vs b bg : (forall v, step none gave bal (b v) (bg v)) -> step none gave bal (jeach vs b) (jeach_g vs bg).
Proof.
  intros Hb. induction vs as [|v r IH]; cbn [jeach jeach_g]; [now apply step_ret|]. eapply step_bind; [apply Hb|]. intros f. now apply step_jround.
Qed.
Lemma step_cond bal lm c : step none (fun _ => none) bal (lcondition lm c) (inw (lcondition lm c)).
Proof. apply step_pure. intros. apply blind_lcondition. Qed.
Lemma step_get {A} (q : A -> nat -> Prop) bal lm e (f : outcome expr -> M world A) fg : (forall o, step none q bal (f o) (fg o)) ->
  step none q bal (w <- get ;; f (lbuild lm w e)) (s <- get ;; fg (lbuild lm (rw s) e)).
Proof.
  intros H w s S. rewrite (bind_get _ w), (gget _ s). pose proof S as [T [B1 [B2 [R _]]]]. rewrite (r_lbuild _ _ _ _ _ _ _ R). now apply H.
Qed.
Lemma step_jrun G N lm b : step none gave (no_try b) (jrun N lm b) (jrun_g G N lm b).
Proof.
  induction b; cbn [jrun jrun_g no_try].
  - eapply step_bind; [apply step_pure; intros; apply blind_lrun|]. intros r. apply step_ret. now destruct r.
  - now apply step_ret.
  - now apply step_ret.
  - apply (step_get _ _ lm e (fun x => e' <- lift x ;; o <- cpp2R lm t e' ;; ret (Gave o)) (fun x => e' <- lift x ;; o <- cpp2R_g G lm t e' ;; ret (Gave o))).
    intros o. eapply step_bind; [apply step_lift|]. intros e'. eapply step_bind; [apply step_cpp2R|]. intros r. now apply step_ret.
  - apply step_jthen; (eapply step_weak; [| |eauto]); tauto.
  - eapply step_bind; [apply step_cond|]. intros v. destruct (truth v); (eapply step_weak; [| |eauto]); tauto.
  - apply step_jrounds; [|exact IHb]. eapply step_bind; [apply step_cond|]. intros v. now apply step_ret.
  - eapply step_bind; [apply step_cond|]. intros v. eapply step_weak; [| |apply H]; auto.
  - eapply step_bind; [apply step_pure; intros; apply blind_lmake|]. intros ?. apply step_jscope.
    eapply step_bind; [apply step_pure; intros; apply blind_iterate|]. intros vs. apply step_jeach. intros v. eapply step_weak; [| |apply H]; auto.
  - eapply step_bind; [apply step_pure; intros; apply blind_lmake|]. intros ?. eapply step_bind; [apply step_pure; intros; apply blind_vec_steal|]. intros ?.
    eapply step_bind; [apply step_pure; intros; apply blind_vec_end|]. intros ?. now apply step_jscope.
  - apply (step_get _ _ lm e (fun a => e' <- lift a ;; vec_of_expr lm x t e' ;; jscope x (jrun N lm b)) (fun a => e' <- lift a ;; inw (vec_of_expr lm x t e') ;; jscope_g x (jrun_g G N lm b))).
    intros o. eapply step_bind; [apply step_lift|]. intros e'. eapply step_bind; [apply step_pure; intros; apply blind_vec_of_expr|]. intros ?. now apply step_jscope.
  - intros w s S. destruct (IHb1 w s S) as [o [w1 [s1 [E [E' [S1 M1]]]]]]. rewrite E, E'.
    assert (Same : exists o' w' s', (o, w1) = (o', w') /\ (o, s1) = (o', s') /\ gsim (match o' with Done y => gave y | _ => none end) w' s' /\ moved (False /\ exists y, o' = Done y) w s w' s')
      by (exists o, w1, s1; split; [reflexivity|split; [reflexivity|split; [exact S1|]]]; eapply moved_weak; [|exact M1]; tauto).
    destruct o as [y|[e|]|u]; try exact Same. destruct (IHb2 w1 s1 S1) as [o2 [w2 [s2 [E2 [E2' [S2 M2]]]]]]. exists o2, w2, s2.
    split; [exact E2|]. split; [exact E2'|]. split; [exact S2|]. eapply moved_trans; [|exact M1|exact M2]. tauto.
Qed.
Definition args (ps : list param) (a : nat) : Prop := exists p, In p ps /\ a = r_mem (p_obj p).
Lemma step_jcall G N lm ps b : step (args ps) gave (no_try b) (jcall N lm ps b) (jcall_g G N lm ps b).
Proof.
  induction ps as [|p ps IH]; cbn [jcall jcall_g]; [eapply step_weak; [| |apply step_jrun]; [intros a []|auto]|].
  eapply (step_bind _ (fun _ => args (p :: ps))).
  - apply step_inw; [|auto]. intros T Y B1 B2 _. apply blind_vec_default.
  - intros ?. apply step_jscope. eapply (step_bind _ (fun _ => args (p :: ps))).
    + apply step_inw; [|auto]. intros T Y B1 B2 Hs. apply blind_assign_R. apply Hs. exists p. split; [now left|reflexivity].
    + intros ?. eapply step_weak; [|auto|exact IH]; [|auto]. intros a [q [I E]]. exists q. split; [now right|exact E].
Qed.

End Wrap.
Notation gsim := (gsimX none).

(* ------------------------------------------------------------- programs in R *)

Lemma step_make G t vs d bal : step (X := none) none (fun o => eq (r_mem o)) bal (r_make t vs d) (r_make_g G t vs d).
Proof.
  intros w s S. pose proof (gsim_collect _ G _ _ S) as S1. set (s0 := snd (collect G s)) in *.
  assert (EG : r_make_g G t vs d s = inw (r_make t vs d) s0) by reflexivity. rewrite EG. clear EG.
  pose proof S1 as [T [B1 [B2 [R [D [Sa [K V]]]]]]]. unfold inw, r_make. rewrite (rel_lim _ _ _ _ _ _ R), (rel_next _ _ _ _ _ _ R).
  assert (E0 : pstk s0 = pstk s /\ root s0 = root s) by (split; reflexivity). destruct E0 as [E1 E2]. clearbody s0.
  destruct (_ <=? _).
  - eexists _, _, _. split; [reflexivity|]. split; [reflexivity|]. split.
    + cbn [fst snd r_mem]. apply raw_sim.
      assert (NT : ~ T (hnext (hp w))) by (intros Q'; pose proof (rel_low _ _ _ _ _ _ R _ Q'); lia). split.
      { split; [|cbn; lia]. intros o E. cbn in E. destruct (rel_ptr _ _ _ _ _ _ R o _ E). lia. }
      exists T, B1, B2. destruct R as [R1 R2 R3 R4 R5 R6 R7 R8]. split; [|split; [exact D|split; [exact NT|split; [intros []|split; [apply held_none|exact Sa]]]]]. constructor; cbn; auto.
      * intros a Na. destruct (a =? _)%nat; auto.
      * intros a Ta. destruct (Nat.eqb_spec a (hnext (hp w))) as [->|_]; auto. contradiction.
      * intros a Ta. specialize (R6 a Ta). lia.
      * intros o. eapply fine_up; [|apply R7]. lia.
      * intros a cs. destruct (Nat.eqb_spec a (hnext (hp w))) as [->|_]; [auto|]. intros E. destruct (R8 a cs E); auto.
    + split; [exact E2|]. split; [cbn; lia|]. exists []. split; [exact E1|]. split; [intros a []|reflexivity].
  - eexists _, _, s0. split; [reflexivity|]. split; [now destruct s0|]. split; [exact S1|]. split; [exact E2|]. split; [lia|]. exists []. split; [exact E1|]. split; [intros a []|reflexivity].
Qed.
Lemma gsim_rooted (Q : nat -> Prop) w s : gsim none w s -> (forall a, Q a -> kept s a = true) -> gsim Q w s.
Proof.
  intros [T [B1 [B2 [R [D [S [K V]]]]]]] H. exists T, B1, B2. split; [exact R|]. split; [exact D|]. split; [exact S|]. split; [|exact V]. intros a Qa. apply H in Qa.
  destruct (D a) as [Ta|]; [|now right]. left. split; [exact Ta|]. destruct (S a Ta) as [E|[_ [_ E]]]; congruence.
Qed.
Lemma gsim_gained w s o : gsim (eq (r_mem o)) w s -> gsim none w (gained s o).
Proof.
  intros [T [B1 [B2 [R [D [S [K V]]]]]]]. exists T, B1, B2. split; [exact R|]. split; [exact D|]. split; [|split; [intros a []|apply held_none]].
  intros a Ta. destruct (S a Ta) as [H|[H1 [H2 H3]]]; auto. destruct (Nat.eq_dec a (r_mem o)) as [->|N].
  - destruct (K (r_mem o) eq_refl) as [[_ E]|N]; [now left|contradiction].
  - right. split; [exact H1|]. split; [exact H2|]. unfold kept, gained in *. cbn [root pstk]. apply Nat.eqb_neq in N. now rewrite N.
Qed.
Lemma gsim_forget w s keep n : gsim none w s -> gsim none w (mkRW (rw s) (skipn n (pstk s)) (fun a => keep a && root s a)).
Proof.
  intros [T [B1 [B2 [R [D [S [K V]]]]]]]. exists T, B1, B2. split; [exact R|]. split; [exact D|]. split; [|split; [intros a []|apply held_none]].
  intros a Ta. destruct (S a Ta) as [H|[H1 [H2 H3]]]; auto. right. split; [exact H1|]. split; [exact H2|].
  unfold kept in *. cbn [root pstk]. apply orb_false_elim in H3. destruct H3 as [H3 H4]. rewrite H3, andb_false_r. cbn [orb].
  destruct (existsb (Nat.eqb a) (skipn n (pstk s))) eqn:E; [|reflexivity]. apply existsb_exists in E. destruct E as [b [I E]].
  assert (X : existsb (Nat.eqb a) (pstk s) = true) by (apply existsb_exists; exists b; split; [rewrite <- (firstn_skipn n (pstk s)); apply in_or_app; now right|exact E]). congruence.
Qed.
Lemma run_sim G N lm p : forall av w s, gsim none w s -> remembers av p -> (forall o, In o av -> root s (r_mem o) = true) ->
  exists r w' s', run_r N lm p w = (r, w') /\ run_r_g G N lm p s = (r, s') /\ gsim none w' s'.
Proof.
  induction p as [|ps b k IH|t vs d k IH|o k IH|keep n k IH]; intros av w s S Re Ro; cbn [run_r run_r_g].
  - exists (inl tt), w, s. auto.
  - destruct Re as [Ra [Rn Rs]]. destruct (step_jcall (X := none) G N lm ps b w s) as [o [w1 [s1 [E [E' [S1 [R1 M1]]]]]]].
    { apply gsim_rooted; [exact S|]. intros a [q [I ->]]. unfold kept. rewrite (Ro _ (Ra q I)). reflexivity. }
    rewrite E, E'. destruct o as [[| | |r|]|[e|]|u]; try (exists (inr (Done Next)), w1, s1; auto; fail); try (exists (inr (Done Broke)), w1, s1; auto; fail);
      try (exists (inr (Done Again)), w1, s1; auto; fail); try (exists (inr (Done More)), w1, s1; auto; fail);
      try (exists (inr (Thrown BadAlloc)), w1, s1; auto; fail); try (exists (inr (Undef u)), w1, s1; auto; fail).
    + apply (IH (Some r) (r :: av)); [now apply gsim_gained|apply Rs|]. intros o [<-|Io]; unfold gained; cbn [root]; [now rewrite Nat.eqb_refl|].
      rewrite R1, (Ro o Io). apply orb_true_r.
    + apply (IH None av); auto. intros o Io. rewrite R1. auto.
  - destruct (step_make G t vs d True w s S) as [o [w1 [s1 [E [E' [S1 [R1 M1]]]]]]]. rewrite E, E'. destruct o as [r|e|u].
    + apply (IH r (r :: av)); [now apply gsim_gained|apply Re|]. intros o [<-|Io]; unfold gained; cbn [root]; [now rewrite Nat.eqb_refl|].
      rewrite R1, (Ro o Io). apply orb_true_r.
    + exists (inr (Thrown e)), w1, s1. auto.
    + exists (inr (Undef u)), w1, s1. auto.
  - destruct Re as [Io Rk]. assert (E : r_cells (rw s) o = r_cells w o).
    { unfold r_cells. rewrite (gsim_kept none w s (r_mem o) S); [reflexivity|]. unfold kept. now rewrite (Ro o Io). }
    rewrite E. apply (IH _ av); auto.
  - apply (IH (filter (fun o => keep (r_mem o)) av)); [now apply gsim_forget|exact Re|]. intros o Io. apply filter_In in Io. destruct Io as [Io Kp].
    cbn [root]. now rewrite Kp, (Ro o Io).
Qed.

(* ---------------------------------------------------------- without collector *)

Lemma garbage_rest w s : at_rest w -> but_garbage w s -> at_rest (rw s).
Proof.
  intros [[W1 W2 W3 W4 W5] [P C]] [E [Ln [Ll B]]]. split; [|split].
  - constructor.
    + intros a La. rewrite Ln in La. destruct (B a) as [H|[[cs H] _]]; [rewrite H; auto|]. rewrite (W1 a La) in H. discriminate.
    + intros o. rewrite E. specialize (W2 o). destruct (P o) as [K Po]. unfold store_shape in *. rewrite Po in *. exact W2.
    + intros o1 o2 a. rewrite E. apply W3.
    + rewrite Ll. exact W4.
    + intros a own cs H. rewrite Ll. destruct (B a) as [Q|[_ [Q _]]]; rewrite Q in H; [eauto|discriminate].
  - intros o. rewrite E. apply P.
  - intros a cs H. destruct (B a) as [Q|[_ [Q _]]]; rewrite Q in H; [eapply C; eauto|discriminate].
Qed.
Lemma make_safe t vs d w : at_rest w -> hlim (hp w) < 2 ^ 31 -> Forall (r_elem t) vs ->
  let (r, w') := r_make t vs d w in foreign_kept w w' /\
  match r with Done o => at_rest w' /\ hlim (hp w') < 2 ^ 31 /\ r_real w' o | Thrown e => e = BadAlloc | Undef _ => False end.
Proof.
  intros [[W1 W2 W3 W4 W5] [P C]] HL Fo. unfold r_make. destruct (Z.leb_spec (Z.of_nat (List.length vs)) (hlim (hp w))) as [L|L].
  - split; [|split; [split; [|split]|split]]; cbn.
    + intros a own cs _ H. cbn. destruct (Nat.eqb_spec a (hnext (hp w))) as [->|_]; [|exact H]. rewrite (W1 _ (le_n _)) in H. discriminate.
    + constructor; cbn; auto.
      * intros a La. destruct (Nat.eqb_spec a (hnext (hp w))) as [->|_]; [lia|]. apply W1. lia.
      * intros o. specialize (W2 o). destruct (P o) as [K Po]. unfold store_shape in *. rewrite Po in *. exact W2.
      * intros a own cs. destruct (Nat.eqb_spec a (hnext (hp w))) as [->|_]; [|apply W5]. intros [= <- <-]. rewrite map_length. split; [lia|discriminate].
    + exact P.
    + intros a cs. destruct (Nat.eqb_spec a (hnext (hp w))) as [->|_]; [discriminate|apply C].
    + exact HL.
    + exists vs. cbn. rewrite Nat.eqb_refl. auto.
  - split; [|reflexivity]. intros a own cs _ H. exact H.
Qed.
Section Ini.
Variable ini : bool.
Lemma program_safe N lm p : forall av w, at_rest w -> hlim (hp w) < 2 ^ 31 -> remembers av p -> well_made p -> (ini = true -> program_writes_all p) ->
  (forall o, In o av -> r_real w o) ->
  let (r, w') := run_r N lm p w in
  foreign_kept w w' /\ match r with inl _ => at_rest w' | inr (Undef u) => allowed ini u | inr (Done f) => f = More | inr (Thrown e) => e = BadAlloc end.
Proof.
  assert (Tr : forall w w1 w2, foreign_kept w w1 -> foreign_kept w1 w2 -> foreign_kept w w2) by (intros w w1 w2 F1 F2 a own cs NO Ha; apply F2; [exact NO|now apply F1]).
  induction p as [|ps b k IH|t vs d k IH|o k IH|keep n k IH]; intros av w AR HL Rm Wm Wr Re; cbn [run_r remembers well_made program_writes_all] in *.
  - split; [|exact AR]. intros a own cs _ Ha. exact Ha.
  - destruct Rm as [Ia [RN RS]]. destruct Wm as [ND [Sc [Rt Wk]]].
    pose proof (jcall_safe ini N lm ps b w AR HL ND Sc (fun E => proj1 (Wr E)) (fun p Hp => Re _ (Ia p Hp))) as Q.
    destruct (jcall N lm ps b w) as [[[| | |o|]|[m|]|u] w1]; destruct Q as [FK Q]; try contradiction.
    + destruct Q as [Q _]. contradiction.
    + destruct Q as [A1 [L1 R1]].
      assert (Re1 : forall r, In r (o :: av) -> r_real w1 r) by (intros r [<-|Hr]; [exact R1|]; eapply real_kept; [exact FK|now apply Re]).
      specialize (IH (Some o) (o :: av) w1 A1 L1 (RS o) (Wk _) (fun E => proj2 (Wr E) (Some o)) Re1).
      destruct (run_r N lm (k (Some o)) w1) as [r w2]. destruct IH as [F2 IH]. split; [eapply Tr; eauto|exact IH].
    + split; [exact FK|reflexivity].
    + destruct Q as [A1 L1].
      assert (Re1 : forall r, In r av -> r_real w1 r) by (intros r Hr; eapply real_kept; [exact FK|now apply Re]).
      specialize (IH None av w1 A1 L1 RN (Wk _) (fun E => proj2 (Wr E) None) Re1).
      destruct (run_r N lm (k None) w1) as [r w2]. destruct IH as [F2 IH]. split; [eapply Tr; eauto|exact IH].
    + split; [exact FK|reflexivity].
    + split; [exact FK|exact Q].
  - destruct Wm as [Fo Wk]. pose proof (make_safe t vs d w AR HL Fo) as Q. destruct (r_make t vs d w) as [[o|e|u] w1]; destruct Q as [FK Q].
    + destruct Q as [A1 [L1 R1]].
      assert (Re1 : forall r, In r (o :: av) -> r_real w1 r) by (intros r [<-|Hr]; [exact R1|]; eapply real_kept; [exact FK|now apply Re]).
      specialize (IH o (o :: av) w1 A1 L1 (Rm o) (Wk _) (fun E => Wr E o) Re1).
      destruct (run_r N lm (k o) w1) as [r w2]. destruct IH as [F2 IH]. split; [eapply Tr; eauto|exact IH].
    + split; [exact FK|exact Q].
    + contradiction.
  - destruct Rm as [_ Rk]. apply (IH _ av); auto.
  - apply (IH (filter (fun o => keep (r_mem o)) av)); auto. intros o Io. apply filter_In in Io. now apply Re.
Qed.
End Ini.
