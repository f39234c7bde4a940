(** What programs do to memory of others. *)
From Coq Require Import String ZArith List Bool Lia.
From Verif Require Import Base Num StoreModel VecModel LangModel Spec SpecExpr SpecHist SpecVec SpecSafe SpecLang
  StoreProofs StoreOps VecProofs AllocProofs AllocProofs2 LendProofs SafeProofs LangProofs.
Import ListNotations.
Open Scope Z_scope.
Local Notation length := List.length (only parsing).

(** A new vector s on the first cells of block b, which is somebody else's. *)
Lemma foreign_old ini V w x b own cs s : sound_at ini V w -> ~ In x V -> own <> OwnCpp -> hblk (hp w) b = Live own cs ->
  1 <= cap s < 2 ^ 31 -> cap s <= Z.of_nat (length cs) -> (forall i, 0 <= i < cap s -> exists v, nth (Z.to_nat i) cs None = Some v) ->
  ptr s = Some b -> owner_of s = own -> alloc s = true -> sz s = cap s ->
  (forall o c m, In (b, o, c, m) (lenders ini) -> cap s <= Z.of_nat m) ->
  (kd s = KBorrow /\ ~ In x (wrapped ini) \/ kd s = KBorrowSEXP /\ todel s = false /\ In x (wrapped ini)) ->
  sound_at ini (x :: V) (set_ob (set_ob w (OD x) s) (OT x) (store_default KBuffer (sty s))).
Proof.
  intros SO Nx NO B C1 C2 Wr P OW AL SZ RE K. destruct (so_dead _ _ _ SO x Nx) as [U1 U2]. pose proof (so_shape _ _ _ SO) as W.
  set (w1 := set_ob w (OD x) s).
  assert (S1 : step1 w w1 (OD x)).
  { apply step1_build; auto.
    - intros o N. unfold w1. now rewrite ob_set_other.
    - intros c Hc. now apply (ws_fresh _ W).
    - intros c [Hc|Hc] o d H; [now apply U1 in Hc|]. change (hp w1) with (hp w) in H. rewrite (ws_fresh _ W c Hc) in H. discriminate.
    - unfold w1. rewrite ob_set_same. unfold store_shape. rewrite P. split; [lia|]. split; [lia|]. split; [exact AL|].
      exists cs. rewrite OW. split; [exact B|lia].
    - intros c [_ Hc]. unfold w1 in Hc. rewrite ob_set_same in Hc. congruence. }
  assert (T1 : ob w1 (OT x) = ob w (OT x)) by (unfold w1; now rewrite ob_set_other by congruence).
  set (w2 := set_ob w1 (OT x) (store_default KBuffer (sty s))).
  assert (S2 : step1 w1 w2 (OT x)).
  { apply step1_empty; [apply S1| |reflexivity|reflexivity|reflexivity]. rewrite T1. apply U2. }
  assert (ED : ob w2 (OD x) = s) by (unfold w2, w1; rewrite ob_set_other, ob_set_same by congruence; reflexivity).
  assert (L2 : lent ini w2 x).
  { unfold lent. rewrite ED. split; [exact K|]. split; [exact C1|]. split; [lia|]. split.
    - intros _ c o d Pc Bc i Hi. rewrite P in Pc. injection Pc as <-. change (hp w2) with (hp w) in Bc. rewrite B in Bc.
      injection Bc as <- <-. now apply Wr.
    - intros c o d m Hc Pc. rewrite P in Pc. injection Pc as <-. now apply (RE o d). }
  eapply (sound_new ini V w w2 x); auto.
  - eapply vstep_trans; eapply step1_vstep; [left; reflexivity|exact S1|right; reflexivity|exact S2].
  - split; [unfold w2; now rewrite ob_set_same|now right].
  - apply lent_inited; [apply S2|exact L2].
Qed.

(** Soundness with further blocks to watch. *)
Lemma sound_watch b R V w c own cs m : sound_at (Mode b R []) V w -> own <> OwnCpp -> hblk (hp w) c = Live own cs ->
  (forall x, In x V -> ptr (ob w (OD x)) = Some c -> cap (ob w (OD x)) <= Z.of_nat m) ->
  sound_at (Mode b R [(c, own, cs, m)]) V w.
Proof.
  intros [A B C D E _] NO H M. split; auto.
  - intros x Hx. destruct (C x Hx) as [[K F] I]. split; [|exact I]. split; [exact K|]. destruct F as [F|F]; [left; exact F|right].
    destruct F as [F1 [F2 [F3 [F4 _]]]]. split; [exact F1|]. split; [exact F2|]. split; [exact F3|]. split; [exact F4|].
    intros b' o' c' m' [Q|[]] P. injection Q as <- <- <- <-. now apply M.
  - intros b' o' c' m' [Q|[]]. injection Q as <- <- <- <-. split; [exact NO|]. exists cs. split; [exact H|]. split; [reflexivity|]. split; [eauto|reflexivity].
Qed.

(** Block c of somebody else, before and after: it is still there, as long as
    before, written cells are written, and cells that no vector of V reaches have
    not changed. *)
Definition block_kept (V : list nat) (w w' : world) (c : nat) (own : owner) (cs : list (option val)) : Prop :=
  exists cs', hblk (hp w') c = Live own cs' /\ length cs' = length cs /\
    (forall i v, nth i cs None = Some v -> exists v', nth i cs' None = Some v') /\
    (forall i, (forall x, In x V -> ptr (ob w (OD x)) = Some c -> cap (ob w (OD x)) <= Z.of_nat i) -> nth i cs' None = nth i cs None).

Lemma watched_kept R V w w' c own cs : sound_at (Mode false R []) V w -> own <> OwnCpp -> hblk (hp w) c = Live own cs ->
  (forall m, sound_at (Mode false R [(c, own, cs, m)]) V w -> exists V', sound_at (Mode false R [(c, own, cs, m)]) V' w') ->
  block_kept V w w' c own cs.
Proof.
  intros S NO H K.
  assert (CS : forall x, In x V -> ptr (ob w (OD x)) = Some c -> cap (ob w (OD x)) <= Z.of_nat (length cs)).
  { intros x _ P. destruct (ptr_live _ _ _ (so_shape _ _ _ S) P) as [d [B [_ Q]]]. rewrite H in B. injection B as _ B. subst d. exact Q. }
  destruct (K (length cs) (sound_watch _ _ _ _ _ _ _ _ S NO H CS)) as [V1 S1].
  destruct (so_there _ _ _ S1 c own cs (length cs) (or_introl eq_refl)) as [_ [cs' [B' [L' [W' _]]]]].
  exists cs'. split; [exact B'|]. split; [exact L'|]. split; [exact W'|]. intros i M.
  destruct (K i (sound_watch _ _ _ _ _ _ _ _ S NO H M)) as [V2 S2].
  destruct (so_there _ _ _ S2 c own cs i (or_introl eq_refl)) as [_ [cs2 [B2 [_ [_ U2]]]]].
  assert (cs2 = cs') by congruence. subst cs2. now apply U2.
Qed.
