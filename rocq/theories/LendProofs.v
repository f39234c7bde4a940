(** Steps that may write to memory of somebody else. *)
From Coq Require Import String ZArith List Bool Lia.
From Verif Require Import Base Num StoreModel VecModel Spec SpecExpr SpecHist SpecVec SpecSafe
  CapProofs StoreProofs StoreOps VecProofs VecAssign VecEval BorrowProofs AllocProofs AllocProofs2.
Import ListNotations.
Open Scope Z_scope.
Local Notation length := List.length (only parsing).

(** Vector x reaches cell i of block b. *)
Definition reaches (w : world) (x b i : nat) : Prop := ptr (ob w (OD x)) = Some b /\ Z.of_nat i < cap (ob w (OD x)).

(** Only vector x and cells of foreign memory changed; a foreign block keeps its
    length, a written cell stays written, and cells that x does not reach keep
    their values. *)
Record lstep (w w' : world) (x : nat) : Prop := {
  ls_shape : world_shape w';
  ls_lim : hlim (hp w') = hlim (hp w);
  ls_obj : forall o, o <> OD x -> o <> OT x -> ob w' o = ob w o;
  ls_own : forall o a, o <> OD x -> o <> OT x -> owns (ob w o) a -> hblk (hp w') a = hblk (hp w) a;
  ls_leak : forall b cs, hblk (hp w') b = Live OwnCpp cs ->
      (owns (ob w' (OD x)) b \/ owns (ob w' (OT x)) b) \/
      (hblk (hp w) b = Live OwnCpp cs /\ ~ owns (ob w (OD x)) b /\ ~ owns (ob w (OT x)) b);
  ls_ext : forall b own cs, own <> OwnCpp -> hblk (hp w) b = Live own cs ->
      exists cs', hblk (hp w') b = Live own cs' /\ length cs' = length cs /\
        (forall i v, nth i cs None = Some v -> exists v', nth i cs' None = Some v') /\
        (forall i, ~ reaches w x b i -> nth i cs' None = nth i cs None);
  ls_reach : forall b own cs i, own <> OwnCpp -> hblk (hp w) b = Live own cs -> reaches w' x b i -> reaches w x b i }.

(** The vector has memory of its own, or the same memory as before. *)
Definition kept_ptr (w w' : world) (x : nat) : Prop :=
  owner_of (ob w' (OD x)) = OwnCpp \/ (ptr (ob w' (OD x)) = ptr (ob w (OD x)) /\ cap (ob w' (OD x)) = cap (ob w (OD x))).
Lemma kept_buffer w w' x : kd (ob w' (OD x)) = KBuffer -> kept_ptr w w' x.
Proof. intros K. left. unfold owner_of. now rewrite K. Qed.
Lemma kept_same w w' x : ob w' (OD x) = ob w (OD x) -> kept_ptr w w' x.
Proof. intros E. right. now rewrite E. Qed.

Lemma vstep_lstep w w' x : vstep w w' x -> kept_ptr w w' x -> lstep w w' x.
Proof.
  intros [A B C D E] K. split; auto.
  - intros o N1 N2. now apply C.
  - intros o a N1 N2 [P _]. destruct (C o N1 N2) as [_ S]. auto.
  - intros b own cs NO H. exists cs. split; [now apply E|]. split; [reflexivity|]. split; [eauto|reflexivity].
  - intros b own cs i NO H [R1 R2]. destruct K as [K|[K1 K2]]; [|split; congruence].
    destruct (ptr_live _ _ _ A R1) as [c [Bc _]]. rewrite (E b own cs NO H) in Bc. congruence.
Qed.
Lemma lstep_scratch w w' x : step1 w w' (OT x) -> lstep w w' x.
Proof.
  intros S. apply vstep_lstep; [eapply step1_vstep; [right; reflexivity|exact S]|]. apply kept_same. apply (s1_other _ _ _ S). congruence.
Qed.
Lemma lstep_data w w' x : step1 w w' (OD x) -> kept_ptr w w' x -> lstep w w' x.
Proof. intros S. apply vstep_lstep. eapply step1_vstep; [left; reflexivity|exact S]. Qed.
Lemma lstep_refl w x : world_shape w -> lstep w w x.
Proof. intros W. apply vstep_lstep; [now apply vstep_refl|]. now apply kept_same. Qed.
Lemma lstep_trans w w1 w2 x : lstep w w1 x -> lstep w1 w2 x -> lstep w w2 x.
Proof.
  intros A B. split.
  - apply B.
  - rewrite (ls_lim _ _ _ B). apply A.
  - intros o N1 N2. rewrite (ls_obj _ _ _ B o N1 N2). now apply A.
  - intros o a N1 N2 O. rewrite (ls_own _ _ _ B o a N1 N2); [now apply (ls_own _ _ _ A o)|]. now rewrite (ls_obj _ _ _ A o N1 N2).
  - intros b cs H. destruct (ls_leak _ _ _ B b cs H) as [|[H1 [N1 N2]]]; auto.
    destruct (ls_leak _ _ _ A b cs H1) as [[|]|[H2 [M1 M2]]]; [contradiction|contradiction|auto].
  - intros b own cs NO H. destruct (ls_ext _ _ _ A b own cs NO H) as [c1 [H1 [L1 [K1 V1]]]].
    destruct (ls_ext _ _ _ B b own c1 NO H1) as [c2 [H2 [L2 [K2 V2]]]]. exists c2. split; [exact H2|]. split; [congruence|]. split.
    + intros i v Hv. destruct (K1 i v Hv) as [v1 Hv1]. eauto.
    + intros i N. rewrite V2; [now apply V1|]. intros R. apply N. now apply (ls_reach _ _ _ A b own cs).
  - intros b own cs i NO H R. apply (ls_reach _ _ _ A b own cs i NO H).
    destruct (ls_ext _ _ _ A b own cs NO H) as [c1 [H1 _]]. now apply (ls_reach _ _ _ B b own c1).
Qed.
Lemma lstep_no_leak w w' x : lstep w w' x -> no_leak w -> no_leak w'.
Proof.
  intros S N b cs H. destruct (ls_leak _ _ _ S b cs H) as [[|]|[H1 [N1 N2]]]; eauto.
  destruct (N b cs H1) as [o' O']. exists o'. rewrite (ls_obj _ _ _ S o'); [exact O'|congruence|congruence].
Qed.
Lemma ext_there D w w' : (forall b own cs, own <> OwnCpp -> hblk (hp w) b = Live own cs -> hblk (hp w') b = Live own cs) ->
  there D w -> there D w'.
Proof.
  intros S T b own cs m H. destruct (T b own cs m H) as [NO [c [B L]]]. split; [exact NO|]. exists c. split; [|exact L]. now apply S.
Qed.
(** Objects that own their memory do not notice. *)
Lemma lstep_same w w' x o : lstep w w' x -> o <> OD x -> o <> OT x -> owner_of (ob w o) = OwnCpp -> same_obj w w' o.
Proof. intros S N1 N2 O. split; [now apply S|]. intros a P. apply (ls_own _ _ _ S o a N1 N2). now split. Qed.

Lemma at_rd_out w o i : sz (ob w o) <= i -> exists m, at_rd o i w = (Thrown (Ass m), w).
Proof.
  intros H. assert (L : (i <? sz (ob w o)) = false) by (apply Z.ltb_ge; lia).
  unfold at_rd, sexp_get_at, get_at. rewrite bind_st.
  destruct (kd (ob w o)); rewrite bind_st;
    match goal with |- context [ass ?b] => destruct b end;
    rewrite ?bind_ass_true, ?bind_ass_false; eauto; rewrite L, bind_ass_false; eauto.
Qed.

(** All elements have been written, cell by cell. *)
Lemma holds_exists w o : world_shape w -> (init_upto (hp w) (ob w o) (sz (ob w o)) <-> exists l, holds w o l).
Proof.
  intros W. split.
  - intros H. pose proof (ws_store _ W o) as S. unfold store_shape in S.
    destruct (ptr (ob w o)) as [a|] eqn:P.
    + destruct S as [S1 [S2 [S3 [cs [B [S4 S5]]]]]].
      assert (G : forall n, 0 <= Z.of_nat n <= sz (ob w o) -> exists l, length l = n /\ forall i, (i < n)%nat -> nth i cs None = Some (nth i l (VB false))).
      { induction n as [|n IH]; intros Hn; [exists []; split; [reflexivity|intros; lia]|].
        destruct IH as [l [L1 L2]]; [lia|]. destruct (H a _ cs P B (Z.of_nat n)) as [v Hv]; [lia|]. rewrite Nat2Z.id in Hv.
        exists (l ++ [v]). split; [rewrite app_length; simpl; lia|]. intros i Hi. destruct (Nat.eq_dec i n) as [->|N].
        - rewrite app_nth2 by lia. replace (n - length l)%nat with O by lia. exact Hv.
        - rewrite app_nth1 by lia. apply L2. lia. }
      destruct (G (Z.to_nat (sz (ob w o)))) as [l [L1 L2]]; [lia|]. exists l. apply holds_cells; [exact W|]. split; [lia|].
      intros i Hi. rewrite (cells_of_ptr w o a _ cs P B). apply L2. lia.
    + exists []. split; [simpl; lia|]. simpl. intros; lia.
  - intros [l H] a own cs P B i Hi. apply holds_cells in H; [|exact W]. destruct H as [H1 H2].
    specialize (H2 (Z.to_nat i) ltac:(lia)). rewrite (cells_of_ptr w o a _ cs P B) in H2. eauto.
Qed.

Section Ini.
Variable ini : mode.

Definition inited (w : world) (x : nat) : Prop := written ini = true -> exists l, vholds w x l.
Lemma inited_same w w' x : same_obj w w' (OD x) -> inited w x -> inited w' x.
Proof. intros S H E. destruct (H E) as [l L]. exists l. eapply holds_same; eauto. Qed.

(** A vector that owns its memory. *)
Lemma fit_owning w x : owning w x -> ~ In x (wrapped ini) -> fit ini w x.
Proof. intros [K1 K2] N. split; auto. Qed.
Lemma lent_owner w x : lent ini w x -> owner_of (ob w (OD x)) <> OwnCpp.
Proof. intros [[[K _]|[K [T _]]] _]; unfold owner_of; rewrite K, ?T; discriminate. Qed.
(** Foreign memory is written as far as it reaches. *)
Lemma lent_inited w x : world_shape w -> lent ini w x -> inited w x.
Proof.
  intros W [_ [_ [S [H _]]]] E. apply holds_exists; [exact W|]. intros a own cs P B i Hi. apply (H E a own cs P B). lia.
Qed.
Lemma lent_ptr w x : world_shape w -> lent ini w x -> exists a cs, ptr (ob w (OD x)) = Some a /\ alloc (ob w (OD x)) = true /\
  hblk (hp w) a = Live (owner_of (ob w (OD x))) cs /\ cap (ob w (OD x)) <= Z.of_nat (length cs).
Proof.
  intros W [_ [C _]]. pose proof (ws_store _ W (OD x)) as S. unfold store_shape in S.
  destruct (ptr (ob w (OD x))) as [a|]; [|lia]. destruct S as [_ [_ [A [cs [B [L1 L2]]]]]]. exists a, cs. auto.
Qed.

(** A vector of a sound state changed: it does not reach beyond what may change. *)
Lemma lstep_there w w' x : lstep w w' x -> world_shape w -> fit ini w x -> there (lenders ini) w -> there (lenders ini) w'.
Proof.
  intros S W F T b own cs m H. destruct (T b own cs m H) as [NO [c [B [L [K V]]]]]. split; [exact NO|].
  destruct (ls_ext _ _ _ S b own c NO B) as [c' [B' [L' [K' V']]]]. exists c'. split; [exact B'|]. split; [congruence|]. split.
  - intros i v Hv. destruct (K i v Hv) as [v1 Hv1]. eauto.
  - intros i Hi. rewrite V'; [now apply V|]. intros [R1 R2].
    destruct F as [_ [[KB _]|[_ [_ [_ [_ R]]]]]].
    + destruct (ptr_live _ _ _ W R1) as [c2 [B2 _]]. unfold owner_of in B2. rewrite KB in B2. congruence.
    + specialize (R b own cs m H R1). lia.
Qed.
Lemma init_upto_step w w' x y n : lstep w w' x -> world_shape w -> y <> x -> owner_of (ob w (OD y)) <> OwnCpp ->
  init_upto (hp w) (ob w (OD y)) n -> init_upto (hp w') (ob w (OD y)) n.
Proof.
  intros S W N O H a own cs P B i Hi. destruct (ptr_live _ _ _ W P) as [cs0 [B0 _]].
  destruct (ls_ext _ _ _ S a _ cs0 O B0) as [c1 [B1 [L1 [K1 _]]]]. rewrite B1 in B. injection B as <- <-.
  destruct (H a _ cs0 P B0 i Hi) as [v Hv]. eauto.
Qed.

(** Other vectors keep their state. *)
Lemma inited_lstep w w' x y : lstep w w' x -> world_shape w -> y <> x -> inited w y -> inited w' y.
Proof.
  intros S W N H. destruct (owner_of (ob w (OD y))) eqn:O.
  { eapply inited_same; [|exact H]. apply (lstep_same w w' x); congruence. }
  all: intros E; apply holds_exists; [apply S|]; rewrite (ls_obj _ _ _ S (OD y)) by congruence;
    apply (init_upto_step w w' x y); auto; try congruence; apply holds_exists; auto.
Qed.
Lemma fit_lstep w w' x y : lstep w w' x -> world_shape w -> y <> x -> fit ini w y -> fit ini w' y.
Proof.
  intros S W N [K H]. pose proof (ls_obj _ _ _ S (OD y) ltac:(congruence) ltac:(congruence)) as E1.
  pose proof (ls_obj _ _ _ S (OT y) ltac:(congruence) ltac:(congruence)) as E2.
  split; [now rewrite E2|]. destruct H as [H|L]; [left; now rewrite E1|right].
  pose proof (lent_owner w y L) as O. destruct L as [A [B [C [D R]]]]. unfold lent. rewrite E1.
  split; [exact A|]. split; [exact B|]. split; [exact C|]. split; [|exact R]. intros E. apply (init_upto_step w w' x y); auto.
Qed.
Lemma live_lstep w w' x y : lstep w w' x -> world_shape w -> y <> x -> live ini w y -> live ini w' y.
Proof. intros S W N [F I]. split; [eapply fit_lstep; eauto|]. eapply (inited_lstep w w' x); eauto. Qed.

Lemma fit_same w w' y : same_obj w w' (OD y) -> ob w' (OT y) = ob w (OT y) -> fit ini w y -> fit ini w' y.
Proof.
  intros [E B] ET [K H]. split; [now rewrite ET|]. destruct H as [H|[A [C [D [F R]]]]]; [left; now rewrite E|right].
  unfold lent. rewrite E. split; [exact A|]. split; [exact C|]. split; [exact D|]. split; [|exact R].
  intros W a own cs P H. rewrite B in H by exact P. now apply (F W a own cs P H).
Qed.
Lemma live_vstep w w' x y : vstep w w' x -> y <> x -> live ini w y -> live ini w' y.
Proof.
  intros S N [F I]. assert (E : same_obj w w' (OD y)) by (apply (vs_other _ _ _ S); congruence). split.
  - eapply fit_same; [exact E| |exact F]. apply (vs_other _ _ _ S); congruence.
  - eapply (inited_same w w'); eauto.
Qed.

(** A change of an object other than [OD y]. *)
Lemma fit_step1 w w' o y : step1 w w' o -> o <> OD y -> kd (ob w' o) = KBuffer -> fit ini w y -> fit ini w' y.
Proof.
  intros S N K [K2 H]. destruct (s1_other _ _ _ S (OD y)) as [E B]; [congruence|]. split.
  - destruct (oid_dec (OT y) o) as [Q|NE]; [now rewrite Q|]. destruct (s1_other _ _ _ S (OT y) NE) as [Q _]. now rewrite Q.
  - destruct H as [H|L]; [left; now rewrite E|right]. destruct L as [A [C [D [F R]]]]. unfold lent. rewrite E.
    split; [exact A|]. split; [exact C|]. split; [exact D|]. split; [|exact R]. intros W a own cs P H. rewrite B in H by exact P. now apply (F W a own cs P H).
Qed.
Lemma fit_shape w w' x m : ob w' (OD x) = with_mp m (ob w (OD x)) -> ob w' (OT x) = ob w (OT x) -> hp w' = hp w -> fit ini w x -> fit ini w' x.
Proof.
  intros E1 E2 EH [K H]. split; [now rewrite E2|]. destruct H as [H|L]; [left; now rewrite E1|right].
  unfold lent. rewrite E1, EH. exact L.
Qed.

(** A checked write within a vector. *)
Lemma at_wr_any w x i v : world_shape w -> fit ini w x -> 0 <= i < sz (ob w (OD x)) ->
  exists w', at_wr (OD x) i v w = (Done tt, w') /\ lstep w w' x /\ ob w' = ob w /\ fit ini w' x /\ (inited w x -> inited w' x) /\
    forall o, o <> OD x -> owner_of (ob w o) = OwnCpp -> same_obj w w' o.
Proof.
  intros W [KT F] Hi. destruct (shape_ptr w (OD x) W) as [a P]; [lia|].
  pose proof (shape_alloc _ _ _ W P) as A. destruct (ptr_live _ _ _ W P) as [cs [B [S1 S2]]].
  destruct (wrc_ok w a i (Some v) _ cs B) as [w' [E' U]]; [lia|].
  exists w'. rewrite (at_wr_in w (OD x) a i v P A) by lia. split; [exact E'|].
  pose proof U as [U1 [U2 [U3 [U4 U5]]]].
  assert (M : forall j u, nth j cs None = Some u -> exists u', nth j (list_set cs (Z.to_nat i) (Some v)) None = Some u').
  { intros j u Hu. rewrite list_set_nth. destruct (_ && _)%bool; eauto. }
  assert (W' : world_shape w') by (eapply shape_cells; eauto; apply list_set_length).
  assert (IU : forall n, init_upto (hp w) (ob w (OD x)) n -> init_upto (hp w') (ob w' (OD x)) n).
  { intros n H b own c Pb Bb j Hj. rewrite U1 in Pb. assert (b = a) by congruence. subst b. rewrite U4 in Bb. injection Bb as <- <-.
    destruct (H a _ cs P B j Hj) as [u Hu]. eauto. }
  assert (IN : inited w x -> inited w' x).
  { intros I E. apply holds_exists; [exact W'|]. replace (sz (ob w' (OD x))) with (sz (ob w (OD x))) by now rewrite U1. apply IU. apply holds_exists; auto. }
  destruct F as [[K NR]|L].
  - assert (OC : owner_of (ob w (OD x)) = OwnCpp) by (unfold owner_of; now rewrite K). rewrite OC in B, U.
    assert (S : step1 w w' (OD x)) by (eapply step1_cells; eauto; [split; auto|apply list_set_length]).
    split; [apply vstep_lstep; [eapply step1_vstep; [left; reflexivity|exact S]|apply kept_same; now rewrite U1]|]. split; [exact U1|].
    split; [split; rewrite U1; auto|]. split; [exact IN|]. intros o N _. now apply (s1_other _ _ _ S).
  - pose proof (lent_owner w x L) as NO.
    split; [|split; [exact U1|split; [|split; [exact IN|]]]].
    + split; auto.
      * intros o _ _. now rewrite U1.
      * intros o b _ _ [Pb Ob]. apply U5. intros ->. destruct (ptr_live _ _ _ W Pb) as [c [Bc _]]. congruence.
      * intros b c Hb. rewrite U1. destruct (Nat.eq_dec b a) as [->|N].
        { rewrite U4 in Hb. congruence. }
        rewrite U5 in Hb by auto. destruct (owns_dec (ob w (OD x)) b); [auto|]. destruct (owns_dec (ob w (OT x)) b); auto.
      * intros b own c No Hb. destruct (Nat.eq_dec b a) as [->|N].
        { rewrite B in Hb. injection Hb as <- <-. eexists. split; [exact U4|]. split; [apply list_set_length|]. split; [exact M|].
          intros j NR. rewrite list_set_nth. destruct (Nat.eqb_spec j (Z.to_nat i)) as [->|]; [|reflexivity].
          exfalso. apply NR. split; [exact P|]. destruct L as [_ [_ [L3 _]]]. lia. }
        rewrite <- U5 in Hb by auto. exists c. split; [exact Hb|]. split; [reflexivity|]. split; [eauto|reflexivity].
      * intros b own c j No Hb [R1 R2]. rewrite U1 in R1, R2. now split.
    + split; [now rewrite U1|right]. destruct L as [L1 [L2 [L3 [L4 L5]]]]. unfold lent.
      split; [now rewrite U1|]. split; [now rewrite U1|]. split; [now rewrite U1|]. split; [|now rewrite U1]. intros E. specialize (IU _ (L4 E)). now rewrite U1 in *.
    + intros o N O. split; [now rewrite U1|]. intros b Pb. apply U5. intros ->. destruct (ptr_live _ _ _ W Pb) as [c [Bc _]]. congruence.
Qed.

(** A vector with foreign memory gets another length within it. *)
Lemma lent_sized w x n : world_shape w -> kd (ob w (OT x)) = KBuffer -> lent ini w x -> 0 <= n <= cap (ob w (OD x)) ->
  let w' := set_ob w (OD x) (with_sz n (ob w (OD x))) in
  step1 w w' (OD x) /\ fit ini w' x /\ inited w' x.
Proof.
  intros W KT L Hn w'. destruct (lent_ptr w x W L) as [a [cs [P [A [B C]]]]].
  assert (S : step1 w w' (OD x)).
  { apply (step1_upd w (OD x) (with_sz n) W eq_refl eq_refl). unfold store_shape. simpl. rewrite P. destruct L as [_ [L2 _]].
    split; [lia|]. split; [lia|]. split; [exact A|]. exists cs. split; [exact B|lia]. }
  assert (L' : lent ini w' x).
  { destruct L as [L1 [L2 [L3 [L4 L5]]]]. unfold lent. unfold w'. rewrite ob_set_same. cbn [with_sz kd todel cap sz ptr].
    split; [exact L1|]. split; [exact L2|]. split; [lia|]. split; [|exact L5]. intros E b own c Pb Hb. now apply (L4 E b own c). }
  split; [exact S|]. split; [split; [unfold w'; rewrite ob_set_other by congruence; exact KT|now right]|]. apply lent_inited; [apply S|exact L'].
Qed.

(** The end of a vector with foreign memory. *)
Lemma lent_end w x : world_shape w -> kd (ob w (OT x)) = KBuffer -> lent ini w x ->
  exists w', vec_end x w = (Done tt, w') /\ vstep w w' x /\ unborn w' (OD x) /\ unborn w' (OT x).
Proof.
  intros W K2 L. pose proof (lent_owner w x L) as NO.
  destruct (destroy_done w (OT x) W K2) as [w1 [E1 [S1 [U1 [P1 [Z1 B1]]]]]].
  assert (SO1 : same_obj w w1 (OD x)) by (apply (s1_other _ _ _ S1); congruence). destruct SO1 as [SO1 _].
  set (w3 := set_ob w1 (OD x) (store_default KBuffer (sty (ob w1 (OD x))))).
  assert (S3 : step1 w1 w3 (OD x)).
  { apply step1_empty; auto; [apply S1|]. intros a [_ O]. rewrite SO1 in O. contradiction. }
  assert (O3 : ob w3 (OT x) = ob w1 (OT x)) by (unfold w3; now rewrite ob_set_other by congruence).
  set (w4 := set_ob w3 (OT x) (store_default KBuffer (sty (ob w3 (OT x))))).
  assert (S4 : step1 w3 w4 (OT x)).
  { apply step1_empty; [apply S3| |reflexivity|reflexivity|reflexivity]. intros a Ha. rewrite O3 in Ha. now apply (U1 a). }
  exists w4. split; [|split; [|split]].
  - unfold vec_end, vec_destroy, any_destroy. rewrite bind_assoc, bind_assoc, bind_st, K2, (bind_done _ _ _ _ _ E1).
    rewrite bind_assoc, bind_st, SO1. destruct L as [[[K _]|[K [T _]]] _]; rewrite K.
    + rewrite (bind_done (ret tt) _ _ _ _ eq_refl), bind_upd. reflexivity.
    + unfold sexp_destroy. rewrite bind_assoc, bind_st, SO1, T, (bind_done (ret tt) _ _ _ _ eq_refl), bind_upd. reflexivity.
  - eapply vstep_trans; [eapply step1_vstep; [right; reflexivity|exact S1]|].
    eapply vstep_trans; [eapply step1_vstep; [left; reflexivity|exact S3]|]. eapply step1_vstep; [right; reflexivity|exact S4].
  - intros a [Ha _]. unfold w4, w3 in Ha. rewrite ob_set_other, ob_set_same in Ha by congruence. discriminate.
  - intros a [Ha _]. unfold w4 in Ha. rewrite ob_set_same in Ha. discriminate.
Qed.
Lemma fit_end w x : world_shape w -> fit ini w x ->
  exists w', vec_end x w = (Done tt, w') /\ vstep w w' x /\ unborn w' (OD x) /\ unborn w' (OT x).
Proof.
  intros W [K [[K1 _]|L]]; [|now apply lent_end].
  destruct (vec_end_gen w x W (conj K1 K)) as [w' [E [V [_ U]]]]. exists w'. auto.
Qed.

(** A new vector on a new foreign block. *)
Lemma foreign_new w x own l s : world_shape w -> there (lenders ini) w -> unborn w (OD x) -> unborn w (OT x) -> own <> OwnCpp ->
  1 <= Z.of_nat (length l) < 2 ^ 31 ->
  ptr s = Some (hnext (hp w)) -> owner_of s = own -> alloc s = true -> sz s = Z.of_nat (length l) -> cap s = Z.of_nat (length l) ->
  (kd s = KBorrow /\ ~ In x (wrapped ini) \/ kd s = KBorrowSEXP /\ todel s = false /\ In x (wrapped ini)) ->
  let w' := set_ob (set_ob (user_block w own l) (OD x) s) (OT x) (store_default KBuffer (sty s)) in
  vstep w w' x /\ fit ini w' x /\ inited w' x.
Proof.
  intros W TH D1 D2 NO Ll P OW AL SZ CP K w'.
  assert (ED : ob w' (OD x) = s) by (unfold w'; rewrite ob_set_other, ob_set_same by congruence; reflexivity).
  assert (ET : ob w' (OT x) = store_default KBuffer (sty s)) by (unfold w'; apply ob_set_same).
  assert (EO : forall o, o <> OD x -> o <> OT x -> ob w' o = ob w o) by (intros o N1 N2; unfold w'; now rewrite !ob_set_other).
  assert (EB : hblk (hp w') (hnext (hp w)) = Live own (map Some l)) by (unfold w'; simpl; now rewrite Nat.eqb_refl).
  assert (EK : forall b, b <> hnext (hp w) -> hblk (hp w') b = hblk (hp w) b).
  { intros b N. unfold w'. simpl. replace (Nat.eqb b (hnext (hp w))) with false by (symmetry; now apply Nat.eqb_neq). reflexivity. }
  assert (EL : forall b own' c, hblk (hp w) b = Live own' c -> hblk (hp w') b = Live own' c).
  { intros b own' c H. rewrite EK; [exact H|]. pose proof (live_lt _ _ _ _ W H). lia. }
  assert (NOW : forall b, ~ owns (ob w' (OD x)) b) by (intros b [_ H]; rewrite ED in H; congruence).
  assert (NOT : forall b, ~ owns (ob w' (OT x)) b) by (intros b [H _]; rewrite ET in H; discriminate).
  assert (W' : world_shape w').
  { split.
    - intros b Hb. change (hnext (hp w')) with (S (hnext (hp w))) in Hb. rewrite EK by lia. apply (ws_fresh _ W). lia.
    - intros o. destruct (oid_dec o (OD x)) as [->|N1]; [|destruct (oid_dec o (OT x)) as [->|N2]].
      + rewrite ED. unfold store_shape. rewrite P. split; [lia|]. split; [lia|]. split; [exact AL|].
        exists (map Some l). rewrite OW, map_length. split; [exact EB|lia].
      + rewrite ET. unfold store_shape. simpl. repeat split; lia.
      + rewrite EO by auto. pose proof (ws_store _ W o) as S. unfold store_shape in *. destruct (ptr (ob w o)) as [b|]; [|exact S].
        destruct S as [S1 [S2 [S3 [c [S4 S5]]]]]. split; [exact S1|]. split; [exact S2|]. split; [exact S3|]. exists c. split; [now apply EL|exact S5].
    - intros o1 o2 b H1 H2.
      assert (G : forall o, owns (ob w' o) b -> owns (ob w o) b).
      { intros o H. destruct (oid_dec o (OD x)) as [->|N1]; [now apply NOW in H|].
        destruct (oid_dec o (OT x)) as [->|N2]; [now apply NOT in H|]. now rewrite EO in H. }
      apply (ws_sep _ W o1 o2 b); auto.
    - apply (ws_lim _ W).
    - intros b own' c H. destruct (Nat.eq_dec b (hnext (hp w))) as [->|N].
      + rewrite EB in H. injection H as <- <-. rewrite map_length. split; [lia|congruence].
      + rewrite EK in H by auto. apply (ws_len _ W _ _ _ H). }
  assert (L' : lent ini w' x).
  { unfold lent. rewrite ED. split; [exact K|]. split; [lia|]. split; [lia|]. split.
    2: { intros b own' c m Hb Pb. destruct (TH b own' c m Hb) as [_ [c' [Bc _]]]. pose proof (live_lt _ _ _ _ W Bc). rewrite P in Pb. injection Pb as <-. lia. }
    intros _ b own' c Pb Bb i Hi.
    assert (b = hnext (hp w)) by congruence. subst b. rewrite EB in Bb. injection Bb as <- <-. rewrite map_some_nth by lia. eauto. }
  split; [|split; [split; [now rewrite ET|now right]|now apply lent_inited]].
  split; auto.
  - intros o N1 N2. split; [now apply EO|]. intros b Pb. destruct (ptr_live _ _ _ W Pb) as [c [Bc _]]. rewrite Bc. now apply EL.
  - intros b c Hb. right. destruct (Nat.eq_dec b (hnext (hp w))) as [->|N]; [rewrite EB in Hb; congruence|].
    rewrite EK in Hb by auto. split; [exact Hb|]. split; [apply D1|apply D2].
Qed.
End Ini.
