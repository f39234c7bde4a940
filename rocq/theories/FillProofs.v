(** Storage objects: fill with an r-value, assignment between borrowing
    objects, the element past the end. *)
From Coq Require Import String ZArith List Bool Lia.
From Verif Require Import Base Num StoreModel VecModel ForeignModel Spec SpecExpr CapProofs StoreProofs StoreOps BorrowProofs
  ForeignProofs ForeignProofs2 ForeignProofs6.
Import ListNotations.
Open Scope Z_scope.
Local Notation length := List.length (only parsing).

(* ------------------------------------------------------- fill, r-values *)

(** State after the pointer has been taken over. *)
Definition taken (w : world) (o inp : oid) (a b : nat) : world :=
  set_ob (set_ob (set_ob (set_hp w (set_blk (hp w) a Freed)) inp (with_ptr None (ob w inp)))
    inp (with_alloc false (with_ptr None (ob w inp)))) o (with_ptr (Some b) (ob w o)).

Lemma fill_rvec_step w o inp a b cs : o <> inp -> sz (ob w inp) = sz (ob w o) ->
  ptr (ob w o) = Some a -> ptr (ob w inp) = Some b -> hblk (hp w) a = Live OwnCpp cs ->
  fill_rvec o inp w = (Done tt, taken w o inp a b).
Proof.
  intros N S P Q B. unfold fill_rvec. rewrite !bind_st, S, Z.eqb_refl, bind_ass_true, P, (bind_done _ _ _ _ _ (del_own _ _ _ B)).
  rewrite !bind_upd. rewrite Q. unfold upd, taken. simpl. rewrite oid_eqb_refl, !(oid_eqb_neq o inp) by exact N. reflexivity.
Qed.

Lemma taken_o w o inp a b : ob (taken w o inp a b) o = with_ptr (Some b) (ob w o).
Proof. unfold taken. apply ob_set_same. Qed.
Lemma taken_inp w o inp a b : o <> inp -> ob (taken w o inp a b) inp = with_alloc false (with_ptr None (ob w inp)).
Proof. intros N. unfold taken. rewrite ob_set_other by congruence. apply ob_set_same. Qed.
Lemma taken_other w o inp a b o' : o' <> o -> o' <> inp -> ob (taken w o inp a b) o' = ob w o'.
Proof. intros N1 N2. unfold taken. rewrite !ob_set_other by assumption. reflexivity. Qed.
Lemma taken_blk w o inp a b c : c <> a -> hblk (hp (taken w o inp a b)) c = hblk (hp w) c.
Proof. intros N. unfold taken. simpl. now replace (Nat.eqb c a) with false by (symmetry; apply Nat.eqb_neq; congruence). Qed.
Lemma taken_freed w o inp a b : hblk (hp (taken w o inp a b)) a = Freed.
Proof. unfold taken. simpl. now rewrite Nat.eqb_refl. Qed.

Definition taken_end (w : world) (o inp : oid) (a b : nat) : world :=
  set_ob (taken w o inp a b) inp (store_default KBuffer (sty (ob w inp))).

Section Taken.
Variables (w : world) (o inp : oid) (l : list val) (a b : nat) (ca cb : list (option val)).
Hypotheses (W : world_shape w) (N : o <> inp) (K1 : kd (ob w o) = KBuffer) (K2 : kd (ob w inp) = KBuffer)
  (Pa : ptr (ob w o) = Some a) (Pb : ptr (ob w inp) = Some b)
  (Ba : hblk (hp w) a = Live OwnCpp ca) (Bb : hblk (hp w) b = Live OwnCpp cb)
  (H : holds w inp l) (S : sz (ob w o) = Z.of_nat (length l)) (Rm : cap (ob w o) <= Z.of_nat (length cb)).
Local Notation w' := (taken_end w o inp a b).

Lemma taken_ab : a <> b.
Proof.
  intros ->. apply N. apply (ws_sep _ W o inp b); split; auto; unfold owner_of; [now rewrite K1|now rewrite K2].
Qed.
Lemma end_o : ob w' o = with_ptr (Some b) (ob w o).
Proof. unfold taken_end. rewrite ob_set_other by exact N. apply taken_o. Qed.
Lemma end_inp : ob w' inp = store_default KBuffer (sty (ob w inp)).
Proof. unfold taken_end. apply ob_set_same. Qed.
Lemma end_other o' : o' <> o -> o' <> inp -> ob w' o' = ob w o'.
Proof. intros. unfold taken_end. rewrite ob_set_other by assumption. now apply taken_other. Qed.
Lemma end_blk c : c <> a -> hblk (hp w') c = hblk (hp w) c.
Proof. exact (taken_blk w o inp a b c). Qed.
Lemma end_freed : hblk (hp w') a = Freed.
Proof. exact (taken_freed w o inp a b). Qed.

Lemma end_same o' : o' <> o -> o' <> inp -> same_obj w w' o'.
Proof.
  intros N1 N2. split; [now apply end_other|]. intros c P. apply end_blk. intros ->.
  apply (other_ptr w o o' a W); auto. split; [exact Pa|]. unfold owner_of. now rewrite K1.
Qed.

Lemma end_owns o' c : owns (ob w' o') c ->
  (o' = o /\ c = b) \/ (o' <> o /\ o' <> inp /\ owns (ob w o') c).
Proof.
  intros O. destruct (oid_dec o' o) as [->|N1].
  - rewrite end_o in O. destruct O as [P _]. simpl in P. left. split; congruence.
  - destruct (oid_dec o' inp) as [->|N2].
    + rewrite end_inp in O. destruct O as [P _]. discriminate.
    + rewrite end_other in O by auto. auto.
Qed.

Lemma own_o : owns (ob w o) a.
Proof. split; [exact Pa|]. unfold owner_of. now rewrite K1. Qed.
Lemma own_inp : owns (ob w inp) b.
Proof. split; [exact Pb|]. unfold owner_of. now rewrite K2. Qed.

Lemma end_shape : world_shape w'.
Proof.
  pose proof taken_ab as AB. split.
  - intros c Hc. change (hnext (hp w')) with (hnext (hp w)) in Hc.
    destruct (Nat.eq_dec c a) as [->|Nc]; [|rewrite end_blk by exact Nc; now apply (ws_fresh _ W)].
    rewrite (ws_fresh _ W a Hc) in Ba. discriminate.
  - intros o'. destruct (oid_dec o' o) as [->|N1]; [|destruct (oid_dec o' inp) as [->|N2]].
    + rewrite end_o. pose proof (ws_store _ W o) as So. unfold store_shape in *. rewrite Pa in So.
      destruct So as [A1 [A2 [A3 _]]]. cbn [sz cap ptr alloc with_ptr]. split; [exact A1|]. split; [exact A2|]. split; [exact A3|].
      exists cb. unfold owner_of. cbn [kd with_ptr]. rewrite K1, end_blk by congruence. split; [exact Bb|].
      pose proof (ws_store _ W inp) as Si. unfold store_shape in Si. rewrite Pb in Si.
      destruct Si as [_ [_ [_ [c2 [Q1 [Q2 _]]]]]]. unfold owner_of in Q1. rewrite K2 in Q1.
      assert (c2 = cb) by congruence. subst c2. rewrite (proj1 H) in Q2. split; lia.
    + rewrite end_inp. unfold store_shape. simpl. lia.
    + destruct (end_same o' N1 N2) as [E1 E2]. rewrite E1. pose proof (ws_store _ W o') as So. unfold store_shape in *.
      destruct (ptr (ob w o')) as [c|]; [|exact So]. rewrite (E2 c eq_refl). exact So.
  - intros o1 o2 c O1 O2. destruct (end_owns _ _ O1) as [[-> ->]|[A1 [A2 A3]]], (end_owns _ _ O2) as [[-> Q]|[B1 [B2 B3]]]; auto.
    + exfalso. apply B2. apply (ws_sep _ W o2 inp b B3 own_inp).
    + subst c. exfalso. apply A2. apply (ws_sep _ W o1 inp b A3 own_inp).
    + apply (ws_sep _ W o1 o2 c A3 B3).
  - apply (ws_lim _ W).
  - intros c own cs Hc. destruct (Nat.eq_dec c a) as [->|Nc]; [rewrite end_freed in Hc; discriminate|].
    rewrite end_blk in Hc by exact Nc. apply (ws_len _ W _ _ _ Hc).
Qed.

Lemma end_holds : holds w' o l.
Proof.
  apply holds_cells; [exact end_shape|]. rewrite end_o. simpl. split; [exact S|].
  intros i Hi. rewrite (cells_of_ptr w' o b OwnCpp cb).
  - apply (holds_cells w inp l W) in H. destruct H as [_ H2]. specialize (H2 i Hi).
    now rewrite (cells_of_ptr w inp b OwnCpp cb Pb Bb) in H2.
  - now rewrite end_o.
  - rewrite end_blk; [exact Bb|]. intros Q. apply taken_ab. now symmetry.
Qed.

Lemma end_leak : no_leak w -> no_leak w'.
Proof.
  intros NL c cs Hc. destruct (Nat.eq_dec c a) as [->|Nc]; [rewrite end_freed in Hc; discriminate|].
  rewrite end_blk in Hc by exact Nc. destruct (NL c cs Hc) as [o' O].
  destruct (oid_dec o' o) as [->|N1]; [destruct O as [P _]; congruence|].
  destruct (oid_dec o' inp) as [->|N2].
  - exists o. rewrite end_o. destruct O as [P _]. split; [simpl; congruence|]. unfold owner_of. simpl. now rewrite K1.
  - exists o'. rewrite end_other by auto. exact O.
Qed.

Lemma end_ok : world_ok w -> world_ok w'.
Proof.
  intros [_ I]. split; [exact end_shape|]. intros o'.
  destruct (oid_dec o' o) as [->|N1]; [|destruct (oid_dec o' inp) as [->|N2]].
  - apply (inited_buffer w' o l end_shape); [rewrite end_o; exact K1|exact end_holds].
  - apply (inited_buffer w' inp [] end_shape); [rewrite end_inp; reflexivity|].
    split; [rewrite end_inp; reflexivity|simpl; intros; lia].
  - apply (inited_same w); [now apply end_same|apply I].
Qed.
End Taken.

Lemma fill_rvec_mismatch w o inp : sz (ob w inp) <> sz (ob w o) ->
  fill_rvec o inp w = (Thrown (Ass "cannot use fill with vectors of different lengths"), w).
Proof.
  intros N. unfold fill_rvec. rewrite !bind_st. replace (sz (ob w inp) =? sz (ob w o)) with false by (symmetry; now apply Z.eqb_neq).
  reflexivity.
Qed.

(** The capacity is not taken over with the pointer. *)
Lemma fill_rvec_overrun w o inp l a b ca cb n : world_shape w -> o <> inp -> kd (ob w o) = KBuffer ->
  ptr (ob w o) = Some a -> ptr (ob w inp) = Some b -> hblk (hp w) a = Live OwnCpp ca -> hblk (hp w) b = Live OwnCpp cb ->
  a <> b -> holds w inp l -> sz (ob w o) = Z.of_nat (length l) -> 1 <= n ->
  Z.of_nat (length cb) < n <= cap (ob w o) ->
  exists w1 w2, fill_rvec o inp w = (Done tt, w1) /\ resize o n w1 = (Done tt, w2) /\
    forall i v, Z.of_nat (length cb) <= i < n -> set_at o i v w2 = (Undef UB_oob, w2) /\ get_at o i w2 = (Undef UB_oob, w2).
Proof.
  intros W N K Pa Pb Ba Bb AB H S Hn Hc. exists (taken w o inp a b). eexists.
  split; [apply (fill_rvec_step w o inp a b ca); auto; now rewrite S, (proj1 H)|].
  assert (A : alloc (ob w o) = true).
  { pose proof (ws_store _ W o) as So. unfold store_shape in So. rewrite Pa in So. apply So. }
  split.
  { unfold resize. replace (1 <=? n) with true by (symmetry; now apply Z.leb_le).
    rewrite bind_ass_true, bind_st, taken_o. cbn [alloc cap with_ptr]. rewrite A. cbn [negb].
    replace (cap (ob w o) <? n) with false by (symmetry; apply Z.ltb_ge; lia). unfold upd. rewrite taken_o. reflexivity. }
  intros i v Hi.
  match goal with |- set_at o i v ?W = _ /\ _ => set (w2 := W) end.
  assert (O2 : ob w2 o = with_sz n (with_ptr (Some b) (ob w o))) by (unfold w2; apply ob_set_same).
  assert (B2 : hblk (hp w2) b = Live OwnCpp cb) by (unfold w2; rewrite hp_set_ob, taken_blk; congruence).
  unfold set_at, get_at. rewrite !bind_st, O2. cbn [alloc sz ptr with_sz with_ptr]. rewrite A, !bind_ass_true.
  replace (i <? n) with true by (symmetry; apply Z.ltb_lt; lia). rewrite !bind_ass_true.
  unfold wr, wrc, rd. rewrite B2. replace (i <? Z.of_nat (length cb)) with false by (symmetry; apply Z.ltb_ge; lia).
  rewrite andb_false_r. auto.
Qed.

(** A borrowing object frees memory that is not its own. *)
Lemma borrow_fill_rvec_foreign w o inp a cs : sz (ob w inp) = sz (ob w o) ->
  ptr (ob w o) = Some a -> hblk (hp w) a = Live OwnExt cs -> borrow_fill_rvec o inp w = (Undef UB_foreign_free, w).
Proof.
  intros S P B. unfold borrow_fill_rvec, fill_rvec. rewrite !bind_st, S, Z.eqb_refl, bind_ass_true, P.
  unfold bind at 1, del. now rewrite B.
Qed.

(* ----------------------------------------------------------------- back *)

Lemma back_reads w o a own cs : ptr (ob w o) = Some a -> hblk (hp w) a = Live own cs -> 0 <= sz (ob w o) ->
  back o w = (if sz (ob w o) <? Z.of_nat (length cs)
              then match nth (Z.to_nat (sz (ob w o))) cs None with Some v => Done v | None => Undef UB_uninit end
              else Undef UB_oob, w).
Proof.
  intros P B S. unfold back. rewrite bind_st. unfold rd. rewrite P, B.
  replace (0 <=? sz (ob w o)) with true by (symmetry; now apply Z.leb_le). cbn [andb].
  destruct (sz (ob w o) <? Z.of_nat (length cs)); [|reflexivity]. now destruct (nth _ cs None).
Qed.

(* ------------------------------------------- assignment, borrowing objects *)

Lemma borrow_assign_run w o other :
  borrow_assign o other w = (Done tt, set_ob w o (mkStore (kd (ob w o)) (sty (ob w o)) (ptr (ob w other)) (sz (ob w other))
    (cap (ob w other)) (alloc (ob w other)) (mp (ob w other)) (todel (ob w o)))).
Proof. unfold borrow_assign. rewrite bind_st. reflexivity. Qed.

(** The copying loop of BorrowSEXP. *)
Lemma copy_loop_done w o other l a cs own : 
  kd (ob w other) = KBorrowSEXP -> holds w other l -> sz (ob w o) = Z.of_nat (length l) -> ptr (ob w o) = Some a ->
  hblk (hp w) a = Live own cs -> (length l <= length cs)%nat -> ptr (ob w other) <> Some a ->
  exists w2 cs2, sexp_copy_loop o other w = (Done tt, w2) /\ upd_cells w w2 a own cs2 /\
    length cs2 = length cs /\ forall j, nth j cs2 None = if Nat.ltb j (length l) then Some (nth j l (VB false)) else nth j cs None.
Proof.
  intros K H Sz Pa B1 Len NP. unfold sexp_copy_loop. rewrite bind_st, Sz, Pa. unfold for_. rewrite Nat2Z.id.
  destruct (for_wr_gen (fun k => Some (nth (Z.to_nat k) l (VB false)))
    (fun i => v <- sexp_get_at other i ;; wr (Some a) i v) w a own cs 0 (length l) B1)
    as [w2 [cs2 [E2 [U2 [Len2 Nth2]]]]]; [lia|lia| |].
  - intros k w2 cs2 Hk [V1 [V2 [V3 [V4 V5]]]] _.
    assert (H2 : holds w2 other l).
    { apply (holds_same w w2); auto. split; [now rewrite V1|]. intros p P. apply V5. congruence. }
    destruct H2 as [_ H2]. specialize (H2 (Z.to_nat k) ltac:(lia)). rewrite Z2Nat.id in H2 by lia.
    rewrite (bind_done _ _ _ (nth (Z.to_nat k) l (VB false)) w2); [reflexivity|].
    unfold at_rd in H2. rewrite bind_st in H2. rewrite V1, K in H2. exact H2.
  - exists w2, cs2. split; [exact E2|]. split; [exact U2|]. split; [exact Len2|].
    intros j. rewrite Nth2, Nat2Z.id. destruct (Nat.ltb_spec j (length l)) as [L|L].
    + replace ((0 <=? Z.of_nat j) && (Z.of_nat j <? 0 + Z.of_nat (length l))) with true; auto.
      symmetry; apply andb_true_intro; split; [apply Z.leb_le|apply Z.ltb_lt]; lia.
    + replace ((0 <=? Z.of_nat j) && (Z.of_nat j <? 0 + Z.of_nat (length l))) with false; auto.
      symmetry; apply andb_false_intro2, Z.ltb_ge; lia.
Qed.

Lemma sexp_assign_own w o other l :
  world_shape w -> o <> other -> kd (ob w o) = KBorrowSEXP -> kd (ob w other) = KBorrowSEXP ->
  (ptr (ob w o) <> None -> todel (ob w o) = true) -> (alloc (ob w o) = true -> ptr (ob w o) <> None) ->
  holds w other l -> (1 <= length l)%nat -> fits w (Z.of_nat (length l)) ->
  exists w', sexp_assign o other w = (Done tt, w') /\ step1 w w' o /\ holds w' o l /\ holds w' other l /\
    mp (ob w' o) = mp (ob w other) /\ sty (ob w' o) = sty (ob w o) /\ todel (ob w' o) = true /\ kd (ob w' o) = KBorrowSEXP.
Proof.
  intros W Ne Ko Kt TD HA H L1 Ft. pose proof (ws_lim _ W) as Lim. unfold fits in Ft.
  destruct (cap115_ok (Z.of_nat (length l))) as [c [C Bc]]; [lia|].
  unfold sexp_assign. rewrite oid_eqb_neq by exact Ne. rewrite bind_st. rewrite (proj1 H).
  destruct (sexp_resize_own w o (Z.of_nat (length l)) c W Ko TD HA) as [w1 [E1 [S1 [K1 [T1 [M1 [TD1 [Z1 [P1 [A1 C1]]]]]]]]]]; try lia; auto.
  rewrite (bind_done _ _ _ _ _ E1).
  pose proof (s1_other _ _ _ S1 other ltac:(congruence)) as SO.
  pose proof (holds_same _ _ _ _ SO H) as H1.
  destruct (ptr (ob w1 o)) as [a|] eqn:Pa; [|congruence].
  assert (Ow : owner_of (ob w1 o) = OwnCpp) by (unfold owner_of; now rewrite K1, TD1).
  pose proof (ws_store _ (s1_shape _ _ _ S1) o) as So. unfold store_shape in So. rewrite Pa, Ow in So.
  destruct So as [_ [_ [_ [cs [B1 [Q1 _]]]]]]. rewrite Z1 in Q1.
  destruct (copy_loop_done w1 o other l a cs OwnCpp) as [w2 [cs2 [E2 [U2 [Len2 Nth2]]]]]; auto; try lia.
  { now rewrite (proj1 SO). }
  { apply (other_ptr w1 o other a (s1_shape _ _ _ S1)); [split; auto|congruence]. }
  rewrite (bind_done _ _ _ _ _ E2).
  assert (S2 : step1 w1 w2 o).
  { eapply step1_cells; eauto; [apply S1|]. split; auto. }
  destruct U2 as [V1 [V2 [V3 [V4 V5]]]].
  set (w' := set_ob w2 o (with_mp (mp (ob w other)) (ob w2 o))).
  exists w'. split; [reflexivity|].
  assert (S3 : step1 w2 w' o).
  { apply (step1_upd w2 o (with_mp (mp (ob w other)))); auto; [apply S2|]. exact (ws_store _ (s1_shape _ _ _ S2) o). }
  assert (S4 : step1 w w' o).
  { eapply step1_trans; [exact S1|]. eapply step1_trans; eauto. }
  assert (O' : ob w' o = with_mp (mp (ob w other)) (ob w1 o)) by (unfold w'; rewrite ob_set_same, V1; reflexivity).
  split; [exact S4|]. split; [|split; [|rewrite O'; simpl; auto]].
  - apply holds_cells; [apply S4|]. rewrite O'. cbn [sz with_mp]. split; [exact Z1|].
    intros i Hi. rewrite (cells_of_ptr w' o a OwnCpp cs2); auto; [|now rewrite O'].
    rewrite Nth2. now replace (Nat.ltb i (length l)) with true by (symmetry; now apply Nat.ltb_lt).
  - eapply holds_same; [|exact H]. apply (s1_other _ _ _ S4). congruence.
Qed.

(** Replacing an object that owns nothing by one that owns nothing. *)
Lemma set_shape w o s : world_shape w -> (forall b, ~ owns s b) -> store_shape (hp w) s -> world_shape (set_ob w o s).
Proof.
  intros W NO SS. split.
  - apply (ws_fresh _ W).
  - intros o'. destruct (oid_dec o' o) as [->|N]; [now rewrite ob_set_same|rewrite ob_set_other by exact N; apply (ws_store _ W)].
  - intros o1 o2 b O1 O2.
    assert (G : forall q, owns (ob (set_ob w o s) q) b -> owns (ob w q) b).
    { intros q Q. destruct (oid_dec q o) as [->|N]; [rewrite ob_set_same in Q; now apply NO in Q|now rewrite ob_set_other in Q by exact N]. }
    apply (ws_sep _ W o1 o2 b); auto.
  - apply (ws_lim _ W).
  - apply (ws_len _ W).
Qed.

Lemma borrow_rebinds w o other l : world_shape w -> o <> other -> kd (ob w o) = KBorrow -> kd (ob w other) = KBorrow ->
  holds w other l -> (1 <= length l)%nat ->
  exists w1, borrow_assign o other w = (Done tt, w1) /\ hp w1 = hp w /\ world_shape w1 /\ holds w1 o l /\ holds w1 other l /\
    (forall o', o' <> o -> ob w1 o' = ob w o') /\
    forall i v, (i < length l)%nat -> exists w2, at_wr o (Z.of_nat i) v w1 = (Done tt, w2) /\
      holds w2 o (list_set l i v) /\ holds w2 other (list_set l i v).
Proof.
  intros W N K1 K2 H L. rewrite borrow_assign_run. eexists. split; [reflexivity|]. split; [reflexivity|].
  set (s := mkStore _ _ _ _ _ _ _ _). set (w1 := set_ob w o s).
  pose proof (ws_store _ W other) as St. pose proof St as St'. unfold store_shape in St.
  assert (P : exists a, ptr (ob w other) = Some a) by (apply (shape_ptr w other W); rewrite (proj1 H); lia).
  destruct P as [a P]. rewrite P in St. destruct St as [A1 [A2 [A3 [cs [B [Q1 Q2]]]]]].
  assert (Ow : owner_of (ob w other) = OwnExt) by (unfold owner_of; now rewrite K2). rewrite Ow in B.
  assert (Os : owner_of s = OwnExt) by (unfold owner_of, s; cbn [kd]; now rewrite K1).
  assert (W1 : world_shape w1).
  { apply set_shape; auto.
    - intros b [_ X]. congruence.
    - unfold store_shape. rewrite Os. unfold s. cbn [sz cap ptr alloc]. rewrite P.
      split; [exact A1|]. split; [exact A2|]. split; [exact A3|]. exists cs. auto. }
  assert (O1 : ob w1 o = s) by apply ob_set_same.
  assert (Ot : ob w1 other = ob w other) by (apply ob_set_other; congruence).
  assert (Cells : forall i, (i < length l)%nat -> nth i cs None = Some (nth i l (VB false))).
  { intros i Hi. pose proof H as H'. apply (holds_cells w other l W) in H'. destruct H' as [_ H']. specialize (H' i Hi).
    now rewrite (cells_of_ptr w other a OwnExt cs P B) in H'. }
  assert (Hgen : forall w2 cs2 l2 q, world_shape w2 -> ob w2 = ob w1 -> hblk (hp w2) a = Live OwnExt cs2 -> length l2 = length l ->
     (q = o \/ q = other) -> (forall i, (i < length l)%nat -> nth i cs2 None = Some (nth i l2 (VB false))) -> holds w2 q l2).
  { intros w2 cs2 l2 q W2 E2 B2 L2 Q C2. apply holds_cells; [exact W2|]. rewrite L2, E2.
    assert (Pq : ptr (ob w1 q) = Some a /\ sz (ob w1 q) = Z.of_nat (length l)).
    { destruct Q as [->| ->]; [rewrite O1; unfold s; cbn [ptr sz]|rewrite Ot]; rewrite (proj1 H); auto. }
    split; [apply Pq|]. intros i Hi. rewrite (cells_of_ptr w2 q a OwnExt cs2); auto. rewrite E2. apply Pq. }
  split; [exact W1|]. split; [apply (Hgen w1 cs l o); auto|]. split; [apply (Hgen w1 cs l other); auto|].
  split; [intros o' N'; now apply ob_set_other|].
  intros i v Hi.
  assert (Len : Z.of_nat (length l) <= Z.of_nat (length cs)) by (rewrite (proj1 H) in Q1; exact Q1).
  destruct (wrc_ok w1 a (Z.of_nat i) (Some v) OwnExt cs B) as [w2 [E2 U2]]; [lia|].
  exists w2. rewrite Nat2Z.id in U2.
  split. { rewrite (at_wr_in w1 o a); auto; rewrite O1; unfold s; cbn [ptr alloc sz]; auto. rewrite (proj1 H). lia. }
  assert (W2 : world_shape w2) by (eapply (shape_cells w1 w2 a OwnExt cs); eauto; apply list_set_length).
  destruct U2 as [V1 [_ [_ [V4 _]]]].
  assert (C2 : forall j, (j < length l)%nat -> nth j (list_set cs i (Some v)) None = Some (nth j (list_set l i v) (VB false))).
  { intros j Hj. rewrite !list_set_nth.
    replace (Nat.ltb i (length cs)) with true by (symmetry; apply Nat.ltb_lt; lia).
    replace (Nat.ltb i (length l)) with true by (symmetry; apply Nat.ltb_lt; lia).
    destruct (Nat.eqb j i); cbn [andb]; auto. }
  split; apply (Hgen w2 (list_set cs i (Some v)) (list_set l i v)); auto; apply list_set_length.
Qed.

Lemma borrow_set_spec w o i v : 0 <= i ->
  borrow_set o i v w = if i <? sz (ob w o) then wrc (ptr (ob w o)) i (Some v) w
                       else (Thrown (Ass "Index cannot be larger than size of Indices"), w).
Proof. intros _. unfold borrow_set. rewrite bind_st. now destruct (i <? sz (ob w o)). Qed.
