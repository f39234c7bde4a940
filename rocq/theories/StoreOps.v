From Coq Require Import ZArith List String Bool Lia.
From Verif Require Import Base Num StoreModel VecModel Spec CapProofs StoreProofs.
Import ListNotations.
Open Scope Z_scope.

(* ------------------------------------------------------------- loops *)

(** A loop whose body behaves as a write of [f k] to cell [k] of block [a]
    as long as only that block has changed. *)
Lemma for_wr_gen (f : Z -> option val) (body : Z -> M world unit) w a own cs i n :
  hblk (hp w) a = Live own cs -> 0 <= i -> i + Z.of_nat n <= Z.of_nat (List.length cs) ->
  (forall k w1 cs1, i <= k < i + Z.of_nat n -> upd_cells w w1 a own cs1 ->
     List.length cs1 = List.length cs -> body k w1 = wrc (Some a) k (f k) w1) ->
  exists w' cs', forN n i body w = (Done tt, w') /\
    upd_cells w w' a own cs' /\ List.length cs' = List.length cs /\
    forall j, nth j cs' None =
      if ((i <=? Z.of_nat j) && (Z.of_nat j <? i + Z.of_nat n))%bool then f (Z.of_nat j)
      else nth j cs None.
Proof.
  intros H Hi Hl Hb.
  pose (I := fun (k : Z) (w' : world) => exists cs',
     upd_cells w w' a own cs' /\ List.length cs' = List.length cs /\
     forall j, nth j cs' None =
      if ((i <=? Z.of_nat j) && (Z.of_nat j <? k))%bool then f (Z.of_nat j)
      else nth j cs None).
  destruct (forN_inv I body n i w) as [w' [E [cs' HI]]].
  - exists cs. split; [|split; [reflexivity|]].
    + unfold upd_cells. auto.
    + intros j. destruct ((i <=? Z.of_nat j) && (Z.of_nat j <? i)) eqn:X; [|reflexivity].
      apply andb_prop in X as [X1 X2]. apply Z.leb_le in X1. apply Z.ltb_lt in X2. lia.
  - intros k w1 Hk [cs1 [U1 [Len1 Nth1]]].
    rewrite (Hb k w1 cs1 Hk U1 Len1).
    destruct U1 as [O1 [N1 [L1 [B1 R1]]]].
    destruct (wrc_ok w1 a k (f k) own cs1 B1) as [w2 [E2 [O2 [N2 [L2 [B2 R2]]]]]].
    { rewrite Len1. lia. }
    exists w2. split; [exact E2|].
    exists (list_set cs1 (Z.to_nat k) (f k)). split; [|split].
    + repeat split; try congruence. intros b Hb0. rewrite R2, R1; auto.
    + now rewrite list_set_length.
    + intros j. rewrite list_set_nth, Nth1, Len1.
      destruct (Nat.eqb_spec j (Z.to_nat k)); simpl.
      * subst j. rewrite Z2Nat.id by lia.
        replace (Nat.ltb (Z.to_nat k) (List.length cs)) with true by (symmetry; apply Nat.ltb_lt; lia).
        replace ((i <=? k) && (k <? k + 1)) with true; [reflexivity|].
        symmetry; apply andb_true_intro; split; [apply Z.leb_le|apply Z.ltb_lt]; lia.
      * destruct (i <=? Z.of_nat j) eqn:X1; simpl; [|reflexivity].
        destruct (Z.ltb_spec (Z.of_nat j) k), (Z.ltb_spec (Z.of_nat j) (k + 1)); try lia; reflexivity.
  - exists w', cs'. tauto.
Qed.

(* ---------------------------------------------------- element access *)

Lemma get_at_rd w o i : kd (ob w o) <> KBorrowSEXP -> at_rd o i w = get_at o i w.
Proof. intros K. unfold at_rd. rewrite bind_st. destruct (kd (ob w o)); congruence. Qed.

(** Bounds-checked reads: exactly one of two outcomes. *)
Lemma at_rd_bounds w o l i : world_shape w -> holds w o l -> 0 <= i ->
  (i < Z.of_nat (List.length l) -> at_rd o i w = (Done (nth (Z.to_nat i) l (VB false)), w)) /\
  (Z.of_nat (List.length l) <= i -> exists m, at_rd o i w = (Thrown (Ass m), w)).
Proof.
  intros W [A B] Hi. split.
  - intros H. specialize (B (Z.to_nat i)). rewrite Z2Nat.id in B by lia. apply B. lia.
  - intros H. unfold at_rd, sexp_get_at, get_at. rewrite bind_st.
    assert (L : (i <? sz (ob w o)) = false) by (apply Z.ltb_ge; lia).
    destruct (kd (ob w o)); rewrite bind_st;
    match goal with |- context [ass ?b] => destruct b end;
    rewrite ?bind_ass_true, ?bind_ass_false; eauto; rewrite L, bind_ass_false; eauto.
Qed.

(** A checked write within bounds is the raw write. *)
Lemma at_wr_in w o a i v : ptr (ob w o) = Some a -> alloc (ob w o) = true ->
  i < sz (ob w o) -> at_wr o i v w = wrc (Some a) i (Some v) w.
Proof.
  intros P A L. apply Z.ltb_lt in L.
  unfold at_wr, sexp_set_at, set_at. rewrite bind_st.
  destruct (kd (ob w o)); rewrite bind_st; rewrite ?A, ?P, bind_ass_true, L, bind_ass_true;
    reflexivity.
Qed.
Lemma set_at_in w o a i v : ptr (ob w o) = Some a -> alloc (ob w o) = true ->
  i < sz (ob w o) -> set_at o i v w = wrc (Some a) i (Some v) w.
Proof.
  intros P A L. apply Z.ltb_lt in L.
  unfold set_at. rewrite bind_st, A, bind_ass_true, L, bind_ass_true, P. reflexivity.
Qed.

Lemma at_wr_out w o i v : sz (ob w o) <= i -> exists m, at_wr o i v w = (Thrown (Ass m), w).
Proof.
  intros H. assert (L : (i <? sz (ob w o)) = false) by (apply Z.ltb_ge; lia).
  unfold at_wr, sexp_set_at, set_at. rewrite bind_st.
  destruct (kd (ob w o)); rewrite bind_st;
    match goal with |- context [ass ?b] => destruct b end;
    rewrite ?bind_ass_true, ?bind_ass_false; eauto; rewrite L, bind_ass_false; eauto.
Qed.

Lemma cells_of_ptr w o a own cs : ptr (ob w o) = Some a -> hblk (hp w) a = Live own cs ->
  cells_of w o = cs.
Proof. intros P H. unfold cells_of. now rewrite P, H. Qed.

Lemma holds_in w o l i : world_shape w -> holds w o l -> (i < List.length l)%nat ->
  nth i (cells_of w o) None = Some (nth i l (VB false)).
Proof. intros W H. apply holds_cells in H; auto. apply H. Qed.

Lemma shape_ptr w o : world_shape w -> 0 < sz (ob w o) -> exists a, ptr (ob w o) = Some a.
Proof.
  intros W H. pose proof (ws_store _ W o) as S. unfold store_shape in S.
  destruct (ptr (ob w o)); eauto. lia.
Qed.
Lemma shape_alloc w o a : world_shape w -> ptr (ob w o) = Some a -> alloc (ob w o) = true.
Proof.
  intros W H. pose proof (ws_store _ W o) as S. unfold store_shape in S. rewrite H in S. tauto.
Qed.

Lemma inited_holds w o l : world_shape w -> holds w o l ->
  init_upto (hp w) (ob w o) (sz (ob w o)).
Proof.
  intros W H a own cs P B i Hi.
  pose proof (proj1 H) as E.
  pose proof (holds_in w o l (Z.to_nat i) W H ltac:(lia)) as N.
  rewrite (cells_of_ptr w o a own cs P B) in N. eauto.
Qed.

Lemma inited_buffer w o l : world_shape w -> kd (ob w o) = KBuffer -> holds w o l -> inited w o.
Proof. intros W K H. split; [eapply inited_holds; eauto|congruence]. Qed.

(** Write to element i of an owning store. *)
Lemma at_wr_own w o l i v : world_shape w -> kd (ob w o) = KBuffer -> holds w o l ->
  0 <= i < Z.of_nat (List.length l) ->
  exists w', at_wr o i v w = (Done tt, w') /\ step1 w w' o /\ ob w' = ob w /\
    holds w' o (list_set l (Z.to_nat i) v).
Proof.
  intros W K H Hi. pose proof (proj1 H) as E.
  destruct (shape_ptr w o W) as [a P]; [lia|].
  pose proof (shape_alloc _ _ _ W P) as A.
  destruct (ptr_live _ _ _ W P) as [cs [B [S1 S2]]].
  assert (Ow : owner_of (ob w o) = OwnCpp) by (unfold owner_of; now rewrite K).
  rewrite Ow in B.
  rewrite (at_wr_in w o a i v P A) by lia.
  destruct (wrc_ok w a i (Some v) OwnCpp cs B) as [w' [E' U]]; [lia|].
  exists w'. split; [exact E'|].
  assert (ST : step1 w w' o).
  { eapply step1_cells; eauto; [split; auto|apply list_set_length]. }
  split; [exact ST|]. split; [apply U|].
  apply holds_cells; [apply ST|].
  destruct U as [Eo [_ [_ [Bl _]]]]. rewrite Eo, list_set_length. split; [exact E|].
  intros j Hj. rewrite (cells_of_ptr w' o a OwnCpp (list_set cs (Z.to_nat i) (Some v)));
    [|now rewrite Eo|exact Bl].
  rewrite !list_set_nth.
  replace (Nat.ltb (Z.to_nat i) (List.length cs)) with true by (symmetry; apply Nat.ltb_lt; lia).
  replace (Nat.ltb (Z.to_nat i) (List.length l)) with true by (symmetry; apply Nat.ltb_lt; lia).
  destruct (Nat.eqb j (Z.to_nat i)); simpl; [reflexivity|].
  rewrite <- (cells_of_ptr w o a OwnCpp cs P B). now apply holds_in.
Qed.

(* ------------------------------------------------------- construction *)

Lemma nth_repeat_in {A} (a d : A) n i : (i < n)%nat -> nth i (repeat a n) d = a.
Proof. revert i; induction n; destruct i; simpl; intros; try lia; auto with arith. Qed.

(** The common part of the constructors: a fresh block, its first m cells
    written, then the members set. *)
Lemma fresh_block w c m (f : Z -> option val) :
  world_shape w -> 0 <= m <= c -> c <= hlim (hp w) ->
  exists w1 cs,
    for_ m (fun i => wrc (Some (hnext (hp w))) i (f i)) (new_world w c) = (Done tt, w1) /\
    ob w1 = ob w /\ hlim (hp w1) = hlim (hp w) /\ hnext (hp w1) = S (hnext (hp w)) /\
    hblk (hp w1) (hnext (hp w)) = Live OwnCpp cs /\ List.length cs = Z.to_nat c /\
    (forall b, b <> hnext (hp w) -> hblk (hp w1) b = hblk (hp w) b) /\
    forall i, Z.of_nat i < m -> nth i cs None = f (Z.of_nat i).
Proof.
  intros W Hm HL.
  destruct (for_wr f (new_world w c) (hnext (hp w)) OwnCpp (repeat None (Z.to_nat c)) 0 (Z.to_nat m))
    as [w1 [cs [E [[U1 [U2 [U3 [U4 U5]]]] [Len Nth]]]]].
  - simpl. now rewrite Nat.eqb_refl.
  - lia.
  - rewrite repeat_length. lia.
  - exists w1, cs. split; [exact E|]. rewrite repeat_length in Len.
    repeat split; auto.
    + intros b Hb. rewrite U5 by auto. simpl.
      now replace (Nat.eqb b (hnext (hp w))) with false by (symmetry; now apply Nat.eqb_neq).
    + intros i Hi. rewrite Nth.
      replace ((0 <=? Z.of_nat i) && (Z.of_nat i <? 0 + Z.of_nat (Z.to_nat m))) with true; auto.
      symmetry; apply andb_true_intro; split; [apply Z.leb_le|apply Z.ltb_lt]; lia.
Qed.

Lemma step1_ctor w w1 o s cs :
  world_shape w -> (forall a, ~ owns (ob w o) a) ->
  ob w1 = ob w -> hlim (hp w1) = hlim (hp w) -> hnext (hp w1) = S (hnext (hp w)) ->
  hblk (hp w1) (hnext (hp w)) = Live OwnCpp cs ->
  (forall b, b <> hnext (hp w) -> hblk (hp w1) b = hblk (hp w) b) ->
  Z.of_nat (List.length cs) <= hlim (hp w) ->
  kd s = KBuffer -> ptr s = Some (hnext (hp w)) -> alloc s = true ->
  0 <= sz s <= Z.of_nat (List.length cs) -> 0 <= cap s <= Z.of_nat (List.length cs) ->
  step1 w (set_ob w1 o s) o.
Proof.
  intros W D E L N B R Len K P A Sz Cp.
  apply (step1_fresh w _ o cs); auto; rewrite ?ob_set_same; auto.
  - intros o' Ho. rewrite ob_set_other by auto. now rewrite E.
  - intros b Hb O. exfalso. eapply D; eauto.
Qed.

Lemma ctor_size_done w o t n c :
  world_shape w -> (forall a, ~ owns (ob w o) a) ->
  1 <= n -> cap115 n = Done c -> n <= c -> c <= hlim (hp w) ->
  exists w', ctor_size o t n w = (Done tt, w') /\ step1 w w' o /\
    ob w' o = mkStore KBuffer t (Some (hnext (hp w))) n c true mp_none false /\
    holds w' o (repeat (zero_of t) (Z.to_nat n)).
Proof.
  intros W D Hn C Hc HL. pose proof (ws_lim _ W) as Lim.
  destruct (fresh_block w c c (fun _ => Some (zero_of t)) W) as [w1 [cs [E [F1 [F2 [F3 [F4 [F5 [F6 F7]]]]]]]]]; [lia|lia|].
  unfold ctor_size. rewrite C, bind_lift_done.
  replace (0 <? n) with true by (symmetry; apply Z.ltb_lt; lia). rewrite bind_ass_true.
  rewrite (bind_done _ _ _ _ _ (new_ok w c HL)).
  unfold wr. rewrite (bind_done _ _ _ _ _ E).
  eexists. split; [reflexivity|].
  assert (ST : step1 w (set_ob w1 o (mkStore KBuffer t (Some (hnext (hp w))) n c true mp_none false)) o).
  { eapply step1_ctor; eauto; simpl; lia. }
  split; [exact ST|]. split; [apply ob_set_same|].
  apply holds_cells; [apply ST|]. rewrite ob_set_same, repeat_length. simpl sz.
  split; [lia|]. intros i Hi.
  rewrite (cells_of_ptr _ _ (hnext (hp w)) OwnCpp cs); [|now rewrite ob_set_same|exact F4].
  rewrite F7, nth_repeat_in by lia. reflexivity.
Qed.

Lemma ctor_int_done w o t n c :
  world_shape w -> (forall a, ~ owns (ob w o) a) ->
  1 <= n -> cap115 n = Done c -> n <= c -> c <= hlim (hp w) ->
  exists w', ctor_int o t n w = (Done tt, w') /\ step1 w w' o /\
    ob w' o = mkStore KBuffer t (Some (hnext (hp w))) n c true mp_none false /\
    holds w' o (repeat (zero_of t) (Z.to_nat n)).
Proof.
  intros W D Hn C Hc HL. pose proof (ws_lim _ W) as Lim.
  destruct (fresh_block w c n (fun _ => Some (zero_of t)) W) as [w1 [cs [E [F1 [F2 [F3 [F4 [F5 [F6 F7]]]]]]]]]; [lia|lia|].
  unfold ctor_int. unfold cap115 in C. rewrite C, bind_lift_done.
  replace (0 <? n) with true by (symmetry; apply Z.ltb_lt; lia). rewrite bind_ass_true.
  rewrite (bind_done _ _ _ _ _ (new_ok w c HL)).
  unfold wr. rewrite (bind_done _ _ _ _ _ E).
  eexists. split; [reflexivity|].
  assert (ST : step1 w (set_ob w1 o (mkStore KBuffer t (Some (hnext (hp w))) n c true mp_none false)) o).
  { eapply step1_ctor; eauto; simpl; lia. }
  split; [exact ST|]. split; [apply ob_set_same|].
  apply holds_cells; [apply ST|]. rewrite ob_set_same, repeat_length. simpl sz.
  split; [lia|]. intros i Hi.
  rewrite (cells_of_ptr _ _ (hnext (hp w)) OwnCpp cs); [|now rewrite ob_set_same|exact F4].
  rewrite F7, nth_repeat_in by lia. reflexivity.
Qed.

(** Setting an object that owns nothing to an empty one. *)
Lemma step1_empty w o s :
  world_shape w -> (forall a, ~ owns (ob w o) a) ->
  ptr s = None -> sz s = 0 -> cap s = 0 -> step1 w (set_ob w o s) o.
Proof.
  intros W D P Sz Cp. apply step1_build; auto.
  - intros. now apply ob_set_other.
  - intros b Hb. now apply (ws_fresh _ W).
  - intros b [Hb|Hb] own cs H; [exfalso; eapply D; eauto|].
    simpl in H. rewrite (ws_fresh _ W b Hb) in H. discriminate.
  - rewrite ob_set_same. unfold store_shape. rewrite P. repeat split; auto; lia.
  - intros b. rewrite ob_set_same. intros [Hb _]. congruence.
Qed.

Lemma ctor_default_done w o t :
  world_shape w -> (forall a, ~ owns (ob w o) a) ->
  exists w', ctor_default o t w = (Done tt, w') /\ step1 w w' o /\
    ob w' o = store_default KBuffer t /\ holds w' o [].
Proof.
  intros W D. eexists. split; [reflexivity|].
  split; [now apply step1_empty|]. split; [apply ob_set_same|].
  split; [rewrite ob_set_same; reflexivity|]. simpl. lia.
Qed.

(** Copying a block. *)
Lemma for_copy w p a cs own c :
  hblk (hp w) p = Live own cs -> p <> a ->
  forall cs0, hblk (hp w) a = Live OwnCpp cs0 -> 0 <= c ->
  c <= Z.of_nat (List.length cs) -> c <= Z.of_nat (List.length cs0) ->
  exists w' cs', for_ c (fun i => copy_cell (Some p) (Some a) i) w = (Done tt, w') /\
    upd_cells w w' a OwnCpp cs' /\ List.length cs' = List.length cs0 /\
    forall j, nth j cs' None = if Z.of_nat j <? c then nth j cs None else nth j cs0 None.
Proof.
  intros Hp Ne cs0 Ha Hc L1 L2.
  destruct (for_wr_gen (fun k => nth (Z.to_nat k) cs None) (fun i => copy_cell (Some p) (Some a) i)
              w a OwnCpp cs0 0 (Z.to_nat c) Ha) as [w' [cs' [E [U [Len Nth]]]]]; [lia|lia| |].
  - intros k w1 cs1 Hk [U1 [U2 [U3 [U4 U5]]]] Len1. unfold copy_cell.
    rewrite U5, Hp by auto.
    replace ((0 <=? k) && (k <? Z.of_nat (List.length cs))) with true; [reflexivity|].
    symmetry; apply andb_true_intro; split; [apply Z.leb_le|apply Z.ltb_lt]; lia.
  - exists w', cs'. split; [exact E|]. split; [exact U|]. split; [exact Len|].
    intros j. rewrite Nth, Nat2Z.id.
    replace (0 <=? Z.of_nat j) with true by (symmetry; apply Z.leb_le; lia).
    rewrite Z.add_0_l, Z2Nat.id by lia. reflexivity.
Qed.

Lemma ctor_copy_done w o other :
  world_shape w -> (forall a, ~ owns (ob w o) a) -> o <> other ->
  kd (ob w other) = KBuffer -> sz (ob w other) <= cap (ob w other) ->
  cap (ob w other) <= hlim (hp w) ->
  (alloc (ob w other) = true -> cap (ob w other) = 0 \/ ptr (ob w other) <> None) ->
  exists w', ctor_copy o other w = (Done tt, w') /\ step1 w w' o /\
    sz (ob w' o) = sz (ob w other) /\ cap (ob w' o) = cap (ob w other) /\
    sty (ob w' o) = sty (ob w other) /\ mp (ob w' o) = mp_none /\ kd (ob w' o) = KBuffer /\
    forall l, holds w other l -> holds w' o l.
Proof.
  intros W D Ne K SC HL HA. pose proof (ws_lim _ W) as Lim.
  pose proof (ws_store _ W other) as S. unfold store_shape in S.
  unfold ctor_copy. rewrite bind_st.
  destruct (alloc (ob w other)) eqn:A.
  - rewrite (bind_done _ _ _ _ _ (new_ok w _ HL)).
    assert (S0 : 0 <= cap (ob w other)) by tauto.
    assert (Hal : exists w1 cs1, for_ (cap (ob w other))
             (fun i => copy_cell (ptr (ob w other)) (Some (hnext (hp w))) i)
             (new_world w (cap (ob w other))) = (Done tt, w1) /\
             upd_cells (new_world w (cap (ob w other))) w1 (hnext (hp w)) OwnCpp cs1 /\
             List.length cs1 = Z.to_nat (cap (ob w other)) /\
             forall j, Z.of_nat j < cap (ob w other) -> nth j cs1 None = nth j (cells_of w other) None).
    { destruct (Z.eq_dec (cap (ob w other)) 0) as [Z0|NZ].
      - rewrite Z0. exists (new_world w 0), []. split; [reflexivity|]. split; [|split].
        + unfold upd_cells. simpl. rewrite Nat.eqb_refl. auto.
        + reflexivity.
        + intros; lia.
      - destruct (ptr (ob w other)) as [p|] eqn:P; [|exfalso; destruct (HA eq_refl); auto].
        destruct S as [S1 [S2 [S3 [cs [S4 [S5 S6]]]]]].
        assert (Lt := live_lt _ _ _ _ W S4).
        destruct (for_copy (new_world w (cap (ob w other))) p (hnext (hp w)) cs (owner_of (ob w other))
                   (cap (ob w other))) with (cs0 := repeat (@None val) (Z.to_nat (cap (ob w other))))
          as [w1 [cs1 [E [U [Len Nth]]]]].
        + simpl. replace (Nat.eqb p (hnext (hp w))) with false by (symmetry; apply Nat.eqb_neq; lia). exact S4.
        + lia.
        + simpl. now rewrite Nat.eqb_refl.
        + exact S2.
        + exact S6.
        + rewrite repeat_length. lia.
        + exists w1, cs1. split; [exact E|]. split; [exact U|].
          rewrite repeat_length in Len. split; [exact Len|].
          intros j Hj. rewrite Nth. apply Z.ltb_lt in Hj. rewrite Hj.
          now rewrite (cells_of_ptr w other p _ cs P S4). }
    destruct Hal as [w1 [cs1 [E [U [Len Nth]]]]].
    rewrite (bind_done _ _ _ _ _ E).
    eexists. split; [reflexivity|].
    destruct U as [U1 [U2 [U3 [U4 U5]]]].
    match goal with |- context [set_ob w1 o ?s] =>
      assert (ST : step1 w (set_ob w1 o s) o) end.
    { eapply step1_ctor; eauto; simpl; rewrite ?Len; try lia.
      intros b Hb. rewrite U5 by auto. simpl.
      now replace (Nat.eqb b (hnext (hp w))) with false by (symmetry; now apply Nat.eqb_neq). }
    split; [exact ST|]. rewrite ob_set_same. simpl. repeat split; auto.
    + intros; rewrite ?ob_set_same, ?oid_eqb_refl; simpl; apply H.
    + intros i Hi. apply at_rd_cells; [apply ST| |].
      * rewrite ob_set_same. simpl. destruct H as [H _]. lia.
      * rewrite Nat2Z.id.
        rewrite (cells_of_ptr _ _ (hnext (hp w)) OwnCpp cs1); [|now rewrite ob_set_same|exact U4].
        rewrite Nth by (destruct H as [H _]; lia).
        now apply holds_in.
  - assert (P : ptr (ob w other) = None).
    { destruct (ptr (ob w other)); auto. destruct S as [_ [_ [S _]]]. congruence. }
    rewrite P in S. destruct S as [S1 [S2 [S3 S4]]].
    eexists. split; [reflexivity|].
    split; [apply step1_empty; auto|].
    rewrite ob_set_same. simpl. repeat split; auto.
    + intros; rewrite ?ob_set_same, ?oid_eqb_refl; simpl; apply H.
    + intros i Hi. destruct H as [H _]. lia.
Qed.

(** Destruction. *)
Lemma destroy_done w o : world_shape w -> kd (ob w o) = KBuffer ->
  exists w', destroy o w = (Done tt, w') /\ step1 w w' o /\ (forall a, ~ owns (ob w' o) a) /\
    ptr (ob w' o) = None /\ sz (ob w' o) = 0 /\ kd (ob w' o) = KBuffer.
Proof.
  intros W K. pose proof (ws_store _ W o) as S. unfold store_shape in S.
  unfold destroy. rewrite bind_st.
  destruct (ptr (ob w o)) as [a|] eqn:P.
  - destruct S as [S1 [S2 [S3 [cs [S4 [S5 S6]]]]]].
    assert (Oc : owner_of (ob w o) = OwnCpp) by (unfold owner_of; now rewrite K).
    rewrite Oc in S4. rewrite S3. rewrite (bind_done _ _ _ _ _ (del_own _ _ _ S4)).
    assert (Lt := live_lt _ _ _ _ W S4).
    eexists. split; [reflexivity|]. split; [|rewrite ob_set_same; simpl; repeat split; auto; intros b [Hb _]; discriminate].
    apply step1_build; auto.
    + intros o1 N1. simpl. now rewrite oid_eqb_neq.
    + intros b Hb. simpl in *. replace (Nat.eqb b a) with false by (symmetry; apply Nat.eqb_neq; lia).
      now apply (ws_fresh _ W).
    + intros b Hb Nb. simpl. destruct (Nat.eqb_spec b a); auto. subst b. exfalso. apply Nb. split; auto.
    + intros b Hb own cs0 H. simpl in H. exfalso. destruct (Nat.eqb_spec b a); [discriminate|].
      destruct Hb as [[Pb _]|Hb]; [congruence|]. rewrite (ws_fresh _ W b Hb) in H. discriminate.
    + rewrite ob_set_same. unfold store_shape. simpl. repeat split; lia.
    + intros b. rewrite ob_set_same. intros [Hb _]. discriminate.
  - destruct S as [S1 [S2 [S3 S4]]]. exists w. split; [reflexivity|]. split; [now apply step1_refl|].
    repeat split; auto. intros a [Ha _]. congruence.
Qed.

(* -------------------------------------------------------------- growth *)

Lemma realloc_done w o n c :
  world_shape w -> kd (ob w o) = KBuffer -> init_upto (hp w) (ob w o) (sz (ob w o)) ->
  sz (ob w o) <= n -> cap115_int n = Done c -> n <= c -> c <= hlim (hp w) ->
  exists w', realloc o n w = (Done tt, w') /\ step1 w w' o /\
    kd (ob w' o) = KBuffer /\ sty (ob w' o) = sty (ob w o) /\ mp (ob w' o) = mp (ob w o) /\
    sz (ob w' o) = n /\ cap (ob w' o) = c /\ alloc (ob w' o) = true /\
    ptr (ob w' o) = Some (hnext (hp w)) /\
    forall j, Z.of_nat j < n -> nth j (cells_of w' o) None =
       if Z.of_nat j <? sz (ob w o) then nth j (cells_of w o) None
       else Some (zero_of (sty (ob w o))).
Proof.
  intros W K I Hn C Hc HL. pose proof (ws_lim _ W) as Lim.
  pose proof (ws_store _ W o) as S. unfold store_shape in S.
  assert (S1 : 0 <= sz (ob w o)) by tauto.
  unfold realloc. rewrite bind_st, C, bind_lift_done, bind_upd.
  set (w0 := set_ob w o (with_cap c (ob w o))).
  assert (HL0 : c <= hlim (hp w0)) by exact HL.
  rewrite (bind_done _ _ _ _ _ (new_ok w0 c HL0)).
  change (hnext (hp w0)) with (hnext (hp w)).
  set (a := hnext (hp w)).
  assert (Ba : hblk (hp (new_world w0 c)) a = Live OwnCpp (repeat None (Z.to_nat c))).
  { simpl. unfold a. now rewrite Nat.eqb_refl. }
  assert (L1 : exists w1 cs1, for_ (sz (ob w o)) (fun i => v <- rd (ptr (ob w o)) i ;; wr (Some a) i v)
                 (new_world w0 c) = (Done tt, w1) /\
               upd_cells (new_world w0 c) w1 a OwnCpp cs1 /\ List.length cs1 = Z.to_nat c /\
               forall j, Z.of_nat j < sz (ob w o) -> nth j cs1 None = nth j (cells_of w o) None).
  { destruct (ptr (ob w o)) as [p|] eqn:P.
    - destruct S as [_ [S2 [S3 [cs [S4 [S5 S6]]]]]].
      assert (Lt := live_lt _ _ _ _ W S4).
      destruct (for_wr_gen (fun k => nth (Z.to_nat k) cs None)
                 (fun i => v <- rd (Some p) i ;; wr (Some a) i v)
                 (new_world w0 c) a OwnCpp (repeat None (Z.to_nat c)) 0 (Z.to_nat (sz (ob w o))) Ba)
        as [w1 [cs1 [E [U [Len Nth]]]]].
      + lia.
      + rewrite repeat_length. lia.
      + intros k w1 cs1 Hk [U1 [U2 [U3 [U4 U5]]]] Len1.
        destruct (I p _ cs P S4 k) as [v Hv]; [lia|].
        rewrite (bind_done _ _ _ v w1).
        * rewrite Hv. reflexivity.
        * eapply rd_ok; [|lia|exact Hv].
          rewrite U5 by (unfold a; lia). simpl.
          replace (Nat.eqb p (hnext (hp w))) with false by (symmetry; apply Nat.eqb_neq; lia).
          exact S4.
      + exists w1, cs1. split; [exact E|]. split; [exact U|].
        rewrite repeat_length in Len. split; [exact Len|].
        intros j Hj. rewrite Nth, Nat2Z.id.
        replace (0 <=? Z.of_nat j) with true by (symmetry; apply Z.leb_le; lia).
        rewrite Z.add_0_l, Z2Nat.id by lia. apply Z.ltb_lt in Hj. rewrite Hj.
        now rewrite (cells_of_ptr w o p _ cs P S4).
    - destruct S as [_ [S2 [S3 S4]]]. rewrite S3.
      exists (new_world w0 c), (repeat None (Z.to_nat c)). split; [reflexivity|].
      rewrite repeat_length. split; [|split; [reflexivity|intros; lia]].
      unfold upd_cells. auto. }
  destruct L1 as [w1 [cs1 [E1 [[U1 [U2 [U3 [U4 U5]]]] [Len1 Nth1]]]]].
  rewrite (bind_done _ _ _ _ _ E1).
  destruct (for_wr (fun _ => Some (zero_of (sty (ob w o)))) w1 a OwnCpp cs1 (sz (ob w o))
              (Z.to_nat (n - sz (ob w o))) U4) as [w2 [cs2 [E2 [[V1 [V2 [V3 [V4 V5]]]] [Len2 Nth2]]]]]; [lia|lia|].
  unfold wr in *. rewrite (bind_done _ _ _ _ _ E2).
  assert (D : exists w3, del (ptr (ob w o)) w2 = (Done tt, w3) /\ ob w3 = ob w2 /\
     hnext (hp w3) = hnext (hp w2) /\ hlim (hp w3) = hlim (hp w2) /\ hblk (hp w3) a = hblk (hp w2) a /\
     (forall b, b <> a -> owns (ob w o) b -> hblk (hp w3) b = Freed) /\
     (forall b, b <> a -> ~ owns (ob w o) b -> hblk (hp w3) b = hblk (hp w2) b)).
  { destruct (ptr (ob w o)) as [p|] eqn:P.
    - destruct S as [_ [S2 [S3 [cs [S4 [S5 S6]]]]]].
      assert (Lt := live_lt _ _ _ _ W S4).
      assert (Oc : owner_of (ob w o) = OwnCpp) by (unfold owner_of; now rewrite K).
      assert (B2 : hblk (hp w2) p = Live OwnCpp cs).
      { rewrite V5, U5 by (unfold a; lia). simpl.
        replace (Nat.eqb p (hnext (hp w))) with false by (symmetry; apply Nat.eqb_neq; lia).
        now rewrite S4, Oc. }
      rewrite (del_own _ _ _ B2). eexists. split; [reflexivity|]. simpl. repeat split; auto.
      + replace (Nat.eqb a p) with false by (symmetry; apply Nat.eqb_neq; unfold a; lia). reflexivity.
      + intros b Hb [Pb _]. assert (b = p) by congruence. subst b. now rewrite Nat.eqb_refl.
      + intros b Hb Nb. destruct (Nat.eqb_spec b p); auto. subst b. exfalso. apply Nb. split; auto.
    - exists w2. split; [reflexivity|]. repeat split; auto. intros b _ [Pb _]. congruence. }
  destruct D as [w3 [E3 [D1 [D2 [D3 [D4 [D5 D6]]]]]]].
  rewrite (bind_done _ _ _ _ _ E3). rewrite !bind_upd.
  eexists. split; [reflexivity|].
  assert (Ow3 : ob w3 o = with_cap c (ob w o)).
  { rewrite D1, V1, U1. simpl. now rewrite oid_eqb_refl. }
  match goal with |- step1 w ?W' o /\ _ => set (w' := W') end.
  assert (Ow' : ob w' o = mkStore KBuffer (sty (ob w o)) (Some a) n c true (mp (ob w o)) (todel (ob w o))).
  { unfold w'. rewrite !ob_set_same, Ow3. unfold with_alloc, with_sz, with_ptr, with_cap. simpl. now rewrite K. }
  assert (Hb' : hp w' = hp w3) by reflexivity.
  assert (B' : hblk (hp w') a = Live OwnCpp cs2) by (rewrite Hb', D4; exact V4).
  assert (LenF : List.length cs2 = Z.to_nat c) by congruence.
  split; [|rewrite Ow'; simpl; repeat split; auto].
  - eapply (step1_fresh w w' o cs2); auto; rewrite ?Ow'; simpl; auto; try (rewrite LenF; lia).
    + intros o' No. simpl. rewrite !oid_eqb_neq by auto. rewrite D1, V1, U1. simpl. now rewrite oid_eqb_neq.
    + rewrite D3, V3, U3. reflexivity.
    + rewrite D2, V2, U2. reflexivity.
    + intros b Hb Nb. change (hblk (hp w3) b = hblk (hp w) b).
      rewrite D6, V5, U5 by auto. simpl.
      now replace (Nat.eqb b (hnext (hp w))) with false by (symmetry; now apply Nat.eqb_neq).
  - intros j Hj. rewrite (cells_of_ptr w' o a OwnCpp cs2); [|now rewrite Ow'|exact B'].
    rewrite Nth2.
    destruct (Z.ltb_spec (Z.of_nat j) (sz (ob w o))) as [L|L].
    + replace (sz (ob w o) <=? Z.of_nat j) with false by (symmetry; apply Z.leb_gt; lia).
      simpl. now apply Nth1.
    + replace (sz (ob w o) <=? Z.of_nat j) with true by (symmetry; apply Z.leb_le; lia).
      replace (Z.of_nat j <? sz (ob w o) + Z.of_nat (Z.to_nat (n - sz (ob w o)))) with true
        by (symmetry; apply Z.ltb_lt; lia).
      reflexivity.
Qed.

Lemma cap115_int_0 : cap115_int 0 = Done 0.
Proof. reflexivity. Qed.

Lemma wrap64_id z : 0 <= z < 2 ^ 64 -> wrap64 z = z.
Proof. intros. unfold wrap64. now apply Z.mod_small. Qed.
Lemma to_int_id z : 0 <= z < 2 ^ 31 -> to_int z = z.
Proof.
  intros H. unfold to_int. rewrite Z.mod_small by lia.
  replace (z <? 2 ^ 31) with true by (symmetry; apply Z.ltb_lt; lia). reflexivity.
Qed.

(** push_back to an owning store whose capacity is not below its size. *)
Lemma push_back_done w o l v :
  world_shape w -> kd (ob w o) = KBuffer -> holds w o l -> sz (ob w o) <= cap (ob w o) ->
  (sz (ob w o) = cap (ob w o) ->
     sz (ob w o) <= 933500000 /\ 4 * sz (ob w o) + 2 <= hlim (hp w)) ->
  exists w', push_back o v w = (Done tt, w') /\ step1 w w' o /\ holds w' o (l ++ [v]) /\
    kd (ob w' o) = KBuffer /\ sty (ob w' o) = sty (ob w o) /\ mp (ob w' o) = mp (ob w o) /\
    sz (ob w' o) <= cap (ob w' o).
Proof.
  intros W K H SC HG. pose proof (ws_lim _ W) as Lim. pose proof (proj1 H) as Sz.
  pose proof (inited_holds w o l W H) as I.
  unfold push_back. rewrite bind_st.
  destruct (Z.eqb_spec (sz (ob w o)) (cap (ob w o))) as [EC|NC].
  - destruct (HG EC) as [HG1 HG2]. clear HG.
    pose (m := if sz (ob w o) =? 0 then 1 else sz (ob w o) * 2).
    assert (Hm : sz (ob w o) + 1 <= m <= 1867000000 /\ m <= 2 * sz (ob w o) + 1).
    { unfold m. destruct (Z.eqb_spec (sz (ob w o)) 0); lia. }
    destruct (cap115_int_ok m) as [c [C [C1 C2]]]; [lia|].
    destruct (realloc_done w o m c W K I) as [w1 [E1 [ST1 [R1 [R2 [R3 [R4 [R5 [R6 [R7 R8]]]]]]]]]]; auto; try lia.
    assert (Em : (if sz (ob w o) =? 0 then realloc o 1 else realloc o (wrap64 (sz (ob w o) * 2))) w
                 = (Done tt, w1)).
    { rewrite <- E1. unfold m. destruct (sz (ob w o) =? 0); auto. rewrite wrap64_id by lia. reflexivity. }
    rewrite (bind_done _ _ _ _ _ Em). rewrite bind_upd, bind_st.
    rewrite ob_set_same. cbn [ptr with_cap].
    rewrite to_int_id, wrap64_id by lia.
    pose proof (ptr_live _ _ _ (s1_shape _ _ _ ST1) R7) as [cs [B [L1 L2]]].
    assert (Ow : owner_of (ob w1 o) = OwnCpp) by (unfold owner_of; now rewrite R1).
    rewrite Ow in B.
    set (w2 := set_ob w1 o (with_cap (sz (ob w1 o)) (ob w1 o))).
    assert (ST2 : step1 w1 w2 o).
    { apply (step1_upd w1 o (fun s => with_cap (sz s) s)); auto; [apply ST1|].
      pose proof (ws_store _ (s1_shape _ _ _ ST1) o) as S. unfold store_shape in *.
      simpl. rewrite R7 in *. destruct S as [S1 [S2 [S3 [cs' [S4 [S5 S6]]]]]].
      repeat split; auto. exists cs'. auto. }
    assert (B2 : hblk (hp w2) (hnext (hp w)) = Live OwnCpp cs) by exact B.
    destruct (wrc_ok w2 (hnext (hp w)) (sz (ob w o)) (Some v) OwnCpp cs B2) as [w3 [E3 U3]].
    { lia. }
    unfold wr. rewrite R7. rewrite (bind_done _ _ _ _ _ E3).
    rewrite wrap64_id by lia.
    eexists. split; [reflexivity|].
    assert (Ow2 : ob w2 o = with_cap (sz (ob w1 o)) (ob w1 o)) by apply ob_set_same.
    assert (ST3 : step1 w2 w3 o).
    { eapply step1_cells; eauto.
      - apply ST2.
      - split; rewrite Ow2; auto.
      - apply list_set_length. }
    destruct U3 as [V1 [V2 [V3 [V4 V5]]]].
    assert (Ow3 : ob w3 o = with_cap (sz (ob w1 o)) (ob w1 o)) by (rewrite V1; exact Ow2).
    match goal with |- step1 w ?W' o /\ _ => set (w' := W') end.
    assert (ST4 : step1 w3 w' o).
    { apply (step1_upd w3 o (with_sz (sz (ob w o) + 1))); auto; [apply ST3|].
      pose proof (ws_store _ (s1_shape _ _ _ ST3) o) as S. unfold store_shape in *.
      simpl. rewrite Ow3 in *. simpl in *. rewrite R7 in *.
      destruct S as [S1 [S2 [S3 [cs' [S4 [S5 S6]]]]]].
      repeat split; auto; try lia. exists cs'. repeat split; auto. lia. }
    assert (Ow' : ob w' o = with_sz (sz (ob w o) + 1) (with_cap (sz (ob w1 o)) (ob w1 o))).
    { unfold w'. rewrite ob_set_same, Ow3. reflexivity. }
    assert (ST : step1 w w' o) by (eapply step1_trans; [exact ST1|]; eapply step1_trans; [exact ST2|]; eapply step1_trans; eauto).
    split; [exact ST|]. rewrite Ow'. simpl. repeat split; auto; try lia.
    + rewrite Ow', app_length. simpl. lia.
    + intros i Hi. rewrite app_length in Hi. simpl in Hi.
      apply at_rd_cells; [apply ST|rewrite Ow'; simpl; lia|]. rewrite Nat2Z.id.
      erewrite (cells_of_ptr w' o (hnext (hp w)) OwnCpp); [|rewrite Ow'; exact R7|exact V4].
      rewrite list_set_nth.
      replace (Nat.ltb (Z.to_nat (sz (ob w o))) (List.length cs)) with true
        by (symmetry; apply Nat.ltb_lt; lia).
      rewrite andb_true_r.
      destruct (Nat.eqb_spec i (Z.to_nat (sz (ob w o)))) as [Ei|Ni].
      * rewrite app_nth2 by lia. replace (i - List.length l)%nat with 0%nat by lia. reflexivity.
      * rewrite app_nth1 by lia.
        rewrite <- (cells_of_ptr w1 o (hnext (hp w)) OwnCpp cs R7 B).
        rewrite R8 by lia.
        replace (Z.of_nat i <? sz (ob w o)) with true by (symmetry; apply Z.ltb_lt; lia).
        apply holds_in; auto. lia.
  - replace (sz (ob w o) <? cap (ob w o)) with true by (symmetry; apply Z.ltb_lt; lia).
    clear HG.
    assert (HP : exists a, ptr (ob w o) = Some a).
    { pose proof (ws_store _ W o) as S. unfold store_shape in S.
      destruct (ptr (ob w o)); eauto. lia. }
    destruct HP as [a P].
    destruct (ptr_live _ _ _ W P) as [cs [B [L1 L2]]].
    assert (Ow : owner_of (ob w o) = OwnCpp) by (unfold owner_of; now rewrite K).
    rewrite Ow in B. pose proof (proj1 (ws_len _ W _ _ _ B)) as LB.
    unfold wr. rewrite P.
    destruct (wrc_ok w a (sz (ob w o)) (Some v) OwnCpp cs B) as [w3 [E3 U3]]; [lia|].
    rewrite (bind_done _ _ _ _ _ E3). rewrite wrap64_id by lia.
    eexists. split; [reflexivity|].
    assert (ST3 : step1 w w3 o).
    { eapply step1_cells; eauto.
      - split; auto.
      - apply list_set_length. }
    destruct U3 as [V1 [V2 [V3 [V4 V5]]]].
    match goal with |- step1 w ?W' o /\ _ => set (w' := W') end.
    assert (ST4 : step1 w3 w' o).
    { apply (step1_upd w3 o (with_sz (sz (ob w o) + 1))); auto; [apply ST3|].
      pose proof (ws_store _ (s1_shape _ _ _ ST3) o) as S. unfold store_shape in *.
      simpl. rewrite V1 in *. simpl in *. rewrite P in *.
      destruct S as [S1 [S2 [S3 [cs' [S4 [S5 S6]]]]]].
      repeat split; auto; try lia. exists cs'. repeat split; auto. lia. }
    assert (Ow' : ob w' o = with_sz (sz (ob w o) + 1) (ob w o)).
    { unfold w'. rewrite ob_set_same, V1. reflexivity. }
    assert (ST : step1 w w' o) by (eapply step1_trans; eauto).
    split; [exact ST|]. rewrite Ow'. simpl. repeat split; auto; try lia.
    + rewrite Ow', app_length. simpl. lia.
    + intros i Hi. rewrite app_length in Hi. simpl in Hi.
      apply at_rd_cells; [apply ST|rewrite Ow'; simpl; lia|]. rewrite Nat2Z.id.
      erewrite (cells_of_ptr w' o a OwnCpp); [|rewrite Ow'; exact P|exact V4].
      rewrite list_set_nth.
      replace (Nat.ltb (Z.to_nat (sz (ob w o))) (List.length cs)) with true
        by (symmetry; apply Nat.ltb_lt; lia).
      rewrite andb_true_r.
      destruct (Nat.eqb_spec i (Z.to_nat (sz (ob w o)))) as [Ei|Ni].
      * rewrite app_nth2 by lia. replace (i - List.length l)%nat with 0%nat by lia. reflexivity.
      * rewrite app_nth1 by lia.
        rewrite <- (cells_of_ptr w o a OwnCpp cs P B).
        apply holds_in; auto. lia.
Qed.
