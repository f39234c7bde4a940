(** Proof of C05: no history of storage operations corrupts memory. *)
From Coq Require Import ZArith List String Bool Lia.
From Verif Require Import Base Num StoreModel VecModel Spec SpecExpr SpecHist CapProofs StoreProofs StoreOps VecProofs VecAssign StoreThms.
Import ListNotations.
Open Scope Z_scope.

Definition hist_ok (w : world) : Prop :=
  world_ok w /\ (forall o, kd (ob w o) = KBuffer) /\ no_leak w.

Lemma hist_step1 w w' o : hist_ok w -> step1 w w' o -> kd (ob w' o) = KBuffer -> inited w' o ->
  hist_ok w'.
Proof.
  intros [WO [K NL]] S Ko I. split; [eapply step1_ok; eauto|]. split.
  - intros o'. destruct (oid_dec o' o) as [->|N]; auto.
    destruct (s1_other _ _ _ S o' N) as [E _]. rewrite E. auto.
  - eapply step1_no_leak; eauto.
Qed.

Lemma hist_holds w w' o l : hist_ok w -> step1 w w' o -> kd (ob w' o) = KBuffer -> holds w' o l ->
  hist_ok w'.
Proof.
  intros H S K L. eapply hist_step1; eauto. eapply inited_buffer; eauto. apply S.
Qed.

(** What a run of one operation may do. *)
Definition safe_out (op : sop) (r : outcome unit * world) : Prop :=
  match r with
  | (Done _, w') => hist_ok w'
  | (Thrown e, w') => continues op e = true -> hist_ok w'
  | (Undef _, _) => False
  end.

Lemma cap_le_lim w o : world_shape w -> kd (ob w o) = KBuffer -> cap (ob w o) <= hlim (hp w).
Proof.
  intros W K. pose proof (ws_lim _ W). pose proof (ws_store _ W o) as S. unfold store_shape in S.
  destruct (ptr (ob w o)); [|lia]. destruct S as [_ [_ [_ [cs [B [_ L]]]]]].
  assert (Ow : owner_of (ob w o) = OwnCpp) by (unfold owner_of; now rewrite K).
  pose proof (proj2 (ws_len _ W _ _ _ B) Ow). lia.
Qed.

Lemma safe_new w o t n : hist_ok w -> op_pre w (SNew o t n) -> safe_out (SNew o t n) (ctor_size o t n w).
Proof.
  intros H [D Hn]. pose proof H as [WO [K NL]]. pose proof (world_ok_shape _ WO) as W.
  destruct (ctor_size_cases w o t n W D) as [[_ [m X]]|[[_ [X _]]|[[_ [X Y]]|[N [c [w1 [Bc [X [S [O L]]]]]]]]]];
    [lia| | | |]; rewrite X; simpl; auto; [lia|].
  eapply hist_holds; eauto. rewrite O. reflexivity.
Qed.

Lemma safe_newint w o t n : hist_ok w -> op_pre w (SNewInt o t n) -> safe_out (SNewInt o t n) (ctor_int o t n w).
Proof.
  intros H [D Hn]. pose proof H as [WO [K NL]]. pose proof (world_ok_shape _ WO) as W.
  destruct (Z.eq_dec n 0) as [->|N0].
  { simpl. auto. }
  destruct (cap115_ok n) as [c [C Bc]]; [lia|].
  destruct (Z.leb_spec c (hlim (hp w))) as [L|L].
  - destruct (ctor_int_done w o t n c W D) as [w1 [E [S [O Ho]]]]; auto; try lia.
    simpl. rewrite E. eapply hist_holds; eauto. rewrite O. reflexivity.
  - unfold ctor_int. unfold cap115 in C. rewrite C, bind_lift_done.
    replace (0 <? n) with true by (symmetry; apply Z.ltb_lt; lia). rewrite bind_ass_true.
    rewrite (bind_thrown _ _ _ _ _ (new_fail w c L)). simpl. auto.
Qed.

Lemma safe_default w o t : hist_ok w -> op_pre w (SDefault o t) -> safe_out (SDefault o t) (ctor_default o t w).
Proof.
  intros H D. pose proof H as [WO [K NL]]. pose proof (world_ok_shape _ WO) as W.
  destruct (ctor_default_done w o t W D) as [w1 [E [S [O L]]]]. rewrite E. simpl.
  eapply hist_holds; eauto. rewrite O. reflexivity.
Qed.

Lemma safe_copy w o src : hist_ok w -> op_pre w (SCopy o src) -> safe_out (SCopy o src) (ctor_copy o src w).
Proof.
  intros H [D [Ne SC]]. pose proof H as [WO [K NL]]. pose proof (world_ok_shape _ WO) as W.
  destruct (ctor_copy_done w o src W D Ne (K src) SC) as [w1 [E [S [_ [_ [_ [_ [Ko Hl]]]]]]]].
  - now apply cap_le_lim.
  - intros _. pose proof (ws_store _ W src) as Sh. unfold store_shape in Sh.
    destruct (ptr (ob w src)); [right; congruence|left; lia].
  - rewrite E. simpl. destruct (inited_ex w src WO) as [l L]. eapply hist_holds; eauto.
Qed.

Lemma safe_move w o src : hist_ok w -> op_pre w (SMove o src) -> safe_out (SMove o src) (ctor_move o src w).
Proof.
  intros H [D Ne]. pose proof H as [WO [K NL]]. pose proof (world_ok_shape _ WO) as W.
  unfold ctor_move. rewrite bind_st, bind_upd.
  set (s1 := mkStore KBuffer (sty (ob w src)) (ptr (ob w src)) (sz (ob w src)) (cap (ob w src)) (alloc (ob w src)) mp_none false).
  unfold upd. rewrite ob_set_other by auto.
  set (s2 := with_ptr None (with_alloc false (with_sz 0 (with_cap 0 (ob w src))))).
  simpl. set (w' := set_ob (set_ob w o s1) src s2).
  assert (Eo : ob w' o = s1) by (unfold w'; rewrite ob_set_other by auto; apply ob_set_same).
  assert (Es : ob w' src = s2) by (apply ob_set_same).
  assert (Ex : forall o', o' <> o -> o' <> src -> ob w' o' = ob w o').
  { intros o' N1 N2. unfold w'. now rewrite !ob_set_other by auto. }
  assert (Oo : forall b, owns s1 b <-> owns (ob w src) b).
  { intros b. unfold owns, owner_of, s1. simpl. rewrite (K src). tauto. }
  assert (Os : forall b, ~ owns s2 b) by (intros b [P _]; discriminate).
  assert (Hp : hp w' = hp w) by reflexivity.
  assert (Sh : store_shape (hp w) s1).
  { pose proof (ws_store _ W src) as Sh. unfold store_shape, s1, owner_of in *. simpl. rewrite (K src) in Sh. exact Sh. }
  assert (W' : world_shape w').
  { split.
    - apply (ws_fresh _ W).
    - intros o'. rewrite Hp. destruct (oid_dec o' o) as [->|N1]; [now rewrite Eo|].
      destruct (oid_dec o' src) as [->|N2].
      + rewrite Es. unfold store_shape, s2. simpl. lia.
      + rewrite Ex by auto. apply (ws_store _ W).
    - assert (SW : forall o' b, owns (ob w' o') b -> o' <> src /\ owns (ob w (if oid_eqb o' o then src else o')) b).
      { intros o' b Ho. destruct (oid_dec o' src) as [->|N2]; [exfalso; rewrite Es in Ho; now apply (Os b)|].
        split; auto. destruct (oid_eqb_spec o' o) as [->|N1]; [rewrite Eo in Ho; now apply Oo|]. now rewrite Ex in Ho. }
      intros o1 o2 a H1 H2. apply SW in H1. apply SW in H2. destruct H1 as [N1 H1], H2 as [N2 H2].
      pose proof (ws_sep _ W _ _ _ H1 H2) as E.
      destruct (oid_eqb_spec o1 o), (oid_eqb_spec o2 o); subst; congruence.
    - apply (ws_lim _ W).
    - apply (ws_len _ W). }
  split; [split; [exact W'|]|split].
  - intros o'. destruct WO as [_ IN]. destruct (oid_dec o' o) as [->|N1]; [|destruct (oid_dec o' src) as [->|N2]].
    + split; rewrite Eo; [|simpl; congruence]. destruct (IN src) as [I _]. exact I.
    + split; rewrite Es; [|unfold s2; simpl; rewrite K; congruence]. intros a own cs P. discriminate.
    + apply (inited_same w w' o'); auto. split; [now apply Ex|auto].
  - intros o'. destruct (oid_dec o' o) as [->|N1]; [now rewrite Eo|].
    destruct (oid_dec o' src) as [->|N2]; [rewrite Es; apply K|rewrite Ex by auto; apply K].
  - intros a cs B. rewrite Hp in B. destruct (NL a cs B) as [o' O].
    destruct (oid_dec o' src) as [->|N2].
    + exists o. rewrite Eo. now apply Oo.
    + exists o'. assert (o' <> o) by (intros ->; now apply (D a)). rewrite Ex; auto.
Qed.

Lemma safe_resize w o n : hist_ok w -> op_pre w (SResize o n) -> safe_out (SResize o n) (resize o n w).
Proof.
  intros H [Hn Hr]. pose proof H as [WO [K NL]]. pose proof (world_ok_shape _ WO) as W.
  destruct (resize_cases w o n W (K o)) as [c w1 E1 N C Bc R|m E1 _|m E1 _ _ _|w1 E1 _ _ Oth Pq Kq Aq Fr|w1 E1 X];
    [lia| | | | |]; rewrite E1; simpl; auto; try discriminate; [|lia].
  destruct R as [ST [Kt [Tt [Mt [Dt [St [At [Pt [Ct Rest]]]]]]]]].
  eapply hist_step1; eauto. split; [|rewrite Kt; congruence]. rewrite St.
  intros a own cs P B i Hi. rewrite <- (cells_of_ptr _ _ _ _ _ P B).
  destruct (Z.ltb_spec (cap (ob w o)) n) as [L|L].
  - destruct Rest as [_ Rest]. exists (zero_of (sty (ob w o))). apply Rest. lia.
  - destruct Rest as [_ [Pq Rest]]. rewrite Rest.
    destruct WO as [_ IN]. destruct (IN o) as [I _].
    rewrite Pq in P. destruct (ptr_live _ _ _ W P) as [cs0 [B0 _]].
    rewrite (cells_of_ptr _ _ _ _ _ P B0). eapply I; eauto. lia.
Qed.

Lemma safe_fill w o v : hist_ok w -> op_pre w (SFill o v) -> safe_out (SFill o v) (fill o v w).
Proof.
  intros H [v' Hv]. pose proof H as [WO [K NL]]. pose proof (world_ok_shape _ WO) as W.
  pose proof (ws_store _ W o) as Sh. unfold store_shape in Sh.
  destruct (ptr (ob w o)) as [a|] eqn:P.
  - destruct Sh as [S1 [S2 [S3 [cs [B [L1 L2]]]]]].
    destruct (fill_ok w o v a _ cs P B) with (v' := v') as [w' [cs' [E [U [Len Nth]]]]]; auto.
    rewrite E. simpl.
    assert (Ow : owner_of (ob w o) = OwnCpp) by (unfold owner_of; now rewrite K). rewrite Ow in *.
    assert (ST : step1 w w' o) by (eapply step1_cells; eauto; split; auto).
    destruct U as [U1 [U2 [U3 [U4 U5]]]].
    eapply hist_step1; eauto; [now rewrite U1|].
    split; rewrite U1; [|rewrite K; congruence].
    intros a' own cs0 P' B' i Hi. assert (a' = a) by congruence. subst a'.
    rewrite U4 in B'. injection B' as <- <-. rewrite Nth.
    replace (Z.of_nat (Z.to_nat i) <? sz (ob w o)) with true by (symmetry; apply Z.ltb_lt; lia). eauto.
  - unfold fill. rewrite bind_st, Hv, bind_lift_done. destruct Sh as [_ [_ [Sz _]]]. rewrite Sz. simpl. auto.
Qed.

Lemma safe_push w o v : hist_ok w -> op_pre w (SPush o v) -> safe_out (SPush o v) (push_back o v w).
Proof.
  intros H [SC G]. pose proof H as [WO [K NL]]. pose proof (world_ok_shape _ WO) as W.
  pose proof (ws_lim _ W) as Lim.
  destruct (inited_ex w o WO) as [l L]. pose proof (proj1 L) as Sz.
  destruct (Z.eq_dec (sz (ob w o)) (cap (ob w o))) as [EC|NC].
  - specialize (G EC).
    pose (m := if sz (ob w o) =? 0 then 1 else sz (ob w o) * 2).
    assert (Hm : sz (ob w o) + 1 <= m <= 1867000000 /\ m <= 2 * sz (ob w o) + 1).
    { unfold m. destruct (Z.eqb_spec (sz (ob w o)) 0); lia. }
    destruct (cap115_int_ok m) as [c [C [C1 C2]]]; [lia|].
    assert (Em : (if sz (ob w o) =? 0 then realloc o 1 else realloc o (wrap64 (sz (ob w o) * 2))) w
                 = realloc o m w).
    { unfold m. destruct (sz (ob w o) =? 0); auto. rewrite wrap64_id by lia. reflexivity. }
    destruct (Z.leb_spec c (hlim (hp w))) as [LH|LH].
    + pose proof (inited_holds w o l W L) as I.
      destruct (realloc_done w o m c W (K o) I) as [w1 [E1 [ST1 [R1 [R2 [R3 [R4 [R5 [R6 [R7 R8]]]]]]]]]]; auto; try lia.
      rewrite E1 in Em.
      unfold push_back. rewrite bind_st. rewrite EC, Z.eqb_refl. rewrite <- EC.
      rewrite (bind_done _ _ _ _ _ Em), bind_upd, bind_st, ob_set_same. simpl ptr. rewrite R7.
      set (w2 := set_ob w1 o (with_cap (sz (ob w1 o)) (ob w1 o))).
      assert (P1 : ptr (ob w1 o) = Some (hnext (hp w))) by exact R7.
      destruct (ptr_live _ _ _ (s1_shape _ _ _ ST1) P1) as [cs [B [L1 L2]]].
      assert (ST2 : step1 w1 w2 o).
      { apply (step1_upd w1 o (fun s => with_cap (sz s) s)); auto; [apply ST1|].
        pose proof (ws_store _ (s1_shape _ _ _ ST1) o) as Sh. unfold store_shape, owner_of in *. simpl.
        rewrite P1 in *. destruct Sh as [T1 [T2 [T3 [cs' [T4 T5]]]]].
        split; [lia|]. split; [lia|]. split; auto. exists cs'. split; [exact T4|lia]. }
      rewrite to_int_id, wrap64_id by lia.
      assert (Ow : owner_of (ob w1 o) = OwnCpp) by (unfold owner_of; now rewrite R1). rewrite Ow in B.
      destruct (wrc_ok w2 (hnext (hp w)) (sz (ob w o)) (Some v) OwnCpp cs) as [w3 [E3 U3]]; [exact B|lia|].
      unfold wr. rewrite (bind_done _ _ _ _ _ E3). rewrite wrap64_id by lia.
      assert (O2 : ob w2 o = with_cap (sz (ob w1 o)) (ob w1 o)) by apply ob_set_same.
      assert (ST3 : step1 w2 w3 o).
      { eapply step1_cells; [apply ST2| |exact B|exact U3|apply list_set_length].
        split; rewrite O2; auto. }
      destruct U3 as [V1 [V2 [V3 [V4 V5]]]].
      assert (ST4 : step1 w3 (set_ob w3 o (with_sz (sz (ob w o) + 1) (ob w3 o))) o).
      { apply (step1_upd w3 o (with_sz (sz (ob w o) + 1))); auto; [apply ST3|].
        rewrite V1, O2. unfold store_shape, owner_of. simpl. rewrite P1, R1, R4.
        split; [lia|]. split; [lia|]. split; [exact R6|].
        exists (list_set cs (Z.to_nat (sz (ob w o))) (Some v)). split; [exact V4|].
        rewrite list_set_length. lia. }
      simpl.
      eapply (hist_step1 w _ o H).
      * eapply step1_trans; [exact ST1|]. eapply step1_trans; [exact ST2|].
        eapply step1_trans; [exact ST3|exact ST4].
      * rewrite ob_set_same. simpl. now rewrite V1, O2.
      * split; rewrite ob_set_same; [|simpl; rewrite V1, O2; simpl; congruence].
        simpl. intros a own cs0 P B0 i Hi. rewrite V1, O2 in P. simpl in P. assert (a = hnext (hp w)) by congruence. subst a.
        rewrite V4 in B0. injection B0 as <- <-. rewrite list_set_nth.
        destruct (Nat.eqb_spec (Z.to_nat i) (Z.to_nat (sz (ob w o)))) as [Ei|Ni].
        -- replace (Nat.ltb (Z.to_nat (sz (ob w o))) (List.length cs)) with true; [simpl; eauto|].
           symmetry. apply Nat.ltb_lt. lia.
        -- simpl. rewrite <- (cells_of_ptr w1 o _ _ cs P1 B). rewrite R8 by lia.
           replace (Z.of_nat (Z.to_nat i) <? sz (ob w o)) with true by (symmetry; apply Z.ltb_lt; lia).
           rewrite (holds_in w o l) by (auto; lia). eauto.
    + unfold push_back. rewrite bind_st. rewrite EC, Z.eqb_refl. rewrite <- EC.
      assert (Er : realloc o m w = (Thrown BadAlloc, set_ob w o (with_cap c (ob w o)))).
      { unfold realloc. rewrite bind_st, C, bind_lift_done, bind_upd.
        erewrite bind_thrown; [reflexivity|]. apply new_fail. simpl. exact LH. }
      rewrite Er in Em. rewrite (bind_thrown _ _ _ _ _ Em). simpl. discriminate.
  - destruct (push_back_done w o l v W (K o) L SC) as [w' [E [S [L' [Ko _]]]]]; [lia|].
    rewrite E. simpl. eapply hist_holds; eauto.
Qed.

Lemma safe_set w o i v : hist_ok w -> op_pre w (SSet o i v) -> safe_out (SSet o i v) (set_at o i v w).
Proof.
  intros H Hi. simpl in Hi. pose proof H as [WO [K NL]]. pose proof (world_ok_shape _ WO) as W.
  destruct (inited_ex w o WO) as [l L].
  assert (E : set_at o i v w = at_wr o i v w).
  { unfold at_wr. rewrite bind_st, K. reflexivity. }
  rewrite E. destruct (Z.ltb_spec i (Z.of_nat (List.length l))) as [Lt|Ge].
  - destruct (at_wr_own w o l i v W (K o) L) as [w' [E' [S [O L']]]]; [lia|].
    rewrite E'. simpl. eapply hist_holds; eauto. now rewrite O.
  - destruct (at_wr_out w o i v) as [m E']; [rewrite (proj1 L); lia|]. rewrite E'. simpl. auto.
Qed.

Lemma safe_get w o i : hist_ok w -> op_pre w (SGet o i) ->
  safe_out (SGet o i) (bind (get_at o i) (fun _ => ret tt) w).
Proof.
  intros H Hi. simpl in Hi. pose proof H as [WO [K NL]]. pose proof (world_ok_shape _ WO) as W.
  destruct (inited_ex w o WO) as [l L].
  assert (E : get_at o i w = at_rd o i w) by (symmetry; apply get_at_rd; rewrite K; congruence).
  destruct (at_rd_bounds w o l i W L Hi) as [B1 B2].
  destruct (Z.ltb_spec i (Z.of_nat (List.length l))) as [Lt|Ge].
  - rewrite (B1 Lt) in E. rewrite (bind_done _ _ _ _ _ E). simpl. auto.
  - destruct (B2 Ge) as [m Em]. rewrite Em in E. rewrite (bind_thrown _ _ _ _ _ E). simpl. auto.
Qed.

(** The element loop of the storage assignment, whatever the sizes are. *)
Lemma assign_loop_safe w o src :
  hist_ok w -> o <> src ->
  match for_ (sz (ob w o)) (fun i => v <- get_at src i ;; wr (ptr (ob w o)) i v) w with
  | (Done _, w') | (Thrown (Ass _), w') => hist_ok w'
  | (Thrown BadAlloc, w') => hist_ok w'
  | (Undef _, _) => False
  end.
Proof.
  intros H Ne. pose proof H as [WO [K NL]]. pose proof (world_ok_shape _ WO) as W.
  destruct (Z.eq_dec (sz (ob w o)) 0) as [Z0|N0].
  { rewrite Z0. simpl. auto. }
  pose proof (ws_store _ W o) as Sh. unfold store_shape in Sh.
  destruct (shape_ptr w o W) as [a P]; [lia|]. rewrite P in *.
  destruct Sh as [S1 [S2 [S3 [cs [B [L1 L2]]]]]].
  assert (Ow : owner_of (ob w o) = OwnCpp) by (unfold owner_of; now rewrite K). rewrite Ow in B.
  assert (OO : owns (ob w o) a) by (split; auto).
  destruct (inited_ex w src WO) as [l L].
  pose (I := fun w1 => exists cs1, upd_cells w w1 a OwnCpp cs1 /\ List.length cs1 = List.length cs /\
     forall i, 0 <= i < sz (ob w o) -> exists v, nth (Z.to_nat i) cs1 None = Some v).
  assert (IH : forall w1, I w1 -> hist_ok w1).
  { intros w1 [cs1 [U [Len Ini]]].
    assert (ST : step1 w w1 o) by (eapply step1_cells; eauto).
    destruct U as [U1 [U2 [U3 [U4 U5]]]].
    eapply hist_step1; eauto; [now rewrite U1|].
    split; rewrite U1; [|rewrite K; congruence].
    intros a' own cs0 P' B' i Hi. assert (a' = a) by congruence. subst a'.
    rewrite U4 in B'. injection B' as <- <-. auto. }
  assert (I0 : I w).
  { exists cs. split; [unfold upd_cells; auto|]. split; auto.
    intros i Hi. destruct WO as [_ IN]. destruct (IN o) as [Io _]. eapply Io; eauto. }
  pose proof (forN_all (fun _ => I) I (fun _ _ => False)
     (fun i => v <- get_at src i ;; wr (Some a) i v) (Z.to_nat (sz (ob w o))) 0 w I0) as F.
  unfold for_. 
  assert (G : forall k w1, 0 <= k < 0 + Z.of_nat (Z.to_nat (sz (ob w o))) -> I w1 ->
     match (v <- get_at src k;; wr (Some a) k v) w1 with
     | (Done _, w') => I w' | (Thrown _, w') => I w' | (Undef _, _) => False end).
  { intros k w1 Hk I1. pose proof I1 as [cs1 [U [Len Ini]]].
    assert (SO : same_obj w w1 src) by (eapply upd_cells_other; eauto).
    assert (L' : holds w1 src l) by (eapply holds_same; eauto).
    pose proof (IH w1 I1) as [WO1 [K1 NL1]].
    assert (E : get_at src k w1 = at_rd src k w1) by (symmetry; apply get_at_rd; rewrite K1; congruence).
    destruct (at_rd_bounds w1 src l k (world_ok_shape _ WO1) L' ltac:(lia)) as [B1 B2].
    destruct (Z.ltb_spec k (Z.of_nat (List.length l))) as [Lt|Ge].
    - rewrite (B1 Lt) in E. rewrite (bind_done _ _ _ _ _ E).
      pose proof U as [U1 [U2 [U3 [U4 U5]]]].
      destruct (wrc_ok w1 a k (Some (nth (Z.to_nat k) l (VB false))) OwnCpp cs1 U4) as [w2 [E2 V]]; [lia|].
      unfold wr. rewrite E2. exists (list_set cs1 (Z.to_nat k) (Some (nth (Z.to_nat k) l (VB false)))).
      destruct V as [V1 [V2 [V3 [V4 V5]]]].
      split; [|split].
      + unfold upd_cells. repeat split; try congruence. intros b Hb. rewrite V5, U5; auto.
      + now rewrite list_set_length.
      + intros i Hi. rewrite list_set_nth. destruct (_ && _)%bool; eauto.
    - destruct (B2 Ge) as [m Em]. rewrite Em in E. rewrite (bind_thrown _ _ _ _ _ E). exact I1. }
  specialize (F G).
  destruct (forN _ _ _ w) as [[[]|[m|]|u] w']; auto.
Qed.

Lemma safe_assign w o src : hist_ok w -> op_pre w (SAssign o src) -> safe_out (SAssign o src) (assign_store o src w).
Proof.
  intros H Hs. simpl in Hs. pose proof H as [WO [K NL]]. pose proof (world_ok_shape _ WO) as W.
  pose proof (ws_lim _ W) as Lim.
  unfold assign_store. destruct (oid_eqb_spec o src) as [->|Ne]; [simpl; auto|].
  rewrite !bind_st.
  pose proof (ws_store _ W o) as S0. pose proof (ws_store _ W src) as S1. unfold store_shape in S0, S1.
  assert (Loop : forall w1, hist_ok w1 -> safe_out (SAssign o src)
     (bind (st o) (fun s' => for_ (sz s') (fun i => v <- get_at src i ;; wr (ptr s') i v)) w1)).
  { intros w1 H1. rewrite bind_st. pose proof (assign_loop_safe w1 o src H1 Ne) as F.
    destruct (for_ _ _ w1) as [[[]|[m|]|u] w']; simpl; auto. }
  destruct (Z.ltb_spec (sz (ob w o)) (sz (ob w src))) as [L|L].
  - specialize (Hs L).
    destruct (alloc (ob w o)) eqn:A.
    + rewrite (wrap64_id (sz (ob w src) - _)) by lia.
      replace (sz (ob w o) + (sz (ob w src) - sz (ob w o))) with (sz (ob w src)) by lia.
      rewrite wrap64_id by lia.
      destruct (cap115_int_ok (sz (ob w src))) as [c [C [Bc _]]]; [lia|].
      destruct (Z.leb_spec c (hlim (hp w))) as [LH|LH].
      * destruct (realloc_done w o (sz (ob w src)) c W (K o)) as [w1 [E1 [ST1 [R1 [R2 [R3 [R4 [R5 [R6 [R7 R8]]]]]]]]]]; auto; try lia.
        { destruct WO as [_ IN]. apply (IN o). }
        rewrite (bind_done _ _ _ _ _ E1). apply Loop.
        eapply hist_step1; eauto. split; [|rewrite R1; congruence].
        rewrite R4. intros a own cs P B i Hi. rewrite <- (cells_of_ptr _ _ _ _ _ P B).
        rewrite R8 by lia. destruct (Z.ltb_spec (Z.of_nat (Z.to_nat i)) (sz (ob w o))) as [Li|Li]; eauto.
        destruct (inited_ex w o WO) as [l Lo]. pose proof (proj1 Lo).
        rewrite (holds_in w o l) by (auto; lia). eauto.
      * assert (Er : realloc o (sz (ob w src)) w = (Thrown BadAlloc, set_ob w o (with_cap c (ob w o)))).
        { unfold realloc. rewrite bind_st, C, bind_lift_done, bind_upd.
          erewrite bind_thrown; [reflexivity|]. apply new_fail. simpl. exact LH. }
        rewrite (bind_thrown _ _ _ _ _ Er). simpl. discriminate.
    + assert (cap (ob w o) = 0).
      { destruct (ptr (ob w o)); [destruct S0 as [_ [_ [S0 _]]]; congruence|lia]. }
      pose proof (safe_resize w o (sz (ob w src)) H) as R.
      assert (Pre : op_pre w (SResize o (sz (ob w src)))).
      { simpl. split; lia. }
      specialize (R Pre). unfold bind at 1.
      destruct (resize o (sz (ob w src)) w) as [[[]|[m|]|u] w1]; simpl in R.
      * now apply Loop.
      * simpl. auto.
      * simpl. discriminate.
      * contradiction.
  - rewrite bind_ret. now apply Loop.
Qed.

Lemma safe_swap w o src : hist_ok w -> op_pre w (SSwap o src) -> safe_out (SSwap o src) (moveit o src w).
Proof.
  intros H [Ne [A [Sz Cp]]]. pose proof H as [WO [K NL]]. pose proof (world_ok_shape _ WO) as W.
  destruct (moveit_gen w o src W Ne (K o) (K src) Cp Sz A) as [w' [E S]]. rewrite E. simpl.
  destruct S as [S1 S2 S3 S4 S5 S6 S7]. destruct WO as [_ IN].
  split; [split; [exact S1|]|split].
  - intros o'. destruct (oid_dec o' o) as [->|N1]; [|destruct (oid_dec o' src) as [->|N2]].
    + split; rewrite S3; [|simpl; rewrite K; congruence]. rewrite S2. destruct (IN src) as [I _]. exact I.
    + split; rewrite S4; [|simpl; rewrite K; congruence]. rewrite S2. destruct (IN o) as [I _]. exact I.
    + apply (inited_same w w' o'); auto. split; [now apply S5|]. intros; now rewrite S2.
  - intros o'. destruct (oid_dec o' o) as [->|N1]; [rewrite S3; apply K|].
    destruct (oid_dec o' src) as [->|N2]; [rewrite S4; apply K|rewrite S5 by auto; apply K].
  - intros a cs B. rewrite S2 in B. destruct (NL a cs B) as [o' O].
    destruct (oid_dec o' o) as [->|N1]; [exists src; now apply S7|].
    destruct (oid_dec o' src) as [->|N2]; [exists o; now apply S6|].
    exists o'. now rewrite S5.
Qed.

Lemma safe_destroy w o : hist_ok w -> safe_out (SDestroy o) (destroy o w).
Proof.
  intros H. pose proof H as [WO [K NL]]. pose proof (world_ok_shape _ WO) as W.
  destruct (destroy_done w o W (K o)) as [w' [E [S [D [P [Sz Ko]]]]]]. rewrite E. simpl.
  eapply hist_step1; eauto. split; [|rewrite Ko; congruence]. intros a own cs Pa. congruence.
Qed.

Lemma op_safe op w : hist_ok w -> op_pre w op -> safe_out op (run_op op w).
Proof.
  intros H P. destruct op; cbn [run_op].
  - now apply safe_new.
  - now apply safe_newint.
  - now apply safe_default.
  - now apply safe_copy.
  - now apply safe_move.
  - now apply safe_resize.
  - now apply safe_fill.
  - now apply safe_push.
  - now apply safe_set.
  - now apply safe_get.
  - now apply safe_assign.
  - now apply safe_swap.
  - now apply safe_destroy.
Qed.

Lemma hist_ok_empty lim : 0 <= lim <= 2 ^ 60 -> hist_ok (empty_world lim).
Proof.
  intros H. split; [now apply empty_world_ok|]. split; [reflexivity|apply empty_world_no_leak].
Qed.

Lemma exec_safe ops : forall w, hist_ok w -> allowed ops w ->
  match exec ops w with
  | (Done _, w') => hist_ok w'
  | (Thrown e, _) => e = BadAlloc
  | (Undef _, _) => False
  end.
Proof.
  induction ops as [|op ops IH]; intros w H A; cbn [exec allowed] in *; auto.
  destruct A as [P A]. pose proof (op_safe op w H P) as S.
  destruct (run_op op w) as [[[]|e|u] w']; simpl in S.
  - now apply IH.
  - destruct (continues op e) eqn:C; [apply IH; auto|].
    destruct e; [discriminate|reflexivity].
  - contradiction.
Qed.

Lemma all_gone w : world_shape w -> no_leak w -> (forall o, unborn w o) ->
  forall a cs, hblk (hp w) a <> Live OwnCpp cs.
Proof.
  intros W N D a cs B. destruct (N a cs B) as [o O]. now apply (D o a).
Qed.

Lemma exec_final lim ops : 0 <= lim <= 2 ^ 60 -> allowed ops (empty_world lim) ->
  match exec ops (empty_world lim) with
  | (Done _, w') => world_ok w' /\ no_leak w' /\
      ((forall o, unborn w' o) -> forall a cs, hblk (hp w') a <> Live OwnCpp cs)
  | (Thrown e, _) => e = BadAlloc
  | (Undef _, _) => False
  end.
Proof.
  intros L A. pose proof (exec_safe ops _ (hist_ok_empty lim L) A) as S.
  destruct (exec ops (empty_world lim)) as [[[]|e|u] w']; auto.
  destruct S as [WO [K NL]]. split; [auto|]. split; [auto|].
  apply all_gone; auto. now apply world_ok_shape.
Qed.
