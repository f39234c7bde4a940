(** R objects, wrappers, raw pointers and foreign vectors. *)
From Coq Require Import ZArith List String Bool Lia.
From Verif Require Import Base Num StoreModel VecModel OutModel ForeignModel Spec SpecExpr SpecHist SpecVec SpecForeign
  CapProofs StoreProofs StoreOps VecProofs VecAssign StoreThms StoreHist StoreThms2 BorrowProofs VecEval.
Import ListNotations.
Open Scope Z_scope.
Local Notation length := List.length (only parsing).
Arguments Z.mul : simpl never.

Lemma converted_length t vs us : converted t vs us -> length vs = length us.
Proof. intros H; induction H; simpl; auto. Qed.

Lemma converted_nth t vs us i : converted t vs us -> (i < length vs)%nat ->
  cast t (nth i vs (VB false)) = Done (nth i us (VB false)).
Proof.
  intros H. revert i. induction H; intros i Hi; simpl in *; [lia|].
  destruct i; auto. apply IHForall2. lia.
Qed.

Lemma cast_same t v : ty_of v = t -> cast t v = Done v.
Proof. intros <-. destruct v; reflexivity. Qed.

Lemma converted_plain t xs ys : stand_for t xs ys -> converted t xs ys.
Proof.
  intros H. induction H as [|x y xs ys H]; constructor; auto.
  destruct t; cbn in H; [|destruct H as [-> H]; now apply cast_same..]. destruct H as [b [-> ->]]. now destruct b.
Qed.

Lemma step1_fresh_own w w' o cs :
  world_shape w -> Z.of_nat (length cs) <= hlim (hp w) ->
  (forall o', o' <> o -> ob w' o' = ob w o') ->
  hlim (hp w') = hlim (hp w) -> hnext (hp w') = S (hnext (hp w)) ->
  hblk (hp w') (hnext (hp w)) = Live OwnCpp cs ->
  (forall b, b <> hnext (hp w) -> owns (ob w o) b -> hblk (hp w') b = Freed) ->
  (forall b, b <> hnext (hp w) -> ~ owns (ob w o) b -> hblk (hp w') b = hblk (hp w) b) ->
  owner_of (ob w' o) = OwnCpp -> ptr (ob w' o) = Some (hnext (hp w)) -> alloc (ob w' o) = true ->
  0 <= sz (ob w' o) <= Z.of_nat (length cs) ->
  0 <= cap (ob w' o) <= Z.of_nat (length cs) ->
  step1 w w' o.
Proof.
  intros W Len Oth Lim Nx B Fre Keep K P Al Sz Cp.
  assert (OO : owns (ob w' o) (hnext (hp w))) by (split; auto).
  assert (FN : ~ owns (ob w o) (hnext (hp w))).
  { intros O. destruct (owns_live _ _ _ W O) as [c H]. pose proof (live_lt _ _ _ _ W H). lia. }
  apply step1_build; auto.
  - lia.
  - intros b Hb. rewrite Keep; [apply (ws_fresh _ W); lia|lia|].
    intros O. destruct (owns_live _ _ _ W O) as [c H]. pose proof (live_lt _ _ _ _ W H). lia.
  - intros b Hb Nb. apply Keep; auto. lia.
  - intros b Hb own cs0 H.
    destruct (Nat.eq_dec b (hnext (hp w))) as [->|Ne].
    + rewrite B in H. injection H as <- <-. split; auto.
    + exfalso. destruct (owns_dec (ob w o) b) as [O|O].
      * rewrite Fre in H; auto. discriminate.
      * destruct Hb as [Hb|Hb]; [contradiction|].
        rewrite Keep in H by auto. rewrite (ws_fresh _ W b) in H by lia. discriminate.
  - unfold store_shape. rewrite P. split; [lia|]. split; [lia|]. split; [auto|].
    exists cs. rewrite K. repeat split; auto; lia.
  - intros b [Hb _]. right. assert (b = hnext (hp w)) by congruence. lia.
Qed.

(* ------------------------------------------------------------- R objects *)

Lemma r_is_same t r : r_ty r = t -> r_is t r = true.
Proof. intros <-. unfold r_is. destruct (r_ty r); reflexivity. Qed.
Lemma r_is_other t r : r_ty r <> t -> r_is t r = false.
Proof. unfold r_is. destruct t, (r_ty r); congruence. Qed.

Lemma r_length_has w r xs : r_has w r xs -> r_length r w = (Done (Z.of_nat (length xs)), w).
Proof.
  intros [B L]. unfold r_length. rewrite B, map_length.
  apply Z.leb_le in L. now rewrite L.
Qed.

Lemma r_copy_done w r t a xs ys cs own :
  hblk (hp w) (r_mem r) = Live OwnR (map Some xs) -> converted t xs ys ->
  hblk (hp w) a = Live own cs -> a <> r_mem r -> (length xs <= length cs)%nat ->
  exists w' cs', r_copy r t a (Z.of_nat (length xs)) w = (Done tt, w') /\
    upd_cells w w' a own cs' /\ length cs' = length cs /\
    forall j, (j < length xs)%nat -> nth j cs' None = Some (nth j ys (VB false)).
Proof.
  intros R C B Ne L. unfold r_copy, for_. rewrite Nat2Z.id.
  destruct (for_wr_gen (fun k => Some (nth (Z.to_nat k) ys (VB false)))
    (fun i => v <- rd (Some (r_mem r)) i ;; v' <- lift (cast t v) ;; wr (Some a) i v')
    w a own cs 0 (length xs) B) as [w' [cs' [E [U [Len Nth]]]]]; [lia|lia| |].
  { intros k w1 cs1 Hk U1 _. destruct U1 as [_ [_ [_ [_ U5]]]].
    rewrite (bind_done _ _ _ (nth (Z.to_nat k) xs (VB false)) w1).
    - rewrite (converted_nth t xs ys) by (auto; lia). reflexivity.
    - eapply rd_ok; [rewrite U5 by auto; exact R|lia|]. apply map_some_nth. lia. }
  exists w', cs'. split; [exact E|]. split; [exact U|]. split; [exact Len|].
  intros j Hj. rewrite Nth, Nat2Z.id.
  replace ((0 <=? Z.of_nat j) && (Z.of_nat j <? 0 + Z.of_nat (length xs))) with true; auto.
  symmetry; apply andb_true_intro; split; [apply Z.leb_le|apply Z.ltb_lt]; lia.
Qed.

(** The part of initSEXP that gives the old memory back. *)
Lemma give_back w o : world_shape w -> owner_of (ob w o) = OwnCpp ->
  (alloc (ob w o) = true -> ptr (ob w o) <> None) ->
  exists w1,
    (if alloc (ob w o) then
       ass (match ptr (ob w o) with Some _ => true | None => false end) "try to delete nullptr" ;;
       del (ptr (ob w o)) ;;
       upd o (with_ptr None)
     else ret tt) w = (Done tt, w1) /\
    ob w1 o = with_ptr None (ob w o) /\ (forall o', o' <> o -> ob w1 o' = ob w o') /\
    hlim (hp w1) = hlim (hp w) /\ hnext (hp w1) = hnext (hp w) /\
    (forall b, owns (ob w o) b -> hblk (hp w1) b = Freed) /\
    (forall b, ~ owns (ob w o) b -> hblk (hp w1) b = hblk (hp w) b).
Proof.
  intros W Ow HP. destruct (ptr (ob w o)) as [a|] eqn:P.
  - pose proof (shape_alloc _ _ _ W P) as A. rewrite A.
    destruct (ptr_live _ _ _ W P) as [cs [B _]]. rewrite Ow in B.
    rewrite bind_ass_true, (bind_done _ _ _ _ _ (del_own _ _ _ B)).
    eexists. split; [reflexivity|]. rewrite ob_set_same.
    split; [reflexivity|]. split; [intros; now rewrite ob_set_other|].
    split; [reflexivity|]. split; [reflexivity|]. split.
    + intros b [Pb _]. replace b with a by congruence. simpl. now rewrite Nat.eqb_refl.
    + intros b Nb. simpl. destruct (Nat.eqb_spec b a); auto. subst. exfalso. apply Nb. split; auto.
  - destruct (alloc (ob w o)); [now destruct HP|].
    exists w. split; [reflexivity|]. split.
    + destruct (ob w o). simpl in *. unfold with_ptr. simpl. now rewrite P.
    + repeat split; auto. intros b [Pb _]. congruence.
Qed.

Lemma init_sexp_done w o r xs ys :
  world_shape w -> kd (ob w o) = KBuffer -> (alloc (ob w o) = true -> ptr (ob w o) <> None) ->
  r_ty r = sty (ob w o) -> r_has w r xs -> converted (sty (ob w o)) xs ys ->
  Z.of_nat (length xs) <= hlim (hp w) ->
  exists w', init_sexp o r w = (Done tt, w') /\ step1 w w' o /\
    ob w' o = mkStore KBuffer (sty (ob w o)) (Some (hnext (hp w))) (Z.of_nat (length xs)) (Z.of_nat (length xs))
                true (r_shape r (mp (ob w o))) (todel (ob w o)) /\
    holds w' o ys.
Proof.
  intros W K HP TY RH CV HL.
  assert (Ow : owner_of (ob w o) = OwnCpp) by (unfold owner_of; now rewrite K).
  destruct (give_back w o W Ow HP) as [w1 [E1 [O1 [X1 [L1 [N1 [F1 G1]]]]]]].
  unfold init_sexp. rewrite bind_st. rewrite (bind_done _ _ _ _ _ E1).
  rewrite r_is_same, bind_ass_true by exact TY.
  assert (NO : ~ owns (ob w o) (r_mem r)).
  { intros O. destruct (owns_live _ _ _ W O) as [c H]. destruct RH as [B _]. congruence. }
  pose proof RH as [BR LR]. pose proof (live_lt _ _ _ _ W BR) as Lt.
  assert (RH1 : r_has w1 r xs) by (split; [rewrite G1; auto|auto]).
  rewrite (bind_done _ _ _ _ _ (r_length_has w1 r xs RH1)). rewrite !bind_upd.
  set (n := Z.of_nat (length xs)) in *.
  match goal with |- context [bind (new_ n) _ ?W] => set (w2 := W) end.
  assert (HL2 : n <= hlim (hp w2)) by (change (hlim (hp w2)) with (hlim (hp w1)); lia).
  rewrite (bind_done _ _ _ _ _ (new_ok w2 n HL2)).
  change (hnext (hp w2)) with (hnext (hp w1)). rewrite N1, !bind_upd.
  set (a := hnext (hp w)) in *.
  match goal with |- context [bind (r_copy r _ a n) _ ?W] => set (w3 := W) end.
  assert (B3 : hblk (hp w3) a = Live OwnCpp (repeat None (Z.to_nat n))).
  { unfold w3, w2. simpl. rewrite N1. fold a. now rewrite Nat.eqb_refl. }
  assert (K3 : forall b, b <> a -> hblk (hp w3) b = hblk (hp w1) b).
  { intros b Hb. unfold w3, w2. simpl. rewrite N1. fold a.
    now replace (Nat.eqb b a) with false by (symmetry; now apply Nat.eqb_neq). }
  assert (BR3 : hblk (hp w3) (r_mem r) = Live OwnR (map Some xs)).
  { rewrite K3 by (unfold a; lia). apply RH1. }
  destruct (r_copy_done w3 r (sty (ob w o)) a xs ys _ OwnCpp BR3 CV B3) as [w4 [cs [E4 [[U1 [U2 [U3 [U4 U5]]]] [Len Nth]]]]].
  { unfold a. lia. }
  { rewrite repeat_length. unfold n. lia. }
  fold n in E4. rewrite (bind_done _ _ _ _ _ E4).
  rewrite repeat_length in Len.
  eexists. split; [reflexivity|].
  match goal with |- step1 w ?W' o /\ _ => set (w' := W') end.
  assert (O3 : ob w3 o = mkStore KBuffer (sty (ob w o)) (Some a) n n (alloc (ob w o)) (r_shape r (mp (ob w o))) (todel (ob w o))).
  { unfold w3, w2. simpl. rewrite !oid_eqb_refl, O1. unfold with_mp, with_ptr, with_cap, with_sz. simpl. now rewrite K. }
  assert (O' : ob w' o = mkStore KBuffer (sty (ob w o)) (Some a) n n true (r_shape r (mp (ob w o))) (todel (ob w o))).
  { unfold w'. rewrite ob_set_same, U1, O3. reflexivity. }
  assert (HLC : Z.of_nat (length cs) = n) by (rewrite Len; unfold n; lia).
  assert (ST : step1 w w' o).
  { apply (step1_fresh w w' o cs); auto; rewrite ?O'; simpl; auto; try lia.
    - intros o' No. unfold w'. simpl. rewrite oid_eqb_neq by auto. rewrite U1. unfold w3, w2. simpl.
      rewrite !oid_eqb_neq by auto. now apply X1.
    - rewrite U3. exact L1.
    - rewrite U2. unfold w3, w2. simpl. now rewrite N1.
    - intros b Hb Ob. rewrite U5, K3 by auto. now apply F1.
    - intros b Hb Ob. rewrite U5, K3 by auto. now apply G1. }
  split; [exact ST|]. split; [exact O'|].
  pose proof (converted_length _ _ _ CV) as CL.
  apply holds_cells; [apply ST|]. rewrite O'. simpl. split; [unfold n; lia|].
  intros i Hi. rewrite (cells_of_ptr w' o a OwnCpp cs); [|now rewrite O'|exact U4]. apply Nth. lia.
Qed.

(* --------------------------------------- growing a wrapper's own memory *)

Lemma sexp_realloc_done w o n c :
  world_shape w -> kd (ob w o) = KBorrowSEXP -> (ptr (ob w o) <> None -> todel (ob w o) = true) -> init_upto (hp w) (ob w o) (sz (ob w o)) ->
  sz (ob w o) < n < 2 ^ 31 -> cap115_int n = Done c -> n <= c -> c <= hlim (hp w) ->
  exists w', sexp_realloc o n w = (Done tt, w') /\ step1 w w' o /\
    kd (ob w' o) = KBorrowSEXP /\ todel (ob w' o) = true /\ sty (ob w' o) = sty (ob w o) /\ mp (ob w' o) = mp (ob w o) /\
    sz (ob w' o) = n /\ cap (ob w' o) = c /\ alloc (ob w' o) = true /\
    ptr (ob w' o) = Some (hnext (hp w)) /\
    forall j, Z.of_nat j < n -> nth j (cells_of w' o) None =
       if Z.of_nat j <? sz (ob w o) then nth j (cells_of w o) None
       else Some (zero_of (sty (ob w o))).
Proof.
  intros W K TD I Hn C Hc HL. pose proof (ws_lim _ W) as Lim.
  pose proof (ws_store _ W o) as S. unfold store_shape in S.
  assert (S1 : 0 <= sz (ob w o)) by tauto.
  unfold sexp_realloc. rewrite bind_st, wrap64_id by lia.
  replace (n <=? sz (ob w o)) with false by (symmetry; apply Z.leb_gt; lia).
  rewrite C, bind_lift_done, bind_upd.
  set (w0 := set_ob w o (with_cap c (ob w o))).
  assert (HL0 : c <= hlim (hp w0)) by exact HL.
  rewrite (bind_done _ _ _ _ _ (new_ok w0 c HL0)).
  change (hnext (hp w0)) with (hnext (hp w)).
  set (a := hnext (hp w)).
  assert (Ba : hblk (hp (new_world w0 c)) a = Live OwnCpp (repeat None (Z.to_nat c))).
  { simpl. unfold a. now rewrite Nat.eqb_refl. }
  assert (L1 : exists w1 cs1, for_ (sz (ob w o)) (fun i => v <- rd (ptr (ob w o)) i ;; wr (Some a) i v)
                 (new_world w0 c) = (Done tt, w1) /\
               upd_cells (new_world w0 c) w1 a OwnCpp cs1 /\ List.length cs1 = Z.to_nat c /\
               forall j, Z.of_nat j < sz (ob w o) -> nth j cs1 None = nth j (cells_of w o) None).
  { destruct (ptr (ob w o)) as [p|] eqn:P.
    - destruct S as [_ [S2 [S3 [cs [S4 [S5 S6]]]]]].
      assert (Lt := live_lt _ _ _ _ W S4).
      destruct (for_wr_gen (fun k => nth (Z.to_nat k) cs None)
                 (fun i => v <- rd (Some p) i ;; wr (Some a) i v)
                 (new_world w0 c) a OwnCpp (repeat None (Z.to_nat c)) 0 (Z.to_nat (sz (ob w o))) Ba)
        as [w1 [cs1 [E [U [Len Nth]]]]].
      + lia.
      + rewrite repeat_length. lia.
      + intros k w1 cs1 Hk [U1 [U2 [U3 [U4 U5]]]] Len1.
        destruct (I p _ cs P S4 k) as [v Hv]; [lia|].
        rewrite (bind_done _ _ _ v w1).
        * rewrite Hv. reflexivity.
        * eapply rd_ok; [|lia|exact Hv].
          rewrite U5 by (unfold a; lia). simpl.
          replace (Nat.eqb p (hnext (hp w))) with false by (symmetry; apply Nat.eqb_neq; lia).
          exact S4.
      + exists w1, cs1. split; [exact E|]. split; [exact U|].
        rewrite repeat_length in Len. split; [exact Len|].
        intros j Hj. rewrite Nth, Nat2Z.id.
        replace (0 <=? Z.of_nat j) with true by (symmetry; apply Z.leb_le; lia).
        rewrite Z.add_0_l, Z2Nat.id by lia. apply Z.ltb_lt in Hj. rewrite Hj.
        now rewrite (cells_of_ptr w o p _ cs P S4).
    - destruct S as [_ [S2 [S3 S4]]]. rewrite S3.
      exists (new_world w0 c), (repeat None (Z.to_nat c)). split; [reflexivity|].
      rewrite repeat_length. split; [|split; [reflexivity|intros; lia]].
      unfold upd_cells. auto. }
  destruct L1 as [w1 [cs1 [E1 [[U1 [U2 [U3 [U4 U5]]]] [Len1 Nth1]]]]].
  rewrite (bind_done _ _ _ _ _ E1).
  destruct (for_wr (fun _ => Some (zero_of (sty (ob w o)))) w1 a OwnCpp cs1 (sz (ob w o))
              (Z.to_nat (n - sz (ob w o))) U4) as [w2 [cs2 [E2 [[V1 [V2 [V3 [V4 V5]]]] [Len2 Nth2]]]]]; [lia|lia|].
  unfold wr in *. rewrite (bind_done _ _ _ _ _ E2). rewrite bind_upd.
  set (w2' := set_ob w2 o (with_sz n (ob w2 o))).
  assert (D : exists w3, del (ptr (ob w o)) w2' = (Done tt, w3) /\ ob w3 = ob w2' /\
     hnext (hp w3) = hnext (hp w2) /\ hlim (hp w3) = hlim (hp w2) /\ hblk (hp w3) a = hblk (hp w2) a /\
     (forall b, b <> a -> owns (ob w o) b -> hblk (hp w3) b = Freed) /\
     (forall b, b <> a -> ~ owns (ob w o) b -> hblk (hp w3) b = hblk (hp w2) b)).
  { destruct (ptr (ob w o)) as [p|] eqn:P.
    - destruct S as [_ [S2 [S3 [cs [S4 [S5 S6]]]]]].
      assert (Lt := live_lt _ _ _ _ W S4).
      assert (Oc : owner_of (ob w o) = OwnCpp) by (unfold owner_of; rewrite K, TD by discriminate; reflexivity).
      assert (B2 : hblk (hp w2') p = Live OwnCpp cs).
      { unfold w2'. simpl. rewrite V5, U5 by (unfold a; lia). simpl.
        replace (Nat.eqb p (hnext (hp w))) with false by (symmetry; apply Nat.eqb_neq; lia).
        now rewrite S4, Oc. }
      rewrite (del_own _ _ _ B2). eexists. split; [reflexivity|]. simpl. repeat split; auto.
      + replace (Nat.eqb a p) with false by (symmetry; apply Nat.eqb_neq; unfold a; lia). reflexivity.
      + intros b Hb [Pb _]. assert (b = p) by congruence. subst b. now rewrite Nat.eqb_refl.
      + intros b Hb Nb. destruct (Nat.eqb_spec b p); auto. subst b. exfalso. apply Nb. split; auto.
    - exists w2'. split; [reflexivity|]. repeat split; auto. intros b _ [Pb _]. congruence. }
  destruct D as [w3 [E3 [D1 [D2 [D3 [D4 [D5 D6]]]]]]].
  rewrite (bind_done _ _ _ _ _ E3). rewrite !bind_upd.
  eexists. split; [reflexivity|].
  assert (Ow3 : ob w3 o = with_sz n (with_cap c (ob w o))).
  { rewrite D1. unfold w2'. simpl. rewrite oid_eqb_refl, V1, U1. simpl. now rewrite oid_eqb_refl. }
  match goal with |- step1 w ?W' o /\ _ => set (w' := W') end.
  assert (Ow' : ob w' o = mkStore KBorrowSEXP (sty (ob w o)) (Some a) n c true (mp (ob w o)) true).
  { unfold w'. rewrite !ob_set_same, Ow3. unfold with_alloc, with_todel, with_sz, with_ptr, with_cap. simpl. now rewrite K. }
  assert (Hb' : hp w' = hp w3) by reflexivity.
  assert (B' : hblk (hp w') a = Live OwnCpp cs2) by (rewrite Hb', D4; exact V4).
  assert (LenF : List.length cs2 = Z.to_nat c) by congruence.
  split; [|rewrite Ow'; simpl; repeat split; auto].
  - eapply (step1_fresh_own w w' o cs2); auto; rewrite ?Ow'; simpl; auto; try (rewrite LenF; lia).
    + intros o' No. simpl. rewrite !oid_eqb_neq by auto. rewrite D1. unfold w2'. simpl. rewrite oid_eqb_neq by auto. rewrite V1, U1. simpl. now rewrite oid_eqb_neq.
    + rewrite D3, V3, U3. reflexivity.
    + rewrite D2, V2, U2. reflexivity.
    + intros b Hb Nb. change (hblk (hp w3) b = hblk (hp w) b).
      rewrite D6, V5, U5 by auto. simpl.
      now replace (Nat.eqb b (hnext (hp w))) with false by (symmetry; now apply Nat.eqb_neq).
  - intros j Hj. rewrite (cells_of_ptr w' o a OwnCpp cs2); [|now rewrite Ow'|exact B'].
    rewrite Nth2.
    destruct (Z.ltb_spec (Z.of_nat j) (sz (ob w o))) as [L|L].
    + replace (sz (ob w o) <=? Z.of_nat j) with false by (symmetry; apply Z.leb_gt; lia).
      simpl. now apply Nth1.
    + replace (sz (ob w o) <=? Z.of_nat j) with true by (symmetry; apply Z.leb_le; lia).
      replace (Z.of_nat j <? sz (ob w o) + Z.of_nat (Z.to_nat (n - sz (ob w o)))) with true
        by (symmetry; apply Z.ltb_lt; lia).
      reflexivity.
Qed.

Lemma sexp_push_back_done w o l v :
  world_shape w -> kd (ob w o) = KBorrowSEXP -> (ptr (ob w o) <> None -> todel (ob w o) = true) -> holds w o l -> sz (ob w o) <= cap (ob w o) ->
  (sz (ob w o) = cap (ob w o) ->
     sz (ob w o) <= 933500000 /\ 4 * sz (ob w o) + 2 <= hlim (hp w)) ->
  exists w', sexp_push_back o v w = (Done tt, w') /\ step1 w w' o /\ holds w' o (l ++ [v]) /\
    kd (ob w' o) = KBorrowSEXP /\ todel (ob w' o) = true /\ ptr (ob w' o) <> None /\ sty (ob w' o) = sty (ob w o) /\ mp (ob w' o) = mp (ob w o) /\
    sz (ob w' o) <= cap (ob w' o).
Proof.
  intros W K TD H SC HG. pose proof (ws_lim _ W) as Lim. pose proof (proj1 H) as Sz.
  pose proof (inited_holds w o l W H) as I.
  unfold sexp_push_back. rewrite bind_st.
  destruct (Z.eqb_spec (sz (ob w o)) (cap (ob w o))) as [EC|NC].
  - destruct (HG EC) as [HG1 HG2]. clear HG.
    pose (m := if sz (ob w o) =? 0 then 1 else sz (ob w o) * 2).
    assert (Hm : sz (ob w o) + 1 <= m <= 1867000000 /\ m <= 2 * sz (ob w o) + 1).
    { unfold m. destruct (Z.eqb_spec (sz (ob w o)) 0); lia. }
    destruct (cap115_int_ok m) as [c [C [C1 C2]]]; [lia|].
    destruct (sexp_realloc_done w o m c W K TD I) as [w1 [E1 [ST1 [R1 [R0 [R2 [R3 [R4 [R5 [R6 [R7 R8]]]]]]]]]]]; auto; try lia.
    assert (Em : (if sz (ob w o) =? 0 then sexp_realloc o 1 else sexp_realloc o (to_int (wrap64 (sz (ob w o) * 2)))) w
                 = (Done tt, w1)).
    { rewrite <- E1. unfold m. destruct (Z.eqb_spec (sz (ob w o)) 0); auto. rewrite wrap64_id, to_int_id by lia. reflexivity. }
    rewrite (bind_done _ _ _ _ _ Em). rewrite bind_upd, bind_st.
    rewrite ob_set_same. cbn [ptr with_cap].
    rewrite to_int_id, wrap64_id by lia.
    pose proof (ptr_live _ _ _ (s1_shape _ _ _ ST1) R7) as [cs [B [L1 L2]]].
    assert (Ow : owner_of (ob w1 o) = OwnCpp) by (unfold owner_of; now rewrite R1, R0).
    rewrite Ow in B.
    set (w2 := set_ob w1 o (with_cap (sz (ob w1 o)) (ob w1 o))).
    assert (ST2 : step1 w1 w2 o).
    { apply (step1_upd w1 o (fun s => with_cap (sz s) s)); auto; [apply ST1|].
      pose proof (ws_store _ (s1_shape _ _ _ ST1) o) as S. unfold store_shape in *.
      simpl. rewrite R7 in *. destruct S as [S1 [S2 [S3 [cs' [S4 [S5 S6]]]]]].
      repeat split; auto. exists cs'. auto. }
    assert (B2 : hblk (hp w2) (hnext (hp w)) = Live OwnCpp cs) by exact B.
    destruct (wrc_ok w2 (hnext (hp w)) (sz (ob w o)) (Some v) OwnCpp cs B2) as [w3 [E3 U3]].
    { lia. }
    unfold wr. rewrite R7. rewrite (bind_done _ _ _ _ _ E3).
    rewrite wrap64_id by lia.
    eexists. split; [reflexivity|].
    assert (Ow2 : ob w2 o = with_cap (sz (ob w1 o)) (ob w1 o)) by apply ob_set_same.
    assert (ST3 : step1 w2 w3 o).
    { eapply step1_cells; eauto.
      - apply ST2.
      - split; rewrite Ow2; auto.
      - apply list_set_length. }
    destruct U3 as [V1 [V2 [V3 [V4 V5]]]].
    assert (Ow3 : ob w3 o = with_cap (sz (ob w1 o)) (ob w1 o)) by (rewrite V1; exact Ow2).
    match goal with |- step1 w ?W' o /\ _ => set (w' := W') end.
    assert (ST4 : step1 w3 w' o).
    { apply (step1_upd w3 o (with_sz (sz (ob w o) + 1))); auto; [apply ST3|].
      pose proof (ws_store _ (s1_shape _ _ _ ST3) o) as S. unfold store_shape in *.
      simpl. rewrite Ow3 in *. simpl in *. rewrite R7 in *.
      destruct S as [S1 [S2 [S3 [cs' [S4 [S5 S6]]]]]].
      repeat split; auto; try lia. exists cs'. repeat split; auto. lia. }
    assert (Ow' : ob w' o = with_sz (sz (ob w o) + 1) (with_cap (sz (ob w1 o)) (ob w1 o))).
    { unfold w'. rewrite ob_set_same, Ow3. reflexivity. }
    assert (ST : step1 w w' o) by (eapply step1_trans; [exact ST1|]; eapply step1_trans; [exact ST2|]; eapply step1_trans; eauto).
    split; [exact ST|]. rewrite Ow'. simpl. repeat split; auto; try lia; try congruence.
    + rewrite Ow', app_length. simpl. lia.
    + intros i Hi. rewrite app_length in Hi. simpl in Hi.
      apply at_rd_cells; [apply ST|rewrite Ow'; simpl; lia|]. rewrite Nat2Z.id.
      erewrite (cells_of_ptr w' o (hnext (hp w)) OwnCpp); [|rewrite Ow'; exact R7|exact V4].
      rewrite list_set_nth.
      replace (Nat.ltb (Z.to_nat (sz (ob w o))) (List.length cs)) with true
        by (symmetry; apply Nat.ltb_lt; lia).
      rewrite andb_true_r.
      destruct (Nat.eqb_spec i (Z.to_nat (sz (ob w o)))) as [Ei|Ni].
      * rewrite app_nth2 by lia. replace (i - List.length l)%nat with 0%nat by lia. reflexivity.
      * rewrite app_nth1 by lia.
        rewrite <- (cells_of_ptr w1 o (hnext (hp w)) OwnCpp cs R7 B).
        rewrite R8 by lia.
        replace (Z.of_nat i <? sz (ob w o)) with true by (symmetry; apply Z.ltb_lt; lia).
        apply holds_in; auto. lia.
  - replace (sz (ob w o) <? cap (ob w o)) with true by (symmetry; apply Z.ltb_lt; lia).
    clear HG.
    assert (HP : exists a, ptr (ob w o) = Some a).
    { pose proof (ws_store _ W o) as S. unfold store_shape in S.
      destruct (ptr (ob w o)); eauto. lia. }
    destruct HP as [a P].
    destruct (ptr_live _ _ _ W P) as [cs [B [L1 L2]]].
    assert (TD' : todel (ob w o) = true) by (apply TD; congruence).
    assert (Ow : owner_of (ob w o) = OwnCpp) by (unfold owner_of; now rewrite K, TD').
    rewrite Ow in B. pose proof (proj1 (ws_len _ W _ _ _ B)) as LB.
    unfold wr. rewrite P.
    destruct (wrc_ok w a (sz (ob w o)) (Some v) OwnCpp cs B) as [w3 [E3 U3]]; [lia|].
    rewrite (bind_done _ _ _ _ _ E3). rewrite wrap64_id by lia.
    eexists. split; [reflexivity|].
    assert (ST3 : step1 w w3 o).
    { eapply step1_cells; eauto.
      - split; auto.
      - apply list_set_length. }
    destruct U3 as [V1 [V2 [V3 [V4 V5]]]].
    match goal with |- step1 w ?W' o /\ _ => set (w' := W') end.
    assert (ST4 : step1 w3 w' o).
    { apply (step1_upd w3 o (with_sz (sz (ob w o) + 1))); auto; [apply ST3|].
      pose proof (ws_store _ (s1_shape _ _ _ ST3) o) as S. unfold store_shape in *.
      simpl. rewrite V1 in *. simpl in *. rewrite P in *.
      destruct S as [S1 [S2 [S3 [cs' [S4 [S5 S6]]]]]].
      repeat split; auto; try lia. exists cs'. repeat split; auto. lia. }
    assert (Ow' : ob w' o = with_sz (sz (ob w o) + 1) (ob w o)).
    { unfold w'. rewrite ob_set_same, V1. reflexivity. }
    assert (ST : step1 w w' o) by (eapply step1_trans; eauto).
    split; [exact ST|]. rewrite Ow'. simpl. repeat split; auto; try lia; try congruence.
    + rewrite Ow', app_length. simpl. lia.
    + intros i Hi. rewrite app_length in Hi. simpl in Hi.
      apply at_rd_cells; [apply ST|rewrite Ow'; simpl; lia|]. rewrite Nat2Z.id.
      erewrite (cells_of_ptr w' o a OwnCpp); [|rewrite Ow'; exact P|exact V4].
      rewrite list_set_nth.
      replace (Nat.ltb (Z.to_nat (sz (ob w o))) (List.length cs)) with true
        by (symmetry; apply Nat.ltb_lt; lia).
      rewrite andb_true_r.
      destruct (Nat.eqb_spec i (Z.to_nat (sz (ob w o)))) as [Ei|Ni].
      * rewrite app_nth2 by lia. replace (i - List.length l)%nat with 0%nat by lia. reflexivity.
      * rewrite app_nth1 by lia.
        rewrite <- (cells_of_ptr w o a OwnCpp cs P B).
        apply holds_in; auto. lia.
Qed.
