(** Proofs of the storage properties. *)
From Coq Require Import ZArith List String Bool Lia.
From Verif Require Import Base Num StoreModel VecModel Spec SpecExpr SpecHist CapProofs StoreProofs StoreOps VecProofs VecAssign.
Import ListNotations.
Open Scope Z_scope.
Arguments Z.mul : simpl never.

Lemma empty_world_ok lim : 0 <= lim <= 2 ^ 60 -> world_ok (empty_world lim).
Proof.
  intros H. split.
  - split; simpl; auto.
    + intros o. unfold store_shape. simpl. lia.
    + intros o1 o2 a [P _]. discriminate.
    + discriminate.
  - intros o. split.
    + intros a own cs P. discriminate.
    + simpl. congruence.
Qed.
Lemma empty_world_unborn lim o : unborn (empty_world lim) o.
Proof. intros a [P _]. discriminate. Qed.
Lemma empty_world_no_leak lim : no_leak (empty_world lim).
Proof. intros a cs H. discriminate. Qed.

(* ------------------------------------------------ creation with a length *)

Lemma ctor_size_cases w o t n : world_shape w -> unborn w o -> 0 <= n < 2 ^ 64 ->
  (n = 0 /\ exists m, ctor_size o t n w = (Thrown (Ass m), w)) \/
  (1 <= n /\ ctor_size o t n w = (Thrown BadAlloc, w) /\ hlim (hp w) < 2 * n) \/
  (1 <= n /\ ctor_size o t n w = (Undef UB_cast, w) /\ 2 ^ 64 <= 2 * n) \/
  (1 <= n /\ exists c w', n <= c <= 2 * n /\ ctor_size o t n w = (Done tt, w') /\ step1 w w' o /\
     ob w' o = mkStore KBuffer t (Some (hnext (hp w))) n c true mp_none false /\
     holds w' o (repeat (zero_of t) (Z.to_nat n))).
Proof.
  intros W D Hn. destruct (Z.eq_dec n 0) as [->|N].
  - left. split; auto. eexists. reflexivity.
  - right. destruct (cap115_all n) as [[c [C Bc]]|C]; [lia| |].
    + destruct (Z.leb_spec c (hlim (hp w))) as [L|L].
      * right. right. split; [lia|].
        destruct (ctor_size_done w o t n c W D) as [w' [E R]]; auto; try lia.
        exists c, w'. split; [lia|]. split; [exact E|exact R].
      * left. split; [lia|]. split; [|lia].
        unfold ctor_size. rewrite C, bind_lift_done.
        replace (0 <? n) with true by (symmetry; apply Z.ltb_lt; lia). rewrite bind_ass_true.
        rewrite (bind_thrown _ _ _ _ _ (new_fail w c L)). reflexivity.
    + right. left. split; [lia|]. split.
      * unfold ctor_size. rewrite C. reflexivity.
      * destruct (Z.ltb_spec (2 * n) (2 ^ 64)) as [X|X]; auto.
        exfalso. destruct (mul115_trunc n) as [c [E B]]; [lia|].
        unfold cap115, f2size in C. rewrite E in C.
        replace ((0 <=? c) && (c <? 2 ^ 64)) with true in C; [discriminate|].
        symmetry. apply andb_true_intro. split; [apply Z.leb_le|apply Z.ltb_lt]; lia.
Qed.

Lemma room_ctor w o t n w' : world_shape w -> unborn w o -> 0 <= n < 2 ^ 64 ->
  ctor_size o t n w = (Done tt, w') ->
  exists a cs, ptr (ob w' o) = Some a /\ hblk (hp w') a = Live OwnCpp cs /\ n <= Z.of_nat (List.length cs).
Proof.
  intros W D Hn E.
  destruct (ctor_size_cases w o t n W D Hn) as [[_ [m X]]|[[_ [X _]]|[[_ [X _]]|[N [c [w1 [Bc [X [S [O H]]]]]]]]]];
    rewrite X in E; try discriminate.
  injection E as <-. pose proof (ws_store _ (s1_shape _ _ _ S) o) as Sh. unfold store_shape in Sh.
  rewrite O in Sh. simpl in Sh. rewrite O. simpl.
  destruct Sh as [_ [_ [_ [cs [B [L _]]]]]]. eauto.
Qed.

Lemma room_resize w o n w' : world_shape w -> kd (ob w o) = KBuffer -> n < 2 ^ 64 ->
  resize o n w = (Done tt, w') ->
  exists a cs, ptr (ob w' o) = Some a /\ hblk (hp w') a = Live OwnCpp cs /\ n <= Z.of_nat (List.length cs).
Proof.
  intros W K Hn E.
  destruct (resize_cases w o n W K) as [c w1 E1 N C Bc R|m E1 _|m E1 _ _ _|w1 E1 _ _ Oth _ _ _ _|w1 E1 _];
    try lia; rewrite E1 in E; try discriminate.
  injection E as <-. destruct R as [S [Kt [_ [_ [_ [St [_ [Pt [Ct _]]]]]]]]].
  destruct (ptr (ob w1 o)) as [a|] eqn:P; [|congruence].
  destruct (ptr_live _ _ _ (s1_shape _ _ _ S) P) as [cs [B [L _]]].
  unfold owner_of in B. rewrite Kt in B. exists a, cs. repeat split; auto. lia.
Qed.

Lemma vec_sized_gen w x t n : world_shape w -> unborn w (OD x) -> unborn w (OT x) ->
  1 <= n -> fits w n ->
  exists w', vec_sized x t n w = (Done tt, w') /\ vstep w w' x /\ (world_ok w -> world_ok w') /\
    vholds w' x (repeat (zero_of t) (Z.to_nat n)) /\ mp (ob w' (OD x)) = mp_none /\
    owning w' x /\ ready w' x /\ sty (ob w' (OD x)) = t /\
    n <= cap (ob w' (OD x)) /\ ob w' (OT x) = store_default KBuffer t.
Proof.
  intros W D1 D2 Hn Ft. pose proof (ws_lim _ W).
  unfold fits in Ft. destruct (cap115_ok n) as [c [C Bc]]; [lia|].
  destruct (ctor_size_done w (OD x) t n c W D1) as [w1 [E1 [S1 [O1 H1]]]]; auto; try lia.
  unfold vec_sized. rewrite (bind_done _ _ _ _ _ E1).
  assert (T1 : same_obj w w1 (OT x)) by (apply (s1_other _ _ _ S1); congruence).
  destruct (ctor_default_done w1 (OT x) t (s1_shape _ _ _ S1)) as [w2 [E2 [S2 [O2 H2]]]].
  { intros a Ha. destruct T1 as [T1 _]. rewrite T1 in Ha. now apply (D2 a). }
  exists w2. split; [exact E2|].
  assert (SO : same_obj w1 w2 (OD x)) by (apply (s1_other _ _ _ S2); congruence).
  assert (H3 : vholds w2 x (repeat (zero_of t) (Z.to_nat n))) by (eapply holds_same; eauto).
  destruct SO as [SO _].
  assert (V : vstep w w2 x).
  { eapply vstep_trans; eapply step1_vstep; [left; reflexivity|exact S1|right; reflexivity|exact S2]. }
  split; [exact V|]. split.
  { intros WO. eapply vstep_ok; eauto.
    - eapply inited_buffer; [apply S2| |exact H3]. rewrite SO, O1. reflexivity.
    - eapply inited_buffer; [apply S2| |exact H2]. rewrite O2. reflexivity. }
  split; [exact H3|]. unfold owning, ready, can_assign. rewrite SO, O1, O2. simpl.
  repeat split; auto; try congruence; lia.
Qed.

Lemma vec_sized_done w x t n : world_ok w -> unborn w (OD x) -> unborn w (OT x) ->
  1 <= n -> fits w n ->
  exists w', vec_sized x t n w = (Done tt, w') /\ vstep w w' x /\ world_ok w' /\
    vholds w' x (repeat (zero_of t) (Z.to_nat n)) /\ mp (ob w' (OD x)) = mp_none /\
    owning w' x /\ ready w' x /\ sty (ob w' (OD x)) = t /\
    n <= cap (ob w' (OD x)) /\ ob w' (OT x) = store_default KBuffer t.
Proof.
  intros WO D1 D2 Hn Ft. destruct (vec_sized_gen w x t n (world_ok_shape _ WO) D1 D2 Hn Ft) as [w' [E [V [H R]]]].
  exists w'. auto.
Qed.

Lemma vec_sized_zero w x t : exists m, vec_sized x t 0 w = (Thrown (Ass m), w).
Proof. eexists. reflexivity. Qed.

(* ------------------------------------------------------------ push_back *)

Fixpoint pushes (o : oid) (vs : list val) : M world unit :=
  match vs with
  | [] => ret tt
  | v :: vs' => bind (push_back o v) (fun _ => pushes o vs')
  end.

(** The capacity after push_back doubles when it was used up. *)
Lemma push_back_cap w o l v w' :
  world_shape w -> kd (ob w o) = KBuffer -> holds w o l -> sz (ob w o) <= cap (ob w o) ->
  (sz (ob w o) = cap (ob w o) ->
     sz (ob w o) <= 933500000 /\ 4 * sz (ob w o) + 2 <= hlim (hp w)) ->
  push_back o v w = (Done tt, w') ->
  cap (ob w' o) = if sz (ob w o) =? cap (ob w o) then (if sz (ob w o) =? 0 then 1 else 2 * sz (ob w o))
                  else cap (ob w o).
Proof.
  intros W K H SC HG E. pose proof (ws_lim _ W) as Lim. pose proof (proj1 H) as Sz.
  pose proof (inited_holds w o l W H) as I.
  unfold push_back in E. rewrite bind_st in E.
  destruct (Z.eqb_spec (sz (ob w o)) (cap (ob w o))) as [EC|NC].
  - destruct (HG EC) as [HG1 HG2]. clear HG.
    pose (m := if sz (ob w o) =? 0 then 1 else sz (ob w o) * 2).
    assert (Hm : sz (ob w o) + 1 <= m <= 1867000000 /\ m <= 2 * sz (ob w o) + 1).
    { unfold m. destruct (Z.eqb_spec (sz (ob w o)) 0); lia. }
    destruct (cap115_int_ok m) as [c [C [C1 C2]]]; [lia|].
    destruct (realloc_done w o m c W K I) as [w1 [E1 [ST1 [R1 [R2 [R3 [R4 [R5 [R6 [R7 R8]]]]]]]]]]; auto; try lia.
    assert (Em : (if sz (ob w o) =? 0 then realloc o 1 else realloc o (wrap64 (sz (ob w o) * 2))) w
                 = (Done tt, w1)).
    { rewrite <- E1. unfold m. destruct (sz (ob w o) =? 0); auto. rewrite wrap64_id by lia. reflexivity. }
    rewrite (bind_done _ _ _ _ _ Em) in E. rewrite bind_upd, bind_st in E.
    unfold bind at 1 in E. destruct (wr _ _ _ _) as [[[]|e|u] w3] eqn:E3; try discriminate.
    injection E as <-. rewrite ob_set_same. cbn [cap with_cap with_sz].
    assert (ob w3 o = with_cap (sz (ob w1 o)) (ob w1 o)) as ->.
    { revert E3. unfold wr, wrc. rewrite ob_set_same.
      destruct (ptr _); [|discriminate]. destruct (hblk _ _); try discriminate.
      destruct (_ && _); [|discriminate]. intros X. injection X as <-. simpl. now rewrite oid_eqb_refl. }
    cbn [cap with_cap with_sz]. rewrite R4. unfold m. destruct (sz (ob w o) =? 0); lia.
  - replace (sz (ob w o) <? cap (ob w o)) with true in E by (symmetry; apply Z.ltb_lt; lia).
    unfold bind at 1 in E. destruct (wr _ _ _ _) as [[[]|e|u] w3] eqn:E3; try discriminate.
    injection E as <-. rewrite ob_set_same. cbn [cap with_cap with_sz].
    revert E3. unfold wr, wrc.
    destruct (ptr _); [|discriminate]. destruct (hblk _ _); try discriminate.
    destruct (_ && _); [|discriminate]. intros X. injection X as <-. simpl. reflexivity.
Qed.

(** Zero or a power of two. *)
Definition pow2 (c : Z) : Prop := c = 0 \/ exists k, 0 <= k /\ c = 2 ^ k.

Lemma pow2_lt c : pow2 c -> c < 2 ^ 30 -> c <= 2 ^ 29.
Proof.
  intros [->|[k [Hk ->]]] H; [lia|].
  apply Z.pow_le_mono_r; [lia|]. apply Z.pow_lt_mono_r_iff in H; lia.
Qed.

(** The reserve is less than twice the size. *)
Definition tight (s : store) : Prop := (sz s = 0 /\ cap s = 0) \/ cap s < 2 * sz s.

Lemma pushes_done vs : forall w o l,
  world_shape w -> kd (ob w o) = KBuffer -> holds w o l ->
  sz (ob w o) <= cap (ob w o) -> pow2 (cap (ob w o)) -> tight (ob w o) ->
  Z.of_nat (List.length l + List.length vs) <= 2 ^ 30 ->
  4 * Z.of_nat (List.length l + List.length vs) + 2 <= hlim (hp w) ->
  exists w', pushes o vs w = (Done tt, w') /\ step1 w w' o /\ holds w' o (l ++ vs) /\
    sz (ob w' o) <= cap (ob w' o) /\ pow2 (cap (ob w' o)) /\ tight (ob w' o) /\
    kd (ob w' o) = KBuffer /\
    sty (ob w' o) = sty (ob w o) /\ mp (ob w' o) = mp (ob w o).
Proof.
  induction vs as [|v vs IH]; intros w o l W K H SC P2 TG L30 LL.
  - exists w. rewrite app_nil_r. split; [reflexivity|]. split; [now apply step1_refl|]. auto 10.
  - cbn [pushes List.length] in *. pose proof (proj1 H) as Sz.
    assert (HG : sz (ob w o) = cap (ob w o) ->
      sz (ob w o) <= 933500000 /\ 4 * sz (ob w o) + 2 <= hlim (hp w)).
    { intros EC. split; [|lia].
      pose proof (pow2_lt _ P2) as PL. rewrite <- EC in PL. assert (2 ^ 29 <= 933500000) by lia. lia. }
    destruct (push_back_done w o l v W K H SC HG) as [w1 [E1 [S1 [H1 [K1 [T1 [M1 C1]]]]]]].
    pose proof (push_back_cap w o l v w1 W K H SC HG E1) as Cap.
    rewrite (bind_done _ _ _ _ _ E1).
    pose proof (proj1 H1) as Sz1. rewrite app_length in Sz1. cbn [List.length] in Sz1.
    destruct (IH w1 o (l ++ [v])) as [w2 [E2 [S2 [H2 [C2 [P [TG2 [K2 [T2 M2]]]]]]]]]; auto.
    + apply S1.
    + rewrite Cap. destruct (Z.eqb_spec (sz (ob w o)) (cap (ob w o))) as [EC|NC]; auto.
      destruct (Z.eqb_spec (sz (ob w o)) 0).
      * right. exists 0. split; [lia|reflexivity].
      * destruct P2 as [Z0|[k [Hk Ek]]]; [lia|]. right. exists (k + 1). split; [lia|].
        rewrite Z.pow_add_r by lia. rewrite <- Ek, EC. change (2 ^ 1) with 2. lia.
    + right. rewrite Cap. destruct (Z.eqb_spec (sz (ob w o)) (cap (ob w o))) as [EC|NC].
      * destruct (Z.eqb_spec (sz (ob w o)) 0); lia.
      * destruct TG; lia.
    + rewrite app_length. simpl. lia.
    + rewrite app_length, (s1_lim _ _ _ S1). cbn [List.length]. lia.
    + exists w2. rewrite <- app_assoc in H2. simpl in H2.
      split; [exact E2|]. split; [eapply step1_trans; eauto|]. split; [exact H2|].
      do 4 (split; [assumption|]). split; congruence.
Qed.

Lemma pushes_app vs us o w : pushes o (vs ++ us) w = bind (pushes o vs) (fun _ => pushes o us) w.
Proof.
  revert w. induction vs as [|v vs IH]; intros w; simpl.
  - now rewrite bind_ret.
  - rewrite bind_assoc. unfold bind. destruct (push_back o v w) as [[[]|e|u] w']; auto. apply IH.
Qed.

(** From a vector without elements. *)
Lemma pushes_empty vs w o t : world_ok w -> ob w o = store_default KBuffer t ->
  Z.of_nat (List.length vs) <= 2 ^ 30 ->
  4 * Z.of_nat (List.length vs) + 2 <= hlim (hp w) ->
  exists w', pushes o vs w = (Done tt, w') /\ step1 w w' o /\ world_ok w' /\ holds w' o vs.
Proof.
  intros WO D L1 L2. pose proof (world_ok_shape _ WO) as W.
  assert (H0 : holds w o []) by (split; rewrite ?D; simpl; lia).
  destruct (pushes_done vs w o [] W) as [w' [E [S [H [_ [_ [_ [K _]]]]]]]];
    rewrite ?D; simpl; auto; try lia; try (left; auto; lia).
  exists w'. split; [exact E|]. split; [exact S|]. split; [|exact H].
  eapply step1_ok; eauto. eapply inited_buffer; eauto. apply S.
Qed.

(** At 2^30 elements the next push_back is undefined. *)
Lemma push_back_limit w o v : sz (ob w o) = 2 ^ 30 -> cap (ob w o) = 2 ^ 30 ->
  push_back o v w = (Undef UB_cast, w).
Proof.
  intros S C. unfold push_back. rewrite bind_st, S, C. rewrite Z.eqb_refl.
  replace (2 ^ 30 =? 0) with false by reflexivity.
  unfold realloc. rewrite bind_assoc, bind_st.
  replace (cap115_int (wrap64 (2 ^ 30 * 2))) with (@Undef Z UB_cast) by (vm_compute; reflexivity).
  reflexivity.
Qed.

Lemma pushes_limit vs w o t v : world_ok w -> ob w o = store_default KBuffer t ->
  Z.of_nat (List.length vs) = 2 ^ 30 -> 4 * 2 ^ 30 + 2 <= hlim (hp w) ->
  fst (pushes o (vs ++ [v]) w) = Undef UB_cast.
Proof.
  intros WO D L1 L2. pose proof (world_ok_shape _ WO) as W.
  assert (H0 : holds w o []) by (split; rewrite ?D; simpl; lia).
  assert (PD : exists w', pushes o vs w = (Done tt, w') /\ step1 w w' o /\ holds w' o ([] ++ vs) /\
    sz (ob w' o) <= cap (ob w' o) /\ pow2 (cap (ob w' o)) /\ tight (ob w' o) /\
    kd (ob w' o) = KBuffer /\
    sty (ob w' o) = sty (ob w o) /\ mp (ob w' o) = mp (ob w o)).
  { apply pushes_done; rewrite ?D; simpl; auto; try lia; try (left; auto; lia). }
  destruct PD as [w' [E [S [H [SC [P [TG [K _]]]]]]]].
  rewrite pushes_app, (bind_done _ _ _ _ _ E). cbn [pushes].
  pose proof (proj1 H) as Sz. simpl in Sz. rewrite L1 in Sz.
  assert (C : cap (ob w' o) = 2 ^ 30).
  { destruct TG as [TG|TG]; [lia|]. destruct P as [P|[k [Hk Ek]]]; [lia|].
    rewrite Ek in *. rewrite Sz in *.
    assert (30 <= k). { apply (Z.pow_le_mono_r_iff 2); lia. }
    assert (k < 31). { apply (Z.pow_lt_mono_r_iff 2); lia. }
    now replace k with 30 by lia. }
  erewrite bind_undef; [reflexivity|]. apply push_back_limit; auto.
Qed.

(* -------------------------------------------------------- element access *)

(** A write inside the bounds changes exactly one memory cell. *)
Lemma at_wr_any w o l i v : world_shape w -> holds w o l ->
  0 <= i < Z.of_nat (List.length l) ->
  exists w' a own cs, at_wr o i v w = (Done tt, w') /\ ob w' = ob w /\
    ptr (ob w o) = Some a /\ hblk (hp w) a = Live own cs /\
    hblk (hp w') a = Live own (list_set cs (Z.to_nat i) (Some v)) /\
    (forall b, b <> a -> hblk (hp w') b = hblk (hp w) b) /\
    world_shape w' /\ holds w' o (list_set l (Z.to_nat i) v).
Proof.
  intros W H Hi. pose proof (proj1 H) as E.
  destruct (shape_ptr w o W) as [a P]; [lia|].
  pose proof (shape_alloc _ _ _ W P) as A.
  destruct (ptr_live _ _ _ W P) as [cs [B [S1 S2]]].
  rewrite (at_wr_in w o a i v P A) by lia.
  destruct (wrc_ok w a i (Some v) _ cs B) as [w' [E' U]]; [lia|].
  exists w', a, (owner_of (ob w o)), cs. split; [exact E'|].
  destruct U as [Eo [Nx [Lm [Bl Ot]]]].
  assert (W' : world_shape w').
  { assert (Lt := live_lt _ _ _ _ W B). split.
    - intros b Hb. rewrite Nx in Hb. rewrite Ot by lia. now apply (ws_fresh _ W).
    - intros o'. rewrite Eo. pose proof (ws_store _ W o') as S. unfold store_shape in *.
      destruct (ptr (ob w o')) as [b|]; [|exact S].
      destruct S as [T1 [T2 [T3 [cs' [T4 T5]]]]]. split; [auto|]. split; [auto|]. split; [auto|].
      destruct (Nat.eq_dec b a) as [->|Ne].
      + exists (list_set cs (Z.to_nat i) (Some v)). rewrite Bl, list_set_length.
        rewrite B in T4. injection T4 as <- <-. auto.
      + exists cs'. rewrite Ot by auto. auto.
    - rewrite Eo. apply (ws_sep _ W).
    - rewrite Lm. apply (ws_lim _ W).
    - intros b own cs0 Hb. rewrite Lm. destruct (Nat.eq_dec b a) as [->|Ne].
      + rewrite Bl in Hb. injection Hb as <- <-. rewrite list_set_length.
        apply (ws_len _ W _ _ _ B).
      + rewrite Ot in Hb by auto. apply (ws_len _ W _ _ _ Hb). }
  do 5 (split; [assumption|]). split; [exact W'|]. split.
  - rewrite Eo, list_set_length. exact E.
  - rewrite list_set_length. intros j Hj. apply at_rd_cells; auto; [rewrite Eo; lia|].
    rewrite Nat2Z.id. erewrite (cells_of_ptr w' o a); [|rewrite Eo; exact P|exact Bl].
    rewrite !list_set_nth.
    replace (Nat.ltb (Z.to_nat i) (List.length cs)) with true by (symmetry; apply Nat.ltb_lt; lia).
    replace (Nat.ltb (Z.to_nat i) (List.length l)) with true by (symmetry; apply Nat.ltb_lt; lia).
    destruct (Nat.eqb j (Z.to_nat i)); simpl; [reflexivity|].
    rewrite <- (cells_of_ptr w o a _ cs P B). now apply holds_in.
Qed.

(* -------------------------------------------------- storage assignment *)

Lemma assign_store_loop w o other l a :
  world_shape w -> o <> other -> kd (ob w o) = KBuffer -> kd (ob w other) <> KBorrowSEXP ->
  ptr (ob w o) = Some a -> holds w other l ->
  sz (ob w o) = Z.of_nat (List.length l) ->
  exists w', for_ (sz (ob w o)) (fun i => v <- get_at other i ;; wr (ptr (ob w o)) i v) w = (Done tt, w') /\
    step1 w w' o /\ ob w' = ob w /\ holds w' o l.
Proof.
  intros W Ne K KO P H Sz.
  destruct (ptr_live _ _ _ W P) as [cs [B [L1 L2]]].
  assert (Ow : owner_of (ob w o) = OwnCpp) by (unfold owner_of; now rewrite K).
  rewrite Ow in B. assert (OO : owns (ob w o) a) by (split; auto).
  rewrite P.
  destruct (for_wr_gen (fun k => Some (nth (Z.to_nat k) l (VB false)))
              (fun i => v <- get_at other i ;; wr (Some a) i v) w a OwnCpp cs 0 (List.length l) B)
    as [w' [cs' [E [U [Len Nth]]]]]; [lia|lia| |].
  - intros k w1 cs1 Hk U Len1.
    assert (SO : same_obj w w1 other) by (eapply upd_cells_other; eauto).
    assert (H1 : holds w1 other l) by (eapply holds_same; eauto).
    destruct H1 as [S1 R1]. specialize (R1 (Z.to_nat k) ltac:(lia)). rewrite Z2Nat.id in R1 by lia.
    rewrite get_at_rd in R1 by (destruct SO as [SO _]; now rewrite SO).
    rewrite (bind_done _ _ _ _ _ R1). reflexivity.
  - exists w'. rewrite Sz. unfold for_. rewrite Nat2Z.id. split; [exact E|].
    assert (ST : step1 w w' o) by (eapply step1_cells; eauto).
    destruct U as [U1 [U2 [U3 [U4 U5]]]].
    split; [exact ST|]. split; [exact U1|].
    apply holds_cells; [apply ST|]. rewrite U1. split; [exact Sz|].
    intros i Hi. rewrite (cells_of_ptr w' o a OwnCpp cs'); [|now rewrite U1|exact U4].
    rewrite Nth, Nat2Z.id.
    replace ((0 <=? Z.of_nat i) && (Z.of_nat i <? 0 + Z.of_nat (List.length l))) with true; auto.
    symmetry; apply andb_true_intro; split; [apply Z.leb_le|apply Z.ltb_lt]; lia.
Qed.

Lemma assign_store_done w o other l :
  world_ok w -> o <> other -> kd (ob w o) = KBuffer -> kd (ob w other) = KBuffer ->
  holds w other l -> sz (ob w o) <= sz (ob w other) ->
  sz (ob w other) <= 1867000000 -> fits w (sz (ob w other)) ->
  exists w', assign_store o other w = (Done tt, w') /\ step1 w w' o /\ world_ok w' /\
    holds w' o l /\ holds w' other l /\ kd (ob w' o) = KBuffer.
Proof.
  intros WO Ne K KO H Le LI Ft. pose proof (world_ok_shape _ WO) as W. pose proof (ws_lim _ W) as Lim.
  pose proof (proj1 H) as Sz. unfold fits in Ft.
  unfold assign_store. rewrite oid_eqb_neq by auto. rewrite !bind_st.
  pose proof (ws_store _ W o) as S0. pose proof (ws_store _ W other) as S1. unfold store_shape in S0, S1.
  destruct WO as [_ IN].
  (* after growing *)
  assert (G : exists w1, (if sz (ob w o) <? sz (ob w other)
      then if alloc (ob w o) then realloc o (wrap64 (sz (ob w o) + wrap64 (sz (ob w other) - sz (ob w o))))
           else resize o (sz (ob w other)) else ret tt) w = (Done tt, w1) /\ step1 w w1 o /\
      kd (ob w1 o) = KBuffer /\ sz (ob w1 o) = sz (ob w other) /\
      (ptr (ob w1 o) <> None \/ sz (ob w other) = 0)).
  { destruct (Z.ltb_spec (sz (ob w o)) (sz (ob w other))) as [L|L].
    - destruct (alloc (ob w o)) eqn:A.
      + rewrite (wrap64_id (sz (ob w other) - _)) by lia.
        replace (sz (ob w o) + (sz (ob w other) - sz (ob w o))) with (sz (ob w other)) by lia.
        rewrite wrap64_id by lia.
        destruct (cap115_int_ok (sz (ob w other))) as [c [C [Bc _]]]; [lia|].
        destruct (realloc_done w o (sz (ob w other)) c W K) as [w1 [E1 [ST1 [R1 [R2 [R3 [R4 [R5 [R6 [R7 R8]]]]]]]]]]; auto; try lia.
        { apply (IN o). }
        exists w1. repeat (split; [assumption|]). left. congruence.
      + destruct (cap115_ok (sz (ob w other))) as [c [C Bc]]; [lia|].
        destruct (resize_done w o (sz (ob w other)) c W K) as [w1 [E1 R1]]; auto; try lia; try congruence.
        destruct R1 as [ST1 [Kt [Tt [Mt [Dt [St [At [Pt [Ct Rest]]]]]]]]].
        exists w1. repeat (split; [assumption|]). left. congruence.
    - exists w. split; [reflexivity|]. split; [now apply step1_refl|]. split; [auto|]. split; [lia|].
      destruct (ptr (ob w o)) eqn:P; [left; congruence|right; lia]. }
  destruct G as [w1 [E1 [ST1 [K1 [Sz1 Pt]]]]].
  rewrite (bind_done _ _ _ _ _ E1). rewrite bind_st.
  assert (SO : same_obj w w1 other) by (apply (s1_other _ _ _ ST1); congruence).
  assert (H1 : holds w1 other l) by (eapply holds_same; eauto).
  assert (KO1 : kd (ob w1 other) = KBuffer) by (destruct SO as [SO _]; now rewrite SO).
  destruct Pt as [Pt|Z0].
  - destruct (ptr (ob w1 o)) as [a|] eqn:P; [|congruence].
    destruct (assign_store_loop w1 o other l a) as [w2 [E2 [ST2 [O2 H2]]]]; auto; try congruence.
    { apply ST1. }
    rewrite P in E2.
    exists w2. split; [exact E2|].
    assert (ST : step1 w w2 o) by (eapply step1_trans; eauto).
    split; [exact ST|]. split.
    { eapply step1_ok; eauto; [now split|]. eapply inited_buffer; eauto; [apply ST|now rewrite O2]. }
    split; [exact H2|]. split; [|now rewrite O2].
    eapply holds_same; [apply (s1_other _ _ _ ST2); congruence|exact H1].
  - rewrite Sz1, Z0. exists w1. split; [reflexivity|]. split; [exact ST1|].
    assert (l = []) by (destruct l; [auto|simpl in Sz; lia]). subst l.
    assert (HO : holds w1 o []) by (split; [simpl; lia|simpl; lia]).
    split. { eapply step1_ok; eauto; [now split|]. eapply inited_buffer; eauto. apply ST1. }
    auto.
Qed.

(* ----------------------------------------------------------------- resize *)

Lemma resize_grow w o n : world_ok w -> kd (ob w o) = KBuffer -> cap (ob w o) < n -> 1 <= n ->
  fits w n -> (alloc (ob w o) = true -> ptr (ob w o) <> None) ->
  exists w', resize o n w = (Done tt, w') /\ step1 w w' o /\ world_ok w' /\
    holds w' o (repeat (zero_of (sty (ob w o))) (Z.to_nat n)).
Proof.
  intros WO K Cn Hn Ft HA. pose proof (world_ok_shape _ WO) as W. pose proof (ws_lim _ W).
  unfold fits in Ft. destruct (cap115_ok n) as [c [C Bc]]; [lia|].
  destruct (resize_done w o n c W K Hn C) as [w' [E R]]; auto; try lia.
  destruct R as [ST [Kt [Tt [Mt [Dt [St [At [Pt [Ct Rest]]]]]]]]].
  apply Z.ltb_lt in Cn. rewrite Cn in Rest. destruct Rest as [_ Rest].
  exists w'. split; [exact E|]. split; [exact ST|].
  assert (HH : holds w' o (repeat (zero_of (sty (ob w o))) (Z.to_nat n))).
  { apply holds_cells; [apply ST|]. rewrite repeat_length. split; [lia|].
    intros i Hi. rewrite nth_repeat_in by lia. apply Rest. lia. }
  split; [|exact HH]. eapply step1_ok; eauto. eapply inited_buffer; eauto. apply ST.
Qed.

Lemma resize_within w o n l : world_ok w -> kd (ob w o) = KBuffer -> holds w o l ->
  1 <= n <= cap (ob w o) -> n <= sz (ob w o) ->
  exists w', resize o n w = (Done tt, w') /\ step1 w w' o /\ world_ok w' /\
    holds w' o (firstn (Z.to_nat n) l).
Proof.
  intros WO K H Hn Hs. pose proof (world_ok_shape _ WO) as W.
  pose proof (proj1 H) as Sz.
  assert (B60 : cap (ob w o) <= 2 ^ 60).
  { pose proof (ws_store _ W o) as S. unfold store_shape in S.
    destruct (ptr (ob w o)); [|lia]. destruct S as [_ [_ [_ [cs [B [_ L]]]]]].
    pose proof (proj1 (ws_len _ W _ _ _ B)). lia. }
  destruct (cap115_ok n) as [c [C Bc]]; [lia|].
  destruct (resize_done w o n c W K) as [w' [E R]]; auto; try lia.
  destruct R as [ST [Kt [Tt [Mt [Dt [St [At [Pt [Ct Rest]]]]]]]]].
  replace (cap (ob w o) <? n) with false in Rest by (symmetry; apply Z.ltb_ge; lia).
  destruct Rest as [_ [_ Rest]].
  exists w'. split; [exact E|]. split; [exact ST|].
  assert (HH : holds w' o (firstn (Z.to_nat n) l)).
  { apply holds_cells; [apply ST|]. rewrite firstn_length_le by lia. split; [lia|].
    intros i Hi. rewrite Rest.
    rewrite (holds_in w o l i W H) by lia. f_equal.
    rewrite <- (firstn_skipn (Z.to_nat n) l) at 1. rewrite app_nth1; auto.
    rewrite firstn_length_le; lia. }
  split; [|exact HH]. eapply step1_ok; eauto. eapply inited_buffer; eauto. apply ST.
Qed.

(** Growing inside the reserve: the size is set, the old elements stay, and
    elements beyond are whatever the memory holds. *)
Lemma resize_inside w o n l : world_ok w -> kd (ob w o) = KBuffer -> holds w o l ->
  1 <= n <= cap (ob w o) -> init_upto (hp w) (ob w o) n ->
  exists w' l', resize o n w = (Done tt, w') /\ step1 w w' o /\ world_ok w' /\
    holds w' o l' /\ Z.of_nat (List.length l') = n /\
    forall i, (i < List.length l)%nat -> (i < List.length l')%nat ->
      nth i l' (VB false) = nth i l (VB false).
Proof.
  intros WO K H Hn IU. pose proof (world_ok_shape _ WO) as W.
  assert (B60 : cap (ob w o) <= 2 ^ 60).
  { pose proof (ws_store _ W o) as S. unfold store_shape in S.
    destruct (ptr (ob w o)); [|lia]. destruct S as [_ [_ [_ [cs [B [_ L]]]]]].
    pose proof (proj1 (ws_len _ W _ _ _ B)). lia. }
  destruct (cap115_ok n) as [c [C Bc]]; [lia|].
  destruct (resize_done w o n c W K) as [w' [E R]]; auto; try lia.
  destruct R as [ST [Kt [Tt [Mt [Dt [St [At [Pt [Ct Rest]]]]]]]]].
  replace (cap (ob w o) <? n) with false in Rest by (symmetry; apply Z.ltb_ge; lia).
  destruct Rest as [_ [Pq Rest]].
  assert (IN' : inited w' o).
  { split; [|rewrite Kt; congruence]. rewrite St. intros a own cs P B i Hi.
    rewrite Pq in P.
    destruct (ptr_live _ _ _ W P) as [cs0 [B0 _]].
    rewrite (cells_of_ptr w' o a own cs) in Rest; [|congruence|exact B].
    rewrite (cells_of_ptr w o a _ cs0 P B0) in Rest. subst cs0. eapply IU; eauto. }
  assert (WO' : world_ok w') by (eapply step1_ok; eauto).
  destruct (inited_ex w' o WO') as [l' H'].
  exists w', l'. split; [exact E|]. split; [exact ST|]. split; [exact WO'|]. split; [exact H'|].
  pose proof (proj1 H') as Sz'. split; [lia|].
  intros i Hi Hi'.
  pose proof (holds_in w o l i W H Hi) as A.
  pose proof (holds_in w' o l' i (world_ok_shape _ WO') H' Hi') as B.
  rewrite Rest, A in B. now injection B.
Qed.

(* ------------------------------------------- failing allocation in resize *)

Lemma resize_fail_then_destroy w o n w' : world_shape w -> kd (ob w o) = KBuffer ->
  ptr (ob w o) <> None -> n <= 2 ^ 64 -> resize o n w = (Thrown BadAlloc, w') ->
  fst (destroy o w') = Undef UB_double_free.
Proof.
  intros W K P Hn E.
  destruct (resize_cases w o n W K Hn) as [c w1 E1 N C Bc R|m E1 _|m E1 _ _ _|w1 E1 _ _ Oth Pq Kq Aq Fr|w1 E1 _];
    rewrite E1 in E; try discriminate.
  injection E as <-. destruct (ptr (ob w o)) as [a|] eqn:Pa; [|congruence].
  pose proof (shape_alloc _ _ _ W Pa) as Al.
  unfold destroy. rewrite bind_st, Pq. rewrite Aq, Al.
  erewrite bind_undef; [reflexivity|]. unfold del. rewrite (Fr a eq_refl). reflexivity.
Qed.
