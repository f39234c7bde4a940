(** Lemmas about the distribution functions. *)
From Coq Require Import ZArith List String Bool Lia Arith.
From Verif Require Import Base Num StoreModel VecModel Spec SpecExpr SpecHist CapProofs StoreProofs StoreOps VecProofs
  StoreThms DistriModel SpecDistri.
Import ListNotations.
Open Scope Z_scope.
Local Notation length := List.length (only parsing).

Lemma inr_done {A} (m : M world A) r a w' : m (rw r) = (Done a, w') -> inr m r = (Done a, mkRw w' (rng r) (rlog r)).
Proof. intros H. unfold inr. now rewrite H. Qed.
Lemma inr_pure {A} (m : M world A) r a : m (rw r) = (Done a, rw r) -> inr m r = (Done a, r).
Proof. intros H. rewrite (inr_done _ _ _ _ H). now destruct r. Qed.

(** Element access through [] on an owning vector. *)
Lemma set_at_own w o l i v : world_shape w -> kd (ob w o) = KBuffer -> holds w o l ->
  0 <= i < Z.of_nat (length l) ->
  exists w', set_at o i v w = (Done tt, w') /\ step1 w w' o /\ ob w' = ob w /\
    holds w' o (list_set l (Z.to_nat i) v).
Proof.
  intros W K H Hi. destruct (at_wr_own w o l i v W K H Hi) as [w' [E R]].
  exists w'. split; [|exact R]. unfold at_wr in E. rewrite bind_st, K in E. exact E.
Qed.

(** Vec(double), Vec(int), Vec(size_t). *)
Lemma vec_of_scalar_done w x t v u : world_ok w -> unborn w (OD x) -> unborn w (OT x) -> fits w 1 -> cast t v = Done u ->
  exists w', vec_of_scalar x t v w = (Done tt, w') /\ vstep w w' x /\ world_ok w' /\ vholds w' x [u] /\
    owning w' x /\ sty (ob w' (OD x)) = t /\ mp (ob w' (OD x)) = mp_none.
Proof.
  intros WO D1 D2 Ft C. pose proof (proj1 WO) as W. pose proof (ws_lim _ W).
  unfold fits in Ft. destruct (cap115_ok 1) as [c [Cc Bc]]; [lia|].
  destruct (ctor_int_done w (OD x) t 1 c W D1) as [w1 [E1 [S1 [O1 H1]]]]; auto; try lia.
  unfold vec_of_scalar. rewrite (bind_done _ _ _ _ _ E1).
  assert (T1 : same_obj w w1 (OT x)) by (apply (s1_other _ _ _ S1); congruence).
  destruct (ctor_default_done w1 (OT x) t (s1_shape _ _ _ S1)) as [w2 [E2 [S2 [O2 H2]]]].
  { intros a Ha. destruct T1 as [T1 _]. rewrite T1 in Ha. now apply (D2 a). }
  rewrite (bind_done _ _ _ _ _ E2), C, bind_lift_done.
  assert (SO : same_obj w1 w2 (OD x)) by (apply (s1_other _ _ _ S2); congruence).
  assert (H3 : vholds w2 x [zero_of t]) by (eapply holds_same; eauto).
  destruct SO as [SO _].
  destruct (set_at_own w2 (OD x) [zero_of t] 0 u (s1_shape _ _ _ S2)) as [w3 [E3 [S3 [O3 H4]]]]; auto.
  { rewrite SO, O1. reflexivity. }
  { simpl. lia. }
  exists w3. split; [exact E3|].
  assert (V : vstep w w3 x).
  { eapply vstep_trans; [eapply step1_vstep; [left; reflexivity|exact S1]|].
    eapply vstep_trans; eapply step1_vstep; [right; reflexivity|exact S2|left; reflexivity|exact S3]. }
  assert (SO3 : same_obj w2 w3 (OT x)) by (apply (s1_other _ _ _ S3); congruence).
  split; [exact V|]. split.
  { eapply vstep_ok; eauto.
    - eapply inited_buffer; [apply S3| |exact H4]. rewrite O3, SO, O1. reflexivity.
    - eapply inited_buffer; [apply S3| |eapply holds_same; [exact SO3|exact H2]]. rewrite O3, O2. reflexivity. }
  split; [exact H4|]. unfold owning. rewrite O3, SO, O1, O2. simpl. auto.
Qed.

(** The argument a has the elements l in state r. *)
Definition gives (a : darg) (l : list flt) (r : rworld) : Prop :=
  dlength a r = Z.of_nat (length l) /\
  forall i, (i < length l)%nat -> dget a (Z.of_nat i) r = (Done (nth i l fzero), r).

Lemma gives_var x l r : vholds (rw r) x (map VD l) -> gives (of_var x) l r.
Proof.
  intros [S H]. rewrite map_length in *. split; [exact S|]. intros i Hi. cbn [dget of_var].
  rewrite (bind_done _ _ _ _ _ (inr_pure _ _ _ (H i Hi))).
  rewrite (nth_indep _ _ (VD fzero)), map_nth by (now rewrite map_length). reflexivity.
Qed.
Lemma gives_list l r : gives (of_list l) l r.
Proof.
  split; [reflexivity|]. intros i Hi. cbn [dget of_list].
  replace (Z.of_nat i <? Z.of_nat (length l)) with true by (symmetry; apply Z.ltb_lt; lia).
  now rewrite Nat2Z.id.
Qed.

Lemma gives_rec a l r i : gives a l r -> l <> [] -> rec_get a (Z.of_nat i) r = (Done (lane l i), r).
Proof.
  intros [S H] Ne. assert (N : length l <> O) by (now destruct l). unfold rec_get, bind, get. rewrite S. unfold modz.
  replace (Z.of_nat (length l) =? 0) with false by (symmetry; apply Z.eqb_neq; lia).
  cbn [lift]. rewrite <- Nat2Z.inj_mod. apply H. now apply Nat.mod_upper_bound.
Qed.
Lemma lane_0 l : l <> [] -> lane l 0 = nth 0 l fzero.
Proof. intros N. unfold lane. rewrite Nat.mod_0_l; auto. now destruct l. Qed.
Lemma gives_first a l r : gives a l r -> l <> [] -> dget a 0 r = (Done (lane l 0), r).
Proof. intros [S H] Ne. rewrite lane_0 by auto. apply (H O). destruct l; [congruence|simpl; lia]. Qed.
Lemma gives_rec0 a l r : gives a l r -> l <> [] -> rec_get a 0 r = (Done (lane l 0), r).
Proof. apply (gives_rec a l r 0). Qed.

(** One locked round that stores v in element i. *)
Definition one_round : list ev := [ELock; EGet; EPut; EUnlock].
Lemma round_done res l i v (m : M rworld flt) r s' : world_shape (rw r) -> kd (ob (rw r) (OD res)) = KBuffer ->
  vholds (rw r) res l -> 0 <= i < Z.of_nat (length l) ->
  m (mkRw (rw r) (rng r) (rlog r ++ [ELock; EGet])) = (Done v, mkRw (rw r) s' (rlog r ++ [ELock; EGet])) ->
  exists w', put_locked res i m r = (Done tt, mkRw w' s' (rlog r ++ one_round)) /\
    step1 (rw r) w' (OD res) /\ ob w' = ob (rw r) /\ vholds w' res (list_set l (Z.to_nat i) (VD v)).
Proof.
  intros W K H Hi E. destruct (set_at_own _ _ _ i (VD v) W K H Hi) as [w' [E1 R]].
  exists w'. split; [|exact R]. unfold put_locked, locked.
  assert (E2 : (_ <- act ELock;; _ <- act EGet;; u <- m;; inr (set_at (OD res) i (VD u))) r =
    (Done tt, mkRw w' s' (rlog r ++ [ELock; EGet]))).
  { unfold bind at 1, act at 1. unfold bind at 1, act at 1. cbn [rw rng rlog]. rewrite <- app_assoc. cbn [app].
    rewrite (bind_done _ _ _ _ _ E). unfold inr. cbn [rw rng rlog]. now rewrite E1. }
  rewrite E2. unfold bind, act. cbn [rw rng rlog]. rewrite <- !app_assoc. reflexivity.
Qed.

(** An exception in a locked round. *)
Lemma round_out res l i v (m : M rworld flt) r s' : 
  kd (ob (rw r) (OD res)) = KBuffer -> vholds (rw r) res l -> Z.of_nat (length l) <= i ->
  m (mkRw (rw r) (rng r) (rlog r ++ [ELock; EGet])) = (Done v, mkRw (rw r) s' (rlog r ++ [ELock; EGet])) ->
  put_locked res i m r = (Undef UB_mutex, mkRw (rw r) s' (rlog r ++ [ELock; EGet])).
Proof.
  intros K [Sz _] Hi E. unfold put_locked, locked.
  assert (E2 : exists t, (_ <- act ELock;; _ <- act EGet;; u <- m;; inr (set_at (OD res) i (VD u))) r =
    (Thrown t, mkRw (rw r) s' (rlog r ++ [ELock; EGet]))).
  { unfold bind at 1, act at 1. unfold bind at 1, act at 1. cbn [rw rng rlog]. rewrite <- app_assoc. cbn [app].
    rewrite (bind_done _ _ _ _ _ E). unfold inr, set_at. cbn [rw rng rlog].
    rewrite bind_st. rewrite Sz.
    destruct (alloc (ob (rw r) (OD res))).
    - rewrite bind_ass_true. replace (i <? Z.of_nat (length l)) with false by (symmetry; apply Z.ltb_ge; lia).
      rewrite bind_ass_false. eauto.
    - rewrite bind_ass_false. eauto. }
  destruct E2 as [t E2]. rewrite E2. reflexivity.
Qed.

(** Functions whose result has one element. *)
Lemma one_done res n v s' (body : M rworld unit) r :
  world_ok (rw r) -> unborn (rw r) (OD res) -> unborn (rw r) (OT res) -> fits (rw r) 1 ->
  (forall r', vstep (rw r) (rw r') res -> rng r' = rng r -> rlog r' = rlog r -> world_shape (rw r') ->
    kd (ob (rw r') (OD res)) = KBuffer -> vholds (rw r') res [VD (i2f n)] ->
    exists w2, body r' = (Done tt, mkRw w2 s' (rlog r ++ one_round)) /\
      step1 (rw r') w2 (OD res) /\ ob w2 = ob (rw r') /\ vholds w2 res [VD v]) ->
  exists w', (res_num res n ;; body) r = (Done tt, mkRw w' s' (rlog r ++ one_round)) /\
    vstep (rw r) w' res /\ world_ok w' /\ owning w' res /\ vholds w' res [VD v].
Proof.
  intros WO D1 D2 Ft Hm.
  destruct (vec_of_scalar_done (rw r) res TDouble (VD (i2f n)) (VD (i2f n)) WO D1 D2 Ft eq_refl)
    as [w1 [E1 [V1 [WO1 [H1 [O1 _]]]]]].
  destruct (Hm (mkRw w1 (rng r) (rlog r)) V1 eq_refl eq_refl (proj1 WO1) (proj1 O1) H1) as [w2 [E2 [S2 [O2 H2]]]].
  exists w2. unfold res_num. rewrite (bind_done _ _ _ _ _ (inr_done _ _ _ _ E1)). split; [exact E2|].
  split; [eapply vstep_trans; [exact V1|eapply step1_vstep; [left; reflexivity|exact S2]]|].
  cbn [rw] in *. split; [|split; [unfold owning; rewrite O2; exact O1|exact H2]].
  eapply vstep_ok; [eapply step1_vstep; [left; reflexivity|exact S2]|exact WO1| |].
  - eapply inited_buffer; [apply S2|rewrite O2; apply O1|exact H2].
  - eapply inited_same; [apply (s1_other _ _ _ S2); congruence|apply WO1].
Qed.

Lemma one_put res n v s' m r :
  world_ok (rw r) -> unborn (rw r) (OD res) -> unborn (rw r) (OT res) -> fits (rw r) 1 ->
  (forall r', vstep (rw r) (rw r') res -> rng r' = rng r -> m r' = (Done v, mkRw (rw r') s' (rlog r'))) ->
  exists w', (res_num res n ;; put_locked res 0 m) r = (Done tt, mkRw w' s' (rlog r ++ one_round)) /\
    vstep (rw r) w' res /\ world_ok w' /\ owning w' res /\ vholds w' res [VD v].
Proof.
  intros WO D1 D2 Ft Hm. apply one_done; auto. intros r' V Er El Sh K H.
  rewrite <- El. apply (round_done res [VD (i2f n)] 0 v m r' s'); auto.
  - simpl. lia.
  - apply Hm; auto.
Qed.

Lemma one_fill res n v s' f r :
  world_ok (rw r) -> unborn (rw r) (OD res) -> unborn (rw r) (OT res) -> fits (rw r) 1 ->
  (forall r', vstep (rw r) (rw r') res -> rng r' = rng r -> f 0 r' = (Done v, mkRw (rw r') s' (rlog r'))) ->
  exists w', (res_num res n ;; r1 <- get ;; fill_locked res (sz (ob (rw r1) (OD res))) f) r
      = (Done tt, mkRw w' s' (rlog r ++ one_round)) /\
    vstep (rw r) w' res /\ world_ok w' /\ owning w' res /\ vholds w' res [VD v].
Proof.
  intros WO D1 D2 Ft Hm. apply one_done; auto. intros r' V Er El Sh K H.
  unfold bind at 1, get at 1. rewrite (proj1 H). cbn [length Z.of_nat].
  unfold fill_locked, rfor. change (Z.to_nat (Z.pos (Pos.of_succ_nat 0))) with 1%nat. cbn [forN].
  destruct (round_done res [VD (i2f n)] 0 v (f 0) r' s') as [w2 [E2 R2]]; auto.
  - simpl. lia.
  - apply Hm; auto.
  - exists w2. rewrite El in E2. rewrite (bind_done _ _ _ _ _ E2). split; [reflexivity|exact R2].
Qed.

(** The density functions. *)
Definition steady (r : rworld) (res : nat) (a : darg) (l : list flt) : Prop :=
  gives a l r /\ forall r', vstep (rw r) (rw r') res -> gives a l r'.
Lemma steady_var r res x l : x <> res -> vholds (rw r) x (map VD l) -> steady r res (of_var x) l.
Proof.
  intros N H. split; [now apply gives_var|]. intros r' V. apply gives_var.
  eapply holds_same; [apply (vs_other _ _ _ V); congruence|exact H].
Qed.
Lemma steady_list r res l : steady r res (of_list l) l.
Proof. split; [apply gives_list|]. intros. apply gives_list. Qed.

Lemma same_rw r : mkRw (rw r) (rng r) (rlog r) = r.
Proof. now destruct r. Qed.

Lemma dens_done (R : rmath) (k : dist) res x a b lg (xs las bs ls : list flt) r :
  world_ok (rw r) -> unborn (rw r) (OD res) -> unborn (rw r) (OT res) -> fits (rw r) 1 ->
  steady r res x xs -> steady r res a las -> steady r res b bs -> steady r res lg ls ->
  xs <> [] -> las <> [] -> bs <> [] -> ls <> [] -> has_int (lane ls 0) ->
  exists w', dens R k res x a b lg r = (Done tt, mkRw w' (rng r) (rlog r ++ one_round)) /\
    vstep (rw r) w' res /\ world_ok w' /\ owning w' res /\
    vholds w' res [VD (rm_d R k (lane xs 0) (lane las 0) (lane bs 0) (as_int (lane ls 0)))].
Proof.
  intros WO D1 D2 Ft [Gx Sx] [Ga Sa] [Gb Sb] [Gl Sl] Nx Na Nb Nl [li L].
  unfold dens. unfold bind at 1, get at 1.
  destruct ((dlength x r =? 1) && (dlength a r =? 1) && (dlength b r =? 1) && (dlength lg r =? 1)).
  - apply one_put; auto. intros r' V Er.
    rewrite (bind_done _ _ _ _ _ (gives_first _ _ _ (Sx _ V) Nx)), (bind_done _ _ _ _ _ (gives_first _ _ _ (Sa _ V) Na)),
        (bind_done _ _ _ _ _ (gives_first _ _ _ (Sb _ V) Nb)), (bind_done _ _ _ _ _ (gives_first _ _ _ (Sl _ V) Nl)).
    unfold as_int. rewrite L, <- Er, same_rw. reflexivity.
  - apply one_fill; auto. intros r' V Er.
    rewrite (bind_done _ _ _ _ _ (gives_rec0 _ _ _ (Sx _ V) Nx)), (bind_done _ _ _ _ _ (gives_rec0 _ _ _ (Sa _ V) Na)),
        (bind_done _ _ _ _ _ (gives_rec0 _ _ _ (Sb _ V) Nb)), (bind_done _ _ _ _ _ (gives_rec0 _ _ _ (Sl _ V) Nl)).
    unfold as_int. rewrite L, <- Er, same_rw. reflexivity.
Qed.

Lemma prob_done f res x a b lower lg (xs las bs lows ls : list flt) r :
  world_ok (rw r) -> unborn (rw r) (OD res) -> unborn (rw r) (OT res) -> fits (rw r) 1 ->
  steady r res x xs -> steady r res a las -> steady r res b bs -> steady r res lower lows -> steady r res lg ls ->
  xs <> [] -> las <> [] -> bs <> [] -> lows <> [] -> ls <> [] -> has_int (lane lows 0) -> has_int (lane ls 0) ->
  exists w', prob f res x a b lower lg r = (Done tt, mkRw w' (rng r) (rlog r ++ one_round)) /\
    vstep (rw r) w' res /\ world_ok w' /\ owning w' res /\
    vholds w' res [VD (f (lane xs 0) (lane las 0) (lane bs 0) (as_int (lane lows 0)) (as_int (lane ls 0)))].
Proof.
  intros WO D1 D2 Ft [Gx Sx] [Ga Sa] [Gb Sb] [Gw Sw] [Gl Sl] Nx Na Nb Nw Nl [wi I] [li L].
  unfold prob. unfold bind at 1, get at 1.
  destruct ((dlength x r =? 1) && (dlength a r =? 1) && (dlength b r =? 1) && (dlength lg r =? 1)).
  - apply one_put; auto. intros r' V Er.
    rewrite (bind_done _ _ _ _ _ (gives_first _ _ _ (Sx _ V) Nx)), (bind_done _ _ _ _ _ (gives_first _ _ _ (Sa _ V) Na)),
        (bind_done _ _ _ _ _ (gives_first _ _ _ (Sb _ V) Nb)), (bind_done _ _ _ _ _ (gives_first _ _ _ (Sw _ V) Nw)),
        (bind_done _ _ _ _ _ (gives_first _ _ _ (Sl _ V) Nl)).
    unfold as_int. rewrite L, I, <- Er, same_rw. reflexivity.
  - apply one_fill; auto. intros r' V Er.
    rewrite (bind_done _ _ _ _ _ (gives_rec0 _ _ _ (Sx _ V) Nx)), (bind_done _ _ _ _ _ (gives_rec0 _ _ _ (Sa _ V) Na)),
        (bind_done _ _ _ _ _ (gives_rec0 _ _ _ (Sb _ V) Nb)), (bind_done _ _ _ _ _ (gives_rec0 _ _ _ (Sw _ V) Nw)),
        (bind_done _ _ _ _ _ (gives_rec0 _ _ _ (Sl _ V) Nl)).
    unfold as_int. rewrite L, I, <- Er, same_rw. reflexivity.
Qed.

(** The reciprocals of the gamma functions. *)
Lemma scale_done rate bs r : vholds (rw r) rate (map VD bs) -> forall n i, (i + n <= length bs)%nat ->
  scale_of rate (Z.of_nat i) n r = (Done (map (fun j => fdiv fone (nth j bs fzero)) (seq i n)), r).
Proof.
  intros H n. destruct (gives_var _ _ _ H) as [_ G]. induction n as [|n IH]; intros i Hi; [reflexivity|].
  cbn [scale_of seq map]. rewrite (bind_done _ _ _ _ _ (G i ltac:(lia))).
  replace (Z.of_nat i + 1) with (Z.of_nat (S i)) by lia. rewrite (bind_done _ _ _ _ _ (IH (S i) ltac:(lia))). reflexivity.
Qed.
Lemma map_nth_seq {A B} (f : A -> B) (l : list A) d : map (fun j => f (nth j l d)) (seq 0 (length l)) = map f l.
Proof.
  induction l as [|a l IH]; [reflexivity|]. cbn [length seq map nth]. f_equal.
  rewrite <- seq_shift, map_map. exact IH.
Qed.
Lemma with_scale_done rate bs r f : vholds (rw r) rate (map VD bs) ->
  with_scale rate f r = f (of_list (map (fdiv fone) bs)) r.
Proof.
  intros H. unfold with_scale. unfold bind at 1, get at 1. rewrite (proj1 (gives_var _ _ _ H)), Nat2Z.id.
  rewrite (bind_done _ _ _ _ _ (scale_done _ _ _ H (length bs) 0%nat (le_n _))). now rewrite map_nth_seq.
Qed.

(** The third argument as R receives it. *)
Definition thirds (k : dist) (bs : list flt) : list flt := map (third k) bs.
Lemma thirds_lane k bs i : bs <> [] -> lane (thirds k bs) i = third k (lane bs i).
Proof.
  intros N. unfold lane, thirds. rewrite map_length. rewrite (nth_indep _ _ (third k fzero)).
  - apply map_nth.
  - rewrite map_length. apply Nat.mod_upper_bound. now destruct bs.
Qed.
Lemma thirds_ne k bs : bs <> [] -> thirds k bs <> [].
Proof. now destruct bs. Qed.

Lemma d_etr_done (R : rmath) (k : dist) res x a b lg (xs las bs ls : list flt) r :
  world_ok (rw r) -> unborn (rw r) (OD res) -> unborn (rw r) (OT res) -> fits (rw r) 1 ->
  x <> res -> a <> res -> b <> res -> lg <> res ->
  vholds (rw r) x (map VD xs) -> vholds (rw r) a (map VD las) -> vholds (rw r) b (map VD bs) -> vholds (rw r) lg (map VD ls) ->
  xs <> [] -> las <> [] -> bs <> [] -> ls <> [] -> has_int (lane ls 0) ->
  exists w', d_etr R k res x a b lg r = (Done tt, mkRw w' (rng r) (rlog r ++ one_round)) /\
    vstep (rw r) w' res /\ world_ok w' /\ owning w' res /\
    vholds w' res [VD (rm_d R k (lane xs 0) (lane las 0) (third k (lane bs 0)) (as_int (lane ls 0)))].
Proof.
  intros WO D1 D2 Ft N1 N2 N3 N4 H1 H2 H3 H4 L1 L2 L3 L4 I.
  rewrite <- (thirds_lane k bs 0 L3). unfold d_etr, thirds.
  destruct k; cbn [third]; rewrite ?map_id;
    [..|rewrite (with_scale_done _ _ _ _ H3)]; apply dens_done; auto using steady_var, steady_list.
  now destruct bs.
Qed.

Lemma pq_done (f : dist -> flt -> flt -> flt -> Z -> Z -> flt) (k : dist) res x a b lower lg (xs las bs lows ls : list flt) r :
  world_ok (rw r) -> unborn (rw r) (OD res) -> unborn (rw r) (OT res) -> fits (rw r) 1 ->
  x <> res -> a <> res -> b <> res -> lower <> res -> lg <> res ->
  vholds (rw r) x (map VD xs) -> vholds (rw r) a (map VD las) -> vholds (rw r) b (map VD bs) ->
  vholds (rw r) lower (map VD lows) -> vholds (rw r) lg (map VD ls) ->
  xs <> [] -> las <> [] -> bs <> [] -> lows <> [] -> ls <> [] -> has_int (lane lows 0) -> has_int (lane ls 0) ->
  exists w', (match k with
     | DGamma => with_scale b (fun s => prob (f k) res (of_var x) (of_var a) s (of_var lower) (of_var lg))
     | _ => prob (f k) res (of_var x) (of_var a) (of_var b) (of_var lower) (of_var lg)
     end) r = (Done tt, mkRw w' (rng r) (rlog r ++ one_round)) /\
    vstep (rw r) w' res /\ world_ok w' /\ owning w' res /\
    vholds w' res [VD (f k (lane xs 0) (lane las 0) (third k (lane bs 0)) (as_int (lane lows 0)) (as_int (lane ls 0)))].
Proof.
  intros WO D1 D2 Ft N1 N2 N3 N4 N5 H1 H2 H3 H4 H5 L1 L2 L3 L4 L5 I J.
  rewrite <- (thirds_lane k bs 0 L3). unfold thirds.
  destruct k; cbn [third]; rewrite ?map_id;
    [..|rewrite (with_scale_done _ _ _ _ H3)]; apply prob_done; auto using steady_var, steady_list.
  now destruct bs.
Qed.

(** n draws into a vector that has room for them. *)
Lemma draw_done R k a b la lb i r : gives a la r -> gives b lb r -> la <> [] -> lb <> [] ->
  draw R k a b (Z.of_nat i) r =
    (Done (fst (rm_r R k (rng r) (lane la i) (lane lb i))),
     mkRw (rw r) (snd (rm_r R k (rng r) (lane la i) (lane lb i))) (rlog r)).
Proof.
  intros Ga Gb Na Nb. unfold draw.
  rewrite (bind_done _ _ _ _ _ (gives_rec _ _ _ _ Ga Na)), (bind_done _ _ _ _ _ (gives_rec _ _ _ _ Gb Nb)).
  now destruct (rm_r R k (rng r) (lane la i) (lane lb i)).
Qed.

Lemma lane_one v i : lane [v] i = v.
Proof. unfold lane. cbn [length]. now rewrite Nat.mod_1_r. Qed.

Lemma draws_length R k a b n : forall s, length (fst (draws R k a b s n)) = n.
Proof.
  induction n as [|n IH]; intros s; [reflexivity|]. cbn [draws].
  destruct (rm_r R k s a b) as [v s1]. specialize (IH s1). destruct (draws R k a b s1 n). cbn in *. lia.
Qed.

Lemma list_set_parts {A} (l : list A) : forall i v t n, (i < length l)%nat ->
  firstn (S i) (list_set l i v) ++ t ++ skipn (S i + n) (list_set l i v) = firstn i l ++ (v :: t) ++ skipn (i + S n) l.
Proof.
  induction l as [|a l IH]; intros i v t n Hi; [cbn in Hi; lia|].
  destruct i as [|i]; [reflexivity|]. cbn [list_set firstn app Nat.add skipn]. f_equal.
  apply IH. cbn in Hi. lia.
Qed.

Lemma fill_draws R k a b va vb res n : forall i r l,
  world_shape (rw r) -> kd (ob (rw r) (OD res)) = KBuffer -> vholds (rw r) res l -> (i + n <= length l)%nat ->
  (forall r', vstep (rw r) (rw r') res -> gives a [va] r' /\ gives b [vb] r') ->
  exists w', forN n (Z.of_nat i) (fun j => put_locked res j (draw R k a b j)) r =
      (Done tt, mkRw w' (snd (draws R k va vb (rng r) n)) (rlog r ++ rounds n)) /\
    vstep (rw r) w' res /\ same_obj (rw r) w' (OT res) /\ ob w' = ob (rw r) /\
    vholds w' res (firstn i l ++ map VD (fst (draws R k va vb (rng r) n)) ++ skipn (i + n) l).
Proof.
  induction n as [|n IH]; intros i r l W K H Hi G.
  - exists (rw r). cbn [forN draws rounds fst snd map app]. rewrite app_nil_r, same_rw, Nat.add_0_r, firstn_skipn.
    split; [reflexivity|]. split; [apply vstep_refl; exact W|]. split; [apply same_obj_refl|auto].
  - cbn [forN draws rounds].
    assert (Vr : vstep (rw r) (rw (mkRw (rw r) (rng r) (rlog r ++ [ELock; EGet]))) res) by (apply vstep_refl; exact W).
    destruct (G _ Vr) as [Ga Gb].
    pose proof (draw_done R k a b [va] [vb] i _ Ga Gb ltac:(discriminate) ltac:(discriminate)) as E.
    rewrite !lane_one in E. cbn [rng rw rlog] in E.
    destruct (rm_r R k (rng r) va vb) as [v s1]. cbn [fst snd] in E.
    destruct (round_done res l (Z.of_nat i) v (draw R k a b (Z.of_nat i)) r s1 W K H ltac:(lia) E) as [w1 [E1 [S1 [O1 H1]]]].
    rewrite (bind_done _ _ _ _ _ E1).
    assert (V1 : vstep (rw r) w1 res) by (eapply step1_vstep; [left; reflexivity|exact S1]).
    rewrite Nat2Z.id in H1.
    replace (Z.of_nat i + 1) with (Z.of_nat (S i)) by lia.
    destruct (IH (S i) (mkRw w1 s1 (rlog r ++ one_round)) (list_set l i (VD v))) as [w2 [E2 [V2 [T2 [O2 H2]]]]]; cbn [rw rng rlog] in *; auto.
    + apply S1.
    + rewrite O1. exact K.
    + rewrite list_set_length. lia.
    + intros r' V'. apply G. eapply vstep_trans; eauto.
    + exists w2. rewrite E2. destruct (draws R k va vb s1 n) as [t s2]. cbn [fst snd] in *.
      rewrite <- app_assoc. split; [reflexivity|]. split; [eapply vstep_trans; eauto|].
      split; [eapply same_obj_trans; [apply (s1_other _ _ _ S1); congruence|exact T2]|]. split; [congruence|].
      replace (firstn i l ++ map VD (v :: t) ++ skipn (i + S n) l) with
        (firstn (S i) (list_set l i (VD v)) ++ map VD t ++ skipn (S i + n) (list_set l i (VD v))); [exact H2|].
      apply list_set_parts; lia.
Qed.

(* ------------------------------------------------ fetch and store in pairs *)

Definition quiet {A} (m : M rworld A) : Prop := forall r, rlog (snd (m r)) = rlog r.
Definition paired {A} (m : M rworld A) : Prop := forall r,
  match m r with
  | (Undef _, _) => True
  | (_, r') => exists n, rlog r' = rlog r ++ rounds n
  end.

Lemma rounds_app n k : rounds n ++ rounds k = rounds (n + k).
Proof. induction n as [|n IH]; [reflexivity|]. cbn [rounds Nat.add app]. now rewrite IH. Qed.

Lemma quiet_ret {A} (a : A) : quiet (ret a).
Proof. now intros r. Qed.
Lemma quiet_get : quiet get.
Proof. now intros r. Qed.
Lemma quiet_lift {A} (o : outcome A) : quiet (lift o).
Proof. now intros r. Qed.
Lemma quiet_undef {A} u : quiet (@undef rworld A u).
Proof. now intros r. Qed.
Lemma quiet_inr {A} (m : M world A) : quiet (inr m).
Proof. intros r. unfold inr. now destruct (m (rw r)). Qed.
Lemma quiet_bind {A B} (m : M rworld A) (f : A -> M rworld B) : quiet m -> (forall a, quiet (f a)) -> quiet (bind m f).
Proof.
  intros Hm Hf r. unfold bind. specialize (Hm r). destruct (m r) as [[a| |] r1]; cbn in *; auto.
  now rewrite Hf.
Qed.
Lemma quiet_paired {A} (m : M rworld A) : quiet m -> paired m.
Proof.
  intros H r. specialize (H r). destruct (m r) as [[a| |] r1]; cbn in *; auto;
  exists O; now rewrite app_nil_r.
Qed.
Lemma paired_bind {A B} (m : M rworld A) (f : A -> M rworld B) : paired m -> (forall a, paired (f a)) -> paired (bind m f).
Proof.
  intros Hm Hf r. unfold bind. specialize (Hm r). destruct (m r) as [[a| |] r1]; auto.
  destruct Hm as [n E]. specialize (Hf a r1). destruct (f a r1) as [[b| |] r2]; auto;
  destruct Hf as [k E2]; exists (n + k)%nat; rewrite E2, E, <- app_assoc, rounds_app; reflexivity.
Qed.
Lemma paired_locked m : quiet m -> paired (locked m).
Proof.
  intros Q r. unfold locked, bind at 1, act at 1. unfold bind at 1, act at 1. cbn [rw rng rlog].
  specialize (Q (mkRw (rw r) (rng r) ((rlog r ++ [ELock]) ++ [EGet]))).
  destruct (m _) as [[a| |] r1]; cbn [snd rlog] in Q; auto.
  exists 1%nat. unfold bind, act. cbn [rlog]. rewrite Q, <- !app_assoc. reflexivity.
Qed.
Lemma paired_put res i m : quiet m -> paired (put_locked res i m).
Proof. intros Q. apply paired_locked, quiet_bind; auto. intros v. apply quiet_inr. Qed.
Lemma paired_fill res n f : (forall i, quiet (f i)) -> paired (fill_locked res n f).
Proof.
  intros Q. unfold fill_locked, rfor. generalize 0 as i. induction (Z.to_nat n) as [|k IH]; intros i; cbn [forN].
  - apply quiet_paired, quiet_ret.
  - apply paired_bind; [now apply paired_put|auto].
Qed.

(** An argument reads without touching the mutex or the random state. *)
Definition calm (a : darg) : Prop := forall i, quiet (dget a i).
Lemma calm_var x : calm (of_var x).
Proof. intros i. apply quiet_bind; [apply quiet_inr|intros; apply quiet_ret]. Qed.
Lemma calm_list l : calm (of_list l).
Proof. intros i. cbn [dget of_list]. destruct (i <? _); [apply quiet_ret|apply quiet_undef]. Qed.
Lemma quiet_rec a i : calm a -> quiet (rec_get a i).
Proof. intros C. apply quiet_bind; [apply quiet_get|]. intros r. apply quiet_bind; [apply quiet_lift|]. intros k. apply C. Qed.
Lemma quiet_draw R k a b i : calm a -> calm b -> quiet (draw R k a b i).
Proof.
  intros Ca Cb. unfold draw. apply quiet_bind; [now apply quiet_rec|]. intros a0. apply quiet_bind; [now apply quiet_rec|].
  intros b0 r. now destruct (rm_r R k (rng r) a0 b0).
Qed.

Ltac quiet_tac := repeat match goal with
  | |- quiet (ret _) => apply quiet_ret
  | |- quiet get => apply quiet_get
  | |- quiet (lift _) => apply quiet_lift
  | |- quiet (inr _) => apply quiet_inr
  | |- quiet (rec_get _ _) => apply quiet_rec; assumption
  | |- quiet (draw _ _ _ _ _) => apply quiet_draw; assumption
  | H : calm ?a |- quiet (dget ?a _) => apply H
  | |- quiet (bind _ _) => apply quiet_bind; [|intros ?]
  end.
Ltac paired_tac := repeat match goal with
  | |- paired (put_locked _ _ _) => apply paired_put; quiet_tac
  | |- paired (fill_locked _ _ _) => apply paired_fill; intros ?; quiet_tac
  | |- paired (bind _ _) => apply paired_bind; [|intros ?]
  | |- paired _ => apply quiet_paired; quiet_tac
  end.

Lemma paired_dens R k res x a b lg : calm x -> calm a -> calm b -> calm lg -> paired (dens R k res x a b lg).
Proof.
  intros Cx Ca Cb Cl. unfold dens. apply paired_bind; [apply quiet_paired, quiet_get|]. intros r.
  destruct (_ && _); unfold res_num; paired_tac.
Qed.
Lemma paired_prob f res x a b lower lg : calm x -> calm a -> calm b -> calm lower -> calm lg -> paired (prob f res x a b lower lg).
Proof.
  intros Cx Ca Cb Cw Cl. unfold prob. apply paired_bind; [apply quiet_paired, quiet_get|]. intros r.
  destruct (_ && _); unfold res_num; paired_tac.
Qed.
Lemma paired_rand R k res x a b : calm x -> calm a -> calm b -> paired (rand R k res x a b).
Proof.
  intros Cx Ca Cb. unfold rand. apply paired_bind; [apply quiet_paired, quiet_get|]. intros r.
  destruct (_ && _); unfold res_num; [apply paired_bind; [apply quiet_paired, Cx|intros x0]; destruct k|]; paired_tac.
Qed.
Lemma paired_scale b f : (forall s, calm s -> paired (f s)) -> paired (with_scale b f).
Proof.
  intros H. unfold with_scale. apply paired_bind; [apply quiet_paired, quiet_get|]. intros r.
  apply paired_bind; [|intros l; apply H, calm_list]. apply quiet_paired. generalize 0 as i.
  induction (Z.to_nat _) as [|n IH]; intros i; cbn [scale_of]; [apply quiet_ret|].
  apply quiet_bind; [apply calm_var|]. intros v. apply quiet_bind; [apply IH|]. intros l'. apply quiet_ret.
Qed.

Lemma paired_d R k res x a b lg : paired (d_etr R k res x a b lg).
Proof. destruct k; cbn [d_etr]; try apply paired_scale; intros; apply paired_dens; auto using calm_var. Qed.
Lemma paired_p R k res x a b lower lg : paired (p_etr R k res x a b lower lg).
Proof. destruct k; cbn [p_etr]; try apply paired_scale; intros; apply paired_prob; auto using calm_var. Qed.
Lemma paired_q R k res x a b lower lg : paired (q_etr R k res x a b lower lg).
Proof. destruct k; cbn [q_etr]; try apply paired_scale; intros; apply paired_prob; auto using calm_var. Qed.
Lemma paired_r R k res x a b : paired (r_etr R k res x a b).
Proof. destruct k; cbn [r_etr]; try apply paired_scale; intros; apply paired_rand; auto using calm_var. Qed.

(* ------------------------------------------------------- random functions *)

Lemma trunc_int f n : ftrunc f = Some n -> 0 <= n < 2 ^ 31 -> f2int f = Done n /\ f2size f = Done n.
Proof.
  intros E H. unfold f2int, f2size. rewrite E. unfold in_int.
  replace ((int_min <=? n) && (n <=? int_max)) with true
    by (symmetry; unfold int_min, int_max; apply andb_true_iff; split; apply Z.leb_le; lia).
  replace (0 <=? n) with true by (symmetry; apply Z.leb_le; lia).
  replace (n <? 2 ^ 64) with true by (symmetry; apply Z.ltb_lt; lia). auto.
Qed.

Lemma rand_scalar_cond x a b lx la lb r : gives x [lx] r -> gives a [la] r -> gives b [lb] r ->
  ((dlength x r =? 1) && (dlength a r =? 1) && (dlength b r =? 1)) = true.
Proof. intros [-> _] [-> _] [-> _]. reflexivity. Qed.

Lemma vstep_vholds w w' x y l : vstep w w' x -> y <> x -> vholds w y l -> vholds w' y l.
Proof. intros V N H. eapply holds_same; [apply (vs_other _ _ _ V); congruence|exact H]. Qed.

Lemma runif_done (R : rmath) res x a b vx va vb n r :
  world_ok (rw r) -> unborn (rw r) (OD res) -> unborn (rw r) (OT res) ->
  steady r res x [vx] -> steady r res a [va] -> steady r res b [vb] ->
  ftrunc vx = Some n -> 1 <= n < 2 ^ 31 -> fits (rw r) n ->
  exists w', rand R DUnif res x a b r =
      (Done tt, mkRw w' (snd (draws R DUnif va vb (rng r) (Z.to_nat n))) (rlog r ++ rounds (Z.to_nat n))) /\
    vstep (rw r) w' res /\ world_ok w' /\ owning w' res /\
    vholds w' res (map VD (fst (draws R DUnif va vb (rng r) (Z.to_nat n)))).
Proof.
  intros WO D1 D2 [Gx _] [Ga Sa] [Gb Sb] T Hn Ft. destruct (trunc_int vx n T ltac:(lia)) as [I1 I2].
  unfold rand. unfold bind at 1, get at 1. rewrite (rand_scalar_cond _ _ _ _ _ _ _ Gx Ga Gb).
  rewrite (bind_done _ _ _ _ _ (gives_first _ _ _ Gx ltac:(discriminate))), lane_one. rewrite I1, I2.
  unfold bind at 1, lift at 1.
  assert (Wr : wrap64 n = n) by (unfold wrap64; apply Z.mod_small; lia). rewrite Wr.
  destruct (vec_sized_done (rw r) res TDouble n WO D1 D2 ltac:(lia) Ft) as [w1 [E1 [V1 [WO1 [H1 [M1 [O1 _]]]]]]].
  rewrite (bind_done _ _ _ _ _ (inr_done _ _ _ _ E1)). unfold bind at 1, lift at 1. unfold fill_locked, rfor.
  destruct (fill_draws R DUnif a b va vb res (Z.to_nat n) 0 (mkRw w1 (rng r) (rlog r)) (repeat (zero_of TDouble) (Z.to_nat n)))
    as [w2 [E2 [V2 [T2 [O2 H2]]]]]; cbn [rw rng rlog] in *; auto.
  - apply WO1.
  - apply O1.
  - rewrite repeat_length. lia.
  - intros r' V. assert (V' : vstep (rw r) (rw r') res) by (eapply vstep_trans; eauto). auto.
  - change (Z.of_nat 0) with 0 in E2. exists w2. split; [exact E2|]. split; [eapply vstep_trans; eauto|].
    rewrite skipn_all2, app_nil_r in H2 by (rewrite repeat_length; lia). cbn [firstn app] in H2.
    split; [|split; [unfold owning; rewrite O2; exact O1|exact H2]].
    eapply vstep_ok; [exact V2|exact WO1| |].
    + eapply inited_buffer; [apply V2|rewrite O2; apply O1|exact H2].
    + eapply inited_same; [exact T2|apply WO1].
Qed.

(** rnorm, rlnorm, rgamma: more than one draw. *)
Lemma rand_many (R : rmath) k res x a b vx va vb n r :
  k <> DUnif -> world_ok (rw r) -> unborn (rw r) (OD res) -> unborn (rw r) (OT res) -> fits (rw r) 1 ->
  steady r res x [vx] -> steady r res a [va] -> steady r res b [vb] ->
  ftrunc vx = Some n -> 2 <= n < 2 ^ 31 ->
  exists r', rand R k res x a b r = (Undef UB_mutex, r') /\ rlog r' = rlog r ++ one_round ++ [ELock; EGet].
Proof.
  intros NU WO D1 D2 Ft [Gx _] [Ga Sa] [Gb Sb] T Hn. destruct (trunc_int vx n T ltac:(lia)) as [_ I2].
  destruct (vec_of_scalar_done (rw r) res TDouble (VD (i2f n)) (VD (i2f n)) WO D1 D2 Ft eq_refl)
    as [w1 [E1 [V1 [WO1 [H1 [O1 _]]]]]].
  assert (Hr : exists r', (res_num res n ;; fill_locked res n (draw R k a b)) r = (Undef UB_mutex, r') /\
    rlog r' = rlog r ++ one_round ++ [ELock; EGet]).
  { unfold res_num. rewrite (bind_done _ _ _ _ _ (inr_done _ _ _ _ E1)). unfold fill_locked, rfor.
    destruct (Z.to_nat n) as [|[|m]] eqn:En; try lia. cbn [forN].
    assert (V0 : vstep (rw r) (rw (mkRw w1 (rng r) (rlog r ++ [ELock; EGet]))) res) by exact V1.
    pose proof (draw_done R k a b [va] [vb] 0 _ (Sa _ V0) (Sb _ V0) ltac:(discriminate) ltac:(discriminate)) as Ed.
    rewrite !lane_one in Ed. cbn [rng rw rlog Z.of_nat] in Ed.
    destruct (rm_r R k (rng r) va vb) as [v s1]. cbn [fst snd] in Ed.
    destruct (round_done res [VD (i2f n)] 0 v (draw R k a b 0) (mkRw w1 (rng r) (rlog r)) s1) as [w2 [E2 [S2 [O2 H2]]]];
      cbn [rw rng rlog] in *; auto.
    - apply WO1.
    - apply O1.
    - simpl. lia.
    - rewrite (bind_done _ _ _ _ _ E2).
      assert (V2 : vstep (rw r) w2 res) by (eapply vstep_trans; [exact V1|eapply step1_vstep; [left; reflexivity|exact S2]]).
      pose proof (draw_done R k a b [va] [vb] 1 (mkRw w2 s1 ((rlog r ++ one_round) ++ [ELock; EGet]))
        (Sa (mkRw w2 s1 ((rlog r ++ one_round) ++ [ELock; EGet])) V2) (Sb (mkRw w2 s1 ((rlog r ++ one_round) ++ [ELock; EGet])) V2) ltac:(discriminate) ltac:(discriminate)) as Ed2.
      rewrite !lane_one in Ed2. cbn [rng rw rlog] in Ed2. change (Z.of_nat 1) with (0 + 1) in Ed2.
      destruct (rm_r R k s1 va vb) as [v2 s2]. cbn [fst snd] in Ed2.
      pose proof (round_out res [VD v] (0 + 1) v2 (draw R k a b (0 + 1)) (mkRw w2 s1 (rlog r ++ one_round)) s2) as Out.
      cbn [rw rng rlog] in Out. assert (K2 : kd (ob w2 (OD res)) = KBuffer) by (rewrite O2; apply O1).
      specialize (Out K2 H2 ltac:(simpl; lia) Ed2).
      rewrite (bind_undef _ _ _ _ _ Out). eexists. split; [reflexivity|]. cbn [rlog]. now rewrite <- app_assoc. }
  unfold rand. unfold bind at 1, get at 1. rewrite (rand_scalar_cond _ _ _ _ _ _ _ Gx Ga Gb).
  rewrite (bind_done _ _ _ _ _ (gives_first _ _ _ Gx ltac:(discriminate))), lane_one.
  destruct k; [congruence|..]; rewrite I2; unfold bind at 1, lift at 1; exact Hr.
Qed.

(** All random functions with a longer argument: one draw. *)
Lemma rand_one (R : rmath) k res x a b xs las bs r :
  world_ok (rw r) -> unborn (rw r) (OD res) -> unborn (rw r) (OT res) -> fits (rw r) 1 ->
  steady r res x xs -> steady r res a las -> steady r res b bs -> xs <> [] -> las <> [] -> bs <> [] ->
  (2 <= longest [xs; las; bs])%nat ->
  exists w', rand R k res x a b r =
      (Done tt, mkRw w' (snd (rm_r R k (rng r) (lane las 0) (lane bs 0))) (rlog r ++ one_round)) /\
    vstep (rw r) w' res /\ world_ok w' /\ owning w' res /\
    vholds w' res [VD (fst (rm_r R k (rng r) (lane las 0) (lane bs 0)))].
Proof.
  intros WO D1 D2 Ft [Gx _] [Ga Sa] [Gb Sb] N1 N2 N3 L.
  unfold rand. unfold bind at 1, get at 1. rewrite (proj1 Gx), (proj1 Ga), (proj1 Gb).
  replace (_ && _) with false.
  - apply one_fill; auto. intros r' V Er.
    pose proof (draw_done R k a b las bs 0 r' (Sa _ V) (Sb _ V) N2 N3) as Ed. rewrite Er in Ed. exact Ed.
  - symmetry. unfold longest in L. cbn [fold_right] in L.
    destruct (Z.eqb_spec (Z.of_nat (length xs)) 1), (Z.eqb_spec (Z.of_nat (length las)) 1),
      (Z.eqb_spec (Z.of_nat (length bs)) 1); try reflexivity. lia.
Qed.

(** rnorm, rlnorm, rgamma with number one. *)
Lemma rand_single (R : rmath) k res x a b vx va vb r :
  k <> DUnif -> world_ok (rw r) -> unborn (rw r) (OD res) -> unborn (rw r) (OT res) -> fits (rw r) 1 ->
  steady r res x [vx] -> steady r res a [va] -> steady r res b [vb] -> ftrunc vx = Some 1 ->
  exists w', rand R k res x a b r =
      (Done tt, mkRw w' (snd (draws R k va vb (rng r) 1)) (rlog r ++ rounds 1)) /\
    vstep (rw r) w' res /\ world_ok w' /\ owning w' res /\ vholds w' res (map VD (fst (draws R k va vb (rng r) 1))).
Proof.
  intros NU WO D1 D2 Ft [Gx _] [Ga Sa] [Gb Sb] T. destruct (trunc_int vx 1 T ltac:(lia)) as [_ I2].
  assert (Hr : exists w', (res_num res 1 ;; fill_locked res 1 (draw R k a b)) r =
      (Done tt, mkRw w' (snd (rm_r R k (rng r) va vb)) (rlog r ++ one_round)) /\
    vstep (rw r) w' res /\ world_ok w' /\ owning w' res /\ vholds w' res [VD (fst (rm_r R k (rng r) va vb))]).
  { destruct (one_put res 1 (fst (rm_r R k (rng r) va vb)) (snd (rm_r R k (rng r) va vb)) (draw R k a b 0) r WO D1 D2 Ft)
      as [w' [E' R']].
    - intros r' V Er. pose proof (draw_done R k a b [va] [vb] 0 r' (Sa _ V) (Sb _ V) ltac:(discriminate) ltac:(discriminate)) as Ed.
      rewrite !lane_one, Er in Ed. exact Ed.
    - exists w'. split; [|exact R']. unfold fill_locked, rfor. change (Z.to_nat 1) with 1%nat. cbn [forN].
      unfold bind at 1. unfold bind at 1 in E'. destruct (res_num res 1 r) as [[[]| |] r1]; try discriminate.
      rewrite (bind_done _ _ _ _ _ E'). reflexivity. }
  unfold rand. unfold bind at 1, get at 1. rewrite (rand_scalar_cond _ _ _ _ _ _ _ Gx Ga Gb).
  rewrite (bind_done _ _ _ _ _ (gives_first _ _ _ Gx ltac:(discriminate))), lane_one.
  cbn [draws]. destruct (rm_r R k (rng r) va vb) as [v s1]. cbn [fst snd map] in *.
  destruct k; [congruence|..]; rewrite I2; unfold bind at 1, lift at 1; exact Hr.
Qed.

Lemma r_etr_rand R k res x a b bs r : vholds (rw r) b (map VD bs) -> b <> res ->
  exists bb, steady r res bb (thirds k bs) /\ r_etr R k res x a b r = rand R k res (of_var x) (of_var a) bb r.
Proof.
  intros H N. destruct k; cbn [r_etr]; unfold thirds; cbn [third].
  1-3: exists (of_var b); rewrite map_id; split; [now apply steady_var|reflexivity].
  exists (of_list (map (fdiv fone) bs)). split; [apply steady_list|]. apply (with_scale_done _ _ _ _ H).
Qed.

(* ----------------------------------------------------------------- threads *)

(** The invariant of threads that share one mutex: a thread other than the
    holder has whole calls left. *)
Lemma inside_snoc tr t e u : inside (tr ++ [(u, e)]) t =
  if Nat.eqb u t then match e with TGet => true | TPut => false | _ => inside tr t end else inside tr t.
Proof. unfold inside. rewrite fold_left_app. reflexivity. Qed.

Definition shared_prog (m n : nat) := map (tag m) (rounds n).
Definition good (m : nat) (tr : list (nat * tev)) (s : tstate) (t : nat) : Prop :=
  (held s m <> Some t /\ inside tr t = false /\ exists n, todo s t = shared_prog m n) \/
  (held s m = Some t /\ exists n,
     (inside tr t = false /\ todo s t = TGet :: TPut :: TUnlock m :: shared_prog m n) \/
     (inside tr t = true /\ todo s t = TPut :: TUnlock m :: shared_prog m n) \/
     (inside tr t = false /\ todo s t = TUnlock m :: shared_prog m n)).

Lemma calls_shared m calls : Forall (fun c => fst c = m) calls -> exists n, calls_prog calls = shared_prog m n.
Proof.
  induction 1 as [|c cs Hc _ [n IH]]; [exists O; reflexivity|]. exists (snd c + n)%nat.
  unfold calls_prog in *. cbn [flat_map]. rewrite IH, Hc. unfold shared_prog. now rewrite <- map_app, rounds_app.
Qed.

Lemma shared_good m calls tr s : (forall t, Forall (fun c => fst c = m) (calls t)) ->
  truns (start_threads calls) tr s -> forall t, good m tr s t.
Proof.
  intros HC H. remember (start_threads calls) as s0 eqn:E0. induction H as [s|s tr s1 u e s2 R IH St]; intros t; subst.
  - left. split; [discriminate|]. split; [reflexivity|]. apply calls_shared, HC.
  - specialize (IH eq_refl). pose proof (IH u) as Gu. specialize (IH t). unfold good in *. rewrite inside_snoc.
    destruct (Nat.eqb_spec u t) as [->|N].
    + clear IH. inversion St; subst; cbn [todo held] in *; unfold fset; rewrite Nat.eqb_refl.
      * destruct Gu as [[G1 [G2 [n G3]]]|[G1 [n [[G2 G3]|[[G2 G3]|[G2 G3]]]]]]; try congruence.
        destruct n as [|n]; [cbn in G3; congruence|]. rewrite G3 in H. cbn in H. inversion H; subst.
        rewrite Nat.eqb_refl. right. split; [reflexivity|]. exists n. left. split; [exact G2|]. reflexivity.
      * destruct Gu as [[G1 [G2 [n G3]]]|[G1 [n [[G2 G3]|[[G2 G3]|[G2 G3]]]]]]; try congruence.
        -- destruct n as [|n]; cbn in G3; congruence.
        -- rewrite G3 in H. inversion H; subst. rewrite Nat.eqb_refl. left. split; [discriminate|]. split; [exact G2|]. now exists n.
      * destruct Gu as [[G1 [G2 [n G3]]]|[G1 [n [[G2 G3]|[[G2 G3]|[G2 G3]]]]]]; try congruence.
        -- destruct n as [|n]; cbn in G3; congruence.
        -- rewrite G3 in H. inversion H; subst. right. split; [exact G1|]. exists n. right. left. auto.
      * destruct Gu as [[G1 [G2 [n G3]]]|[G1 [n [[G2 G3]|[[G2 G3]|[G2 G3]]]]]]; try congruence.
        -- destruct n as [|n]; cbn in G3; congruence.
        -- rewrite G3 in H. inversion H; subst. right. split; [exact G1|]. exists n. right. right. auto.
    + assert (Et : todo s2 t = todo s1 t).
      { inversion St; subst; cbn [todo]; unfold fset; (destruct (Nat.eqb_spec t u); [congruence|reflexivity]). }
      assert (Eh : held s2 m = Some t <-> held s1 m = Some t).
      { inversion St; subst; cbn [held]; try tauto; unfold fset; destruct (Nat.eqb_spec m m0) as [<-|]; try tauto.
        - rewrite H0. split; congruence.
        - rewrite H0. split; congruence. }
      rewrite Et. destruct IH as [[G1 G]|[G1 G]]; [left|right]; split; tauto.
Qed.

Lemma prog_starts calls : (exists c, In c calls /\ (1 <= snd c)%nat) ->
  exists m k p, In (m, S k) calls /\ calls_prog calls = TLock m :: TGet :: p.
Proof.
  intros [c [Hc Pc]]. induction calls as [|d l IH]; [contradiction|].
  destruct d as [m [|k]].
  - destruct Hc as [<-|Hc]; [cbn in Pc; lia|]. destruct (IH Hc) as [m' [k' [p [I E]]]]. exists m', k', p.
    split; [now right|]. exact E.
  - exists m, k. eexists. split; [now left|]. reflexivity.
Qed.

Lemma both_inside calls t1 t2 : t1 <> t2 ->
  (exists c, In c (calls t1) /\ (1 <= snd c)%nat) -> (exists c, In c (calls t2) /\ (1 <= snd c)%nat) ->
  (forall c1 c2, In c1 (calls t1) -> In c2 (calls t2) -> fst c1 <> fst c2) ->
  exists tr s, truns (start_threads calls) tr s /\ inside tr t1 = true /\ inside tr t2 = true.
Proof.
  intros N C1 C2 D. destruct (prog_starts _ C1) as [m1 [k1 [p1 [I1 E1]]]], (prog_starts _ C2) as [m2 [k2 [p2 [I2 E2]]]].
  assert (M : m1 <> m2) by (exact (D _ _ I1 I2)).
  assert (Q2 : Nat.eqb t2 t1 = false) by (apply Nat.eqb_neq; congruence).
  assert (Q3 : Nat.eqb m2 m1 = false) by (apply Nat.eqb_neq; congruence).
  exists ((((([] ++ [(t1, TLock m1)]) ++ [(t1, TGet)]) ++ [(t2, TLock m2)]) ++ [(t2, TGet)])). eexists.
  split.
  - eapply tr_snoc; [eapply tr_snoc; [eapply tr_snoc; [eapply tr_snoc; [apply tr_nil|]|]|]|].
    + eapply ts_lock; [cbn; exact E1|reflexivity].
    + eapply ts_get. cbn. unfold fset. now rewrite Nat.eqb_refl.
    + eapply ts_lock; [cbn; unfold fset; rewrite Q2; exact E2|]. cbn. unfold fset. now rewrite Q3.
    + eapply ts_get. cbn. unfold fset. now rewrite Nat.eqb_refl.
  - rewrite !inside_snoc, !Nat.eqb_refl, Q2. auto.
Qed.
