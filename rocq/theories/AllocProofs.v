(** Proofs about functions that make vectors. *)
From Coq Require Import String ZArith List Bool Lia Reals Lra.
From Flocq Require Import Core BinarySingleNaN.
From Verif Require Import Base Num StoreModel VecModel SubsetModel AllocModel FloatBridge Spec SpecExpr SpecHist SpecProg
  SpecSub SpecAlloc CapProofs StoreProofs StoreOps VecProofs VecAssign VecEval SubsetProofs StoreThms SubsetThms.
Import ListNotations.
Open Scope Z_scope.
Local Notation length := List.length (only parsing).

(* ------------------------------------------------------- reading arguments *)

Lemma vstep_other w w' x y : vstep w w' x -> y <> x -> same_obj w w' (OD y).
Proof. intros V N. apply (vs_other _ _ _ V); congruence. Qed.

Lemma elem_vstep lm w w' x e i r : vstep w w' x -> ~ In x (vars e) ->
  elem lm e i w = (r, w) -> elem lm e i w' = (r, w').
Proof.
  intros V N E. apply pair_eta; [|apply elem_pure].
  rewrite (elem_same lm w w'); [now rewrite E|].
  intros y Hy. apply (vstep_other w w' x); auto. congruence.
Qed.

Lemma esize_vstep w w' x e : vstep w w' x -> ~ In x (vars e) -> esize w' e = esize w e.
Proof.
  intros V N. apply esize_same. intros y Hy. apply (vstep_other w w' x); auto. congruence.
Qed.

Lemma yields_vstep lm w w' x e l : vstep w w' x -> ~ In x (vars e) ->
  yields lm w e l -> yields lm w' e l.
Proof.
  intros V N [A B]. split; [rewrite (esize_vstep w w' x); auto|].
  intros i Hi. apply (elem_vstep lm w w' x); auto.
Qed.

Lemma arg_first_is lm w a v : first_is lm w a v -> arg_first lm a w = (Done v, w).
Proof. destruct a; simpl; intros H; [now subst|apply H]. Qed.

(* --------------------------------------------------- completing the result *)

(** What the constructor leaves. *)
Definition fresh_vec (w w1 : world) (x : nat) (t : ety) (n : Z) (m : matpar) : Prop :=
  vstep w w1 x /\ (world_ok w -> world_ok w1) /\ vholds w1 x (repeat (zero_of t) (Z.to_nat n)) /\
  mp (ob w1 (OD x)) = m /\ owning w1 x /\ ready w1 x /\ sty (ob w1 (OD x)) = t /\
  n <= cap (ob w1 (OD x)) /\ sz (ob w1 (OD x)) = n /\
  ob w1 (OT x) = store_default KBuffer t.

Lemma vec_sized_fresh w x t n : world_shape w -> unborn w (OD x) -> unborn w (OT x) -> 1 <= n -> fits w n ->
  exists w1, vec_sized x t n w = (Done tt, w1) /\ fresh_vec w w1 x t n mp_none.
Proof.
  intros WO U1 U2 Hn Ft.
  destruct (vec_sized_gen w x t n WO U1 U2 Hn Ft) as [w1 [E [V [WO1 [H [MP [OW [RD [TY [CP OT]]]]]]]]]].
  exists w1. split; [exact E|]. repeat (split; [assumption|]).
  split; [|exact OT]. destruct H as [H _]. rewrite H, repeat_length. lia.
Qed.

Lemma fresh_made w w1 w2 x t m us : fresh_vec w w1 x t (Z.of_nat (length us)) m ->
  step1 w1 w2 (OD x) -> ob w2 = ob w1 -> holds w2 (OD x) us -> made w w2 x t us m.
Proof.
  intros [V [WO [H [MP [[OW1 OW2] [RD [TY [CP [SZ OTD]]]]]]]]] ST O Hd.
  split; unfold owning, ready, can_assign; rewrite ?O; eauto.
  - eapply vstep_trans; [exact V|]. eapply step1_vstep; [left; reflexivity|exact ST].
  - intros WO0. eapply step1_ok; eauto. eapply inited_buffer; eauto; [apply ST|now rewrite O].
Qed.

(** A loop that writes us[k] to element k, reading only other vectors. *)
Lemma fresh_fill w w1 x t m us (body : Z -> M world unit) :
  fresh_vec w w1 x t (Z.of_nat (length us)) m -> us <> [] ->
  (forall k w2, 0 <= k < Z.of_nat (length us) -> vstep w w2 x -> ob w2 = ob w1 ->
     body k w2 = set_at (OD x) k (nth (Z.to_nat k) us (VB false)) w2) ->
  exists w2, for_ (Z.of_nat (length us)) body w1 = (Done tt, w2) /\ made w w2 x t us m.
Proof.
  intros F Ne Hb. pose proof F as [V [WO [H [MP [[K1 K2] [[P0 CA] [TY [CP [SZ OTD]]]]]]]]].
  pose proof (vs_shape _ _ _ V) as W.
  destruct (ptr (ob w1 (OD x))) as [a|] eqn:P; [|congruence].
  destruct (ptr_live _ _ _ W P) as [cs [B [L1 L2]]].
  assert (Ow : owner_of (ob w1 (OD x)) = OwnCpp) by (unfold owner_of; now rewrite K1).
  rewrite Ow in B. pose proof (shape_alloc _ _ _ W P) as A.
  assert (OO : owns (ob w1 (OD x)) a) by (split; auto).
  destruct (for_wr_gen (fun k => Some (nth (Z.to_nat k) us (VB false))) body w1 a OwnCpp cs 0 (length us) B)
    as [w2 [cs2 [E [U [Len Nth]]]]]; [lia|lia| |].
  - intros k w2 cs2 Hk U Len2.
    assert (ST : step1 w1 w2 (OD x)) by (eapply step1_cells; eauto).
    rewrite (Hb k w2); [|lia| |apply U].
    + destruct U as [U1 _]. apply set_at_in; rewrite U1; auto. lia.
    + eapply vstep_trans; [exact V|]. eapply step1_vstep; [left; reflexivity|exact ST].
  - exists w2. split; [unfold for_; rewrite Nat2Z.id; exact E|].
    assert (ST : step1 w1 w2 (OD x)) by (eapply step1_cells; eauto).
    destruct U as [U1 [U2 [U3 [U4 U5]]]].
    eapply fresh_made; eauto.
    apply holds_cells; [apply ST|]. rewrite U1. split; [exact SZ|].
    intros i Hi. rewrite (cells_of_ptr w2 (OD x) a OwnCpp cs2); [|now rewrite U1|exact U4].
    rewrite Nth, Nat2Z.id.
    replace ((0 <=? Z.of_nat i) && (Z.of_nat i <? 0 + Z.of_nat (length us))) with true; auto.
    symmetry; apply andb_true_intro; split; [apply Z.leb_le|apply Z.ltb_lt]; lia.
Qed.

Lemma nth_rep {A} (a d : A) n i : (i < n)%nat -> nth i (repeat a n) d = a.
Proof. revert i. induction n; intros [|i] H; simpl; auto; [lia|lia|]. apply IHn. lia. Qed.

Lemma built_done x m w w' : m w = (Done tt, w') -> built x m w = (Done tt, w').
Proof. unfold built. now intros ->. Qed.

(** fill with a scalar of the vector's own type. *)
Lemma fresh_fill_scalar w w1 x t m n v : fresh_vec w w1 x t n m -> 1 <= n -> ty_of v = t ->
  exists w2, fill (OD x) v w1 = (Done tt, w2) /\ made w w2 x t (repeat v (Z.to_nat n)) m.
Proof.
  intros F Hn Tv. pose proof F as [V [WO [H [MP [OW [RD [TY [CP [SZ OTD]]]]]]]]].
  assert (Cv : cast t v = Done v) by (subst t; destruct v; reflexivity).
  unfold fill. rewrite bind_st, TY, Cv, bind_lift_done, SZ.
  assert (Ln : Z.of_nat (length (repeat v (Z.to_nat n))) = n) by (rewrite repeat_length; lia).
  set (us := repeat v (Z.to_nat n)) in *. rewrite <- Ln. rewrite <- Ln in F. destruct RD as [P _].
  destruct (ptr (ob w1 (OD x))) as [a|] eqn:Pa; [|congruence].
  apply (fresh_fill w w1 x t m _ _ F).
  - intros E. rewrite E in Ln. simpl in Ln. lia.
  - intros k w2 Hk V2 O2.
    assert (W2 : world_shape w2) by apply V2.
    rewrite (set_at_in w2 (OD x) a).
    + unfold wr. unfold us. rewrite nth_rep by (unfold us in *; rewrite repeat_length in *; lia). reflexivity.
    + now rewrite O2.
    + apply (shape_alloc w2 (OD x) a W2). now rewrite O2.
    + rewrite O2. lia.
Qed.

(* ------------------------------------------------------------------- sizes *)

Lemma fone_R : fR fone = 1%R /\ valid fone /\ finite fone.
Proof.
  destruct (i2f_exact 1) as [A B]; [lia|]. split; [exact A|split; [apply i2f_valid|exact B]].
Qed.

Lemma convert_size_ok v n : size_is v n -> 1 <= n -> convert_size v = Done n.
Proof.
  destruct v as [b|z|d]; simpl; intros H Hn.
  - destruct b; simpl in H; subst; auto. lia.
  - subst. replace (1 <=? n) with true; auto. symmetry. now apply Z.leb_le.
  - destruct H as [[Vd [Fd T]] Hl]. unfold is_double_int, f2int.
    rewrite (ftrunc_correct d Fd), T.
    assert (I : in_int n = true).
    { unfold in_int, int_min, int_max. apply andb_true_intro. split; apply Z.leb_le; lia. }
    rewrite I. simpl. destruct fone_R as [O1 [O2 O3]].
    replace (flt_leb fone d) with true.
    + unfold f2size. rewrite (ftrunc_correct d Fd), T.
      replace ((0 <=? n) && (n <? 2 ^ 64)) with true; auto.
      symmetry. apply andb_true_intro. split; [apply Z.leb_le|apply Z.ltb_lt]; lia.
    + symmetry. apply fleb_correct; auto. rewrite O1.
      destruct (Rlt_le_dec (fR d) 1) as [L|L]; auto. exfalso.
      assert (Ztrunc (fR d) <= 0); [|lia].
      destruct (Rle_lt_dec 0 (fR d)) as [P|P].
      * rewrite Ztrunc_floor by auto. cut (Zfloor (fR d) < 1); [lia|]. apply lt_IZR.
        eapply Rle_lt_trans; [apply Zfloor_lb|]. exact L.
      * rewrite Ztrunc_ceil by lra. apply Zceil_glb. simpl. lra.
Qed.

Lemma convert_size_bad v n : size_is v n -> n < 1 -> - 2 ^ 31 <= n ->
  exists m, convert_size v = Thrown (Ass m).
Proof.
  destruct v as [b|z|d]; simpl; intros H Hn Hl.
  - destruct b; simpl in H; subst; eauto. lia.
  - subst. replace (1 <=? n) with false; eauto. symmetry. apply Z.leb_gt. lia.
  - destruct H as [[Vd [Fd T]] _]. unfold is_double_int, f2int.
    rewrite (ftrunc_correct d Fd), T.
    assert (I : in_int n = true).
    { unfold in_int, int_min, int_max. apply andb_true_intro. split; apply Z.leb_le; lia. }
    rewrite I. simpl. destruct fone_R as [O1 [O2 O3]].
    replace (flt_leb fone d) with false; eauto.
    symmetry. apply not_true_is_false. intros L. apply fleb_correct in L; auto. rewrite O1 in L.
    assert (1 <= Ztrunc (fR d)); [|lia].
    rewrite Ztrunc_floor by lra. apply Zfloor_lub. simpl. exact L.
Qed.

(** Outside the range of int the conversion is undefined. *)
Lemma convert_size_undef d : (forall n, int_part d n -> ~ (- 2 ^ 31 <= n < 2 ^ 31)) -> valid d ->
  convert_size (VD d) = Undef UB_cast.
Proof.
  intros H V. simpl. unfold is_double_int, f2int.
  destruct (ftrunc d) as [z|] eqn:T; [|reflexivity].
  assert (Fd : finite d) by (destruct d; simpl in *; try discriminate; exact I).
  rewrite (ftrunc_correct d Fd) in T. injection T as T.
  assert (I : in_int z = false).
  { apply not_true_is_false. intros I. apply (H z); [repeat split; auto|].
    unfold in_int, int_min, int_max in I. apply andb_prop in I as [I1 I2].
    apply Z.leb_le in I1, I2. lia. }
  now rewrite I.
Qed.

(* ----------------------------------------------- loops on the new vector *)

(** Only elements of vector x (as the constructor left it) have changed. *)
Definition within (w1 : world) (x : nat) (w2 : world) : Prop :=
  exists a cs cs', ptr (ob w1 (OD x)) = Some a /\ hblk (hp w1) a = Live OwnCpp cs /\
    upd_cells w1 w2 a OwnCpp cs' /\ length cs' = length cs.

Lemma within_refl w w1 x t n m : fresh_vec w w1 x t n m -> within w1 x w1.
Proof.
  intros [V [WO [H [MP [[K1 K2] [[P0 CA] [TY [CP [SZ OTD]]]]]]]]].
  pose proof (vs_shape _ _ _ V) as W.
  destruct (ptr (ob w1 (OD x))) as [a|] eqn:P; [|congruence].
  destruct (ptr_live _ _ _ W P) as [cs [B _]]. unfold owner_of in B. rewrite K1 in B.
  exists a, cs, cs. repeat split; auto.
Qed.

Lemma within_ob w1 x w2 : within w1 x w2 -> ob w2 = ob w1.
Proof. intros [a [cs [cs' [_ [_ [U _]]]]]]. apply U. Qed.

Lemma within_step w w1 x t n m w2 : fresh_vec w w1 x t n m -> within w1 x w2 -> vstep w w2 x.
Proof.
  intros [V [WO [H [MP [[K1 K2] [[P0 CA] [TY [CP [SZ OTD]]]]]]]]] [a [cs [cs' [P [B [U L]]]]]].
  eapply vstep_trans; [exact V|]. eapply step1_vstep; [left; reflexivity|].
  eapply step1_cells; eauto; [apply V|split; auto; unfold owner_of; now rewrite K1].
Qed.

(** A checked write keeps within the vector, whatever its outcome. *)
Lemma set_at_within w1 x w2 i v : within w1 x w2 -> within w1 x (snd (set_at (OD x) i v w2)).
Proof.
  intros [a [cs [cs' [P [B [U L]]]]]]. pose proof U as [U1 [U2 [U3 [U4 U5]]]].
  assert (WW : within w1 x w2) by (exists a, cs, cs'; repeat split; auto).
  unfold set_at. rewrite bind_st.
  unfold bind at 1. destruct (alloc (ob w2 (OD x))); [|exact WW]. simpl.
  unfold bind at 1. destruct (i <? sz (ob w2 (OD x))); [|exact WW]. simpl.
  rewrite U1, P. unfold wr, wrc. rewrite U4.
  destruct ((0 <=? i) && (i <? Z.of_nat (length cs'))); [|exact WW].
  exists a, cs, (list_set cs' (Z.to_nat i) (Some v)). rewrite list_set_length. repeat split; auto; simpl.
  - now rewrite Nat.eqb_refl.
  - intros b Hb. replace (Nat.eqb b a) with false by (symmetry; now apply Nat.eqb_neq). auto.
Qed.

Lemma forN_within w1 x (f : Z -> val) n : forall i w2, within w1 x w2 ->
  within w1 x (snd (forN n i (fun k => set_at (OD x) k (f k)) w2)).
Proof.
  induction n as [|n IH]; intros i w2 H; cbn [forN]; [exact H|].
  pose proof (set_at_within w1 x w2 i (f i) H) as H1. unfold bind.
  destruct (set_at (OD x) i (f i) w2) as [[[]|e|u] w3]; simpl in *; auto.
Qed.

Lemma forN_app n m : forall i (b : Z -> M world unit) w,
  forN (n + m) i b w = bind (forN n i b) (fun _ => forN m (i + Z.of_nat n) b) w.
Proof.
  induction n as [|n IH]; intros i b w; cbn [forN Nat.add].
  - replace (i + Z.of_nat 0) with i by lia. reflexivity.
  - unfold bind. destruct (b i w) as [[[]|e|u] w1]; auto.
    rewrite IH. unfold bind. replace (i + Z.of_nat (S n)) with (i + 1 + Z.of_nat n) by lia. reflexivity.
Qed.

Lemma forN_shift n c : forall i (b : Z -> M world unit) w,
  forN n i (fun k => b (k + c)) w = forN n (i + c) b w.
Proof.
  induction n as [|n IH]; intros i b w; cbn [forN]; auto.
  unfold bind. destruct (b (i + c) w) as [[[]|e|u] w1]; auto.
  rewrite IH. f_equal. lia.
Qed.

(** Replace the body of a loop by one that agrees as long as an invariant holds. *)
Lemma forN_ext_inv (I : world -> Prop) n : forall i (b1 b2 : Z -> M world unit) w, I w ->
  (forall k w, i <= k < i + Z.of_nat n -> I w -> b1 k w = b2 k w) ->
  (forall k w, i <= k < i + Z.of_nat n -> I w -> I (snd (b2 k w))) ->
  forN n i b1 w = forN n i b2 w.
Proof.
  induction n as [|n IH]; intros i b1 b2 w Hw E P; cbn [forN]; auto.
  unfold bind. rewrite E by (auto; lia). pose proof (P i w ltac:(lia) Hw) as P1.
  destruct (b2 i w) as [[[]|e|u] w1]; auto. apply IH; auto; intros; [apply E|apply P]; auto; lia.
Qed.

(** Writing all elements in order makes the vector. *)
Lemma fresh_writes w w1 x t m us : fresh_vec w w1 x t (Z.of_nat (length us)) m -> us <> [] ->
  exists w2, forN (length us) 0 (fun k => set_at (OD x) k (nth (Z.to_nat k) us (VB false))) w1 = (Done tt, w2) /\
    made w w2 x t us m.
Proof.
  intros F Ne. destruct (fresh_fill w w1 x t m us (fun k => set_at (OD x) k (nth (Z.to_nat k) us (VB false))) F Ne)
    as [w2 [E M]]; auto.
  exists w2. split; auto. unfold for_ in E. now rewrite Nat2Z.id in E.
Qed.

(* ------------------------------------------------------------------ vector *)

Lemma create_rvec_done w x vt v n : world_shape w -> unborn w (OD x) -> unborn w (OT x) ->
  size_is v n -> 1 <= n -> fits w n ->
  exists w', create_rvec x vt v w = (Done tt, w') /\
    made w w' x TDouble (repeat (VD fzero) (Z.to_nat n)) mp_none.
Proof.
  intros W D1 D2 Sz Hn Ft. pose proof (ws_lim _ W).
  unfold create_rvec. rewrite (convert_size_ok v n Sz Hn), bind_lift_done.
  replace (0 <? n) with true by (symmetry; apply Z.ltb_lt; lia). rewrite bind_ass_true.
  unfold fits in Ft. destruct (cap115_ok n) as [c [C Bc]]; [lia|].
  destruct (ctor_size_done w (OD x) TDouble n c W D1) as [w1 [E1 [S1 [O1 H1]]]]; auto; try lia.
  rewrite (bind_done _ _ _ _ _ E1).
  assert (T1 : same_obj w w1 (OT x)) by (apply (s1_other _ _ _ S1); congruence).
  destruct (ctor_default_done w1 (OT x) vt (s1_shape _ _ _ S1)) as [w2 [E2 [S2 [O2 H2]]]].
  { intros a Ha. destruct T1 as [T1 _]. rewrite T1 in Ha. now apply (D2 a). }
  exists w2. split; [exact E2|].
  assert (SO : same_obj w1 w2 (OD x)) by (apply (s1_other _ _ _ S2); congruence).
  assert (H3 : vholds w2 x (repeat (zero_of TDouble) (Z.to_nat n))) by (eapply holds_same; eauto).
  destruct SO as [SO _].
  assert (V : vstep w w2 x).
  { eapply vstep_trans; eapply step1_vstep; [left; reflexivity|exact S1|right; reflexivity|exact S2]. }
  split; unfold owning, ready, can_assign; rewrite ?SO, ?O1, ?O2; simpl; eauto.
  - intros WO. eapply vstep_ok; eauto.
    + eapply inited_buffer; [apply S2| |exact H3]. rewrite SO, O1. reflexivity.
    + eapply inited_buffer; [apply S2| |exact H2]. rewrite O2. reflexivity.
  - split; [congruence|now left].
  - rewrite repeat_length. lia.
Qed.

Lemma vector_fn_done lm w x vt a v n : world_shape w -> unborn w (OD x) -> unborn w (OT x) ->
  items lm w a [v] -> size_is v n -> 1 <= n -> fits w n ->
  exists w', vector_fn lm x vt a w = (Done tt, w') /\
    made w w' x TDouble (repeat (VD fzero) (Z.to_nat n)) mp_none.
Proof.
  intros WO D1 D2 It Sz Hn Ft. destruct a as [u|t e]; simpl in It.
  - injection It as <-. now apply create_rvec_done.
  - destruct It as [ES EL]. specialize (EL O). simpl in EL.
    unfold vector_fn. rewrite bind_get, ES. change (Z.of_nat (length [v]) =? 1) with true.
    rewrite bind_ass_true, (bind_done _ _ _ _ _ (EL ltac:(lia))). now apply create_rvec_done.
Qed.

Lemma vector_fn_bad lm w x vt a v n : items lm w a [v] -> size_is v n -> - 2 ^ 31 <= n < 1 ->
  exists m, vector_fn lm x vt a w = (Thrown (Ass m), w).
Proof.
  intros It Sz Hn. destruct (convert_size_bad v n Sz) as [m E]; [lia|lia|]. exists m.
  destruct a as [u|t e]; simpl in It.
  - injection It as <-. unfold vector_fn, create_rvec. rewrite E. reflexivity.
  - destruct It as [ES EL]. specialize (EL O). simpl in EL.
    unfold vector_fn. rewrite bind_get, ES. change (Z.of_nat (length [v]) =? 1) with true.
    rewrite bind_ass_true, (bind_done _ _ _ _ _ (EL ltac:(lia))). unfold create_rvec. rewrite E. reflexivity.
Qed.

Lemma vector_fn_long lm w x vt t e l : yields lm w e l -> length l <> 1%nat ->
  exists m, vector_fn lm x vt (AV t e) w = (Thrown (Ass m), w).
Proof.
  intros [ES _] Hl. unfold vector_fn. rewrite bind_get, ES.
  replace (Z.of_nat (length l) =? 1) with false by (symmetry; apply Z.eqb_neq; lia).
  rewrite bind_ass_false. eauto.
Qed.

(* --------------------------------------------------------------------- rep *)

Lemma set_at_ob o i v w : ob (snd (set_at o i v w)) = ob w.
Proof.
  unfold set_at. rewrite bind_st. unfold bind at 1. destruct (alloc (ob w o)); [|reflexivity]. simpl.
  unfold bind at 1. destruct (i <? sz (ob w o)); [|reflexivity]. simpl.
  unfold wr, wrc. destruct (ptr (ob w o)); [|reflexivity].
  destruct (hblk (hp w) n); try reflexivity. destruct (_ && _); reflexivity.
Qed.

Lemma esize_ob w w' e : ob w' = ob w -> esize w' e = esize w e.
Proof.
  intros H. induction e; cbn [esize]; auto; [now rewrite H|].
  now rewrite IHe1, IHe2.
Qed.

Lemma mod_next i k : 0 <= i -> 0 < k ->
  (if k <=? i mod k + 1 then 0 else i mod k + 1) = (i + 1) mod k.
Proof.
  intros Hi Hk. pose proof (Z.mod_pos_bound i k Hk).
  destruct (Z.leb_spec k (i mod k + 1)).
  - assert (i mod k = k - 1) by lia.
    rewrite Z.add_mod by lia. rewrite H1. destruct (Z.eq_dec k 1) as [->|]; [reflexivity|].
    rewrite (Z.mod_small 1 k) by lia. replace (k - 1 + 1) with k by lia. symmetry. apply Z.mod_same. lia.
  - rewrite Z.add_mod by lia. destruct (Z.eq_dec k 1) as [->|]; [rewrite Z.mod_1_r in *; lia|].
    rewrite (Z.mod_small 1 k) by lia. symmetry. apply Z.mod_small. lia.
Qed.

Lemma rep_loop_forN lm x t e k n : 0 < k < 2 ^ 64 -> forall i w, 0 <= i -> esize w e = k ->
  rep_loop lm x t e n i (i mod k) w =
  forN n i (fun j => v <- elem lm e (j mod k) ;; v' <- lift (cast t v) ;; set_at (OD x) j v') w.
Proof.
  intros Hk. induction n as [|n IH]; intros i w Hi ES; cbn [rep_loop forN]; auto.
  unfold bind. pose proof (elem_pure lm e (i mod k) w) as EP.
  destruct (elem lm e (i mod k) w) as [[v|ex|u] w1]; simpl in EP; subst w1; auto.
  unfold lift. destruct (cast t v) as [v'|ex|u]; auto.
  pose proof (set_at_ob (OD x) i v' w) as SO.
  destruct (set_at (OD x) i v' w) as [[[]|ex|u] w1]; simpl in SO; auto.
  unfold get. rewrite (esize_ob w w1 e SO), ES.
  pose proof (Z.mod_pos_bound i k ltac:(lia)).
  rewrite wrap64_small by lia. rewrite mod_next by lia. apply IH; [lia|].
  now rewrite (esize_ob w w1 e SO).
Qed.

Lemma cast_same v : cast (ty_of v) v = Done v.
Proof. destruct v; reflexivity. Qed.

Lemma fits_len w (x : nat) n : world_shape w -> fits w n -> n <= 2 ^ 60.
Proof. intros W F. pose proof (ws_lim _ W). unfold fits in F. lia. Qed.

(** rep: k copies of the elements. *)
Lemma rep_done lm w x inp times l v n : world_shape w -> unborn w (OD x) -> unborn w (OT x) ->
  ~ In x (arg_vars inp) -> items lm w inp l -> (forall u, In u l -> ty_of u = arg_ty inp) -> l <> [] ->
  first_is lm w times v -> size_is v n -> 1 <= n ->
  fits w (n * Z.of_nat (length l)) ->
  exists w' us, rep_fn lm x inp times w = (Done tt, w') /\ made w w' x (arg_ty inp) us mp_none /\
    Z.of_nat (length us) = n * Z.of_nat (length l) /\
    forall i, (i < length us)%nat -> nth i us (VB false) = nth (i mod length l) l (VB false).
Proof.
  intros WO D1 D2 Nx It Ty Ne Fi Sz Hn Ft.
  assert (L0 : (0 < length l)%nat) by (destruct l; [congruence|simpl; lia]).
  pose proof (fits_len w x _ WO Ft) as F60.
  unfold rep_fn. rewrite (bind_done _ _ _ _ _ (arg_first_is lm w times v Fi)).
  rewrite (convert_size_ok v n Sz Hn), bind_lift_done.
  destruct inp as [u|t e]; simpl in *.
  - subst l. simpl length in *. replace (n * Z.of_nat 1) with n in * by lia.
    destruct (vec_sized_fresh w x (ty_of u) n WO D1 D2 Hn Ft) as [w1 [E1 F1]].
    rewrite (bind_done _ _ _ _ _ E1).
    destruct (fresh_fill_scalar w w1 x (ty_of u) mp_none n u F1 Hn eq_refl) as [w2 [E2 M2]].
    exists w2, (repeat u (Z.to_nat n)). split; [now apply built_done|].
    split; [exact M2|]. rewrite repeat_length. split; [lia|].
    intros i Hi. rewrite nth_rep by lia. now rewrite Nat.mod_1_r.
  - rewrite bind_get. destruct It as [ES EL]. rewrite ES.
    set (k := Z.of_nat (length l)) in *.
    assert (Hk : 1 <= k) by (unfold k; lia).
    assert (1 <= n * k) by nia. rewrite wrap64_small by lia.
    set (us := map (fun i => nth (i mod length l) l (VB false)) (seq 0 (Z.to_nat (n * k)))).
    assert (Lu : length us = Z.to_nat (n * k)) by (unfold us; now rewrite map_length, seq_length).
    assert (Lz : Z.of_nat (length us) = n * k) by lia.
    assert (Nu : forall i, (i < length us)%nat -> nth i us (VB false) = nth (i mod length l) l (VB false)).
    { intros i Hi. unfold us. rewrite (nth_indep _ _ (nth (0 mod length l) l (VB false))) by exact Hi.
      rewrite (map_nth (fun i => nth (i mod length l) l (VB false))), seq_nth by lia. reflexivity. }
    destruct (vec_sized_fresh w x t (n * k) WO D1 D2) as [w1 [E1 F1]]; auto.
    rewrite (bind_done _ _ _ _ _ E1).
    rewrite <- Lz in F1.
    destruct (fresh_fill w w1 x t mp_none us
       (fun j => v <- elem lm e (j mod k) ;; v' <- lift (cast t v) ;; set_at (OD x) j v') F1) as [w2 [E2 M2]].
    { intros E. rewrite E in Lz. simpl in Lz. lia. }
    { intros j w2 Hj V2 O2. rewrite Nu by lia.
      assert (Hm : (Z.to_nat j mod length l < length l)%nat) by (apply Nat.mod_upper_bound; lia).
      specialize (EL _ Hm). apply (elem_vstep lm w w2 x) in EL; auto.
      replace (Z.of_nat (Z.to_nat j mod length l)) with (j mod k) in EL.
      2: { rewrite Nat2Z.inj_mod. rewrite Z2Nat.id by lia. reflexivity. }
      rewrite (bind_done _ _ _ _ _ EL). rewrite <- (Ty (nth (Z.to_nat j mod length l) l (VB false))) by now apply nth_In.
      now rewrite cast_same, bind_lift_done. }
    exists w2, us. split; [|auto].
    apply built_done. rewrite <- Lu. change 0 with (0 mod k) at 2.
    rewrite (rep_loop_forN lm x t e k) by (lia || (destruct F1 as [V1 _]; rewrite (esize_vstep w w1 x); auto)).
    unfold for_ in E2. now rewrite Nat2Z.id in E2.
Qed.
