(** Proofs about constants of derivative programs. *)
From Coq Require Import String ZArith List Bool Lia Reals Lra.
From Verif Require Import Base Num StoreModel VecModel SubsetModel AllocModel DerivModel ConstModel FloatBridge Spec SpecExpr
  SpecHist SpecProg SpecSub SpecAlloc SpecDeriv SpecConst CapProofs StoreProofs StoreOps VecProofs VecAssign VecEval SubsetProofs
  StoreThms SubsetThms AllocProofs AllocProofs2 AllocProofs3 AllocProofs4 DerivProofs.
Import ListNotations.
Open Scope Z_scope.
Local Notation length := List.length (only parsing).

Lemma cast_double v : cast TDouble v = Done (VD (v2f v)).
Proof. now destruct v. Qed.

Lemma con_put_eq k i v w : con_put k i v w = set_at (OD (kslot k)) i (VD (v2f v)) w.
Proof. unfold con_put. now rewrite cast_double, bind_lift_done. Qed.

Lemma count_con_eq {A} k go put (next : A -> outcome A) : forall fuel s c w,
  count_con k go put next fuel s c w = count_loop (kslot k) go (fun s => VD (v2f (put s))) next fuel s c w.
Proof.
  induction fuel as [|f IH]; intros s c w; cbn [count_con count_loop]; auto.
  destruct (go s); auto. unfold bind. rewrite con_put_eq.
  destruct (set_at _ c _ w) as [[[]|e|u] w1]; auto.
  destruct (lift (next s) w1) as [[s'|e|u] w2]; auto.
Qed.

(** mk_con, as a function of the world. *)
Definition put_con (k : nat) (l : list flt) : M world unit :=
  resize (OD (kslot k)) (Z.of_nat (length l)) ;;
  forN (length l) 0 (fun i => set_at (OD (kslot k)) i (VD (nth (Z.to_nat i) l fzero))).

Lemma inw_forN n (b : Z -> M world unit) : forall i d,
  forN n i (fun k => inw (b k)) d = inw (forN n i b) d.
Proof.
  induction n as [|n IH]; intros i d; cbn [forN].
  - unfold ret, inw. now destruct d.
  - unfold bind at 1. unfold inw at 1. unfold inw at 2. unfold bind at 1.
    destruct (b i (dw d)) as [[[]|e|u] w1]; auto. rewrite IH. unfold inw. reflexivity.
Qed.

Lemma put_con_mk k l d : mk_con k l d = inw (put_con k l) d.
Proof.
  unfold mk_con, put_con, dfor. rewrite Nat2Z.id. unfold bind at 1. unfold inw at 1. unfold inw at 2. unfold bind at 1.
  destruct (resize _ _ (dw d)) as [[[]|e|u] w1]; auto. rewrite inw_forN. reflexivity.
Qed.

(** resize of a constant. *)
Lemma con_resize w k n : world_shape w -> con_array w k -> 1 <= n -> fits w n ->
  exists w1 c, resize (OD (kslot k)) n w = (Done tt, w1) /\ resize_post w w1 (OD (kslot k)) n c /\ con_array w1 k /\
    within w1 (kslot k) w1 /\ forall w2, within w1 (kslot k) w2 -> step1 w w2 (OD (kslot k)).
Proof.
  intros W [K T Mp P] Hn Ft. unfold fits in Ft. pose proof (ws_lim _ W) as Lim.
  destruct (cap115_ok n) as [c [C Bc]]; [lia|].
  destruct (resize_done w (OD (kslot k)) n c W K) as [w1 [E R]]; auto; try lia.
  exists w1, c. split; [exact E|]. split; [exact R|].
  destruct R as [ST [K' [T' [Mp' [Td' [Sz' [Al' [P' [C' R]]]]]]]]].
  assert (CA : con_array w1 k) by (split; rewrite ?K', ?T', ?Mp'; auto).
  split; [exact CA|].
  destruct (ptr (ob w1 (OD (kslot k)))) as [a|] eqn:Pa; [|congruence].
  destruct (ptr_live _ _ _ (s1_shape _ _ _ ST) Pa) as [cs [B [L1 L2]]].
  assert (Ow : owner_of (ob w1 (OD (kslot k))) = OwnCpp) by (unfold owner_of; now rewrite K').
  rewrite Ow in B. split.
  - exists a, cs, cs. repeat split; auto.
  - intros w2 [a2 [cs1 [cs2 [Pb [B2 [U L]]]]]]. rewrite Pa in Pb. injection Pb as <-.
    eapply step1_trans; [exact ST|]. eapply step1_cells; eauto; [apply ST|]. split; auto.
Qed.

(** Writing the first elements. *)
Lemma con_writes w1 k (f : nat -> val) m : world_shape w1 -> con_array w1 k -> ptr (ob w1 (OD (kslot k))) <> None ->
  Z.of_nat m <= sz (ob w1 (OD (kslot k))) ->
  exists w2, forN m 0 (fun j => set_at (OD (kslot k)) j (f (Z.to_nat j))) w1 = (Done tt, w2) /\
    within w1 (kslot k) w2 /\ ob w2 = ob w1 /\
    (Z.of_nat m = sz (ob w1 (OD (kslot k))) -> holds w2 (OD (kslot k)) (map f (seq 0 m))).
Proof.
  intros W [K T Mp _] P0 Hm. set (x := kslot k) in *.
  destruct (ptr (ob w1 (OD x))) as [a|] eqn:P; [|congruence].
  destruct (ptr_live _ _ _ W P) as [cs [B [L1 L2]]].
  assert (Ow : owner_of (ob w1 (OD x)) = OwnCpp) by (unfold owner_of; now rewrite K).
  rewrite Ow in B. pose proof (shape_alloc _ _ _ W P) as A.
  assert (OO : owns (ob w1 (OD x)) a) by (split; auto).
  destruct (for_wr_gen (fun j => Some (f (Z.to_nat j))) (fun j => set_at (OD x) j (f (Z.to_nat j))) w1 a OwnCpp cs 0 m B)
    as [w2 [cs2 [E [U [Len Nth]]]]]; [lia|lia| |].
  - intros j w2 cs2 Hj U Len2. destruct U as [U1 _]. apply set_at_in; rewrite U1; auto. lia.
  - exists w2. split; [exact E|].
    split. { exists a, cs, cs2. repeat split; auto; apply U. }
    assert (ST : step1 w1 w2 (OD x)) by (eapply step1_cells; eauto).
    destruct U as [U1 [U2 [U3 [U4 U5]]]]. split; [exact U1|].
    intros Eq. apply holds_cells; [apply ST|]. rewrite U1, map_length, seq_length. split; [lia|].
    intros i Hi. rewrite (cells_of_ptr w2 (OD x) a OwnCpp cs2); [|now rewrite U1|exact U4].
    rewrite Nth, Nat2Z.id.
    replace ((0 <=? Z.of_nat i) && (Z.of_nat i <? 0 + Z.of_nat m)) with true.
    + now rewrite nth_map_seq by exact Hi.
    + symmetry; apply andb_true_intro; split; [apply Z.leb_le|apply Z.ltb_lt]; lia.
Qed.

Lemma map_nth_seq {A} (l : list A) d : map (fun i => nth i l d) (seq 0 (length l)) = l.
Proof.
  apply (nth_ext _ _ d d); rewrite map_length, seq_length; auto.
  intros i Hi. now rewrite nth_map_seq.
Qed.

Lemma put_con_done w k l : world_shape w -> con_array w k -> l <> [] -> fits w (Z.of_nat (length l)) ->
  exists w', put_con k l w = (Done tt, w') /\ con_made w w' k l.
Proof.
  intros W CA Ne Ft. assert (L0 : 1 <= Z.of_nat (length l)) by (destruct l; [congruence|simpl; lia]).
  destruct (con_resize w k _ W CA L0 Ft) as [w1 [c [E1 [R1 [CA1 [Wi1 St1]]]]]].
  pose proof R1 as [ST [_ [_ [_ [_ [Sz [_ [P1 _]]]]]]]].
  destruct (con_writes w1 k (fun i => VD (nth i l fzero)) (length l)) as [w2 [E2 [Wi2 [O2 H2]]]]; auto; [apply ST|lia|].
  exists w2. split.
  - unfold put_con. rewrite (bind_done _ _ _ _ _ E1). exact E2.
  - split; [now apply St1| |].
    + destruct CA1. split; rewrite O2; auto.
    + specialize (H2 (eq_sym Sz)). rewrite <- (map_map (fun i => nth i l fzero) VD), map_nth_seq in H2. exact H2.
Qed.

(* ----------------------------------------------------------------- scalar *)

Lemma scalar_con_put k v w : scalar_con k v w = put_con k [v2f v] w.
Proof.
  unfold scalar_con, put_con. cbn [length]. unfold bind at 1 2. change (Z.of_nat 1) with 1.
  destruct (resize _ 1 w) as [[[]|e|u] w1]; auto. rewrite con_put_eq. cbn [forN]. unfold bind. cbn [Z.to_nat nth].
  destruct (set_at _ 0 _ w1) as [[[]|e|u] w2]; auto.
Qed.

(* ------------------------------------------------------------------- coca *)

Lemma coca_con_fill_forN lm w w1 k t : (forall w2, within w1 (kslot k) w2 -> vstep w w2 (kslot k)) ->
  forall args ls us idx w2, within w1 (kslot k) w2 ->
  (forall a, In a args -> ~ In (kslot k) (arg_vars a)) ->
  Forall2 (items lm w) args ls -> Forall2 (fun v u => cast t v = Done u) (concat ls) us ->
  0 <= idx -> idx + Z.of_nat (length us) < 2 ^ 64 ->
  coca_con_fill lm k t args idx w2 =
  forN (length us) idx (fun i => set_at (OD (kslot k)) i (VD (v2f (nth (Z.to_nat (i - idx)) us (VB false))))) w2.
Proof.
  set (x := kslot k). intros F. induction args as [|a args IH]; intros ls us idx w2 Wi Nx It C H0 Hb.
  - inversion It; subst. inversion C; subst. reflexivity.
  - inversion It as [|? l ? ls' I1 I2]; subst. cbn [concat] in C.
    destruct a as [v|ta e]; cbn [coca_con_fill].
    + simpl in I1. subst l. simpl in C. inversion C as [|? u ? us' C1 C2]; subst.
      rewrite C1, bind_lift_done. cbn [length forN] in *. rewrite Z.sub_diag. cbn [Z.to_nat nth].
      pose proof (set_at_within w1 x w2 idx (VD (v2f u)) Wi) as Wi2. unfold bind. rewrite con_put_eq. fold x.
      destruct (set_at (OD x) idx (VD (v2f u)) w2) as [[[]|ex|ub] w3]; auto. simpl in Wi2.
      rewrite wrap64_small by lia.
      rewrite (IH ls' us' (idx + 1) w3); auto; [|intros b Hb2; apply Nx; now right|lia|lia].
      apply forN_ext_inv with (I := fun _ => True); auto.
      intros i wk Hk _. f_equal. replace (Z.to_nat (i - idx)) with (S (Z.to_nat (i - (idx + 1)))) by lia. reflexivity.
    + destruct (Forall2_app_split _ _ _ _ C) as [u1 [u2 [-> [C1 C2]]]].
      pose proof (Forall2_len _ _ _ C1) as L1. destruct I1 as [ES EL].
      assert (Vs : vstep w w2 x) by (apply F; auto).
      assert (Nx1 : ~ In x (vars e)) by (apply (Nx (AV ta e)); now left).
      rewrite bind_get, (esize_vstep w w2 x e Vs Nx1), ES, L1. rewrite app_length in *.
      rewrite forN_app.
      assert (E1 : for_ (Z.of_nat (length u1)) (fun i => v <- elem lm e i ;; v' <- lift (cast t v) ;;
                      con_put k (wrap64 (idx + i)) v') w2 =
                   forN (length u1) idx (fun i => set_at (OD x) i (VD (v2f (nth (Z.to_nat (i - idx)) (u1 ++ u2) (VB false))))) w2).
      { unfold for_. rewrite Nat2Z.id.
        pose proof (forN_shift (length u1) idx 0 (fun i => set_at (OD x) i (VD (v2f (nth (Z.to_nat (i - idx)) (u1 ++ u2) (VB false))))) w2) as Sh.
        change (0 + idx) with idx in Sh. rewrite <- Sh.
        apply forN_ext_inv with (I := within w1 x); auto.
        - intros i wk Hk Wk.
          assert (Vk : vstep w wk x) by (apply F; auto).
          assert (Hk2 : (Z.to_nat i < length l)%nat) by lia.
          specialize (EL (Z.to_nat i) Hk2). rewrite Z2Nat.id in EL by lia.
          rewrite (bind_done _ _ _ _ _ (elem_vstep lm w wk x e i _ Vk Nx1 EL)).
          rewrite (Forall2_nth _ _ _ (VB false) (VB false) (Z.to_nat i) C1 Hk2), bind_lift_done.
          rewrite wrap64_small by lia. replace (i + idx - idx) with i by lia.
          rewrite con_put_eq, app_nth1 by lia. f_equal. lia.
        - intros i wk Hk Wk. now apply set_at_within. }
      rewrite (bind_ext _ _ _ _ E1). unfold bind.
      pose proof (forN_within w1 x (fun i => VD (v2f (nth (Z.to_nat (i - idx)) (u1 ++ u2) (VB false)))) (length u1) idx w2 Wi) as Wi3.
      destruct (forN (length u1) idx _ w2) as [[[]|ex|ub] w3]; auto. simpl in Wi3.
      rewrite wrap64_small by lia.
      rewrite (IH ls' u2 (idx + Z.of_nat (length u1)) w3); auto; [|intros b Hb2; apply Nx; now right|lia|lia].
      apply forN_ext_inv with (I := fun _ => True); auto.
      intros i wk Hk _. f_equal. rewrite app_nth2 by lia. do 3 f_equal. lia.
Qed.

Lemma coca_con_put lm w k args ls us : world_shape w -> con_array w k ->
  (forall a, In a args -> ~ In (kslot k) (arg_vars a)) -> Forall2 (items lm w) args ls ->
  Forall2 (fun v u => cast (coca_type args) v = Done u) (concat ls) us ->
  us <> [] -> Z.of_nat (length us) < 2 ^ 31 -> fits w (Z.of_nat (length us)) ->
  coca_con lm k args w = put_con k (map v2f us) w.
Proof.
  intros W CA Nx It C Ne Hb Ft. pose proof (Forall2_len _ _ _ C) as Ln.
  assert (L0 : 1 <= Z.of_nat (length us)) by (destruct us; [congruence|simpl; lia]).
  unfold coca_con, put_con. rewrite bind_get, (coca_size_done lm w args ls 0 It) by lia.
  rewrite bind_lift_done, Ln, map_length. rewrite wrap64_small by lia. change (0 + Z.of_nat (length us)) with (Z.of_nat (length us)).
  destruct (con_resize w k _ W CA L0 Ft) as [w1 [c [E1 [R1 [CA1 [Wi1 St1]]]]]].
  rewrite !(bind_done _ _ _ _ _ E1).
  rewrite (coca_con_fill_forN lm w w1 k (coca_type args)) with (ls := ls) (us := us); auto; [|intros; eapply step1_vstep; [now left|auto]|lia|lia].
  apply forN_ext_inv with (I := fun _ => True); auto.
  intros i wk Hk _. f_equal. rewrite Z.sub_0_r.
  rewrite (nth_indep (map v2f us) fzero (v2f (VB false))) by (rewrite map_length; lia). now rewrite map_nth.
Qed.

(* ------------------------------------------------------------------ colon *)

Lemma colon_con_at0 {A} k go put (next : A -> outcome A) fuel s s' w : s = s' ->
  count_con k go put next fuel s 0 w = count_loop (kslot k) go (fun s => VD (v2f (put s))) next fuel s' (Z.of_nat 0) w.
Proof. intros ->. apply count_con_eq. Qed.

Lemma count_con_put {A} k go put (next : A -> outcome A) (sq : nat -> A) s n w : s = sq O -> 1 <= n ->
  (forall j, (j < Z.to_nat n)%nat -> go (sq j) = true) -> go (sq (Z.to_nat n)) = false ->
  (forall j, (j < Z.to_nat n)%nat -> next (sq j) = Done (sq (S j))) ->
  (resize (OD (kslot k)) n ;; count_con k go put next (S (Z.to_nat n)) s 0) w =
  put_con k (map (fun j => v2f (put (sq j))) (seq 0 (Z.to_nat n))) w.
Proof.
  intros -> Hn G GE Nx. unfold put_con. rewrite map_length, seq_length, Z2Nat.id by lia. unfold bind.
  destruct (resize _ n w) as [[[]|e|u] w1]; auto.
  rewrite (colon_con_at0 k go put next _ _ _ w1 eq_refl).
  rewrite (count_stop (kslot k) go (fun s => VD (v2f (put s))) next sq (Z.to_nat n)); auto; [|intros; apply G; lia|intros; apply Nx; lia].
  apply forN_ext_inv with (I := fun _ => True); auto.
  intros i wk Hi _. f_equal. rewrite nth_map_seq by lia. reflexivity.
Qed.

Lemma colon_con_int_put w k a b : is_int a -> is_int b -> Z.abs (a - b) < 2 ^ 31 - 1 ->
  (a < b -> b < 2 ^ 31 - 1) -> (b <= a -> - 2 ^ 31 < b) ->
  colon_con_int k a b w = put_con k (map (fun j => i2f (colon_nth a b j)) (seq 0 (Z.to_nat (Z.abs (a - b) + 1)))) w.
Proof.
  intros Ia Ib Hd Hu Hl. unfold is_int in *. set (n := Z.abs (a - b) + 1) in *.
  unfold colon_con_int. destruct (Z.ltb_spec a b) as [L|L].
  - rewrite int_res_ok, bind_lift_done by (unfold is_int; lia).
    rewrite int_res_ok, bind_lift_done by (unfold is_int; lia).
    rewrite convert_size_int, bind_lift_done by lia. replace (b - a + 1) with n by lia.
    replace (1 <=? n) with true by (symmetry; apply Z.leb_le; lia). rewrite bind_ass_true.
    assert (S0 : a = colon_nth a b 0) by (unfold colon_nth; destruct (a <=? b); lia).
    rewrite (count_con_put k _ VI _ (colon_nth a b)); auto; unfold colon_nth;
      replace (a <=? b) with true by (symmetry; apply Z.leb_le; lia); [lia| | |].
    + intros j Hj. apply Z.leb_le. lia.
    + apply Z.leb_gt. lia.
    + intros j Hj. rewrite int_res_ok by (unfold is_int; lia). f_equal. lia.
  - rewrite int_res_ok, bind_lift_done by (unfold is_int; lia).
    rewrite int_res_ok, bind_lift_done by (unfold is_int; lia).
    rewrite convert_size_int, bind_lift_done by lia. replace (a - b + 1) with n by lia.
    replace (1 <=? n) with true by (symmetry; apply Z.leb_le; lia). rewrite bind_ass_true.
    set (f := fun j => a - Z.of_nat j). assert (S0 : a = f O) by (unfold f; lia).
    rewrite (count_con_put k _ VI _ f); auto; unfold f; [|lia| | |].
    + f_equal. apply map_ext_in. intros j Hj. apply in_seq in Hj. simpl. f_equal. unfold colon_nth.
      destruct (Z.leb_spec a b); lia.
    + intros j Hj. apply Z.leb_le. lia.
    + apply Z.leb_gt. lia.
    + intros j Hj. rewrite int_res_ok by (unfold is_int; lia). f_equal. lia.
Qed.

(** Counting up to INT_MAX or down to INT_MIN. *)
Lemma colon_con_int_overflow w k a b : world_shape w -> con_array w k ->
  is_int a -> is_int b -> Z.abs (a - b) < 2 ^ 31 - 1 -> fits w (Z.abs (a - b) + 1) ->
  (a < b /\ b = 2 ^ 31 - 1) \/ (b <= a /\ b = - 2 ^ 31) ->
  exists w', colon_con_int k a b w = (Undef UB_overflow, w').
Proof.
  intros W CA Ia Ib Hd Ft Hc. unfold is_int in *. set (n := Z.abs (a - b) + 1) in *.
  destruct (con_resize w k n W CA ltac:(lia) Ft) as [w1 [c [E1 [R1 [CA1 [Wi1 St1]]]]]].
  pose proof R1 as [ST [_ [_ [_ [_ [Sz [_ [P1 _]]]]]]]].
  assert (G : forall go next (f : nat -> Z), f O = a ->
    (forall j, (j < Z.to_nat n)%nat -> go (f j) = true) ->
    (forall j, (S j < Z.to_nat n)%nat -> next (f j) = Done (f (S j))) ->
    next (f (Z.to_nat n - 1)%nat) = Undef UB_overflow ->
    exists w', count_con k go VI next (S (Z.to_nat n)) a 0 w1 = (Undef UB_overflow, w')).
  { intros go next f F0 G N U. rewrite (colon_con_at0 k go VI next _ _ _ w1 (eq_sym F0)).
    set (put := fun s => VD (v2f (VI s))).
    destruct (con_writes w1 k (fun j => put (f j)) (Z.to_nat n)) as [w2 [E2 _]]; auto; [apply ST|lia|].
    replace (Z.to_nat n) with (Z.to_nat n - 1 + 1)%nat in E2 at 1 by lia.
    rewrite forN_app in E2.
    rewrite (count_over (kslot k) go put next f (Z.to_nat n - 1)); [|lia|intros; apply G; lia|intros; apply N; lia].
    unfold bind in *. change (Z.of_nat 0) with 0.
    destruct (forN (Z.to_nat n - 1) 0 (fun j => set_at (OD (kslot k)) j (put (f (Z.to_nat j)))) w1) as [[[]|e|u] w3]; try discriminate.
    cbn [forN] in E2. unfold bind in E2. cbn [Nat.add].
    replace (Z.of_nat (Z.to_nat n - 1)) with (0 + Z.of_nat (Z.to_nat n - 1)) by lia.
    replace (f (Z.to_nat n - 1)%nat) with (f (Z.to_nat (0 + Z.of_nat (Z.to_nat n - 1)))) by (f_equal; lia).
    destruct (set_at (OD (kslot k)) (0 + Z.of_nat (Z.to_nat n - 1)) _ w3) as [[[]|e|u] w4]; try discriminate.
    replace (Z.to_nat (0 + Z.of_nat (Z.to_nat n - 1))) with (Z.to_nat n - 1)%nat by lia.
    unfold lift. rewrite U. eauto. }
  unfold colon_con_int. destruct (Z.ltb_spec a b) as [L|L].
  - rewrite int_res_ok, bind_lift_done by (unfold is_int; lia).
    rewrite int_res_ok, bind_lift_done by (unfold is_int; lia).
    rewrite convert_size_int, bind_lift_done by lia. replace (b - a + 1) with n by lia.
    replace (1 <=? n) with true by (symmetry; apply Z.leb_le; lia). rewrite bind_ass_true, (bind_done _ _ _ _ _ E1).
    apply (G _ _ (fun j => a + Z.of_nat j)); [lia| | |].
    + intros j Hj. apply Z.leb_le. lia.
    + intros j Hj. rewrite int_res_ok by (unfold is_int; lia). f_equal. lia.
    + apply int_res_bad. unfold is_int. lia.
  - rewrite int_res_ok, bind_lift_done by (unfold is_int; lia).
    rewrite int_res_ok, bind_lift_done by (unfold is_int; lia).
    rewrite convert_size_int, bind_lift_done by lia. replace (a - b + 1) with n by lia.
    replace (1 <=? n) with true by (symmetry; apply Z.leb_le; lia). rewrite bind_ass_true, (bind_done _ _ _ _ _ E1).
    apply (G _ _ (fun j => a - Z.of_nat j)); [lia| | |].
    + intros j Hj. apply Z.leb_le. lia.
    + intros j Hj. rewrite int_res_ok by (unfold is_int; lia). f_equal. lia.
    + apply int_res_bad. unfold is_int. lia.
Qed.

Lemma colon_con_dbl_put w k a b n :
  convert_size (VD (fadd (if flt_ltb a b then fsub b a else fsub a b) fone)) = Done n -> 1 <= n ->
  let s := fsteps (flt_ltb a b) a in
  let go v := if flt_ltb a b then flt_leb v b else flt_leb b v in
  (forall j, (j < Z.to_nat n)%nat -> go (s j) = true) -> go (s (Z.to_nat n)) = false ->
  colon_con_dbl k a b w = put_con k (map s (seq 0 (Z.to_nat n))) w.
Proof.
  intros C Hn s go G1 G2. unfold colon_con_dbl. rewrite C, bind_lift_done.
  replace (1 <=? n) with true by (symmetry; apply Z.leb_le; lia). rewrite bind_ass_true.
  unfold s, go in *. destruct (flt_ltb a b);
    [rewrite (count_con_put k _ VD _ (fsteps true a))|rewrite (count_con_put k _ VD _ (fsteps false a))];
    [reflexivity|reflexivity|lia|exact G1|exact G2|intros; reflexivity|reflexivity|reflexivity|lia|exact G1|exact G2|intros; reflexivity].
Qed.

(* -------------------------------------------------------------- overloads *)

Lemma colon_con_of_int lm w k start stop s e a b : first_is lm w start s -> first_is lm w stop e ->
  v2z s = Some a -> v2z e = Some b -> common (arg_ty start) (arg_ty stop) = TInt ->
  colon_con lm k start stop w = colon_con_int k a b w.
Proof.
  intros Fs Fe Vs Ve C. unfold colon_con. rewrite C.
  rewrite (bind_done _ _ _ _ _ (arg_first_is lm w start s Fs)).
  assert (Cs : cast TInt s = Done (VI a)) by (destruct s; simpl in *; congruence).
  assert (Ce : cast TInt e = Done (VI b)) by (destruct e; simpl in *; congruence).
  rewrite Cs, bind_lift_done, (bind_done _ _ _ _ _ (arg_first_is lm w stop e Fe)), Ce, bind_lift_done.
  reflexivity.
Qed.

Lemma colon_con_of_dbl lm w k start stop s e : first_is lm w start s -> first_is lm w stop e ->
  common (arg_ty start) (arg_ty stop) = TDouble ->
  colon_con lm k start stop w = colon_con_dbl k (v2f s) (v2f e) w.
Proof.
  intros Fs Fe C. unfold colon_con. rewrite C.
  rewrite (bind_done _ _ _ _ _ (arg_first_is lm w start s Fs)).
  simpl cast. rewrite bind_lift_done, (bind_done _ _ _ _ _ (arg_first_is lm w stop e Fe)), bind_lift_done.
  reflexivity.
Qed.

(* ----------------------------------------------------------------- vector *)

(** What a resize makes of the elements. *)
Definition sized (w w' : world) (k : nat) (n : Z) : Prop :=
  step1 w w' (OD (kslot k)) /\ con_array w' k /\ sz (ob w' (OD (kslot k))) = n /\ n <= cap (ob w' (OD (kslot k))) /\
  (cap (ob w (OD (kslot k))) < n -> holds w' (OD (kslot k)) (map VD (repeat fzero (Z.to_nat n)))) /\
  (n <= cap (ob w (OD (kslot k))) -> cells_of w' (OD (kslot k)) = cells_of w (OD (kslot k))).

Lemma con_sized w k n : world_shape w -> con_array w k -> 1 <= n -> fits w n ->
  exists w1, resize (OD (kslot k)) n w = (Done tt, w1) /\ sized w w1 k n.
Proof.
  intros W CA Hn Ft. destruct (con_resize w k n W CA Hn Ft) as [w1 [c [E1 [R1 [CA1 _]]]]].
  exists w1. split; [exact E1|]. destruct R1 as [ST [_ [_ [_ [_ [Sz [_ [P1 [C1 R]]]]]]]]].
  split; [exact ST|]. split; [exact CA1|]. split; [exact Sz|]. split; [exact C1|]. split; intros L.
  - apply Z.ltb_lt in L. rewrite L in R. destruct R as [_ R].
    apply holds_cells; [apply ST|]. rewrite map_length, repeat_length. split; [lia|].
    intros i Hi. rewrite (R i) by lia. rewrite (ca_type _ _ CA). f_equal.
    rewrite nth_vd by now rewrite repeat_length. cbn [zero_of]. f_equal. symmetry. apply nth_repeat.
  - apply Z.ltb_ge in L. rewrite L in R. apply R.
Qed.

Lemma sized_twice w w1 w2 k n : world_shape w -> sized w w1 k n -> sized w1 w2 k n -> sized w w2 k n.
Proof.
  intros W [S1 [A1 [Z1 [C1 [N1 O1]]]]] [S2 [A2 [Z2 [C2 [N2 O2]]]]].
  specialize (O2 C1). split; [eapply step1_trans; eauto|]. split; [exact A2|]. split; [exact Z2|]. split; [exact C2|]. split.
  - intros L. specialize (N1 L). apply holds_cells; [apply S2|]. apply holds_cells in N1; [|apply S1].
    destruct N1 as [N1 N3]. split; [lia|]. rewrite O2. exact N3.
  - intros L. rewrite O2. now apply O1.
Qed.

Lemma vector_con_size_done w k v n : world_shape w -> con_array w k -> convert_size v = Done n -> 1 <= n -> fits w n ->
  exists w', vector_con_size k v w = (Done tt, w') /\ sized w w' k n.
Proof.
  intros W CA C Hn Ft. destruct (con_sized w k n W CA Hn Ft) as [w1 [E1 S1]].
  unfold vector_con_size. destruct v as [b|z|d]; rewrite C, bind_lift_done; eauto.
  rewrite (bind_done _ _ _ _ _ E1), bind_lift_done. pose proof S1 as [T1 [A1 _]].
  destruct (con_sized w1 k n (s1_shape _ _ _ T1) A1 Hn) as [w2 [E2 S2]].
  - unfold fits in *. now rewrite (s1_lim _ _ _ T1).
  - exists w2. split; [exact E2|]. eapply sized_twice; eauto.
Qed.

Lemma vector_con_done lm w k a v n : world_shape w -> con_array w k -> items lm w a [v] -> convert_size v = Done n ->
  1 <= n -> fits w n -> exists w', vector_con lm k a w = (Done tt, w') /\ sized w w' k n.
Proof.
  intros W CA It C Hn Ft. destruct a as [u|t e]; simpl in It; unfold vector_con.
  - injection It as <-. now apply vector_con_size_done.
  - destruct It as [ES EL]. specialize (EL O ltac:(simpl; lia)). simpl in EL, ES.
    rewrite bind_get, ES. cbn [Z.eqb Pos.eqb]. rewrite bind_ass_true, (bind_done _ _ _ _ _ EL), C, bind_lift_done.
    now apply con_sized.
Qed.
