(** Proofs about colon. *)
From Coq Require Import String ZArith List Bool Lia Reals Lra.
From Flocq Require Import Core BinarySingleNaN.
From Verif Require Import Base Num StoreModel VecModel SubsetModel AllocModel FloatBridge Spec SpecExpr SpecHist SpecProg
  SpecSub SpecAlloc CapProofs StoreProofs StoreOps VecProofs VecAssign VecEval SubsetProofs StoreThms SubsetThms
  AllocProofs AllocProofs2.
Import ListNotations.
Open Scope Z_scope.
Local Notation length := List.length (only parsing).

(** The first elements are written, the rest stays zero. *)
Lemma fresh_writes_part w w1 x t n m (f : nat -> val) k : fresh_vec w w1 x t (Z.of_nat n) m -> (k <= n)%nat ->
  exists w2, forN k 0 (fun j => set_at (OD x) j (f (Z.to_nat j))) w1 = (Done tt, w2) /\
    within w1 x w2 /\ made w w2 x t (map f (seq 0 k) ++ repeat (zero_of t) (n - k)) m.
Proof.
  intros F Hk. pose proof F as [V [WO [H [MP [[K1 K2] [[P0 CA] [TY [CP [SZ OTD]]]]]]]]].
  pose proof (vs_shape _ _ _ V) as W.
  destruct (ptr (ob w1 (OD x))) as [a|] eqn:P; [|congruence].
  destruct (ptr_live _ _ _ W P) as [cs [B [L1 L2]]].
  assert (Ow : owner_of (ob w1 (OD x)) = OwnCpp) by (unfold owner_of; now rewrite K1).
  rewrite Ow in B. pose proof (shape_alloc _ _ _ W P) as A.
  assert (OO : owns (ob w1 (OD x)) a) by (split; auto).
  destruct (for_wr_gen (fun j => Some (f (Z.to_nat j))) (fun j => set_at (OD x) j (f (Z.to_nat j))) w1 a OwnCpp cs 0 k B)
    as [w2 [cs2 [E [U [Len Nth]]]]]; [lia|lia| |].
  - intros j w2 cs2 Hj U Len2. destruct U as [U1 _]. apply set_at_in; rewrite U1; auto. lia.
  - exists w2. split; [exact E|].
    split. { exists a, cs, cs2. repeat split; auto; apply U. }
    assert (ST : step1 w1 w2 (OD x)) by (eapply step1_cells; eauto).
    destruct U as [U1 [U2 [U3 [U4 U5]]]].
    assert (Ln : length (map f (seq 0 k) ++ repeat (zero_of t) (n - k)) = n).
    { rewrite app_length, map_length, seq_length, repeat_length. lia. }
    apply (fresh_made w w1 w2 x t m); auto; [now rewrite Ln|].
    apply holds_cells; [apply ST|]. rewrite U1. split; [now rewrite Ln|].
    intros i Hi. rewrite Ln in Hi. rewrite (cells_of_ptr w2 (OD x) a OwnCpp cs2); [|now rewrite U1|exact U4].
    rewrite Nth, Nat2Z.id.
    destruct (Nat.lt_ge_cases i k) as [Lt|Ge].
    + replace ((0 <=? Z.of_nat i) && (Z.of_nat i <? 0 + Z.of_nat k)) with true.
      * rewrite app_nth1 by (rewrite map_length, seq_length; exact Lt).
        rewrite (nth_indep _ _ (f O)) by (rewrite map_length, seq_length; exact Lt).
        rewrite (map_nth f), seq_nth by exact Lt. reflexivity.
      * symmetry; apply andb_true_intro; split; [apply Z.leb_le|apply Z.ltb_lt]; lia.
    + replace ((0 <=? Z.of_nat i) && (Z.of_nat i <? 0 + Z.of_nat k)) with false.
      * rewrite app_nth2; rewrite map_length, seq_length; [|exact Ge]. rewrite nth_rep by lia.
        apply holds_cells in H; auto. destruct H as [_ H]. rewrite Nat2Z.id, repeat_length in H.
        specialize (H i ltac:(lia)). rewrite nth_rep in H by lia.
        now rewrite (cells_of_ptr w1 (OD x) a OwnCpp cs) in H.
      * symmetry. apply andb_false_intro2. apply Z.ltb_ge. lia.
Qed.

(* -------------------------------------------------------------- count_loop *)

Section Count.
  Context {A : Type} (x : nat) (go : A -> bool) (put : A -> val) (next : A -> outcome A) (sq : nat -> A).

  (** The loop stops at the m-th value of the sequence. *)
  Lemma count_stop m : forall fuel j w, (m < fuel)%nat ->
    (forall k, (j <= k < j + m)%nat -> go (sq k) = true) -> go (sq (j + m)) = false ->
    (forall k, (j <= k < j + m)%nat -> next (sq k) = Done (sq (S k))) ->
    count_loop x go put next fuel (sq j) (Z.of_nat j) w =
    forN m (Z.of_nat j) (fun k => set_at (OD x) k (put (sq (Z.to_nat k)))) w.
  Proof.
    induction m as [|m IH]; intros [|fuel] j w Hf G GE N; try lia; cbn [count_loop forN].
    - rewrite Nat.add_0_r in GE. now rewrite GE.
    - rewrite G by lia. rewrite Nat2Z.id. unfold bind.
      destruct (set_at (OD x) (Z.of_nat j) (put (sq j)) w) as [[[]|e|u] w1]; auto.
      rewrite N by lia. unfold lift.
      replace (Z.of_nat j + 1) with (Z.of_nat (S j)) by lia.
      apply IH; [lia| | |]; intros; (apply G || apply N || idtac); try lia.
      replace (S j + m)%nat with (j + S m)%nat by lia. exact GE.
  Qed.

  (** The loop reaches the m-th value and goes on. *)
  Lemma count_over m : forall fuel j w, (m < fuel)%nat ->
    (forall k, (j <= k <= j + m)%nat -> go (sq k) = true) ->
    (forall k, (j <= k < j + m)%nat -> next (sq k) = Done (sq (S k))) ->
    count_loop x go put next fuel (sq j) (Z.of_nat j) w =
    bind (forN m (Z.of_nat j) (fun k => set_at (OD x) k (put (sq (Z.to_nat k))))) (fun _ =>
      bind (set_at (OD x) (Z.of_nat (j + m)) (put (sq (j + m)%nat))) (fun _ =>
        bind (lift (next (sq (j + m)%nat))) (fun s =>
          count_loop x go put next (fuel - m - 1) s (Z.of_nat (j + m) + 1)))) w.
  Proof.
    induction m as [|m IH]; intros [|fuel] j w Hf G N; try lia; cbn [count_loop forN].
    - rewrite Nat.add_0_r. rewrite G by lia. cbn [bind ret]. replace (S fuel - 0 - 1)%nat with fuel by lia.
      reflexivity.
    - rewrite G by lia. rewrite Nat2Z.id. unfold bind at 1 3 4.
      destruct (set_at (OD x) (Z.of_nat j) (put (sq j)) w) as [[[]|e|u] w1]; auto.
      unfold bind at 1. rewrite N by lia. unfold lift at 1.
      replace (Z.of_nat j + 1) with (Z.of_nat (S j)) by lia.
      rewrite IH; [|lia| |]; [|intros; apply G; lia|intros; apply N; lia].
      replace (S j + m)%nat with (j + S m)%nat by lia.
      replace (S fuel - S m - 1)%nat with (fuel - m - 1)%nat by lia. reflexivity.
  Qed.
End Count.

Lemma set_at_out w o i v : ptr (ob w o) <> None -> world_shape w -> sz (ob w o) <= i ->
  exists m, set_at o i v w = (Thrown (Ass m), w).
Proof.
  intros P W H. apply Z.ltb_ge in H. unfold set_at. rewrite bind_st.
  destruct (ptr (ob w o)) as [a|] eqn:E; [|congruence].
  rewrite (shape_alloc _ _ _ W E), bind_ass_true, H, bind_ass_false. eauto.
Qed.

(** The number of rounds allowed in the model does not matter: any number
    beyond the size of the vector gives the same result. *)
Lemma count_loop_fuel {A} x go put (next : A -> outcome A) : forall f1 f2 s c w, 0 <= c ->
  sz (ob w (OD x)) - c < Z.of_nat f1 -> sz (ob w (OD x)) - c < Z.of_nat f2 -> (0 < f1)%nat -> (0 < f2)%nat ->
  count_loop x go put next f1 s c w = count_loop x go put next f2 s c w.
Proof.
  induction f1 as [|f1 IH]; intros [|f2] s c w Hc H1 H2 P1 P2; try lia; cbn [count_loop].
  destruct (go s); auto. unfold bind.
  pose proof (set_at_ob (OD x) c (put s) w) as SO.
  destruct (set_at (OD x) c (put s) w) as [[[]|e|u] w1] eqn:E; auto.
  assert (c < sz (ob w (OD x))).
  { unfold set_at in E. rewrite bind_st in E. unfold bind in E.
    destruct (ass (alloc (ob w (OD x))) _ w) as [[[]|e|u] w2] eqn:E2; try discriminate.
    assert (w2 = w) as -> by (unfold ass in E2; destruct (alloc (ob w (OD x))); [injection E2; auto|discriminate]).
    destruct (c <? sz (ob w (OD x))) eqn:L; [now apply Z.ltb_lt|discriminate]. }
  destruct (lift (next s) w1) as [[s'|e|u] w2] eqn:E2; auto.
  assert (w2 = w1) as -> by (unfold lift in E2; now injection E2).
  simpl in SO. apply IH; rewrite ?SO; lia.
Qed.

(* --------------------------------------------------------------- integers *)

Definition is_int (z : Z) : Prop := - 2 ^ 31 <= z < 2 ^ 31.

Lemma int_res_ok z : is_int z -> int_res z = Done z.
Proof.
  unfold is_int, int_res, in_int, int_min, int_max. intros H.
  replace (_ && _) with true; auto. symmetry. apply andb_true_intro; split; apply Z.leb_le; lia.
Qed.

Lemma int_res_bad z : ~ is_int z -> int_res z = Undef UB_overflow.
Proof.
  unfold is_int, int_res, in_int, int_min, int_max. intros H.
  replace (_ && _) with false; auto. symmetry. apply andb_false_iff.
  destruct (Z_lt_le_dec z (- 2 ^ 31)); [left|right]; apply Z.leb_gt; lia.
Qed.

(** The k-th value of a:b. *)
Definition colon_nth (a b : Z) (k : nat) : Z := if a <=? b then a + Z.of_nat k else a - Z.of_nat k.

Lemma convert_size_int n : 1 <= n -> convert_size (VI n) = Done n.
Proof. intros H. now apply convert_size_ok. Qed.

Lemma nth_map_seq {B} (f : nat -> B) n i d : (i < n)%nat -> nth i (map f (seq 0 n)) d = f i.
Proof.
  intros H. rewrite (nth_indep _ _ (f O)) by (rewrite map_length, seq_length; exact H).
  rewrite (map_nth f), seq_nth by exact H. reflexivity.
Qed.

Lemma count_at0 {A} x go put (next : A -> outcome A) fuel s s' : s = s' ->
  count_loop x go put next fuel s 0 = count_loop x go put next fuel s' (Z.of_nat 0).
Proof. now intros ->. Qed.

Lemma colon_int_done w x a b : world_shape w -> unborn w (OD x) -> unborn w (OT x) ->
  is_int a -> is_int b -> Z.abs (a - b) < 2 ^ 31 - 1 ->
  (a < b -> b < 2 ^ 31 - 1) -> (b <= a -> - 2 ^ 31 < b) -> fits w (Z.abs (a - b) + 1) ->
  exists w', colon_int x a b w = (Done tt, w') /\
    made w w' x TInt (map (fun k => VI (colon_nth a b k)) (seq 0 (Z.to_nat (Z.abs (a - b) + 1)))) mp_none.
Proof.
  intros WO D1 D2 Ia Ib Hd Hu Hl Ft. unfold is_int in *.
  set (n := Z.abs (a - b) + 1) in *.
  destruct (vec_sized_fresh w x TInt n WO D1 D2) as [w1 [E1 F1]]; auto; [lia|].
  unfold colon_int. destruct (Z.ltb_spec a b) as [L|L].
  - rewrite int_res_ok, bind_lift_done by (unfold is_int; lia).
    rewrite int_res_ok, bind_lift_done by (unfold is_int; lia).
    rewrite convert_size_int, bind_lift_done by lia.
    replace (b - a + 1) with n by lia. rewrite (bind_done _ _ _ _ _ E1).
    replace n with (Z.of_nat (Z.to_nat n)) in F1 by lia.
    destruct (fresh_writes_part w w1 x TInt _ mp_none (fun k => VI (colon_nth a b k)) (Z.to_nat n) F1) as [w2 [E2 [_ M2]]]; [lia|].
    rewrite Nat.sub_diag in M2. simpl repeat in M2. rewrite app_nil_r in M2.
    exists w2. split; auto. apply built_done.
    assert (S0 : a = colon_nth a b 0) by (unfold colon_nth; destruct (a <=? b); lia).
    rewrite (count_at0 x _ VI _ _ a _ S0).
    rewrite (count_stop x _ VI _ (colon_nth a b) (Z.to_nat n)); auto; unfold colon_nth;
      replace (a <=? b) with true by (symmetry; apply Z.leb_le; lia).
    + intros k Hk. apply Z.leb_le. lia.
    + apply Z.leb_gt. lia.
    + intros k Hk. rewrite int_res_ok by (unfold is_int; lia). f_equal. lia.
  - rewrite int_res_ok, bind_lift_done by (unfold is_int; lia).
    rewrite int_res_ok, bind_lift_done by (unfold is_int; lia).
    rewrite convert_size_int, bind_lift_done by lia.
    replace (a - b + 1) with n by lia. rewrite (bind_done _ _ _ _ _ E1).
    replace n with (Z.of_nat (Z.to_nat n)) in F1 by lia.
    set (f := fun k => a - Z.of_nat k).
    destruct (fresh_writes_part w w1 x TInt _ mp_none (fun k => VI (f k)) (Z.to_nat n) F1) as [w2 [E2 [_ M2]]]; [lia|].
    rewrite Nat.sub_diag in M2. simpl repeat in M2. rewrite app_nil_r in M2.
    exists w2. split.
    + apply built_done. assert (S0 : a = f O) by (unfold f; lia).
      rewrite (count_at0 x _ VI _ _ a _ S0).
      rewrite (count_stop x _ VI _ f (Z.to_nat n)); auto; unfold f.
      * intros k Hk. apply Z.leb_le. lia.
      * apply Z.leb_gt. lia.
      * intros k Hk. rewrite int_res_ok by (unfold is_int; lia). f_equal. lia.
    + erewrite map_ext_in; [exact M2|]. intros k Hk. apply in_seq in Hk. unfold colon_nth, f.
      destruct (Z.leb_spec a b); [|reflexivity]. f_equal. lia.
Qed.

(** Counting up to INT_MAX (or down to INT_MIN) steps beyond it: undefined. *)
Lemma colon_int_overflow w x a b : world_shape w -> unborn w (OD x) -> unborn w (OT x) ->
  is_int a -> is_int b -> Z.abs (a - b) < 2 ^ 31 - 1 -> fits w (Z.abs (a - b) + 1) ->
  (a < b /\ b = 2 ^ 31 - 1) \/ (b <= a /\ b = - 2 ^ 31) ->
  exists w', colon_int x a b w = (Undef UB_overflow, w').
Proof.
  intros WO D1 D2 Ia Ib Hd Ft Hc. unfold is_int in *.
  set (n := Z.abs (a - b) + 1) in *.
  destruct (vec_sized_fresh w x TInt n WO D1 D2) as [w1 [E1 F1]]; auto; [lia|].
  replace n with (Z.of_nat (Z.to_nat n)) in F1 by lia.
  assert (G : forall go next (f : nat -> Z), f O = a ->
    (forall k, (k < Z.to_nat n)%nat -> go (f k) = true) ->
    (forall k, (S k < Z.to_nat n)%nat -> next (f k) = Done (f (S k))) ->
    next (f (Z.to_nat n - 1)%nat) = Undef UB_overflow ->
    exists w', built x (count_loop x go VI next (S (Z.to_nat n)) a 0) w1 = (Undef UB_overflow, w')).
  { intros go next f F0 G N U.
    destruct (fresh_writes_part w w1 x TInt _ mp_none (fun k => VI (f k)) (Z.to_nat n) F1) as [w2 [E2 _]]; [lia|].
    replace (Z.to_nat n) with (Z.to_nat n - 1 + 1)%nat in E2 at 1 by lia.
    rewrite forN_app in E2. unfold built. rewrite (count_at0 x _ VI _ _ a _ (eq_sym F0)).
    rewrite (count_over x go VI next f (Z.to_nat n - 1)); [|lia|intros; apply G; lia|intros; apply N; lia].
    unfold bind in *. change (Z.of_nat 0) with 0.
    destruct (forN (Z.to_nat n - 1) 0 (fun k => set_at (OD x) k (VI (f (Z.to_nat k)))) w1) as [[[]|e|u] w3]; try discriminate.
    cbn [forN] in E2. unfold bind in E2. cbn [Nat.add].
    replace (Z.of_nat (Z.to_nat n - 1)) with (0 + Z.of_nat (Z.to_nat n - 1)) by lia.
    replace (f (Z.to_nat n - 1)%nat) with (f (Z.to_nat (0 + Z.of_nat (Z.to_nat n - 1)))) by (f_equal; lia).
    destruct (set_at (OD x) (0 + Z.of_nat (Z.to_nat n - 1)) _ w3) as [[[]|e|u] w4]; try discriminate.
    replace (Z.to_nat (0 + Z.of_nat (Z.to_nat n - 1))) with (Z.to_nat n - 1)%nat by lia.
    unfold lift. rewrite U. eauto. }
  unfold colon_int. destruct (Z.ltb_spec a b) as [L|L].
  - rewrite int_res_ok, bind_lift_done by (unfold is_int; lia).
    rewrite int_res_ok, bind_lift_done by (unfold is_int; lia).
    rewrite convert_size_int, bind_lift_done by lia.
    replace (b - a + 1) with n by lia. rewrite (bind_done _ _ _ _ _ E1).
    apply (G _ _ (fun k => a + Z.of_nat k)); [lia| | |].
    + intros k Hk. apply Z.leb_le. lia.
    + intros k Hk. rewrite int_res_ok by (unfold is_int; lia). f_equal. lia.
    + apply int_res_bad. unfold is_int. lia.
  - rewrite int_res_ok, bind_lift_done by (unfold is_int; lia).
    rewrite int_res_ok, bind_lift_done by (unfold is_int; lia).
    rewrite convert_size_int, bind_lift_done by lia.
    replace (a - b + 1) with n by lia. rewrite (bind_done _ _ _ _ _ E1).
    apply (G _ _ (fun k => a - Z.of_nat k)); [lia| | |].
    + intros k Hk. apply Z.leb_le. lia.
    + intros k Hk. rewrite int_res_ok by (unfold is_int; lia). f_equal. lia.
    + apply int_res_bad. unfold is_int. lia.
Qed.

(* ---------------------------------------------------------------- doubles *)

(** The values start, start +- 1, ... as computed. *)
Fixpoint fsteps (up : bool) (a : flt) (k : nat) : flt :=
  match k with O => a | S k => if up then fadd (fsteps up a k) fone else fsub (fsteps up a k) fone end.

(** What colon computes for doubles in general: with n the computed length and
    s_k the computed values, if exactly m <= n values are in range, they come
    first and the others are zero; if more than n are in range it throws. *)
Lemma colon_dbl_cases w x a b n : world_shape w -> unborn w (OD x) -> unborn w (OT x) ->
  convert_size (VD (fadd (if flt_ltb a b then fsub b a else fsub a b) fone)) = Done n -> 1 <= n -> fits w n ->
  let s := fsteps (flt_ltb a b) a in
  let go v := if flt_ltb a b then flt_leb v b else flt_leb b v in
  (exists m w', (m <= Z.to_nat n)%nat /\ (forall k, (k < m)%nat -> go (s k) = true) /\ go (s m) = false /\
     colon_dbl x a b w = (Done tt, w') /\
     made w w' x TDouble (map (fun k => VD (s k)) (seq 0 m) ++ repeat (VD fzero) (Z.to_nat n - m)) mp_none) \/
  (exists w' msg, (forall k, (k <= Z.to_nat n)%nat -> go (s k) = true) /\
     colon_dbl x a b w = (Thrown (Ass msg), w') /\ vstep w w' x /\ (world_ok w -> world_ok w') /\
     unborn w' (OD x) /\ unborn w' (OT x)).
Proof.
  intros WO D1 D2 C Hn Ft s go.
  destruct (vec_sized_fresh w x TDouble n WO D1 D2) as [w1 [E1 F1]]; auto.
  replace n with (Z.of_nat (Z.to_nat n)) in F1 by lia. set (N := Z.to_nat n) in *.
  assert (Body : colon_dbl x a b w =
    built x (count_loop x go VD (fun v => Done (if flt_ltb a b then fadd v fone else fsub v fone)) (S N) (s O) (Z.of_nat 0)) w1).
  { unfold colon_dbl. rewrite C, bind_lift_done, (bind_done _ _ _ _ _ E1). unfold s, go.
    destruct (flt_ltb a b); reflexivity. }
  assert (Nx : forall k, Done (if flt_ltb a b then fadd (s k) fone else fsub (s k) fone) = Done (s (S k))).
  { intros k. unfold s. simpl. now destruct (flt_ltb a b). }
  (* the first value out of range, if any up to N *)
  assert (Dec : forall j, (exists m, (m <= j)%nat /\ (forall k, (k < m)%nat -> go (s k) = true) /\ go (s m) = false) \/
      (forall k, (k <= j)%nat -> go (s k) = true)).
  { induction j as [|j [[m [H1 H2]]|H]].
    - destruct (go (s O)) eqn:G; [right; intros [|k] Hk; auto; lia|left; exists O; repeat split; auto; lia].
    - left. exists m. split; [lia|exact H2].
    - destruct (go (s (S j))) eqn:G.
      + right. intros k Hk. destruct (Nat.eq_dec k (S j)) as [->|]; auto. apply H. lia.
      + left. exists (S j). repeat split; auto. intros k Hk. apply H. lia. }
  destruct (Dec N) as [[m [Hm [G1 G2]]]|G].
  - left. destruct (fresh_writes_part w w1 x TDouble N mp_none (fun k => VD (s k)) m F1 Hm) as [w2 [E2 [_ M2]]].
    exists m, w2. repeat (split; [assumption|]). split; [|exact M2].
    rewrite Body. apply built_done.
    rewrite (count_stop x go VD _ s m (S N) 0); [exact E2|lia|intros; apply G1; lia|exact G2|intros; apply Nx].
  - right. destruct (fresh_writes_part w w1 x TDouble N mp_none (fun k => VD (s k)) N F1) as [w2 [E2 [Wi M2]]]; auto.
    pose proof (within_ob _ _ _ Wi) as O2.
    assert (SZ2 : sz (ob w2 (OD x)) = Z.of_nat N) by (rewrite O2; apply F1).
    destruct (set_at_out w2 (OD x) (Z.of_nat N) (VD (s N))) as [msg E3].
    { apply (md_ready _ _ _ _ _ _ M2). }
    { apply M2. }
    { lia. }
    destruct (built_thrown w w1 x TDouble (Z.of_nat N) mp_none
      (count_loop x go VD (fun v => Done (if flt_ltb a b then fadd v fone else fsub v fone)) (S N) (s O) (Z.of_nat 0))
      (Ass msg) w2 F1 Wi (md_ok _ _ _ _ _ _ M2)) as [w3 [E4 R]].
    { rewrite (count_over x go VD _ s N (S N) 0); [|lia|intros; apply G; lia|intros; apply Nx].
      change (Z.of_nat 0) with 0. rewrite (bind_done _ _ _ _ _ E2). unfold bind. cbn [Nat.add]. now rewrite E3. }
    exists w3, msg. split; [exact G|]. rewrite Body. split; [exact E4|exact R].
Qed.

(** Multiples of 2^-k up to 2^53 in number are doubles. *)
Definition grid (k m : Z) : R := (IZR m * bpow radix2 (- k))%R.

Lemma grid_generic k m : 0 <= k <= 1000 -> Z.abs m <= 2 ^ 53 ->
  generic_format radix2 (SpecFloat.fexp 53 1024) (grid k m).
Proof.
  intros Hk Hm. unfold grid.
  destruct (Z.eq_dec (Z.abs m) (2 ^ 53)) as [E|E].
  - apply (generic_format_FLT radix2 (3 - 1024 - 53) 53).
    apply (FLT_spec radix2 (3 - 1024 - 53) 53 _ (Float radix2 (Z.sgn m) (53 - k))).
    + change (IZR m * bpow radix2 (- k) = IZR (Z.sgn m) * bpow radix2 (53 + - k))%R.
      rewrite bpow_plus, <- Rmult_assoc. f_equal.
      change (bpow radix2 53) with (IZR (2 ^ 53)). rewrite <- mult_IZR, <- E. f_equal.
      rewrite Z.mul_comm. symmetry. apply Z.abs_sgn.
    + simpl. destruct m; simpl; lia.
    + cbn [Fexp]. lia.
  - apply (generic_format_FLT radix2 (3 - 1024 - 53) 53).
    apply (FLT_spec radix2 (3 - 1024 - 53) 53 _ (Float radix2 m (- k))).
    + reflexivity.
    + simpl Fnum. change (Zpower radix2 53) with (2 ^ 53). lia.
    + cbn [Fexp]. lia.
Qed.

Lemma grid_plus k m n : (grid k m + grid k n)%R = grid k (m + n).
Proof. unfold grid. rewrite plus_IZR. ring. Qed.
Lemma grid_minus k m n : (grid k m - grid k n)%R = grid k (m - n).
Proof. unfold grid. rewrite minus_IZR. ring. Qed.
Lemma grid_int k z : 0 <= k -> IZR z = grid k (z * 2 ^ k).
Proof.
  intros Hk. unfold grid. rewrite mult_IZR. change (2 ^ k) with (Zpower radix2 k).
  rewrite IZR_Zpower by exact Hk. rewrite Rmult_assoc, <- bpow_plus.
  replace (k + - k) with 0 by lia. simpl. ring.
Qed.
Lemma grid_le k m n : (grid k m <= grid k n)%R <-> m <= n.
Proof.
  unfold grid. pose proof (bpow_gt_0 radix2 (- k)). split; intros L.
  - apply le_IZR. eapply Rmult_le_reg_r; eauto.
  - apply Rmult_le_compat_r; [lra|]. now apply IZR_le.
Qed.
Lemma grid_lt k m n : (grid k m < grid k n)%R <-> m < n.
Proof.
  unfold grid. pose proof (bpow_gt_0 radix2 (- k)). split; intros L.
  - apply lt_IZR. eapply Rmult_lt_reg_r; eauto.
  - apply Rmult_lt_compat_r; [lra|]. now apply IZR_lt.
Qed.
Lemma grid_bound k m : 0 <= k -> Z.abs m <= 2 ^ 53 -> (Rabs (grid k m) <= bpow radix2 1000)%R.
Proof.
  intros Hk Hm. unfold grid. rewrite Rabs_mult, (Rabs_pos_eq (bpow _ _)) by apply bpow_ge_0.
  rewrite <- abs_IZR. apply Rle_trans with (bpow radix2 53 * bpow radix2 0)%R.
  - apply Rmult_le_compat.
    + apply IZR_le. lia.
    + apply bpow_ge_0.
    + change (bpow radix2 53) with (IZR (2 ^ 53)). now apply IZR_le.
    + apply bpow_le. lia.
  - rewrite <- bpow_plus. apply bpow_le. lia.
Qed.
Lemma grid_trunc k m : 0 <= k -> 0 <= m -> Ztrunc (grid k m) = m / 2 ^ k.
Proof.
  intros Hk Hm. assert (P : 0 < 2 ^ k) by (apply Z.pow_pos_nonneg; lia).
  rewrite Ztrunc_floor.
  - rewrite <- Zfloor_div by lia. f_equal. unfold grid, Rdiv. rewrite bpow_opp.
    f_equal. f_equal. rewrite <- IZR_Zpower by exact Hk. reflexivity.
  - unfold grid. apply Rmult_le_pos; [now apply IZR_le|apply bpow_ge_0].
Qed.

Definition gridf (k : Z) (a : flt) (m : Z) : Prop := valid a /\ finite a /\ fR a = grid k m.

Lemma gridf_add k a b m n : 0 <= k <= 1000 -> gridf k a m -> gridf k b n -> Z.abs (m + n) <= 2 ^ 53 ->
  gridf k (fadd a b) (m + n).
Proof.
  intros Hk [Va [Fa Ra]] [Vb [Fb Rb]] H.
  destruct (fadd_correct a b Va Vb Fa Fb) as [E [F V]].
  - rewrite Ra, Rb, grid_plus. apply grid_bound; lia.
  - split; [exact V|]. split; [exact F|]. rewrite E, Ra, Rb, grid_plus. apply round_generic; auto with typeclass_instances.
    now apply grid_generic.
Qed.
Lemma gridf_sub k a b m n : 0 <= k <= 1000 -> gridf k a m -> gridf k b n -> Z.abs (m - n) <= 2 ^ 53 ->
  gridf k (fsub a b) (m - n).
Proof.
  intros Hk [Va [Fa Ra]] [Vb [Fb Rb]] H.
  destruct (fsub_correct a b Va Vb Fa Fb) as [E [F V]].
  - rewrite Ra, Rb, grid_minus. apply grid_bound; lia.
  - split; [exact V|]. split; [exact F|]. rewrite E, Ra, Rb, grid_minus. apply round_generic; auto with typeclass_instances.
    now apply grid_generic.
Qed.
Lemma gridf_one k : 0 <= k -> gridf k fone (2 ^ k).
Proof.
  intros Hk. destruct fone_R as [R [V F]]. split; [exact V|]. split; [exact F|].
  rewrite R. rewrite (grid_int k 1 Hk). f_equal. lia.
Qed.
Lemma gridf_leb k a b m n : gridf k a m -> gridf k b n -> flt_leb a b = (m <=? n).
Proof.
  intros [Va [Fa Ra]] [Vb [Fb Rb]]. apply eq_iff_eq_true. rewrite fleb_correct by auto.
  rewrite Ra, Rb, grid_le. symmetry. apply Z.leb_le.
Qed.
Lemma gridf_ltb k a b m n : gridf k a m -> gridf k b n -> flt_ltb a b = (m <? n).
Proof.
  intros [Va [Fa Ra]] [Vb [Fb Rb]]. apply eq_iff_eq_true. rewrite fltb_correct by auto.
  rewrite Ra, Rb, grid_lt. symmetry. apply Z.ltb_lt.
Qed.

(** On the grid the computed length and values are exact. *)
Lemma grid_steps a b k ma mb :
  0 <= k <= 1000 -> gridf k a ma -> gridf k b mb ->
  Z.abs ma + 2 ^ k <= 2 ^ 53 -> Z.abs mb + 2 ^ k <= 2 ^ 53 -> Z.abs (ma - mb) + 2 ^ k <= 2 ^ 53 ->
  let n := Z.abs (ma - mb) / 2 ^ k + 1 in
  n < 2 ^ 31 ->
  let s := fsteps (flt_ltb a b) a in
  let go v := if flt_ltb a b then flt_leb v b else flt_leb b v in
  1 <= n /\
  convert_size (VD (fadd (if flt_ltb a b then fsub b a else fsub a b) fone)) = Done n /\
  (forall j, (j < Z.to_nat n)%nat -> go (s j) = true) /\ go (s (Z.to_nat n)) = false /\
  (forall i, (i < Z.to_nat n)%nat -> valid (s i) /\ finite (s i) /\
     fR (s i) = (if Rle_dec (fR a) (fR b) then fR a + INR i else fR a - INR i)%R).
Proof.
  intros Hk Ga Gb Ba Bb Bd n Hn s go.
  assert (P : 0 < 2 ^ k) by (apply Z.pow_pos_nonneg; lia).
  pose proof (gridf_one k ltac:(lia)) as G1.
  assert (Up : flt_ltb a b = (ma <? mb)) by (eapply gridf_ltb; eauto).
  set (q := Z.abs (ma - mb) / 2 ^ k) in *.
  assert (Q0 : 0 <= q) by (apply Z.div_pos; lia).
  assert (Qb : q * 2 ^ k <= Z.abs (ma - mb) < (q + 1) * 2 ^ k).
  { pose proof (Z.div_mod (Z.abs (ma - mb)) (2 ^ k) ltac:(lia)).
    pose proof (Z.mod_pos_bound (Z.abs (ma - mb)) (2 ^ k) P). fold q in H. nia. }
  split; [lia|].
  assert (C : convert_size (VD (fadd (if flt_ltb a b then fsub b a else fsub a b) fone)) = Done n).
  { apply convert_size_ok; [|lia].
    assert (G : gridf k (fadd (if flt_ltb a b then fsub b a else fsub a b) fone) (Z.abs (ma - mb) + 2 ^ k)).
    { rewrite Up. destruct (Z.ltb_spec ma mb).
      - replace (Z.abs (ma - mb)) with (mb - ma) by lia. apply gridf_add; auto; [apply gridf_sub; auto; lia|lia].
      - replace (Z.abs (ma - mb)) with (ma - mb) by lia. apply gridf_add; auto; [apply gridf_sub; auto; lia|lia]. }
    destruct G as [V [F R]]. split; [|exact Hn]. split; [exact V|]. split; [exact F|].
    rewrite R, grid_trunc by lia. unfold n, q.
    replace (Z.abs (ma - mb) + 2 ^ k) with (Z.abs (ma - mb) + 1 * 2 ^ k) by lia. apply Z.div_add. lia. }
  split; [exact C|]. clear C.
  assert (St : forall j, Z.of_nat j <= n -> gridf k (s j) (if ma <? mb then ma + Z.of_nat j * 2 ^ k else ma - Z.of_nat j * 2 ^ k)).
  { induction j as [|j IH]; intros Hj.
    - replace (if ma <? mb then _ else _) with ma by (destruct (ma <? mb); lia). exact Ga.
    - specialize (IH ltac:(lia)). unfold s in *. cbn [fsteps]. rewrite Up in *. destruct (Z.ltb_spec ma mb).
      + replace (ma + Z.of_nat (S j) * 2 ^ k) with (ma + Z.of_nat j * 2 ^ k + 2 ^ k) by lia.
        apply gridf_add; auto. assert (Z.of_nat j * 2 ^ k <= q * 2 ^ k) by nia. nia.
      + replace (ma - Z.of_nat (S j) * 2 ^ k) with (ma - Z.of_nat j * 2 ^ k - 2 ^ k) by lia.
        apply gridf_sub; auto. assert (Z.of_nat j * 2 ^ k <= q * 2 ^ k) by nia. nia. }
  assert (Go : forall j, Z.of_nat j <= n -> go (s j) = (Z.of_nat j <=? q)).
  { intros j Hj. specialize (St j Hj). unfold go. rewrite Up in *. destruct (Z.ltb_spec ma mb).
    - rewrite (gridf_leb k _ _ _ _ St Gb). apply eq_iff_eq_true. rewrite !Z.leb_le. nia.
    - rewrite (gridf_leb k _ _ _ _ Gb St). apply eq_iff_eq_true. rewrite !Z.leb_le. nia. }
  split; [intros j Hj; change (go (s j) = true); rewrite Go by lia; apply Z.leb_le; lia|].
  split; [change (go (s (Z.to_nat n)) = false); rewrite Go by lia; apply Z.leb_gt; lia|].
  intros i Hi. destruct (St i ltac:(lia)) as [V [F R]]. split; [exact V|]. split; [exact F|].
  rewrite R. destruct Ga as [_ [_ Ra]]. destruct Gb as [_ [_ Rb]]. rewrite Ra, Rb.
  rewrite INR_IZR_INZ, (grid_int k (Z.of_nat i)) by lia.
  destruct (Rle_dec (grid k ma) (grid k mb)) as [L|L]; rewrite grid_le in L.
  - rewrite grid_plus. destruct (Z.ltb_spec ma mb); [reflexivity|].
    assert (ma = mb) by lia. subst. unfold n, q in Hi. rewrite Z.sub_diag in Hi. change (Z.abs 0) with 0 in Hi. rewrite Z.div_0_l in Hi by lia.
    assert (i = O) as -> by (simpl in Hi; lia). unfold grid; do 2 f_equal; lia.
  - rewrite grid_minus. destruct (Z.ltb_spec ma mb); [lia|reflexivity].
Qed.

(** On the grid colon is exact. *)
Lemma colon_dbl_grid w x a b k ma mb : world_shape w -> unborn w (OD x) -> unborn w (OT x) ->
  0 <= k <= 1000 -> gridf k a ma -> gridf k b mb ->
  Z.abs ma + 2 ^ k <= 2 ^ 53 -> Z.abs mb + 2 ^ k <= 2 ^ 53 -> Z.abs (ma - mb) + 2 ^ k <= 2 ^ 53 ->
  let n := Z.abs (ma - mb) / 2 ^ k + 1 in
  n < 2 ^ 31 -> fits w n ->
  exists w' us, colon_dbl x a b w = (Done tt, w') /\ made w w' x TDouble us mp_none /\
    length us = Z.to_nat n /\
    forall i, (i < length us)%nat -> exists d, nth i us (VB false) = VD d /\ valid d /\ finite d /\
      fR d = (if Rle_dec (fR a) (fR b) then fR a + INR i else fR a - INR i)%R.
Proof.
  intros WO D1 D2 Hk Ga Gb Ba Bb Bd n Hn Ft.
  destruct (grid_steps a b k ma mb Hk Ga Gb Ba Bb Bd Hn) as [N1 [C [Go1 [Go2 Vs]]]].
  fold n in N1, C, Go1, Go2, Vs. set (s := fsteps (flt_ltb a b) a) in *.
  set (go := fun v => if flt_ltb a b then flt_leb v b else flt_leb b v) in *.
  destruct (colon_dbl_cases w x a b n WO D1 D2 C) as [[m [w' [Hm [H1 [H2 [E M]]]]]]|[w' [msg [H _]]]]; auto.
  - fold s in M. change (go (s m) = false) in H2.
    assert (m = Z.to_nat n) as ->.
    { destruct (Nat.eq_dec m (Z.to_nat n)) as [|Nm]; auto. assert (G : go (s m) = true) by (apply Go1; lia). congruence. }
    rewrite Nat.sub_diag in M. simpl repeat in M. rewrite app_nil_r in M.
    exists w', (map (fun k => VD (s k)) (seq 0 (Z.to_nat n))).
    split; [exact E|]. split; [exact M|]. rewrite map_length, seq_length. split; [reflexivity|].
    intros i Hi. rewrite nth_map_seq by exact Hi. exists (s i). split; [reflexivity|]. now apply Vs.
  - exfalso. specialize (H (Z.to_nat n) ltac:(lia)). change (go (s (Z.to_nat n)) = true) in H. change (go (s (Z.to_nat n)) = false) in Go2. congruence.
Qed.

(* ------------------------------------------------------- colon_fn overloads *)

Lemma first_ty lm w a v : first_is lm w a v -> arg_ty a = ty_of v.
Proof. destruct a; simpl; [now intros ->|now intros [-> _]]. Qed.

Lemma colon_fn_int lm w x start stop s e a b : first_is lm w start s -> first_is lm w stop e ->
  v2z s = Some a -> v2z e = Some b -> common (arg_ty start) (arg_ty stop) = TInt ->
  colon_fn lm x start stop w = colon_int x a b w.
Proof.
  intros Fs Fe Vs Ve C. unfold colon_fn. rewrite C.
  rewrite (bind_done _ _ _ _ _ (arg_first_is lm w start s Fs)).
  assert (Cs : cast TInt s = Done (VI a)) by (destruct s; simpl in *; congruence).
  assert (Ce : cast TInt e = Done (VI b)) by (destruct e; simpl in *; congruence).
  rewrite Cs, bind_lift_done, (bind_done _ _ _ _ _ (arg_first_is lm w stop e Fe)), Ce, bind_lift_done.
  reflexivity.
Qed.

Lemma colon_fn_dbl lm w x start stop s e : first_is lm w start s -> first_is lm w stop e ->
  common (arg_ty start) (arg_ty stop) = TDouble ->
  colon_fn lm x start stop w = colon_dbl x (v2f s) (v2f e) w.
Proof.
  intros Fs Fe C. unfold colon_fn. rewrite C.
  rewrite (bind_done _ _ _ _ _ (arg_first_is lm w start s Fs)).
  simpl cast. rewrite bind_lift_done, (bind_done _ _ _ _ _ (arg_first_is lm w stop e Fe)), bind_lift_done.
  reflexivity.
Qed.
