(** Properties C29..C37: functions that make vectors. *)
From Coq Require Import String ZArith List Bool Lia Reals Lra.
From Coq.Floats Require Import SpecFloat.
From Flocq Require Import Core.Core.
From Verif Require Import Base Num StoreModel VecModel SubsetModel AllocModel FloatBridge Spec SpecExpr SpecHist SpecProg SpecVec
  SpecSub SpecAlloc StoreProofs StoreOps VecProofs VecAssign VecEval StoreThms SubsetProofs SubsetThms
  AllocProofs AllocProofs2 AllocProofs3 AllocProofs4 Examples PropVec PropSubset.
Import ListNotations.
Open Scope Z_scope.
Local Notation length := List.length (only parsing).

Ltac show_made2 := first [exact (world_ok_shape _ ex_ok) | show_unborn | vm_compute; congruence | lia].

(* ------------------------------------------------------------------ C29 *)

(** The ends may be scalars or vectors (whose first element counts), ints or
    one int and one bool. *)
Theorem c29_colon_integers : forall lm w x start stop s e a b,
  world_shape w -> unborn w (OD x) -> unborn w (OT x) ->
  first_is lm w start s -> first_is lm w stop e -> v2z s = Some a -> v2z e = Some b ->
  common (arg_ty start) (arg_ty stop) = TInt ->
  - 2 ^ 31 <= a < 2 ^ 31 -> - 2 ^ 31 <= b < 2 ^ 31 -> Z.abs (a - b) < 2 ^ 31 - 1 ->
  (a < b -> b < 2 ^ 31 - 1) -> (b <= a -> - 2 ^ 31 < b) -> fits w (Z.abs (a - b) + 1) ->
  exists w' us, colon_fn lm x start stop w = (Done tt, w') /\ made w w' x TInt us mp_none /\
    Z.of_nat (length us) = Z.abs (a - b) + 1 /\
    forall i, (i < length us)%nat ->
      nth i us (VB false) = VI (if a <=? b then a + Z.of_nat i else a - Z.of_nat i).
Proof.
  intros lm w x start stop s e a b WO D1 D2 Fs Fe Vs Ve C Ia Ib Hd Hu Hl Ft.
  destruct (colon_int_done w x a b WO D1 D2) as [w' [E M]]; auto.
  exists w'. eexists. rewrite (colon_fn_int lm w x start stop s e a b) by auto.
  split; [exact E|]. split; [exact M|]. rewrite map_length, seq_length.
  split; [lia|]. intros i Hi. now rewrite nth_map_seq.
Qed.
Print Assumptions c29_colon_integers.
(** 5:2 and -1:1. *)
Example c29_ex : exists w' w'', colon_fn ex_lm 2 (AS (VI 5)) (AS (VI 2)) ex_w = (Done tt, w') /\
  vholds w' 2 (map VI [5; 4; 3; 2]) /\
  colon_fn ex_lm 2 (AV TInt (ints [-1; 7])) (AS (VB true)) ex_w = (Done tt, w'') /\
  vholds w'' 2 (map VI [-1; 0; 1]).
Proof.
  destruct (c29_colon_integers ex_lm ex_w 2 (AS (VI 5)) (AS (VI 2)) (VI 5) (VI 2) 5 2) as [w' [us [E [M [L N]]]]];
    try reflexivity; try show_made2.
  destruct (c29_colon_integers ex_lm ex_w 2 (AV TInt (ints [-1; 7])) (AS (VB true)) (VI (-1)) (VB true) (-1) 1)
    as [w'' [us' [E' [M' [L' N']]]]]; try reflexivity; try show_made2.
  { split; reflexivity. }
  exists w', w''. split; [exact E|]. split; [|split; [exact E'|]].
  - replace (map VI [5; 4; 3; 2]) with us; [apply M|]. simpl in L.
    destruct us as [|u0 [|u1 [|u2 [|u3 [|]]]]]; simpl in L; try lia.
    cbn [map]. f_equal; [apply (N O); simpl; lia|]. f_equal; [apply (N 1%nat); simpl; lia|].
    f_equal; [apply (N 2%nat); simpl; lia|]. f_equal. apply (N 3%nat); simpl; lia.
  - replace (map VI [-1; 0; 1]) with us'; [apply M'|]. simpl in L'.
    destruct us' as [|u0 [|u1 [|u2 [|]]]]; simpl in L'; try lia.
    cbn [map]. f_equal; [apply (N' O); simpl; lia|]. f_equal; [apply (N' 1%nat); simpl; lia|].
    f_equal. apply (N' 2%nat); simpl; lia.
Qed.

(** Outside the stated range: counting up to INT_MAX or down to INT_MIN steps
    over the end of int, which is undefined. *)
Theorem c29_end_of_range_overflows : forall lm w x start stop s e a b,
  world_shape w -> unborn w (OD x) -> unborn w (OT x) ->
  first_is lm w start s -> first_is lm w stop e -> v2z s = Some a -> v2z e = Some b ->
  common (arg_ty start) (arg_ty stop) = TInt ->
  - 2 ^ 31 <= a < 2 ^ 31 -> Z.abs (a - b) < 2 ^ 31 - 1 -> fits w (Z.abs (a - b) + 1) ->
  (a < b /\ b = 2 ^ 31 - 1) \/ (b <= a /\ b = - 2 ^ 31) ->
  exists w', colon_fn lm x start stop w = (Undef UB_overflow, w').
Proof.
  intros lm w x start stop s e a b WO D1 D2 Fs Fe Vs Ve C Ia Hd Ft Hc.
  rewrite (colon_fn_int lm w x start stop s e a b) by auto.
  apply colon_int_overflow; auto. unfold is_int. lia.
Qed.
Print Assumptions c29_end_of_range_overflows.
Example c29_overflow_ex : exists w', colon_fn ex_lm 2 (AS (VI 2147483640)) (AS (VI 2147483647)) ex_w = (Undef UB_overflow, w').
Proof.
  apply (c29_end_of_range_overflows ex_lm ex_w 2 _ _ (VI 2147483640) (VI 2147483647) 2147483640 2147483647);
    try reflexivity; try show_made2.
Qed.

(* ------------------------------------------------------------------ C30 *)

(** Ends that are multiples of 2^-k such that all the values and differences
    are below 2^53 multiples (for k = 0: all whole numbers up to 2^53 - 1).
    Missing to the full property: other ends, for which it is false. *)
Theorem c30_colon_doubles_partial : forall lm w x start stop s e a b k ma mb,
  world_shape w -> unborn w (OD x) -> unborn w (OT x) ->
  first_is lm w start s -> first_is lm w stop e -> common (arg_ty start) (arg_ty stop) = TDouble ->
  v2f s = a -> v2f e = b -> valid a -> finite a -> valid b -> finite b ->
  0 <= k <= 1000 -> fR a = (IZR ma / bpow radix2 k)%R -> fR b = (IZR mb / bpow radix2 k)%R ->
  Z.abs ma + 2 ^ k <= 2 ^ 53 -> Z.abs mb + 2 ^ k <= 2 ^ 53 -> Z.abs (ma - mb) + 2 ^ k <= 2 ^ 53 ->
  Ztrunc (Rabs (fR a - fR b)) + 1 < 2 ^ 31 -> fits w (Ztrunc (Rabs (fR a - fR b)) + 1) ->
  exists w' us, colon_fn lm x start stop w = (Done tt, w') /\ made w w' x TDouble us mp_none /\
    Z.of_nat (length us) = Ztrunc (Rabs (fR a - fR b)) + 1 /\
    forall i, (i < length us)%nat -> exists d, nth i us (VB false) = VD d /\ valid d /\ finite d /\
      fR d = (if Rle_dec (fR a) (fR b) then fR a + INR i else fR a - INR i)%R.
Proof.
  intros lm w x start stop s e a b k ma mb WO D1 D2 Fs Fe C <- <- Va Fa Vb Fb Hk Ra Rb B1 B2 B3 Hn Ft.
  rewrite (colon_fn_dbl lm w x start stop s e) by auto.
  assert (Ga : gridf k (v2f s) ma) by (split; [|split]; auto; rewrite Ra; unfold grid, Rdiv; now rewrite bpow_opp).
  assert (Gb : gridf k (v2f e) mb) by (split; [|split]; auto; rewrite Rb; unfold grid, Rdiv; now rewrite bpow_opp).
  assert (T : Ztrunc (Rabs (fR (v2f s) - fR (v2f e))) = Z.abs (ma - mb) / 2 ^ k).
  { destruct Ga as [_ [_ ->]]. destruct Gb as [_ [_ ->]]. rewrite grid_minus.
    rewrite <- (grid_trunc k (Z.abs (ma - mb))) by lia. f_equal. unfold grid.
    rewrite Rabs_mult, <- abs_IZR, (Rabs_pos_eq (bpow _ _)) by apply bpow_ge_0. reflexivity. }
  rewrite T in *.
  destruct (colon_dbl_grid w x (v2f s) (v2f e) k ma mb WO D1 D2) as [w' [us [E [M [L N]]]]]; auto.
  exists w', us. split; [exact E|]. split; [exact M|]. split; [|exact N].
  rewrite L. assert (0 <= Z.abs (ma - mb) / 2 ^ k) by (apply Z.div_pos; [lia|apply Z.pow_pos_nonneg; lia]). lia.
Qed.
Print Assumptions c30_colon_doubles_partial.
(** 2.5:0 is 2.5, 1.5, 0.5. *)
Example c30_ex : exists w' us, colon_fn ex_lm 2 (AS (VD f25)) (AS (VI 0)) ex_w = (Done tt, w') /\
  vholds w' 2 us /\ length us = 3%nat.
Proof.
  assert (R1 : fR f25 = (IZR 5 / bpow radix2 1)%R) by (unfold f25; simpl; unfold F2R; simpl; lra).
  assert (R2 : fR (v2f (VI 0)) = (IZR 0 / bpow radix2 1)%R) by (simpl; lra).
  assert (T : Ztrunc (Rabs (fR f25 - fR (v2f (VI 0)))) = 2).
  { rewrite R1, R2. replace (IZR 5 / bpow radix2 1 - IZR 0 / bpow radix2 1)%R with (5/2)%R by (simpl; lra).
    rewrite Rabs_pos_eq by lra. rewrite Ztrunc_floor by lra. apply Zfloor_imp. simpl. lra. }
  destruct (c30_colon_doubles_partial ex_lm ex_w 2 (AS (VD f25)) (AS (VI 0)) (VD f25) (VI 0) f25 (v2f (VI 0)) 1 5 0)
    as [w' [us [E [M [L N]]]]];
    [exact (world_ok_shape _ ex_ok)|show_unborn|show_unborn|reflexivity|reflexivity|reflexivity|reflexivity|reflexivity|reflexivity
    |exact I|reflexivity|exact I|lia|exact R1|exact R2|lia|lia|lia|rewrite T; lia|rewrite T; vm_compute; congruence|].
  exists w', us. split; [exact E|]. split; [apply M|]. rewrite T in L. lia.
Qed.

(** For any doubles at all, with [n] the length as computed (rounded) and
    [step k] the k-th value as computed: the result has n elements, first the
    computed values not beyond the end, then zeros; if more than n computed
    values are within the end, it throws and nothing is left. *)
Fixpoint step (up : bool) (a : flt) (k : nat) : flt :=
  match k with O => a | S k => if up then fadd (step up a k) fone else fsub (step up a k) fone end.
Theorem c30_colon_doubles_any_partial : forall lm w x start stop s e a b n,
  world_shape w -> unborn w (OD x) -> unborn w (OT x) ->
  first_is lm w start s -> first_is lm w stop e -> common (arg_ty start) (arg_ty stop) = TDouble ->
  v2f s = a -> v2f e = b ->
  let up := flt_ltb a b in
  size_is (VD (fadd (if up then fsub b a else fsub a b) fone)) n -> 1 <= n -> fits w n ->
  let inside v := if up then flt_leb v b = true else flt_leb b v = true in
  (exists m w', (m <= Z.to_nat n)%nat /\ (forall k, (k < m)%nat -> inside (step up a k)) /\ ~ inside (step up a m) /\
     colon_fn lm x start stop w = (Done tt, w') /\
     made w w' x TDouble (map (fun k => VD (step up a k)) (seq 0 m) ++ repeat (VD fzero) (Z.to_nat n - m)) mp_none) \/
  (exists w' msg, (forall k, (k <= Z.to_nat n)%nat -> inside (step up a k)) /\
     colon_fn lm x start stop w = (Thrown (Ass msg), w') /\ not_made w w' x).
Proof.
  intros lm w x start stop s e a b n WO D1 D2 Fs Fe C <- <- up Sz Hn Ft inside.
  rewrite (colon_fn_dbl lm w x start stop s e) by auto.
  assert (S : forall k, step up (v2f s) k = fsteps up (v2f s) k) by (induction k as [|k IH]; simpl; [reflexivity|now rewrite IH]).
  assert (Mp : forall m, map (fun k => VD (step up (v2f s) k)) (seq 0 m) = map (fun k => VD (fsteps up (v2f s) k)) (seq 0 m)).
  { intros m. apply map_ext. intros k. now rewrite S. }
  destruct (colon_dbl_cases w x (v2f s) (v2f e) n WO D1 D2) as [[m [w' [A [B [D [E M]]]]]]|[w' [msg [A [E [F1 [F2 [F3 F4]]]]]]]]; auto.
  - now apply convert_size_ok.
  - left. exists m, w'. split; [exact A|]. unfold inside. split; [|split; [|split; [exact E|rewrite Mp; exact M]]].
    + intros k Hk. specialize (B k Hk). rewrite S. unfold up in *. now destruct (flt_ltb (v2f s) (v2f e)).
    + rewrite S. unfold up in *. destruct (flt_ltb (v2f s) (v2f e)); congruence.
  - right. exists w', msg. split; [|split; [exact E|split; [exact F1|split; [exact F2|split; [exact F3|exact F4]]]]].
    intros k Hk. specialize (A k Hk). unfold inside. rewrite S. unfold up in *. now destruct (flt_ltb (v2f s) (v2f e)).
Qed.
Print Assumptions c30_colon_doubles_any_partial.

(** 3.1:5.1 throws instead of giving 3.1, 4.1, 5.1 (the difference is
    computed as a little less than 2). *)
Definition f31 : flt := S754_finite false 6980579422424269 (-51).      (* 3.1 *)
Definition f51 : flt := S754_finite false 5742089524897382 (-50).      (* 5.1 *)
Theorem c30_throws_refuted : exists w' msg,
  colon_fn ex_lm 2 (AS (VD f31)) (AS (VD f51)) ex_w = (Thrown (Ass msg), w').
Proof. eexists. eexists. apply pair_eta; [vm_compute; reflexivity|reflexivity]. Qed.
Print Assumptions c30_throws_refuted.
(** 3.3:0.3 is 3.3, 2.3, 1.3, 0: the last value is not within the end. *)
Definition f33 : flt := S754_finite false 7430939385161318 (-51).      (* 3.3 *)
Definition f03 : flt := S754_finite false 5404319552844595 (-54).      (* 0.3 *)
Theorem c30_last_zero_refuted : exists w' u0 u1 u2,
  colon_fn ex_lm 2 (AS (VD f33)) (AS (VD f03)) ex_w = (Done tt, w') /\
  vholds w' 2 [VD u0; VD u1; VD u2; d0] /\ flt_leb f03 fzero = false.
Proof.
  exists (snd (colon_fn ex_lm 2 (AS (VD f33)) (AS (VD f03)) ex_w)),
    f33, (fsub f33 fone), (fsub (fsub f33 fone) fone).
  split; [apply pair_eta; [vm_compute; reflexivity|reflexivity]|].
  split; [show_holds|vm_compute; reflexivity].
Qed.
Print Assumptions c30_last_zero_refuted.

(* ------------------------------------------------------------------ C31 *)

Theorem c31_rep : forall lm w x inp times l v n,
  world_shape w -> unborn w (OD x) -> unborn w (OT x) -> ~ In x (arg_vars inp) ->
  items lm w inp l -> typed inp l -> l <> [] ->
  first_is lm w times v -> size_is v n -> 1 <= n -> fits w (n * Z.of_nat (length l)) ->
  exists w' us, rep_fn lm x inp times w = (Done tt, w') /\ made w w' x (arg_ty inp) us mp_none /\
    Z.of_nat (length us) = n * Z.of_nat (length l) /\
    forall i, (i < length us)%nat -> nth i us (VB false) = nth (i mod length l) l (VB false).
Proof. intros. eapply rep_done; eauto. Qed.
Print Assumptions c31_rep.
Example c31_ex : exists w' us, rep_fn ex_lm 2 (AV TDouble (EVar 0)) (AS (VD f25)) ex_w = (Done tt, w') /\
  vholds w' 2 us /\ length us = 6%nat /\ nth 4 us d0 = d2.
Proof.
  destruct (c31_rep ex_lm ex_w 2 (AV TDouble (EVar 0)) (AS (VD f25)) [d1; d2; d3] (VD f25) 2)
    as [w' [us [E [M [L N]]]]]; try reflexivity; try show_made2.
  - simpl. intros [?|[]]. lia.
  - apply vholds_yields. exact ex_holds0.
  - intros u [<-|[<-|[<-|[]]]]; reflexivity.
  - split; [show_part|lia].
  - exists w', us. split; [exact E|]. split; [apply M|]. simpl in L. split; [lia|].
    rewrite (nth_indep _ _ (VB false)) by lia. rewrite N by lia. reflexivity.
Qed.

(* ------------------------------------------------------------------ C32 *)

(** x a vector or expression: its elements in order, which is column by column
    in the shape r x c (the shape every other operation uses, C25 and C26). *)
Theorem c32_matrix : forall lm w x t e nr nc l rv cv r c,
  world_shape w -> unborn w (OD x) -> unborn w (OT x) -> ~ In x (vars e) ->
  yields lm w e l -> typed (AV t e) l ->
  first_is lm w nr rv -> size_is rv r -> 1 <= r -> first_is lm w nc cv -> size_is cv c -> 1 <= c ->
  fits w (r * c) -> Z.of_nat (length l) = r * c ->
  exists w', matrix_fn lm x (AV t e) nr nc w = (Done tt, w') /\ made w w' x t l (mkMP true r c).
Proof. intros. eapply (matrix_done lm w x (AV t e)); eauto. Qed.
Print Assumptions c32_matrix.
(** x a scalar: the same value in every cell. *)
Theorem c32_matrix_scalar : forall lm w x v nr nc rv cv r c,
  world_shape w -> unborn w (OD x) -> unborn w (OT x) ->
  first_is lm w nr rv -> size_is rv r -> 1 <= r -> first_is lm w nc cv -> size_is cv c -> 1 <= c ->
  fits w (r * c) ->
  exists w', matrix_fn lm x (AS v) nr nc w = (Done tt, w') /\
    made w w' x (ty_of v) (repeat v (Z.to_nat (r * c))) (mkMP true r c).
Proof. intros. eapply matrix_scalar; eauto. Qed.
Print Assumptions c32_matrix_scalar.
(** Wrong length: throws, and nothing is left behind. *)
Theorem c32_matrix_wrong_length : forall lm w x t e nr nc l rv cv r c,
  world_shape w -> unborn w (OD x) -> unborn w (OT x) -> ~ In x (vars e) -> yields lm w e l ->
  first_is lm w nr rv -> size_is rv r -> 1 <= r -> first_is lm w nc cv -> size_is cv c -> 1 <= c ->
  fits w (r * c) -> Z.of_nat (length l) <> r * c ->
  exists w' m, matrix_fn lm x (AV t e) nr nc w = (Thrown (Ass m), w') /\ not_made w w' x.
Proof.
  intros lm w x t e nr nc l rv cv r c WO D1 D2 Nx Y Fr Sr Hr Fc Sc Hc Ft Ln.
  destruct (matrix_bad lm w x t e nr nc r c rv cv) as [w' [m [E [A [B [C D]]]]]]; auto; [rewrite (proj1 Y); exact Ln|].
  exists w', m. split; [exact E|]. split; [exact A|split; [exact B|split; [exact C|exact D]]].
Qed.
Print Assumptions c32_matrix_wrong_length.
Example c32_ex : exists w' w'' m, matrix_fn ex_lm 2 (AV TDouble (EVar 0)) (AS (VI 3)) (AS (VB true)) ex_w = (Done tt, w') /\
  vholds w' 2 [d1; d2; d3] /\ mp (ob w' (OD 2)) = mkMP true 3 1 /\
  matrix_fn ex_lm 2 (AV TDouble (EVar 0)) (AS (VI 2)) (AS (VI 2)) ex_w = (Thrown (Ass m), w'').
Proof.
  destruct (c32_matrix ex_lm ex_w 2 TDouble (EVar 0) (AS (VI 3)) (AS (VB true)) [d1; d2; d3] (VI 3) (VB true) 3 1)
    as [w' [E M]]; try reflexivity; try show_made2.
  - simpl. intros [?|[]]. lia.
  - apply vholds_yields. exact ex_holds0.
  - intros u [<-|[<-|[<-|[]]]]; reflexivity.
  - destruct (c32_matrix_wrong_length ex_lm ex_w 2 TDouble (EVar 0) (AS (VI 2)) (AS (VI 2)) [d1; d2; d3] (VI 2) (VI 2) 2 2)
      as [w'' [m [E' _]]]; try reflexivity; try show_made2.
    + simpl. intros [?|[]]. lia.
    + apply vholds_yields. exact ex_holds0.
    + exists w', w'', m. split; [exact E|]. split; [apply M|]. split; [apply M|exact E'].
Qed.

(* ------------------------------------------------------------------ C33 *)

(** [vt] distinguishes vector_numeric, vector_integer and vector_logical.  All
    three make a vector of doubles. *)
Theorem c33_vector_zeros : forall lm w x vt a v n,
  world_shape w -> unborn w (OD x) -> unborn w (OT x) -> items lm w a [v] -> size_is v n -> 1 <= n -> fits w n ->
  exists w', vector_fn lm x vt a w = (Done tt, w') /\
    made w w' x TDouble (repeat (VD fzero) (Z.to_nat n)) mp_none.
Proof. intros. eapply vector_fn_done; eauto. Qed.
Print Assumptions c33_vector_zeros.
Theorem c33_vector_below_one : forall lm w x vt a v n,
  items lm w a [v] -> size_is v n -> - 2 ^ 31 <= n < 1 ->
  exists m, vector_fn lm x vt a w = (Thrown (Ass m), w).
Proof. intros. eapply vector_fn_bad; eauto. Qed.
Print Assumptions c33_vector_below_one.
(** A length given as a vector must have one element. *)
Theorem c33_vector_length_vector : forall lm w x vt t e l, yields lm w e l -> length l <> 1%nat ->
  exists m, vector_fn lm x vt (AV t e) w = (Thrown (Ass m), w).
Proof. intros. eapply vector_fn_long; eauto. Qed.
Print Assumptions c33_vector_length_vector.
Example c33_ex : exists w' m, vector_fn ex_lm 2 TInt (AS (VI 3)) ex_w = (Done tt, w') /\ vholds w' 2 [d0; d0; d0] /\
  vector_fn ex_lm 2 TInt (AV TDouble (dbls [i2f (-4)])) ex_w = (Thrown (Ass m), ex_w).
Proof.
  destruct (c33_vector_zeros ex_lm ex_w 2 TInt (AS (VI 3)) (VI 3) 3) as [w' [E M]]; try reflexivity; try show_made2.
  destruct (c33_vector_below_one ex_lm ex_w 2 TInt (AV TDouble (dbls [i2f (-4)])) (VD (i2f (-4))) (-4)) as [m E'].
  - apply yields_tmp.
  - split; [show_part|lia].
  - lia.
  - exists w', m. split; [exact E|]. split; [apply M|exact E'].
Qed.

(* ------------------------------------------------------------------ C34 *)

Lemma widened_cast t v u : (level (ty_of v) <= level t)%nat -> int32 v -> cast t v = Done u -> widened t v u.
Proof.
  destruct t, v; simpl; intros L I C; try lia; injection C as <-; simpl; auto.
  - destruct (i2f_exact (b2z b)) as [A B]; [destruct b; simpl; lia|]. split; [exact B|]. rewrite A. destruct b; reflexivity.
  - destruct (i2f_exact z) as [A B]; [lia|]. split; [exact B|exact A].
Qed.
Lemma cast_up t v : (level (ty_of v) <= level t)%nat -> exists u, cast t v = Done u.
Proof. destruct t, v; simpl; intros L; eauto; lia. Qed.

(** The length is counted in an int, hence the bound. *)
Theorem c34_coca : forall lm w x args ls,
  world_shape w -> unborn w (OD x) -> unborn w (OT x) ->
  (forall a, In a args -> ~ In x (arg_vars a)) ->
  Forall2 (items lm w) args ls -> Forall2 typed args ls -> Forall int32 (concat ls) ->
  concat ls <> [] -> Z.of_nat (length (concat ls)) < 2 ^ 31 -> fits w (Z.of_nat (length (concat ls))) ->
  exists w' t us, coca_fn lm x args w = (Done tt, w') /\ highest t args /\ made w w' x t us mp_none /\
    Forall2 (widened t) (concat ls) us.
Proof.
  intros lm w x args ls WO D1 D2 Nx It Ty I32 Ne Hb Ft.
  assert (Na : args <> []) by (intros ->; inversion It; subst; now apply Ne).
  destruct (coca_type_spec args Na) as [Hi Hm].
  assert (HT : highest (coca_type args) args).
  { split; [exact Hi|]. intros a Ha. specialize (Hm a Ha). destruct (arg_ty a), (coca_type args); simpl in *; lia. }
  assert (Lv : forall v, In v (concat ls) -> (level (ty_of v) <= level (coca_type args))%nat).
  { destruct HT as [_ HT]. generalize dependent (coca_type args). intros T _ Hm0 HT. clear - Ty HT.
    induction Ty as [|a l args ls T1 T2 IH]; intros v Hv; simpl in Hv; [easy|].
    apply in_app_or in Hv as [Hv|Hv].
    - rewrite (T1 v Hv). apply HT. now left.
    - apply IH; auto. intros b Hb. apply HT. now right. }
  assert (C : exists us, Forall2 (fun v u => cast (coca_type args) v = Done u) (concat ls) us).
  { clear - Lv. induction (concat ls) as [|v l IH]; [exists []; constructor|].
    destruct IH as [us H]; [intros u Hu; apply Lv; now right|].
    destruct (cast_up (coca_type args) v) as [u Hu]; [apply Lv; now left|].
    exists (u :: us). now constructor. }
  destruct C as [us C]. pose proof (Forall2_len _ _ _ C) as Ln.
  destruct (coca_done lm w x args ls us) as [w' [E M]]; auto.
  - intros ->. simpl in Ln. now destruct (concat ls).
  - lia.
  - now rewrite <- Ln.
  - exists w', (coca_type args), us. split; [exact E|]. split; [exact HT|]. split; [exact M|].
    clear - C Lv I32. induction C as [|v u l us C1 C2 IH]; constructor.
    + apply widened_cast; auto; [apply Lv; now left|now inversion I32].
    + apply IH; [now inversion I32|intros; apply Lv; now right].
Qed.
Print Assumptions c34_coca.
(** coca(7, x0, TRUE) = 7, 1, 2, 3, 1. *)
Example c34_ex : exists w', coca_fn ex_lm 2 [AS (VI 7); AV TDouble (EVar 0); AS (VB true)] ex_w = (Done tt, w') /\
  vholds w' 2 [VD (i2f 7); d1; d2; d3; d1] /\
  Forall2 (items ex_lm ex_w) [AS (VI 7); AV TDouble (EVar 0); AS (VB true)] [[VI 7]; [d1; d2; d3]; [VB true]].
Proof.
  eexists. split; [apply pair_eta; [vm_compute; reflexivity|reflexivity]|].
  split; [show_holds|]. constructor; [reflexivity|]. constructor; [apply vholds_yields; exact ex_holds0|].
  constructor; [reflexivity|constructor].
Qed.

(* ------------------------------------------------------------------ C35 *)

(** size_is v n: n is the number v stands for, a double being truncated. *)
Theorem c35_size_validation : forall v n, size_is v n -> - 2 ^ 31 <= n ->
  (1 <= n -> convert_size v = Done n) /\ (n < 1 -> exists m, convert_size v = Thrown (Ass m)).
Proof. intros v n S L. split; intros H; [now apply convert_size_ok|now apply (convert_size_bad v n)]. Qed.
Print Assumptions c35_size_validation.
(** At least one as a number is the same as at least one after truncation. *)
Theorem c35_truncation : forall d n, int_part d n -> (1 <= n <-> (1 <= fR d)%R).
Proof.
  intros d n [V [F <-]]. split; intros H.
  - destruct (Rlt_le_dec (fR d) 1) as [L|L]; auto. exfalso.
    destruct (Rle_lt_dec 0 (fR d)) as [P|P].
    + rewrite Ztrunc_floor in H by auto. apply IZR_le in H. pose proof (Zfloor_lb (fR d)). simpl in H. lra.
    + rewrite Ztrunc_ceil in H by lra. pose proof (Zceil_glb 0 (fR d) ltac:(simpl; lra)). lia.
  - rewrite Ztrunc_floor by lra. apply Zfloor_lub. exact H.
Qed.
Print Assumptions c35_truncation.
(** Doubles whose integer part is not an int (also NaN and infinities): the
    check isDoubleInt converts to int, which is undefined. *)
Theorem c35_beyond_int_undefined : forall d, valid d ->
  (forall n, int_part d n -> ~ (- 2 ^ 31 <= n < 2 ^ 31)) -> convert_size (VD d) = Undef UB_cast.
Proof. intros. now apply convert_size_undef. Qed.
Print Assumptions c35_beyond_int_undefined.
(** A size given as a vector or an expression: the same for its only element;
    another length throws. *)
Theorem c35_size_vector : forall lm w t e v n, yields lm w e [v] -> size_is v n -> - 2 ^ 31 <= n ->
  (1 <= n -> convert_size_vec lm t e w = (Done n, w)) /\
  (n < 1 -> exists m, convert_size_vec lm t e w = (Thrown (Ass m), w)).
Proof.
  intros lm w t e v n [ES EL] Sz L. specialize (EL O ltac:(simpl; lia)). simpl in EL.
  unfold convert_size_vec. rewrite bind_get, ES. change (Z.of_nat (length [v]) =? 1) with true. cbv iota.
  rewrite (bind_done _ _ _ _ _ EL).
  destruct (c35_size_validation v n Sz L) as [A B]. split; intros H; [specialize (A H)|specialize (B H)].
  - destruct v as [b|z|d]; simpl in *.
    + destruct b; [now injection A as <-|discriminate].
    + destruct (1 <=? z); [now injection A as <-|discriminate].
    + destruct (is_double_int d); try discriminate. simpl in A.
      destruct (flt_leb fone d); [|discriminate]. unfold lift. now rewrite A.
  - destruct B as [m B]. destruct v as [b|z|d]; simpl in *.
    + destruct b; [discriminate|eexists; reflexivity].
    + destruct (1 <=? z); [discriminate|eexists; reflexivity].
    + destruct (is_double_int d) as [c|ex|u] eqn:D; simpl in B; try discriminate.
      * destruct (flt_leb fone d); [|eexists; reflexivity].
        unfold lift. rewrite B. eauto.
      * unfold is_double_int in D. destruct (f2int d) as [c|ex'|u'] eqn:F; simpl in D; try discriminate.
        unfold f2int in F. destruct (ftrunc d); [|discriminate]. destruct (in_int z); discriminate.
Qed.
Print Assumptions c35_size_vector.
Theorem c35_size_vector_length : forall lm w t e, esize w e <> 1 ->
  exists m, convert_size_vec lm t e w = (Thrown (Ass m), w).
Proof.
  intros lm w t e H. unfold convert_size_vec. rewrite bind_get.
  apply Z.eqb_neq in H. rewrite H. eexists. reflexivity.
Qed.
Print Assumptions c35_size_vector_length.
Example c35_ex : size_is (VD f25) 2 /\ convert_size (VD f25) = Done 2 /\ size_is (VB false) 0 /\
  convert_size (VD (i2f (2 ^ 31))) = Undef UB_cast.
Proof. split; [split; [show_part|lia]|]. repeat split; vm_compute; reflexivity. Qed.

(* ------------------------------------------------------------------ C36 *)

Lemma is_nan_spec d : is_nan d = true <-> d = S754_nan.
Proof. destruct d; simpl; split; congruence. Qed.
Lemma is_inf_spec d : is_inf d = true <-> exists s, d = S754_infinity s.
Proof. destruct d; simpl; split; try congruence; eauto; intros [s' H]; congruence. Qed.
(** Vectors of any element type; only doubles can be NaN or infinite. *)
Definition nan_val (v : val) : Prop := v = VD S754_nan.
Definition inf_val (v : val) : Prop := exists s, v = VD (S754_infinity s).
Lemma i2f_not_special z : - 2 ^ 31 <= z < 2 ^ 31 -> is_nan (i2f z) = false /\ is_inf (i2f z) = false.
Proof. intros H. apply finite_not_special. apply i2f_exact. lia. Qed.
Lemma nan_test v : int32 v -> (is_nan (v2f v) = true <-> nan_val v).
Proof.
  unfold nan_val. destruct v as [b|z|d]; simpl; intros H.
  - destruct (i2f_not_special (b2z b)) as [-> _]; [destruct b; simpl; lia|]. split; congruence.
  - destruct (i2f_not_special z) as [-> _]; auto. split; congruence.
  - rewrite is_nan_spec. split; congruence.
Qed.
Lemma inf_test v : int32 v -> (is_inf (v2f v) = true <-> inf_val v).
Proof.
  unfold inf_val. destruct v as [b|z|d]; simpl; intros H.
  - destruct (i2f_not_special (b2z b)) as [_ ->]; [destruct b; simpl; lia|]. split; [congruence|intros [s E]; congruence].
  - destruct (i2f_not_special z) as [_ ->]; auto. split; [congruence|intros [s E]; congruence].
  - rewrite is_inf_spec. split; intros [s E]; exists s; congruence.
Qed.

Lemma test_result lm p P w x e l : (forall v, int32 v -> (p (v2f v) = true <-> P v)) ->
  world_shape w -> unborn w (OD x) -> unborn w (OT x) -> ~ In x (vars e) ->
  yields lm w e l -> Forall int32 l -> l <> [] -> fits w (Z.of_nat (length l)) ->
  exists w' bs, test_fn lm p x e w = (Done tt, w') /\ made w w' x TBool (map VB bs) mp_none /\
    length bs = length l /\ forall i, (i < length l)%nat -> (nth i bs false = true <-> P (nth i l (VB false))).
Proof.
  intros Sp WO D1 D2 Nx Y I32 Ne Ft. destruct (test_done lm p w x e l) as [w' [E M]]; auto.
  exists w', (map (fun v => p (v2f v)) l). split; [exact E|]. rewrite map_map. split; [exact M|].
  rewrite map_length. split; [reflexivity|]. intros i Hi.
  rewrite (nth_indep _ _ (p (v2f (VB false)))) by (now rewrite map_length).
  rewrite (map_nth (fun v => p (v2f v))). apply Sp. rewrite Forall_forall in I32. apply I32. now apply nth_In.
Qed.

Theorem c36_isNA : forall lm w x e l,
  world_shape w -> unborn w (OD x) -> unborn w (OT x) -> ~ In x (vars e) ->
  yields lm w e l -> Forall int32 l -> l <> [] -> fits w (Z.of_nat (length l)) ->
  exists w' bs, is_na_fn lm x e w = (Done tt, w') /\ made w w' x TBool (map VB bs) mp_none /\
    length bs = length l /\ forall i, (i < length l)%nat -> (nth i bs false = true <-> nan_val (nth i l (VB false))).
Proof. intros. apply test_result; auto. exact nan_test. Qed.
Print Assumptions c36_isNA.
Theorem c36_isInf : forall lm w x e l,
  world_shape w -> unborn w (OD x) -> unborn w (OT x) -> ~ In x (vars e) ->
  yields lm w e l -> Forall int32 l -> l <> [] -> fits w (Z.of_nat (length l)) ->
  exists w' bs, is_inf_fn lm x e w = (Done tt, w') /\ made w w' x TBool (map VB bs) mp_none /\
    length bs = length l /\ forall i, (i < length l)%nat -> (nth i bs false = true <-> inf_val (nth i l (VB false))).
Proof. intros. apply test_result; auto. exact inf_test. Qed.
Print Assumptions c36_isInf.
(** Scalars. *)
Theorem c36_scalar : forall v, int32 v ->
  (test_scalar is_nan v = true <-> nan_val v) /\ (test_scalar is_inf v = true <-> inf_val v).
Proof. intros v H. split; [now apply nan_test|now apply inf_test]. Qed.
Print Assumptions c36_scalar.
(** An empty vector makes both throw. *)
Theorem c36_empty_throws : forall lm p w x e, esize w e = 0 -> exists m, test_fn lm p x e w = (Thrown (Ass m), w).
Proof. intros. now apply test_empty. Qed.
Print Assumptions c36_empty_throws.
Example c36_ex : exists w', is_na_fn ex_lm 2 (dbls [i2f 1; S754_nan; S754_infinity true]) ex_w = (Done tt, w') /\
  vholds w' 2 [VB false; VB true; VB false].
Proof.
  destruct (c36_isNA ex_lm ex_w 2 (dbls [i2f 1; S754_nan; S754_infinity true]) (map VD [i2f 1; S754_nan; S754_infinity true]))
    as [w' [bs [E [M [L N]]]]].
  - exact (world_ok_shape _ ex_ok).
  - show_unborn.
  - show_unborn.
  - simpl. tauto.
  - apply yields_tmp.
  - repeat constructor.
  - discriminate.
  - vm_compute. congruence.
  - exists w'. split; [exact E|]. replace [VB false; VB true; VB false] with (map VB bs); [apply M|].
    destruct bs as [|b0 [|b1 [|b2 [|]]]]; simpl in L; try lia. cbn [map].
    pose proof (N 0%nat ltac:(simpl; lia)) as N0. pose proof (N 1%nat ltac:(simpl; lia)) as N1.
    pose proof (N 2%nat ltac:(simpl; lia)) as N2. unfold nan_val in *. cbn [nth map] in *.
    destruct b0; [destruct N0 as [N0 _]; specialize (N0 eq_refl); discriminate|].
    destruct b2; [destruct N2 as [N2 _]; specialize (N2 eq_refl); discriminate|].
    destruct N1 as [_ N1]. rewrite N1; reflexivity.
Qed.

(* ------------------------------------------------------------------ C37 *)

Theorem c37_length : forall lm w t e l, yields lm w e l -> Z.of_nat (length l) < 2 ^ 31 ->
  length_fn w (AV t e) = Z.of_nat (length l).
Proof. intros lm w t e l [ES _] H. simpl. rewrite ES. apply to_int_small. lia. Qed.
Print Assumptions c37_length.
Theorem c37_length_scalar : forall w v, length_fn w (AS v) = 1.
Proof. reflexivity. Qed.
Print Assumptions c37_length_scalar.
(** dim of a variable that is a matrix. *)
Theorem c37_dim_matrix : forall w x y t nr nc,
  world_shape w -> unborn w (OD x) -> unborn w (OT x) -> y <> x -> is_matrix w y nr nc ->
  0 <= nr < 2 ^ 31 -> 0 <= nc < 2 ^ 31 -> fits w 2 ->
  exists w', dim_fn x (AV t (EVar y)) w = (Done tt, w') /\ made w w' x TInt [VI nr; VI nc] mp_none.
Proof.
  intros w x y t nr nc WO D1 D2 N M H1 H2 Ft. destruct M as [M _].
  apply dim_done; auto; cbn [vars eim edim]; try (now rewrite M). intros [E|[]]; congruence.
Qed.
Print Assumptions c37_dim_matrix.
(** dim of a matrix expression: the rows and columns of the expression. *)
Theorem c37_dim_expression : forall w x t e nr nc,
  world_shape w -> unborn w (OD x) -> unborn w (OT x) -> ~ In x (vars e) ->
  eim w e = true -> edim rows w e = Done nr -> edim cols w e = Done nc ->
  0 <= nr < 2 ^ 31 -> 0 <= nc < 2 ^ 31 -> fits w 2 ->
  exists w', dim_fn x (AV t e) w = (Done tt, w') /\ made w w' x TInt [VI nr; VI nc] mp_none.
Proof. intros. apply dim_done; auto. Qed.
Print Assumptions c37_dim_expression.
Theorem c37_dim_not_matrix : forall w x t y, ismat (mp (ob w (OD y))) = false ->
  exists m, dim_fn x (AV t (EVar y)) w = (Thrown (Ass m), w).
Proof. intros. now apply dim_bad. Qed.
Print Assumptions c37_dim_not_matrix.
Theorem c37_dim_scalar : forall w x v, exists m, dim_fn x (AS v) w = (Thrown (Ass m), w).
Proof. intros. eexists. reflexivity. Qed.
Print Assumptions c37_dim_scalar.
Example c37_ex : exists w1 w2 m, matrix_fn ex_lm 2 (AV TDouble (EVar 0)) (AS (VI 1)) (AS (VI 3)) ex_w = (Done tt, w1) /\
  dim_fn 3 (AV TDouble (EVar 2)) w1 = (Done tt, w2) /\ vholds w2 3 [VI 1; VI 3] /\
  length_fn w1 (AV TDouble (EVar 2)) = 3 /\ dim_fn 3 (AV TDouble (EVar 0)) ex_w = (Thrown (Ass m), ex_w).
Proof.
  eexists. eexists. eexists. split; [apply pair_eta; [vm_compute; reflexivity|reflexivity]|].
  split; [apply pair_eta; [vm_compute; reflexivity|reflexivity]|]. split; [show_holds|].
  split; [vm_compute; reflexivity|]. apply pair_eta; [vm_compute; reflexivity|reflexivity].
Qed.
