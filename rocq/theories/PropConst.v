(** Property C77: constants of derivative programs. *)
From Coq Require Import String ZArith List Bool Lia Reals Lra.
From Coq.Floats Require Import SpecFloat.
From Flocq Require Import Core.Core.
From Verif Require Import Base Num StoreModel VecModel SubsetModel AllocModel DerivModel ConstModel FloatBridge Spec SpecExpr
  SpecHist SpecProg SpecVec SpecSub SpecAlloc SpecDeriv SpecConst StoreProofs StoreOps VecProofs VecAssign VecEval StoreThms
  SubsetProofs SubsetThms AllocProofs AllocProofs2 AllocProofs3 AllocProofs4 DerivProofs DerivProofs2 DerivProofs3 ConstProofs
  Examples PropVec PropSubset PropAlloc.
Import ListNotations.
Open Scope Z_scope.
Local Notation length := List.length (only parsing).

(** The states in the examples: a new AllVars object. *)
Definition k_w : world := dw (dstart 1000).
Lemma k_shape : world_shape k_w.
Proof. apply (empty_world_ok 1000). lia. Qed.
Lemma k_array k : con_array k_w k.
Proof. split; try reflexivity. discriminate. Qed.

(* ------------------------------------------------------------------ C77 *)

(** In all theorems: [con_made w w' k l] says that afterwards constant k has
    exactly the elements l, whatever it held before, and that nothing else has
    changed; the last conclusion that the call did what derivative programs
    (C43..C46) take for the call of a constant with the elements l. *)

(** scalarDeriv<k>(av, v): one element, the value. *)
Theorem c77_scalar : forall w k v, world_shape w -> con_array w k -> int32 v -> fits w 1 ->
  exists w' u, scalar_con k v w = (Done tt, w') /\ con_made w w' k [u] /\ widened TDouble v (VD u) /\
    forall b, mk_con k [u] (mkDw w b) = (Done tt, mkDw w' b).
Proof.
  intros w k v W CA I32 Ft. destruct (put_con_done w k [v2f v] W CA) as [w' [E M]]; [congruence|exact Ft|].
  exists w', (v2f v). rewrite scalar_con_put. split; [exact E|]. split; [exact M|]. split.
  - apply (widened_cast TDouble v); [destruct v; simpl; lia|assumption|apply cast_double].
  - intros b. rewrite put_con_mk. now apply inw_done.
Qed.
Print Assumptions c77_scalar.
Example c77_scalar_ex : exists w', scalar_con 2 (VI 5) k_w = (Done tt, w') /\
  holds w' (OD (kslot 2)) [VD (i2f 5)].
Proof.
  destruct (c77_scalar k_w 2 (VI 5) k_shape (k_array 2)) as [w' [u [E [M [[F R] _]]]]]; [simpl; lia|vm_compute; congruence|].
  exists w'. split; [exact E|]. revert E. unfold scalar_con. intros E.
  destruct (put_con_done k_w 2 [v2f (VI 5)] k_shape (k_array 2)) as [w2 [E2 M2]]; [congruence|vm_compute; congruence|].
  rewrite <- scalar_con_put in E2. unfold scalar_con in E2. rewrite E in E2. injection E2 as <-. apply M2.
Qed.

Lemma coca_casts args ls : Forall2 typed args ls -> Forall int32 (concat ls) -> args <> [] ->
  exists us, Forall2 (fun v u => cast (coca_type args) v = Done u) (concat ls) us /\
    Forall2 (fun v u => widened TDouble v (VD u)) (concat ls) (map v2f us).
Proof.
  intros Ty I32 Na. destruct (coca_type_spec args Na) as [_ Hm].
  assert (Lv : forall v, In v (concat ls) -> (level (ty_of v) <= level (coca_type args))%nat).
  { assert (HT : forall a, In a args -> (level (arg_ty a) <= level (coca_type args))%nat).
    { intros a Ha. specialize (Hm a Ha). destruct (arg_ty a), (coca_type args); simpl in *; lia. }
    clear Hm Na. revert HT. generalize (coca_type args). intros T HT. clear - Ty HT.
    induction Ty as [|a l args ls T1 T2 IH]; intros v Hv; simpl in Hv; [easy|].
    apply in_app_or in Hv as [Hv|Hv].
    - rewrite (T1 v Hv). apply HT. now left.
    - apply IH; auto. intros b Hb. apply HT. now right. }
  revert Lv I32. generalize (coca_type args). intros T. clear. induction (concat ls) as [|v l IH]; intros Lv I32.
  - exists []. split; constructor.
  - inversion I32 as [|? ? I1 I2]; subst. destruct IH as [us [H1 H2]]; [intros u Hu; apply Lv; now right|exact I2|].
    destruct (cast_up T v) as [u Hu]; [apply Lv; now left|].
    exists (u :: us). split; constructor; auto.
    assert (v2f u = v2f v) as -> by (specialize (Lv v (or_introl eq_refl)); destruct T, v; simpl in *; try lia; injection Hu as <-; simpl; try reflexivity; destruct b; reflexivity).
    apply (widened_cast TDouble v); [destruct v; simpl; lia|assumption|apply cast_double].
Qed.

(** coca<k>(av, args...): the elements of all arguments in order. *)
Theorem c77_coca : forall lm w k args ls, world_shape w -> con_array w k ->
  (forall a, In a args -> ~ In (kslot k) (arg_vars a)) ->
  Forall2 (items lm w) args ls -> Forall2 typed args ls -> Forall int32 (concat ls) ->
  concat ls <> [] -> Z.of_nat (length (concat ls)) < 2 ^ 31 -> fits w (Z.of_nat (length (concat ls))) ->
  exists w' us, coca_con lm k args w = (Done tt, w') /\ con_made w w' k us /\
    Forall2 (fun v u => widened TDouble v (VD u)) (concat ls) us /\
    forall b, mk_con k us (mkDw w b) = (Done tt, mkDw w' b).
Proof.
  intros lm w k args ls W CA Nx It Ty I32 Ne Hb Ft.
  assert (Na : args <> []) by (intros ->; inversion It; subst; now apply Ne).
  destruct (coca_casts args ls Ty I32 Na) as [us [C Wd]]. pose proof (Forall2_len _ _ _ C) as Ln.
  assert (Nu : us <> []) by (intros ->; simpl in Ln; now destruct (concat ls)).
  destruct (put_con_done w k (map v2f us) W CA) as [w' [E M]].
  { now destruct us. } { rewrite map_length. now rewrite <- Ln. }
  exists w', (map v2f us). rewrite (coca_con_put lm w k args ls us); auto; [|lia|now rewrite <- Ln].
  split; [exact E|]. split; [exact M|]. split; [exact Wd|].
  intros b. rewrite put_con_mk. now apply inw_done.
Qed.
Print Assumptions c77_coca.
(** coca<1>(av, 7, TRUE) after constant 0 was made; constant 0 is an argument of
    the second call, which replaces the elements of constant 1. *)
Example c77_coca_ex : exists w1 w2 w3 us, scalar_con 0 (VI 4) k_w = (Done tt, w1) /\
  coca_con ex_lm 1 [AS (VI 7); AS (VB true)] w1 = (Done tt, w2) /\
  holds w2 (OD (kslot 1)) (map VD [i2f 7; i2f 1]) /\
  coca_con ex_lm 1 [AS (VB false); AV TDouble (EVar (kslot 0)); AV TDouble (EVar (kslot 0))] w2 = (Done tt, w3) /\
  con_made w2 w3 1 us /\ length us = 3%nat.
Proof.
  destruct (c77_scalar k_w 0 (VI 4) k_shape (k_array 0)) as [w1 [u [E1 [M1 [[F R] _]]]]]; [simpl; lia|vm_compute; congruence|].
  assert (A1 : con_array w1 1).
  { destruct (s1_other _ _ _ (cm_step _ _ _ _ M1) (OD (kslot 1))) as [O _]; [discriminate|].
    split; rewrite O; try reflexivity. discriminate. }
  assert (L1 : hlim (hp w1) = 1000) by (rewrite (s1_lim _ _ _ (cm_step _ _ _ _ M1)); reflexivity).
  pose proof (s1_shape _ _ _ (cm_step _ _ _ _ M1)) as W1.
  assert (E2 : coca_con ex_lm 1 [AS (VI 7); AS (VB true)] w1 = put_con 1 (map v2f [VI 7; VI 1]) w1).
  { apply (coca_con_put ex_lm w1 1 _ [[VI 7]; [VB true]] [VI 7; VI 1] W1 A1).
    - intros a [<-|[<-|[]]] [].
    - repeat constructor.
    - repeat constructor.
    - discriminate.
    - simpl; lia.
    - unfold fits. rewrite L1. simpl. lia. }
  destruct (put_con_done w1 1 (map v2f [VI 7; VI 1]) W1 A1) as [w2 [E3 M2]]; [discriminate|unfold fits; rewrite L1; simpl; lia|].
  rewrite E3 in E2.
  assert (H0 : holds w2 (OD (kslot 0)) [VD u]).
  { eapply holds_same; [|apply (cm_holds _ _ _ _ M1)]. apply (s1_other _ _ _ (cm_step _ _ _ _ M2)). discriminate. }
  pose proof (s1_shape _ _ _ (cm_step _ _ _ _ M2)) as W2.
  assert (Y : yields ex_lm w2 (EVar (kslot 0)) [VD u]) by (apply vholds_yields; [exact H0]).
  destruct (c77_coca ex_lm w2 1 [AS (VB false); AV TDouble (EVar (kslot 0)); AV TDouble (EVar (kslot 0))] [[VB false]; [VD u]; [VD u]] W2 (cm_array _ _ _ _ M2))
    as [w3 [us [E4 [M4 [Wd _]]]]].
  - intros a [<-|[<-|[<-|[]]]]; simpl; try tauto; intros [X|[]]; discriminate.
  - repeat (constructor; [first [reflexivity | exact Y]|]). constructor.
  - repeat (constructor; [intros v [<-|[]]; reflexivity|]). constructor.
  - repeat constructor.
  - discriminate.
  - simpl; lia.
  - unfold fits. rewrite (s1_lim _ _ _ (cm_step _ _ _ _ M2)), L1. simpl. lia.
  - exists w1, w2, w3, us. split; [exact E1|]. split; [exact E2|]. split; [apply M2|]. split; [exact E4|]. split; [exact M4|].
    now rewrite <- (Forall2_len _ _ _ Wd).
Qed.

(** colon<k>(av, a, b) for ints. *)
Theorem c77_colon_integers : forall lm w k start stop s e a b, world_shape w -> con_array w k ->
  first_is lm w start s -> first_is lm w stop e -> v2z s = Some a -> v2z e = Some b ->
  common (arg_ty start) (arg_ty stop) = TInt ->
  - 2 ^ 31 <= a < 2 ^ 31 -> - 2 ^ 31 <= b < 2 ^ 31 -> Z.abs (a - b) < 2 ^ 31 - 1 ->
  (a < b -> b < 2 ^ 31 - 1) -> (b <= a -> - 2 ^ 31 < b) -> fits w (Z.abs (a - b) + 1) ->
  exists w' us, colon_con lm k start stop w = (Done tt, w') /\ con_made w w' k us /\
    Z.of_nat (length us) = Z.abs (a - b) + 1 /\
    (forall i, (i < length us)%nat -> finite (nth i us fzero) /\
      fR (nth i us fzero) = IZR (if a <=? b then a + Z.of_nat i else a - Z.of_nat i)) /\
    forall b, mk_con k us (mkDw w b) = (Done tt, mkDw w' b).
Proof.
  intros lm w k start stop s e a b W CA Fs Fe Vs Ve C Ia Ib Hd Hu Hl Ft.
  rewrite (colon_con_of_int lm w k start stop s e a b) by auto.
  rewrite colon_con_int_put by auto.
  set (us := map (fun j => i2f (colon_nth a b j)) (seq 0 (Z.to_nat (Z.abs (a - b) + 1)))).
  assert (Lu : length us = Z.to_nat (Z.abs (a - b) + 1)) by (unfold us; now rewrite map_length, seq_length).
  destruct (put_con_done w k us W CA) as [w' [E M]].
  { intros X. rewrite X in Lu. simpl in Lu. lia. } { rewrite Lu, Z2Nat.id by lia. exact Ft. }
  exists w', us. split; [exact E|]. split; [exact M|]. split; [lia|]. split.
  - intros i Hi. unfold us. rewrite nth_map_seq by lia.
    destruct (i2f_exact (colon_nth a b i)) as [A B]; [unfold colon_nth; destruct (Z.leb_spec a b); lia|]. split; [exact B|exact A].
  - intros b0. rewrite put_con_mk. now apply inw_done.
Qed.
Print Assumptions c77_colon_integers.
Example c77_colon_ex : exists w' us, colon_con ex_lm 3 (AS (VI 5)) (AS (VI 2)) k_w = (Done tt, w') /\
  con_made k_w w' 3 us /\ map fR us = [5; 4; 3; 2]%R.
Proof.
  destruct (c77_colon_integers ex_lm k_w 3 (AS (VI 5)) (AS (VI 2)) (VI 5) (VI 2) 5 2 k_shape (k_array 3))
    as [w' [us [E [M [L [N _]]]]]]; try reflexivity; try lia; [vm_compute; congruence|].
  exists w', us. split; [exact E|]. split; [exact M|]. change (Z.abs (5 - 2) + 1) with 4 in L.
  destruct us as [|u0 [|u1 [|u2 [|u3 [|]]]]]; simpl in L; try lia.
  cbn [map]. pose proof (proj2 (N O ltac:(simpl; lia))) as A0. pose proof (proj2 (N 1%nat ltac:(simpl; lia))) as A1.
  pose proof (proj2 (N 2%nat ltac:(simpl; lia))) as A2. pose proof (proj2 (N 3%nat ltac:(simpl; lia))) as A3.
  cbn [nth] in *. rewrite A0, A1, A2, A3. reflexivity.
Qed.

(** Counting to the end of int is undefined, as in C29. *)
Theorem c77_colon_overflows : forall lm w k start stop s e a b, world_shape w -> con_array w k ->
  first_is lm w start s -> first_is lm w stop e -> v2z s = Some a -> v2z e = Some b ->
  common (arg_ty start) (arg_ty stop) = TInt ->
  - 2 ^ 31 <= a < 2 ^ 31 -> Z.abs (a - b) < 2 ^ 31 - 1 -> fits w (Z.abs (a - b) + 1) ->
  (a < b /\ b = 2 ^ 31 - 1) \/ (b <= a /\ b = - 2 ^ 31) ->
  exists w', colon_con lm k start stop w = (Undef UB_overflow, w').
Proof.
  intros lm w k start stop s e a b W CA Fs Fe Vs Ve C Ia Hd Ft Hc.
  rewrite (colon_con_of_int lm w k start stop s e a b) by auto.
  apply colon_con_int_overflow; auto. unfold is_int. lia.
Qed.
Print Assumptions c77_colon_overflows.
Example c77_overflow_ex : exists w', colon_con ex_lm 0 (AS (VI 2147483640)) (AS (VI 2147483647)) k_w = (Undef UB_overflow, w').
Proof.
  apply (c77_colon_overflows ex_lm k_w 0 _ _ (VI 2147483640) (VI 2147483647) 2147483640 2147483647 k_shape (k_array 0));
    try reflexivity; try lia. vm_compute; congruence.
Qed.

(** colon<k>(av, a, b) for doubles on a grid as in C30.  Missing to the full
    property: other ends. *)
Theorem c77_colon_doubles_partial : forall lm w k start stop s e a b g ma mb, world_shape w -> con_array w k ->
  first_is lm w start s -> first_is lm w stop e -> common (arg_ty start) (arg_ty stop) = TDouble ->
  v2f s = a -> v2f e = b -> valid a -> finite a -> valid b -> finite b ->
  0 <= g <= 1000 -> fR a = (IZR ma / bpow radix2 g)%R -> fR b = (IZR mb / bpow radix2 g)%R ->
  Z.abs ma + 2 ^ g <= 2 ^ 53 -> Z.abs mb + 2 ^ g <= 2 ^ 53 -> Z.abs (ma - mb) + 2 ^ g <= 2 ^ 53 ->
  Ztrunc (Rabs (fR a - fR b)) + 1 < 2 ^ 31 -> fits w (Ztrunc (Rabs (fR a - fR b)) + 1) ->
  exists w' us, colon_con lm k start stop w = (Done tt, w') /\ con_made w w' k us /\
    Z.of_nat (length us) = Ztrunc (Rabs (fR a - fR b)) + 1 /\
    (forall i, (i < length us)%nat -> valid (nth i us fzero) /\ finite (nth i us fzero) /\
      fR (nth i us fzero) = (if Rle_dec (fR a) (fR b) then fR a + INR i else fR a - INR i)%R) /\
    forall b, mk_con k us (mkDw w b) = (Done tt, mkDw w' b).
Proof.
  intros lm w k start stop s e a b g ma mb W CA Fs Fe C <- <- Va Fa Vb Fb Hk Ra Rb B1 B2 B3 Hn Ft.
  rewrite (colon_con_of_dbl lm w k start stop s e) by auto.
  assert (Ga : gridf g (v2f s) ma) by (split; [|split]; auto; rewrite Ra; unfold grid, Rdiv; now rewrite bpow_opp).
  assert (Gb : gridf g (v2f e) mb) by (split; [|split]; auto; rewrite Rb; unfold grid, Rdiv; now rewrite bpow_opp).
  assert (T : Ztrunc (Rabs (fR (v2f s) - fR (v2f e))) = Z.abs (ma - mb) / 2 ^ g).
  { destruct Ga as [_ [_ ->]]. destruct Gb as [_ [_ ->]]. rewrite grid_minus.
    rewrite <- (grid_trunc g (Z.abs (ma - mb))) by lia. f_equal. unfold grid.
    rewrite Rabs_mult, <- abs_IZR, (Rabs_pos_eq (bpow _ _)) by apply bpow_ge_0. reflexivity. }
  rewrite T in *.
  destruct (grid_steps (v2f s) (v2f e) g ma mb Hk Ga Gb B1 B2 B3 Hn) as [N1 [Cv [Go1 [Go2 Vs]]]].
  set (n := Z.abs (ma - mb) / 2 ^ g + 1) in *.
  rewrite (colon_con_dbl_put w k _ _ n Cv N1 Go1 Go2).
  set (us := map (fsteps (flt_ltb (v2f s) (v2f e)) (v2f s)) (seq 0 (Z.to_nat n))).
  assert (Lu : length us = Z.to_nat n) by (unfold us; now rewrite map_length, seq_length).
  destruct (put_con_done w k us W CA) as [w' [E M]].
  { intros X. rewrite X in Lu. simpl in Lu. lia. } { rewrite Lu, Z2Nat.id by lia. exact Ft. }
  exists w', us. split; [exact E|]. split; [exact M|]. split; [lia|]. split.
  - intros i Hi. unfold us. rewrite nth_map_seq by lia. apply Vs. lia.
  - intros b0. rewrite put_con_mk. now apply inw_done.
Qed.
Print Assumptions c77_colon_doubles_partial.
Example c77_colon_doubles_ex : exists w' us, colon_con ex_lm 0 (AS (VD f25)) (AS (VI 0)) k_w = (Done tt, w') /\
  con_made k_w w' 0 us /\ length us = 3%nat.
Proof.
  assert (R1 : fR f25 = (IZR 5 / bpow radix2 1)%R) by (unfold f25; simpl; unfold F2R; simpl; lra).
  assert (R2 : fR (v2f (VI 0)) = (IZR 0 / bpow radix2 1)%R) by (simpl; lra).
  assert (T : Ztrunc (Rabs (fR f25 - fR (v2f (VI 0)))) = 2).
  { rewrite R1, R2. replace (IZR 5 / bpow radix2 1 - IZR 0 / bpow radix2 1)%R with (5/2)%R by (simpl; lra).
    rewrite Rabs_pos_eq by lra. rewrite Ztrunc_floor by lra. apply Zfloor_imp. simpl. lra. }
  destruct (c77_colon_doubles_partial ex_lm k_w 0 (AS (VD f25)) (AS (VI 0)) (VD f25) (VI 0) f25 (v2f (VI 0)) 1 5 0)
    as [w' [us [E [M [L N]]]]];
    [exact k_shape|exact (k_array 0)|reflexivity|reflexivity|reflexivity|reflexivity|reflexivity|reflexivity
    |exact I|reflexivity|exact I|lia|exact R1|exact R2|lia|lia|lia|rewrite T; lia|rewrite T; vm_compute; congruence|].
  exists w', us. split; [exact E|]. split; [exact M|]. rewrite T in L. lia.
Qed.

(** vector_numeric<k>(av, n), vector_integer, vector_logical: constant k has n
    elements afterwards; they are zero only if the memory of constant k was too
    small before, otherwise the elements it had stay.
    Missing to the full property (n zeros): see the refutations. *)
Theorem c77_vector_partial : forall lm w k a v n, world_shape w -> con_array w k ->
  items lm w a [v] -> size_is v n -> 1 <= n -> fits w n ->
  exists w', vector_con lm k a w = (Done tt, w') /\
    step1 w w' (OD (kslot k)) /\ con_array w' k /\ sz (ob w' (OD (kslot k))) = n /\
    (cap (ob w (OD (kslot k))) < n -> con_made w w' k (repeat fzero (Z.to_nat n))) /\
    forall l, n <= cap (ob w (OD (kslot k))) -> holds w (OD (kslot k)) (map VD l) -> (Z.to_nat n <= length l)%nat ->
      con_made w w' k (firstn (Z.to_nat n) l).
Proof.
  intros lm w k a v n W CA It Sz Hn Ft.
  destruct (vector_con_done lm w k a v n W CA It) as [w' [E [S1 [A1 [Z1 [C1 [N1 O1]]]]]]]; auto.
  { now apply convert_size_ok. }
  exists w'. split; [exact E|]. split; [exact S1|]. split; [exact A1|]. split; [exact Z1|]. split.
  - intros L. split; auto.
  - intros l L H Ll. specialize (O1 L). split; auto. apply holds_cells; [apply S1|]. apply holds_cells in H; [|exact W].
    destruct H as [_ H]. rewrite map_length in *.
    assert (Lf : length (firstn (Z.to_nat n) l) = Z.to_nat n) by (rewrite firstn_length; lia).
    rewrite Lf. split; [lia|]. intros i Hi. rewrite O1, (H i) by lia. f_equal. rewrite !nth_vd by lia. f_equal.
    rewrite <- (firstn_skipn (Z.to_nat n) l) at 1. rewrite app_nth1 by lia. reflexivity.
Qed.
Print Assumptions c77_vector_partial.
Example c77_vector_ex : exists w', vector_con ex_lm 0 (AS (VI 3)) k_w = (Done tt, w') /\ con_made k_w w' 0 (repeat fzero 3).
Proof.
  destruct (c77_vector_partial ex_lm k_w 0 (AS (VI 3)) (VI 3) 3 k_shape (k_array 0)) as [w' [E [_ [_ [_ [N _]]]]]];
    try reflexivity; [lia|vm_compute; congruence|].
  exists w'. split; [exact E|]. apply N. reflexivity.
Qed.

(** Two calls, with 10 and 11: the last element was never written. *)
Theorem c77_vector_unwritten_refuted : forall lm,
  let w1 := snd (vector_con lm 0 (AS (VI 10)) k_w) in let w2 := snd (vector_con lm 0 (AS (VI 11)) w1) in
  fst (vector_con lm 0 (AS (VI 10)) k_w) = Done tt /\ fst (vector_con lm 0 (AS (VI 11)) w1) = Done tt /\
  sz (ob w2 (OD (kslot 0))) = 11 /\ fst (elem lm (EVar (kslot 0)) 10 w2) = Undef UB_uninit.
Proof. intros lm. vm_compute. repeat split. Qed.
Print Assumptions c77_vector_unwritten_refuted.

(** vector_numeric<0>(av, 2) in a place where constant 0 was 7, 8 gives 7, 8. *)
Theorem c77_vector_stale_refuted : forall lm, exists w1 w2,
  coca_con lm 0 [AS (VI 7); AS (VI 8)] k_w = (Done tt, w1) /\
  vector_con lm 0 (AS (VI 2)) w1 = (Done tt, w2) /\ con_made w1 w2 0 [i2f 7; i2f 8].
Proof.
  intros lm.
  assert (E1 : coca_con lm 0 [AS (VI 7); AS (VI 8)] k_w = put_con 0 (map v2f [VI 7; VI 8]) k_w).
  { apply (coca_con_put lm k_w 0 _ [[VI 7]; [VI 8]] [VI 7; VI 8] k_shape (k_array 0)).
    - intros a [<-|[<-|[]]] [].
    - repeat constructor.
    - repeat constructor.
    - discriminate.
    - simpl; lia.
    - vm_compute; congruence. }
  destruct (put_con_done k_w 0 (map v2f [VI 7; VI 8]) k_shape (k_array 0)) as [w1 [E2 M1]]; [discriminate|vm_compute; congruence|].
  rewrite E2 in E1.
  destruct (c77_vector_partial lm w1 0 (AS (VI 2)) (VI 2) 2 (s1_shape _ _ _ (cm_step _ _ _ _ M1)) (cm_array _ _ _ _ M1))
    as [w2 [E3 [_ [_ [_ [_ N]]]]]]; try reflexivity; [lia|unfold fits; rewrite (s1_lim _ _ _ (cm_step _ _ _ _ M1)); vm_compute; congruence|].
  exists w1, w2. split; [exact E1|]. split; [exact E3|].
  apply (N [i2f 7; i2f 8]); [|apply M1|simpl; lia].
  assert (w1 = snd (put_con 0 (map v2f [VI 7; VI 8]) k_w)) as -> by now rewrite E2. vm_compute. congruence.
Qed.
Print Assumptions c77_vector_stale_refuted.
