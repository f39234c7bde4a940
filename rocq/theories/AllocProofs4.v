(** Proofs about coca. *)
From Coq Require Import String ZArith List Bool Lia Reals Lra.
From Flocq Require Import Core BinarySingleNaN.
From Verif Require Import Base Num StoreModel VecModel SubsetModel AllocModel FloatBridge Spec SpecExpr SpecHist SpecProg
  SpecSub SpecAlloc CapProofs StoreProofs StoreOps VecProofs VecAssign VecEval SubsetProofs StoreThms SubsetThms
  AllocProofs AllocProofs2 AllocProofs3.
Import ListNotations.
Open Scope Z_scope.
Local Notation length := List.length (only parsing).

Lemma Forall2_app_split {A B} (P : A -> B -> Prop) l1 : forall l2 us, Forall2 P (l1 ++ l2) us ->
  exists u1 u2, us = u1 ++ u2 /\ Forall2 P l1 u1 /\ Forall2 P l2 u2.
Proof.
  induction l1 as [|a l1 IH]; intros l2 us H; simpl in H.
  - exists [], us. auto.
  - inversion H as [|? u ? us' P1 P2]; subst. destruct (IH _ _ P2) as [u1 [u2 [-> [F1 F2]]]].
    exists (u :: u1), u2. auto.
Qed.

Lemma bind_ext {A B} (m1 m2 : M world A) (f : A -> M world B) w : m1 w = m2 w -> bind m1 f w = bind m2 f w.
Proof. unfold bind. now intros ->. Qed.

Lemma coca_fill_forN lm w w1 x t n m ty : fresh_vec w w1 x ty n m ->
  forall args ls us idx w2, within w1 x w2 ->
  (forall a, In a args -> ~ In x (arg_vars a)) ->
  Forall2 (items lm w) args ls -> Forall2 (fun v u => cast t v = Done u) (concat ls) us ->
  0 <= idx -> idx + Z.of_nat (length us) < 2 ^ 64 ->
  coca_fill lm x t args idx w2 =
  forN (length us) idx (fun k => set_at (OD x) k (nth (Z.to_nat (k - idx)) us (VB false))) w2.
Proof.
  intros F. induction args as [|a args IH]; intros ls us idx w2 Wi Nx It C H0 Hb.
  - inversion It; subst. inversion C; subst. reflexivity.
  - inversion It as [|? l ? ls' I1 I2]; subst. cbn [concat] in C.
    destruct a as [v|ta e]; cbn [coca_fill].
    + simpl in I1. subst l. simpl in C. inversion C as [|? u ? us' C1 C2]; subst.
      rewrite C1, bind_lift_done. cbn [length forN] in *. rewrite Z.sub_diag. cbn [Z.to_nat nth].
      pose proof (set_at_within w1 x w2 idx u Wi) as Wi2. unfold bind.
      destruct (set_at (OD x) idx u w2) as [[[]|ex|ub] w3]; auto. simpl in Wi2.
      rewrite wrap64_small by lia.
      rewrite (IH ls' us' (idx + 1) w3); auto; [|intros b Hb2; apply Nx; now right|lia|lia].
      apply forN_ext_inv with (I := fun _ => True); auto.
      intros k wk Hk _. f_equal. replace (Z.to_nat (k - idx)) with (S (Z.to_nat (k - (idx + 1)))) by lia. reflexivity.
    + destruct (Forall2_app_split _ _ _ _ C) as [u1 [u2 [-> [C1 C2]]]].
      pose proof (Forall2_len _ _ _ C1) as L1. destruct I1 as [ES EL].
      assert (Vs : vstep w w2 x) by (eapply within_step; eauto).
      assert (Nx1 : ~ In x (vars e)) by (apply (Nx (AV ta e)); now left).
      rewrite bind_get, (esize_vstep w w2 x e Vs Nx1), ES, L1. rewrite app_length in *.
      rewrite forN_app.
      assert (E1 : for_ (Z.of_nat (length u1)) (fun i => v <- elem lm e i ;; v' <- lift (cast t v) ;;
                      set_at (OD x) (wrap64 (idx + i)) v') w2 =
                   forN (length u1) idx (fun k => set_at (OD x) k (nth (Z.to_nat (k - idx)) (u1 ++ u2) (VB false))) w2).
      { unfold for_. rewrite Nat2Z.id.
        pose proof (forN_shift (length u1) idx 0 (fun k => set_at (OD x) k (nth (Z.to_nat (k - idx)) (u1 ++ u2) (VB false))) w2) as Sh.
        change (0 + idx) with idx in Sh. rewrite <- Sh.
        apply forN_ext_inv with (I := within w1 x); auto.
        - intros k wk Hk Wk.
          assert (Vk : vstep w wk x) by (eapply within_step; eauto).
          assert (Hk2 : (Z.to_nat k < length l)%nat) by lia.
          specialize (EL (Z.to_nat k) Hk2). rewrite Z2Nat.id in EL by lia.
          rewrite (bind_done _ _ _ _ _ (elem_vstep lm w wk x e k _ Vk Nx1 EL)).
          rewrite (Forall2_nth _ _ _ (VB false) (VB false) (Z.to_nat k) C1 Hk2), bind_lift_done.
          rewrite wrap64_small by lia. replace (k + idx - idx) with k by lia.
          rewrite app_nth1 by lia. f_equal. lia.
        - intros k wk Hk Wk. now apply set_at_within. }
      rewrite (bind_ext _ _ _ _ E1). unfold bind.
      pose proof (forN_within w1 x (fun k => nth (Z.to_nat (k - idx)) (u1 ++ u2) (VB false)) (length u1) idx w2 Wi) as Wi3.
      destruct (forN (length u1) idx _ w2) as [[[]|ex|ub] w3]; auto. simpl in Wi3.
      rewrite wrap64_small by lia.
      rewrite (IH ls' u2 (idx + Z.of_nat (length u1)) w3); auto; [|intros b Hb2; apply Nx; now right|lia|lia].
      apply forN_ext_inv with (I := fun _ => True); auto.
      intros k wk Hk _. f_equal. rewrite app_nth2 by lia. f_equal. lia.
Qed.

Lemma coca_size_done lm w args : forall ls size, Forall2 (items lm w) args ls -> 0 <= size ->
  size + Z.of_nat (length (concat ls)) < 2 ^ 31 ->
  coca_size w args size = Done (size + Z.of_nat (length (concat ls))).
Proof.
  induction args as [|a args IH]; intros ls size It H0 Hb; inversion It as [|? l ? ls' I1 I2]; subst; cbn [coca_size concat].
  - simpl. f_equal. lia.
  - cbn [concat] in Hb. rewrite app_length in *. destruct a as [v|t e].
    + simpl in I1. subst l. cbn [length] in *. rewrite int_res_ok by (unfold is_int; lia). simpl.
      rewrite (IH ls'); auto; [f_equal; lia|lia|lia].
    + destruct I1 as [ES _]. rewrite ES. rewrite wrap64_small by lia. rewrite to_int_small by lia.
      rewrite (IH ls'); auto; [f_equal; lia|lia|lia].
Qed.

Lemma coca_done lm w x args ls us : world_shape w -> unborn w (OD x) -> unborn w (OT x) ->
  (forall a, In a args -> ~ In x (arg_vars a)) -> Forall2 (items lm w) args ls ->
  Forall2 (fun v u => cast (coca_type args) v = Done u) (concat ls) us ->
  us <> [] -> Z.of_nat (length us) < 2 ^ 31 -> fits w (Z.of_nat (length us)) ->
  exists w', coca_fn lm x args w = (Done tt, w') /\ made w w' x (coca_type args) us mp_none.
Proof.
  intros WO D1 D2 Nx It C Ne Hb Ft. pose proof (Forall2_len _ _ _ C) as Ln.
  assert (L0 : (0 < length us)%nat) by (destruct us; [congruence|simpl; lia]).
  unfold coca_fn. rewrite bind_get, (coca_size_done lm w args ls 0 It) by lia.
  rewrite bind_lift_done, Ln. rewrite wrap64_small by lia. change (0 + Z.of_nat (length us)) with (Z.of_nat (length us)).
  destruct (vec_sized_fresh w x (coca_type args) (Z.of_nat (length us)) WO D1 D2) as [w1 [E1 F1]]; auto; [lia|].
  rewrite (bind_done _ _ _ _ _ E1).
  destruct (fresh_writes w w1 x _ _ us F1 Ne) as [w2 [E2 M2]].
  exists w2. split; auto. apply built_done.
  rewrite (coca_fill_forN lm w w1 x (coca_type args) _ _ _ F1 args ls us 0 w1); auto; [|eapply within_refl; eauto|lia|lia].
  rewrite <- E2. apply forN_ext_inv with (I := fun _ => True); auto.
  intros k wk Hk _. do 3 f_equal. lia.
Qed.

(* --------------------------------------------------------------- conversion *)

Definition rank (t : ety) : nat := match t with TBool => 0 | TInt => 1 | TDouble => 2 end.

Lemma rank_inj a b : rank a = rank b -> a = b.
Proof. destruct a, b; simpl; congruence. Qed.

Lemma rank_common a b : rank (common a b) = Nat.max (rank a) (rank b).
Proof. destruct a, b; reflexivity. Qed.

Lemma coca_type_spec args : args <> [] ->
  (exists a, In a args /\ arg_ty a = coca_type args) /\
  forall a, In a args -> (rank (arg_ty a) <= rank (coca_type args))%nat.
Proof.
  induction args as [|a args IH]; [congruence|]. intros _.
  destruct args as [|b args].
  - simpl. split; [exists a; auto|]. intros c [<-|[]]. lia.
  - destruct IH as [[c [Hc Ec]] Hm]; [congruence|].
    change (coca_type (a :: b :: args)) with (common (arg_ty a) (coca_type (b :: args))).
    set (T := coca_type (b :: args)) in *. split.
    + destruct (le_lt_dec (rank T) (rank (arg_ty a))).
      * exists a. split; [now left|]. apply rank_inj. rewrite rank_common. lia.
      * exists c. split; [now right|]. apply rank_inj. rewrite rank_common, Ec. lia.
    + intros d [<-|Hd]; rewrite rank_common; [lia|]. specialize (Hm d Hd). lia.
Qed.
