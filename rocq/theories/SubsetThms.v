(** Reading and writing through subsets, at(). *)
From Coq Require Import String ZArith List Bool Lia Reals.
From Flocq Require Import Core.Core.
From Verif Require Import Base Num StoreModel VecModel SubsetModel FloatBridge Spec SpecExpr SpecHist SpecProg SpecVec SpecSub
  StoreProofs StoreOps VecProofs VecAssign VecEval StoreThms SubsetProofs.
Import ListNotations.
Open Scope Z_scope.
Local Notation length := List.length (only parsing).

Lemma vholds_yields lm w x l : vholds w x l -> yields lm w (EVar x) l.
Proof. intros [A B]. split; [exact A|]. intros i Hi. cbn [elem]. now apply B. Qed.

Lemma yields_tmp lm w t l m : yields lm w (ETmp t l m) l.
Proof.
  split; [reflexivity|]. intros i Hi. cbn [elem].
  replace (Z.of_nat i <? Z.of_nat (length l)) with true by (symmetry; apply Z.ltb_lt; lia).
  now rewrite Nat2Z.id.
Qed.

Lemma nth_map_in {A B} (f : A -> B) l i a b : (i < length l)%nat -> nth i (map f l) b = f (nth i l a).
Proof. intros H. rewrite nth_indep with (d' := f a) by (now rewrite map_length). apply map_nth. Qed.

(** Element i of a subset: position i modulo the length of the base. *)
Lemma elem_sub_at lm w e l ind m i : yields lm w e l -> l <> [] -> (i mod length l < length ind)%nat ->
  elem lm (ESub e ind m) (Z.of_nat i) w = (v <- elem lm e (nth (i mod length l) ind 0) ;; ret (read e v)) w.
Proof.
  intros [S _] N H. cbn [elem].
  assert (0 < length l)%nat by (destruct l; simpl; [easy|lia]).
  rewrite bind_get, S, modz_pos, bind_lift_done by lia. rewrite <- Nat2Z.inj_mod.
  unfold ind_at. replace (Z.of_nat (i mod length l) <? Z.of_nat (length ind)) with true by (symmetry; apply Z.ltb_lt; lia).
  rewrite bind_lift_done, Nat2Z.id. unfold as_ret. now rewrite stored_own.
Qed.
Lemma read_done lm e f i w v : elem lm f i w = (Done v, w) -> (v <- elem lm f i ;; ret (read e v)) w = (Done (read e v), w).
Proof. unfold bind. now intros ->. Qed.

Lemma yields_sub lm w e l ind m : yields lm w e l -> (forall p, In p ind -> 0 <= p < Z.of_nat (length l)) ->
  (length ind <= length l)%nat ->
  yields lm w (ESub e ind m) (map (fun p => read e (nth (Z.to_nat p) l (VB false))) ind).
Proof.
  intros Y R L. split; [now rewrite map_length|]. rewrite map_length. intros i Hi.
  assert (N : l <> []) by (intros ->; simpl in L; lia).
  rewrite (elem_sub_at lm w e l) by (auto; rewrite Nat.mod_small by lia; auto).
  rewrite Nat.mod_small by lia.
  assert (B : 0 <= nth i ind 0 < Z.of_nat (length l)) by (apply R, nth_In; auto).
  rewrite <- (Z2Nat.id (nth i ind 0)) by lia. rewrite (read_done lm e e _ w _ (proj2 Y (Z.to_nat (nth i ind 0)) ltac:(lia))).
  f_equal. f_equal. rewrite nth_map_in with (a := 0) by auto. reflexivity.
Qed.

(** More positions than elements: the subset starts again. *)
Lemma sub_wraps lm w e l ind m i : yields lm w e l -> l <> [] ->
  (forall p, In p ind -> 0 <= p < Z.of_nat (length l)) ->
  (length l <= length ind)%nat ->
  elem lm (ESub e ind m) (Z.of_nat i) w =
    (Done (read e (nth (Z.to_nat (nth (i mod length l) ind 0)) l (VB false))), w).
Proof.
  intros Y N R L.
  assert (0 < length l)%nat by (destruct l; simpl; [easy|lia]).
  pose proof (Nat.mod_upper_bound i (length l) ltac:(lia)) as M.
  rewrite (elem_sub_at lm w e l) by (auto; lia).
  assert (B : 0 <= nth (i mod length l) ind 0 < Z.of_nat (length l)) by (apply R, nth_In; lia).
  rewrite <- (Z2Nat.id (nth (i mod length l) ind 0)) at 1 by lia. exact (read_done lm e e _ w _ (proj2 Y (Z.to_nat (nth (i mod length l) ind 0)) ltac:(lia))).
Qed.

(** A position beyond the end of a vector. *)
Lemma sub_out lm w x l ind m i : world_shape w -> vholds w x l -> l <> [] -> (i < length ind)%nat ->
  (i < length l)%nat -> Z.of_nat (length l) <= nth i ind 0 ->
  elem lm (ESub (EVar x) ind m) (Z.of_nat i) w = (Thrown msg_oob, w).
Proof.
  intros W H N L1 L2 B. pose proof (vholds_yields lm w x l H) as Y.
  rewrite (elem_sub_at lm w (EVar x) l) by (auto; rewrite Nat.mod_small by lia; auto).
  rewrite Nat.mod_small by lia. cbn [elem]. unfold bind.
  rewrite at_rd_pick with (l := l) by (auto; lia). now rewrite pick_val_out by lia.
Qed.

(* --------------------------------------------------------------- scatter *)

Lemma list_set_nth' {A} (l : list A) i (v d : A) j : (i < length l)%nat ->
  nth j (list_set l i v) d = if Nat.eqb j i then v else nth j l d.
Proof.
  intros H. rewrite list_set_nth. destruct (Nat.eqb j i); auto.
  replace (Nat.ltb i (length l)) with true by (symmetry; apply Nat.ltb_lt; lia). reflexivity.
Qed.

Lemma scatter_overwritten ind : forall l us, length us = length ind ->
  (forall j, In j ind -> 0 <= j < Z.of_nat (length l)) ->
  exists l', scatter l ind us = (Done tt, l') /\ overwritten l ind us l'.
Proof.
  induction ind as [|j ind IH]; intros l us L R; destruct us as [|u us]; try discriminate; cbn [scatter].
  - exists l. split; [reflexivity|]. split; [reflexivity|]. split; [auto|]. simpl. lia.
  - pose proof (R j (or_introl eq_refl)) as Hj.
    replace (j <? Z.of_nat (length l)) with true by (symmetry; apply Z.ltb_lt; lia).
    destruct (IH (list_set l (Z.to_nat j) u) us) as [l' [E [O1 [O2 O3]]]].
    { simpl in L. lia. }
    { intros k Hk. rewrite list_set_length. apply R. now right. }
    rewrite list_set_length in *.
    exists l'. split; [exact E|]. split; [exact O1|]. split.
    + intros p Hp Np. rewrite O2 by (auto; intros X; apply Np; now right).
      rewrite list_set_nth' by lia. destruct (Nat.eqb_spec p (Z.to_nat j)) as [->|]; auto.
      exfalso. apply Np. left. lia.
    + intros k Hk Last. destruct k as [|k].
      * cbn [nth]. rewrite O2; [|lia|].
        -- rewrite list_set_nth' by lia. now rewrite Nat.eqb_refl.
        -- rewrite Z2Nat.id by lia. intros X. apply (In_nth _ _ 0) in X. destruct X as [k' [K1 K2]].
           apply (Last (S k')); [simpl; lia|]. cbn [nth]. auto.
      * cbn [nth]. apply O3; [simpl in Hk; lia|]. intros k' Hk'.
        specialize (Last (S k') ltac:(simpl in *; lia)). exact Last.
Qed.

Lemma scatter_bad ind : forall l us, length us = length ind ->
  (exists j, In j ind /\ Z.of_nat (length l) <= j) ->
  fst (scatter l ind us) = Thrown msg_oob /\ length (snd (scatter l ind us)) = length l.
Proof.
  induction ind as [|j ind IH]; intros l us L [b [B1 B2]]; [easy|]. destruct us as [|u us]; [discriminate|].
  cbn [scatter]. destruct (Z.ltb_spec j (Z.of_nat (length l))) as [H|H]; [|auto].
  destruct (IH (list_set l (Z.to_nat j) u) us) as [E1 E2].
  - simpl in L. lia.
  - exists b. destruct B1 as [->|B1]; [lia|]. rewrite list_set_length. auto.
  - rewrite list_set_length in E2. auto.
Qed.

Lemma value_of_done lm rho t e us : value_of lm rho t e us -> value lm rho t e = Done us.
Proof.
  intros [S H]. unfold value. apply omap_list with (d := 0) (d' := VB false).
  - rewrite zseq_length. lia.
  - rewrite zseq_length. intros i Hi. rewrite nth_zseq by auto. rewrite Z.add_0_l.
    destruct (H i) as [v [E1 E2]]; [lia|]. rewrite E1. cbn [obind]. exact E2.
Qed.

(** Assignment to a subset. *)
Lemma subset_assigned lm ty lim V w rho s x ind same e us :
  repr w lim ty V rho -> In x V -> ~ In s V -> incl (vars e) V -> wf_expr rho e -> 2 * xsize rho e <= lim ->
  value_of lm rho (ty x) e us -> length us = length ind -> ind <> [] ->
  (length ind <= length (rho x))%nat -> (forall j, In j ind -> 0 <= j < Z.of_nat (length (rho x))) ->
  exists w' l', assign_subset lm s x ind same e w = (Done tt, w') /\
    overwritten (rho x) ind us l' /\ repr w' lim ty V (setl rho x l') /\ (no_leak w -> no_leak w').
Proof.
  intros R Vx Vs Ve WF Ft VO Lu Ne Len Pos.
  assert (C : cmd_wf lim V rho (CSub s x ind same e)).
  { cbn [cmd_wf]. repeat (split; auto); try lia. intros j Hj. apply Pos in Hj. lia. }
  destruct (agrees_sub lm ty lim V s x ind same e w rho R C) as [w' [E1 E2]].
  destruct (scatter_overwritten ind (rho x) us) as [l' [S1 S2]]; auto.
  assert (SP : spec_cmd lm ty (CSub s x ind same e) rho = (Done tt, setl rho x l')).
  { cbn [spec_cmd]. pose proof (proj1 VO) as XS. rewrite <- XS, Lu, Z.eqb_refl. cbn [negb].
    replace (Z.of_nat (length ind) =? 0) with false.
    - rewrite (value_of_done _ _ _ _ _ VO), S1. reflexivity.
    - symmetry. apply Z.eqb_neq. destruct ind; simpl; [easy|lia]. }
  rewrite SP in *. cbn [fst snd] in *. exists w', l'. cbn [run_cmd] in E1.
  split; [exact E1|]. split; [exact S2|]. apply E2. discriminate.
Qed.

Lemma repr_same w lim ty V rho rho' : (forall x, rho x = rho' x) -> repr w lim ty V rho -> repr w lim ty V rho'.
Proof. intros E [A1 A2 A3 A4 A5 A6 A7 A8]. split; auto. intros x Hx. rewrite <- E. auto. Qed.

Lemma subset_mismatch lm ty lim V w rho s x ind same e :
  repr w lim ty V rho -> In x V -> ~ In s V -> incl (vars e) V -> wf_expr rho e -> 2 * xsize rho e <= lim ->
  xsize rho e <> Z.of_nat (length ind) ->
  (length ind <= length (rho x))%nat -> (forall j, In j ind -> 0 <= j) ->
  exists w', assign_subset lm s x ind same e w = (Thrown msg_len, w') /\
    repr w' lim ty V rho /\ (no_leak w -> no_leak w').
Proof.
  intros R Vx Vs Ve WF Ft Ne Len Pos.
  assert (C : cmd_wf lim V rho (CSub s x ind same e)).
  { cbn [cmd_wf]. repeat (split; auto); lia. }
  destruct (agrees_sub lm ty lim V s x ind same e w rho R C) as [w' [E1 E2]].
  cbn [spec_cmd run_cmd] in *. apply Z.eqb_neq in Ne. rewrite Ne in *. cbn [negb fst snd] in *.
  exists w'. split; [exact E1|]. apply E2. discriminate.
Qed.

(** Writing with a position beyond the end. *)
Lemma subset_bad_write lm ty lim V w rho s x ind same e us :
  repr w lim ty V rho -> In x V -> ~ In s V -> incl (vars e) V -> wf_expr rho e -> 2 * xsize rho e <= lim ->
  value_of lm rho (ty x) e us -> length us = length ind ->
  (length ind <= length (rho x))%nat -> (forall j, In j ind -> 0 <= j) ->
  (exists j, In j ind /\ Z.of_nat (length (rho x)) <= j) ->
  exists w' l', assign_subset lm s x ind same e w = (Thrown msg_oob, w') /\
    repr w' lim ty V (setl rho x l') /\ length l' = length (rho x) /\ (length ind = 1%nat -> l' = rho x).
Proof.
  intros R Vx Vs Ve WF Ft VO Lu Len Pos Bad.
  assert (C : cmd_wf lim V rho (CSub s x ind same e)).
  { cbn [cmd_wf]. repeat (split; auto); lia. }
  destruct (agrees_sub lm ty lim V s x ind same e w rho R C) as [w' [E1 E2]].
  destruct (scatter_bad ind (rho x) us Lu Bad) as [S1 S2].
  destruct (scatter (rho x) ind us) as [o l'] eqn:SC. cbn [fst snd] in *. subst o.
  assert (SP : spec_cmd lm ty (CSub s x ind same e) rho = (Thrown msg_oob, setl rho x l')).
  { cbn [spec_cmd]. pose proof (proj1 VO) as XS. rewrite <- XS, Lu, Z.eqb_refl. cbn [negb].
    replace (Z.of_nat (length ind) =? 0) with false.
    - rewrite (value_of_done _ _ _ _ _ VO), SC. reflexivity.
    - symmetry. apply Z.eqb_neq. destruct Bad as [j [J _]]. destruct ind; simpl in *; [easy|lia]. }
  rewrite SP in *. cbn [fst snd run_cmd] in *. exists w', l'.
  split; [exact E1|]. split; [apply E2; discriminate|]. split; [exact S2|].
  intros L1. destruct ind as [|j [|]]; try discriminate. destruct us as [|u [|]]; try discriminate.
  cbn [scatter] in SC. destruct Bad as [b [[->|[]] B]].
  replace (b <? Z.of_nat (length (rho x))) with false in SC by (symmetry; apply Z.ltb_ge; lia). congruence.
Qed.

(* -------------------------------------------------------------------- at *)

Lemma at_rd_in w o a i : ptr (ob w o) = Some a -> alloc (ob w o) = true -> i < sz (ob w o) ->
  at_rd o i w = rd (Some a) i w.
Proof.
  intros P A L. apply Z.ltb_lt in L. unfold at_rd, sexp_get_at, get_at. rewrite bind_st.
  destruct (kd (ob w o)); rewrite bind_st; rewrite ?A, ?P, bind_ass_true, L, bind_ass_true; reflexivity.
Qed.

Lemma pos_less1_ok i z : pos_is i z -> - 2 ^ 31 < z < 2 ^ 31 -> pos_less1 i = Done (z - 1).
Proof.
  intros P H. destruct i; cbn [pos_is pos_less1] in *.
  - subst. apply int_res_ok. lia.
  - rewrite (int_part_f2int f z) by (auto; lia). cbn [obind]. apply int_res_ok. lia.
Qed.

Section at_lemmas.
Context (w : world) (x : nat) (l : list val) (W : world_shape w) (H : vholds w x l).

Lemma at_ptr : l <> [] -> exists a, ptr (ob w (OD x)) = Some a /\ alloc (ob w (OD x)) = true.
Proof.
  intros N. pose proof (proj1 H) as S. destruct (shape_ptr w (OD x) W) as [a P].
  - rewrite S. destruct l; simpl; [easy|lia].
  - exists a. split; auto. now apply (shape_alloc w (OD x) a).
Qed.

Lemma at_pos_in i z : pos_is i z -> 1 <= z <= Z.of_nat (length l) -> z < 2 ^ 31 -> at_pos w x i = Done (z - 1).
Proof.
  intros P B Bi. unfold at_pos. rewrite (pos_less1_ok i z) by (auto; lia). cbn [obind].
  destruct at_ptr as [a [_ A]]; [destruct l; simpl in *; [lia|easy]|]. rewrite A. cbn [negb].
  pose proof (proj1 H) as S. rewrite S.
  destruct (Z.ltb_spec (z - 1) 0); [lia|]. destruct (Z.leb_spec (Z.of_nat (length l)) (z - 1)); [lia|]. reflexivity.
Qed.

Lemma at_pos_out i z : pos_is i z -> - 2 ^ 31 < z < 2 ^ 31 -> ~ 1 <= z <= Z.of_nat (length l) -> l <> [] ->
  at_pos w x i = Thrown (if z <? 1 then below else beyond).
Proof.
  intros P B Bi N. unfold at_pos. rewrite (pos_less1_ok i z) by (auto; lia). cbn [obind].
  destruct at_ptr as [a [_ A]]; [auto|]. rewrite A. cbn [negb].
  pose proof (proj1 H) as S. rewrite S.
  destruct (Z.ltb_spec (z - 1) 0); destruct (Z.ltb_spec z 1); try lia; auto.
  destruct (Z.leb_spec (Z.of_nat (length l)) (z - 1)); [auto|lia].
Qed.

Lemma rd_elem k : 0 <= k < Z.of_nat (length l) ->
  rd (ptr (ob w (OD x))) k w = (Done (nth (Z.to_nat k) l (VB false)), w).
Proof.
  intros B. destruct at_ptr as [a [P A]]; [destruct l; simpl in *; [lia|easy]|].
  rewrite P. pose proof (proj1 H) as S. rewrite <- (at_rd_in w (OD x) a k P A) by lia.
  now apply (at_rd_bounds w (OD x) l k W H); lia.
Qed.

Lemma wr_elem k v : 0 <= k < Z.of_nat (length l) ->
  wr (ptr (ob w (OD x))) k v w = at_wr (OD x) k v w.
Proof.
  intros B. destruct at_ptr as [a [P A]]; [destruct l; simpl in *; [lia|easy]|].
  pose proof (proj1 H) as S. rewrite P. symmetry. apply at_wr_in; auto. lia.
Qed.

Lemma at_vec_in i z : pos_is i z -> 1 <= z <= Z.of_nat (length l) -> z < 2 ^ 31 ->
  at_vec x i w = (Done (nth (Z.to_nat (z - 1)) l (VB false)), w).
Proof.
  intros P B Bi. unfold at_vec. rewrite bind_get, (at_pos_in i z) by auto. rewrite bind_lift_done.
  apply rd_elem. lia.
Qed.

Lemma at_vec_set_in i z v : pos_is i z -> 1 <= z <= Z.of_nat (length l) -> z < 2 ^ 31 ->
  at_vec_set x i v w = at_wr (OD x) (z - 1) v w.
Proof.
  intros P B Bi. unfold at_vec_set. rewrite bind_get, (at_pos_in i z) by auto. rewrite bind_lift_done.
  apply wr_elem. lia.
Qed.

Lemma at_mat_pos_in i j r c nr nc : is_matrix w x nr nc -> pos_is i r -> pos_is j c ->
  1 <= r <= nr -> 1 <= c <= nc -> nr < 2 ^ 31 -> nc < 2 ^ 31 ->
  at_mat_pos w x i j = Done ((c - 1) * nr + (r - 1)) /\ 0 <= (c - 1) * nr + (r - 1) < Z.of_nat (length l).
Proof.
  intros [M S] Pr Pc Br Bc Hr Hc. pose proof (proj1 H) as S'.
  assert (B : 0 <= (c - 1) * nr + (r - 1) < nr * nc) by nia.
  split; [|rewrite <- S', S; auto]. unfold at_mat_pos. rewrite M. cbn [ismat rows negb].
  destruct at_ptr as [a [_ A]]; [intros E; rewrite E in S'; simpl in S'; lia|]. rewrite A. cbn [negb].
  rewrite (pos_less1_ok i r), (pos_less1_ok j c) by (auto; lia). cbn [obind].
  rewrite wrap64_small by nia. rewrite S.
  destruct (Z.leb_spec (nr * nc) ((c - 1) * nr + (r - 1))); [lia|]. reflexivity.
Qed.

Lemma at_mat_in i j r c nr nc : is_matrix w x nr nc -> pos_is i r -> pos_is j c ->
  1 <= r <= nr -> 1 <= c <= nc -> nr < 2 ^ 31 -> nc < 2 ^ 31 ->
  at_mat x i j w = (Done (nth (Z.to_nat ((c - 1) * nr + (r - 1))) l (VB false)), w).
Proof.
  intros. destruct (at_mat_pos_in i j r c nr nc) as [E B]; auto.
  unfold at_mat. rewrite bind_get, E, bind_lift_done. now apply rd_elem.
Qed.

Lemma at_mat_set_in i j r c nr nc v : is_matrix w x nr nc -> pos_is i r -> pos_is j c ->
  1 <= r <= nr -> 1 <= c <= nc -> nr < 2 ^ 31 -> nc < 2 ^ 31 ->
  at_mat_set x i j v w = at_wr (OD x) ((c - 1) * nr + (r - 1)) v w.
Proof.
  intros. destruct (at_mat_pos_in i j r c nr nc) as [E B]; auto.
  unfold at_mat_set. rewrite bind_get, E, bind_lift_done. now apply wr_elem.
Qed.
End at_lemmas.

(** at() on the matrix value of an expression. *)
Lemma at_mat_expr_in lm w e l i j r c nr nc : yields lm w e l -> eim w e = true -> edim rows w e = Done nr ->
  Z.of_nat (length l) = nr * nc -> pos_is i r -> pos_is j c ->
  1 <= r <= nr -> 1 <= c <= nc -> nr < 2 ^ 31 -> nc < 2 ^ 31 ->
  at_mat_expr lm e i j w = (Done (read e (nth (Z.to_nat ((c - 1) * nr + (r - 1))) l (VB false))), w).
Proof.
  intros Y Im Dr S Pr Pc Br Bc Hr Hc. pose proof (proj1 Y) as S'.
  assert (B : 0 <= (c - 1) * nr + (r - 1) < nr * nc) by nia.
  unfold at_mat_expr. rewrite bind_get, Im, bind_ass_true.
  rewrite (pos_less1_ok i r), (pos_less1_ok j c) by (auto; lia). rewrite !bind_lift_done, Dr, bind_lift_done.
  rewrite wrap64_small by nia.
  replace ((c - 1) * nr + (r - 1) <? esize w e) with true by (symmetry; apply Z.ltb_lt; lia).
  rewrite bind_ass_true. rewrite <- (Z2Nat.id ((c - 1) * nr + (r - 1))) at 1 by lia.
  unfold vat, as_ret. rewrite stored_own. apply (read_done lm e e). apply (proj2 Y). lia.
Qed.

(** An undefined element makes the whole conversion undefined. *)
Lemma omap_undef {A B} (f : A -> outcome B) l u : (forall a, In a l -> (exists b, f a = Done b) \/ f a = Undef u) ->
  (exists a, In a l /\ f a = Undef u) -> omap f l = Undef u.
Proof.
  induction l as [|a l IH]; intros H [b [I E]]; [easy|]. simpl.
  destruct (H a (or_introl eq_refl)) as [[c C]|C]; rewrite C; cbn [obind]; [|reflexivity].
  destruct I as [->|I]; [congruence|].
  rewrite IH; [reflexivity|intros; apply H; now right|eauto].
Qed.

Lemma double_index_undef lm w n e fs zs : yields lm w e (map VD fs) -> Forall2 int_part fs zs ->
  (exists z, In z zs /\ z < 0) -> (forall z, In z zs -> z < 2 ^ 64) ->
  calc_ind_vector lm w n (IV TDouble e) = Undef UB_cast.
Proof.
  intros Y F [z [I B]] R. cbn [calc_ind_vector].
  assert (S : esize w e = Z.of_nat (length fs)) by (destruct Y as [S _]; now rewrite map_length in S).
  pose proof (Forall2_len _ _ _ F) as LL. rewrite S, Nat2Z.id.
  assert (K : forall k, (k < length fs)%nat ->
    (v <-o idx_at lm w TDouble e (Z.of_nat k) ;; k <-o f2size (v2f v) ;; Done (wrap64 (k - 1))) =
    if (0 <=? nth k zs 0) then Done (wrap64 (nth k zs 0 - 1)) else Undef UB_cast).
  { intros k Hk. rewrite (yields_at lm w e (map VD fs)) by (auto; now rewrite map_length).
    rewrite nth_map_val with (a := fzero) by auto.
    replace (if stored e then cast TDouble (VD (nth k fs fzero)) else Done (VD (v2f (VD (nth k fs fzero))))) with (Done (VD (nth k fs fzero)))
      by (destruct (stored e); reflexivity). cbn [obind v2f].
    pose proof (Forall2_nth int_part fs zs fzero 0 k F Hk) as P.
    unfold f2size. rewrite (int_part_trunc _ _ P).
    assert (nth k zs 0 < 2 ^ 64) by (apply R, nth_In; lia).
    destruct (Z.leb_spec 0 (nth k zs 0)); cbn [andb]; [|reflexivity].
    destruct (Z.ltb_spec (nth k zs 0) (2 ^ 64)); [reflexivity|lia]. }
  rewrite (omap_undef _ _ UB_cast); [reflexivity| |].
  - intros a Ha. apply iota_in in Ha. rewrite <- (Z2Nat.id a) by lia. rewrite K by lia.
    destruct (0 <=? nth (Z.to_nat a) zs 0); eauto.
  - apply (In_nth _ _ 0) in I. destruct I as [k [K1 K2]]. exists (Z.of_nat k).
    split; [apply iota_in; lia|]. rewrite K by lia.
    destruct (Z.leb_spec 0 (nth k zs 0)); [lia|reflexivity].
Qed.

(* ------------------------------------------------- matrix special cases *)

(** A double row with a double column: kc - 1 * nr + kr. *)
Lemma two_doubles_pos lm w e nr nc r c zr zc : eim w e = true -> edim rows w e = Done nr -> edim cols w e = Done nc ->
  nr <= int_max -> nc <= int_max -> int_part r zr -> int_part c zc -> 1 <= zr <= nr -> 1 <= zc <= nc ->
  calc_ind_matrix lm w e (IF r) (IF c) = Done ([wrap64 (zc - nr + (zr - 1))], mp_none).
Proof.
  intros Im Dr Dc Br Bc Pr Pc Hr Hc. unfold int_max in *. unfold calc_ind_matrix. rewrite Im, Dr, Dc. cbn [negb obind].
  rewrite (convert_dbl_ok r zr), (convert_dbl_ok c zc) by (auto; lia). cbn [obind].
  rewrite store_ind_ok; [|easy|simpl; lia]. cbn [obind]. do 4 f_equal. lia.
Qed.

(** A row mask shorter than the number of rows is not recycled. *)
Lemma short_mask lm w e er bs nr nc : eim w e = true -> edim rows w e = Done nr -> edim cols w e = Done nc ->
  1 <= nr <= int_max -> 1 <= nc <= int_max -> yields lm w er (map VB bs) -> In true bs ->
  Z.of_nat (length bs) <= nr ->
  calc_ind_matrix lm w e (IV TBool er) (IB true) =
    Done (grid nr (map Z.of_nat (filter (fun i => nth i bs false) (seq 0 (length bs)))) (iota (Z.to_nat nc)),
          mkMP true (Z.of_nat (length (filter (fun i => nth i bs false) (seq 0 (length bs))))) nc).
Proof.
  intros Im Dr Dc Br Bc Y T L. unfold int_max in *. unfold calc_ind_matrix. rewrite Im, Dr, Dc. cbn [negb obind].
  rewrite (mask_own_ok lm w er bs Y). cbn [obind]. unfold positions.
  pose proof (true_at_nonempty bs 0 T) as N. rewrite mask_scan_ok by lia.
  pose proof (true_at_spec bs) as TS.
  assert (Rg : forall z, In z (true_at bs 0) -> 0 <= z < nr) by (intros z Hz; apply true_at_range in Hz; lia).
  assert (LF : (length (true_at bs 0) <= length bs)%nat)
    by (rewrite TS, map_length; etransitivity; [apply filter_len|now rewrite seq_length]).
  destruct (true_at bs 0) as [|p ps] eqn:E; [easy|]. cbn [obind].
  rewrite (store_grid nr nc); auto; try nia.
  - cbn [obind]. rewrite TS, map_length. reflexivity.
  - intros Q. apply (f_equal (@List.length Z)) in Q. rewrite iota_length in Q. simpl in Q. lia.
  - intros c Hc. apply iota_in in Hc. lia.
  - rewrite iota_length. nia.
Qed.

(** A row and a column given as ints, whatever they are. *)
Lemma int_pair lm w e nr nc r c : eim w e = true -> edim rows w e = Done nr -> edim cols w e = Done nc ->
  - 2 ^ 31 < c < 2 ^ 31 ->
  calc_ind_matrix lm w e (IZ r) (IZ c) = Done ([wrap64 ((c - 1) * nr + (r - 1))], mp_none).
Proof.
  intros Im Dr Dc B. unfold calc_ind_matrix. rewrite Im, Dr, Dc. cbn [negb obind].
  rewrite int_res_ok by lia. reflexivity.
Qed.

(** Any stored vector of ints as an index; an operation or a subset with
    positions from 1. *)
Lemma int_index_positions lm w n e zs : yields lm w e (map VI zs) -> zs <> [] ->
  (own_type e = false -> forall z, In z zs -> 1 <= z) ->
  (forall z, In z zs -> - 2 ^ 31 < z < 2 ^ 31) -> Z.of_nat (length zs) < 2 ^ 64 ->
  calc_ind_vector lm w n (IV TInt e) = Done (map (fun z => wrap64 (z - 1)) zs).
Proof.
  intros Y N Pl R L. cbn [calc_ind_vector].
  assert (S : esize w e = Z.of_nat (length zs)) by (destruct Y as [S _]; now rewrite map_length in S).
  rewrite S, Nat2Z.id. rewrite (omap_iota _ _ (map (fun z => wrap64 (z - 1)) zs) (wrap64 (0 - 1))).
  - cbn [obind]. apply store_ind_ok; [destruct zs; [congruence|discriminate]|rewrite map_length; exact L].
  - apply map_length.
  - intros i Hi. rewrite (yields_at lm w e (map VI zs)) by (auto; now rewrite map_length).
    rewrite nth_map_val with (a := 0) by auto.
    rewrite (map_nth (fun z => wrap64 (z - 1))).
    specialize (R (nth i zs 0) (nth_In zs 0 Hi)). rewrite stored_own. destruct (own_type e).
    + cbn [cast obind size_less1 int_less1]. rewrite int_res_ok by lia. reflexivity.
    + specialize (Pl eq_refl _ (nth_In zs 0 Hi)). cbn [obind]. rewrite size_less1_dbl by lia. now rewrite wrap64_small by lia.
Qed.

(** A position below 1 read from an operation or a subset. *)
Lemma int_index_undef lm w n e zs : yields lm w e (map VI zs) -> own_type e = false ->
  (exists z, In z zs /\ z < 1) -> (forall z, In z zs -> - 2 ^ 31 < z < 2 ^ 31) ->
  calc_ind_vector lm w n (IV TInt e) = Undef UB_cast.
Proof.
  intros Y Pl [z [I B]] R. cbn [calc_ind_vector].
  assert (S : esize w e = Z.of_nat (length zs)) by (destruct Y as [S _]; now rewrite map_length in S).
  rewrite S, Nat2Z.id.
  assert (K : forall k, (k < length zs)%nat -> (v <-o idx_at lm w TInt e (Z.of_nat k) ;; size_less1 v) =
    if 1 <=? nth k zs 0 then Done (nth k zs 0 - 1) else Undef UB_cast).
  { intros k Hk. rewrite (yields_at lm w e (map VI zs)) by (auto; now rewrite map_length).
    rewrite nth_map_val with (a := 0) by auto. rewrite stored_own, Pl. cbn [obind].
    specialize (R (nth k zs 0) (nth_In zs 0 Hk)). destruct (Z.leb_spec 1 (nth k zs 0)); [apply size_less1_dbl; lia|].
    cbn [size_less1 v2f]. destruct (fsub_one (nth k zs 0)) as [E [V F]]; [lia|lia|].
    unfold f2size. rewrite (int_part_trunc _ (nth k zs 0 - 1)) by (split; [exact V|split; [exact F|rewrite E; apply Ztrunc_IZR]]).
    destruct (Z.leb_spec 0 (nth k zs 0 - 1)); [lia|reflexivity]. }
  rewrite (omap_undef _ _ UB_cast); [reflexivity| |].
  - intros a Ha. apply iota_in in Ha. rewrite <- (Z2Nat.id a) by lia. rewrite K by lia.
    destruct (1 <=? nth (Z.to_nat a) zs 0); eauto.
  - apply (In_nth _ _ 0) in I. destruct I as [k [K1 K2]]. exists (Z.of_nat k).
    split; [apply iota_in; lia|]. rewrite K by lia. destruct (Z.leb_spec 1 (nth k zs 0)); [lia|reflexivity].
Qed.

Lemma wrap_less1_out z n : 0 <= n <= 2 ^ 60 -> - 2 ^ 31 < z < 2 ^ 31 -> ~ 1 <= z <= n -> n <= wrap64 (z - 1).
Proof.
  intros Hn B O. destruct (Z_lt_le_dec z 1).
  - unfold wrap64. rewrite <- (Z_mod_plus_full _ 1). rewrite Z.mod_small by lia. lia.
  - rewrite wrap64_small by lia. lia.
Qed.

Lemma vholds_len w x l : world_shape w -> vholds w x l -> Z.of_nat (length l) <= 2 ^ 60.
Proof.
  intros W H. destruct l as [|v l]; [simpl; lia|]. rewrite <- (proj1 H).
  destruct (shape_ptr w (OD x) W) as [a P]; [rewrite (proj1 H); simpl; lia|].
  destruct (ptr_live _ _ _ W P) as [cs [Lv [S1 _]]]. pose proof (ws_len _ W _ _ _ Lv). lia.
Qed.

Lemma scatter_same v ind : forall l, (forall j, In j ind -> 0 <= j < Z.of_nat (length l)) ->
  exists l', scatter l ind (repeat v (length ind)) = (Done tt, l') /\ length l' = length l /\
    (forall p, (p < length l)%nat -> In (Z.of_nat p) ind -> nth p l' (VB false) = v) /\
    (forall p, (p < length l)%nat -> ~ In (Z.of_nat p) ind -> nth p l' (VB false) = nth p l (VB false)).
Proof.
  induction ind as [|j ind IH]; intros l R; cbn [scatter length repeat].
  - exists l. repeat split; auto. intros p _ [].
  - pose proof (R j (or_introl eq_refl)) as Rj.
    replace (j <? Z.of_nat (length l)) with true by (symmetry; apply Z.ltb_lt; lia).
    destruct (IH (list_set l (Z.to_nat j) v)) as [l' [E [L [I1 I2]]]].
    { intros q Hq. rewrite list_set_length. apply R. now right. }
    rewrite list_set_length in *. exists l'. split; [exact E|]. split; [exact L|].
    assert (Nth : forall p, (p < length l)%nat -> ~ In (Z.of_nat p) ind ->
      nth p l' (VB false) = if Nat.eqb p (Z.to_nat j) then v else nth p l (VB false)).
    { intros p Hp N. rewrite I2 by auto. rewrite list_set_nth.
      replace (Nat.ltb (Z.to_nat j) (length l)) with true by (symmetry; apply Nat.ltb_lt; lia).
      now rewrite andb_true_r. }
    split; intros p Hp Q.
    + destruct (in_dec Z.eq_dec (Z.of_nat p) ind) as [i|n]; [now apply I1|]. rewrite Nth by auto.
      destruct Q as [Q|Q]; [|contradiction]. replace (Z.to_nat j) with p by lia. now rewrite Nat.eqb_refl.
    + rewrite Nth; auto; [|intros H; apply Q; now right].
      destruct (Nat.eqb_spec p (Z.to_nat j)); [|reflexivity]. exfalso. apply Q. left. lia.
Qed.

Lemma subset_scalar_assigned (lm : libm) ty lim V w rho x ps v v' : repr w lim ty V rho -> In x V -> cast (ty x) v = Done v' ->
  (forall j, In j ps -> 0 <= j < Z.of_nat (length (rho x))) -> (length ps <= length (rho x))%nat ->
  exists w' l', assign_subset_scalar x ps v w = (Done tt, w') /\ length l' = length (rho x) /\
    (forall p, (p < length l')%nat -> In (Z.of_nat p) ps -> nth p l' (VB false) = v') /\
    (forall p, (p < length l')%nat -> ~ In (Z.of_nat p) ps -> nth p l' (VB false) = nth p (rho x) (VB false)) /\
    repr w' lim ty V (setl rho x l') /\ (no_leak w -> no_leak w').
Proof.
  intros R Vx C B Len.
  destruct (agrees_sub_scalar lm ty lim V x ps v w rho R) as [w' [E P]].
  { split; [exact Vx|]. split; [lia|]. intros j Hj. apply B in Hj. lia. }
  destruct (scatter_same v' ps (rho x) B) as [l' [SC [L [I1 I2]]]].
  cbn [run_cmd] in E.
  assert (SP : spec_cmd lm ty (CSubScalar x ps v) rho = (Done tt, setl rho x l') \/
               (ps = [] /\ spec_cmd lm ty (CSubScalar x ps v) rho = (Done tt, rho))).
  { cbn [spec_cmd]. rewrite C, SC. destruct ps; cbn; auto. }
  destruct SP as [SP|[-> SP]]; rewrite SP in *; cbn [fst snd] in *.
  - exists w', l'. rewrite L. split; [exact E|]. split; [reflexivity|]. split; [exact I1|]. split; [exact I2|]. apply P; discriminate.
  - cbn in SC. injection SC as <-. exists w', (rho x). split; [exact E|]. split; [reflexivity|]. split; [intros p _ []|].
    split; [auto|]. destruct P as [P1 P2]; [discriminate|]. split; [|exact P2].
    assert (Q : forall y, setl rho x (rho x) y = rho y) by (intros y; unfold setl; destruct (Nat.eqb_spec y x); congruence).
    destruct P1. split; auto. intros y Vy. rewrite Q. auto.
Qed.
