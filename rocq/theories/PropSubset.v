(** Properties C22..C28: subsetting and element access. *)
From Coq Require Import String ZArith List Bool Lia Reals.
From Coq.Floats Require Import SpecFloat.
From Flocq Require Import Core.Core.
From Verif Require Import Base Num StoreModel VecModel SubsetModel FloatBridge Spec SpecExpr SpecHist SpecProg SpecVec SpecSub
  StoreProofs StoreOps VecProofs VecAssign VecEval StoreThms SubsetProofs SubsetThms Examples PropVec.
Import ListNotations.
Open Scope Z_scope.
Local Notation length := List.length (only parsing).

Lemma int_part_intro f z : valid f -> finite f -> ftrunc f = Some z -> int_part f z.
Proof. intros V F T. split; [auto|]. split; [auto|]. rewrite ftrunc_correct in T by auto. congruence. Qed.
Definition f25 : flt := S754_finite false 5629499534213120 (-51).      (* 2.5 *)
Definition ints (l : list Z) : expr := ETmp TInt (map VI l) mp_none.
Definition dbls (l : list flt) : expr := ETmp TDouble (map VD l) mp_none.
Definition bools (l : list bool) : expr := ETmp TBool (map VB l) mp_none.
Ltac show_part := apply int_part_intro; [reflexivity|exact I|vm_compute; reflexivity].

(* ------------------------------------------------------------------ C22 *)

(** The base may be any expression with elements l; idx any index argument
    that selects the positions ps.  Missing to the full property: more
    positions than the base has elements, where it is false. *)
Theorem c22_subset_reads_partial : forall lm w e l idx ps,
  yields lm w e l -> selects lm w (Z.of_nat (length l)) idx ps ->
  Z.of_nat (length l) <= int_max -> (length ps <= length l)%nat ->
  exists e', subset_vec lm w e idx = Done e' /\
    yields lm w e' (map (fun p => read e (nth (Z.to_nat p) l (VB false))) ps).
Proof.
  intros lm w e l idx ps Y S B L. exists (ESub e ps mp_none). unfold int_max in B. split.
  - unfold subset_vec. rewrite (proj1 Y).
    rewrite (calc_ind_vector_selects lm w _ idx ps) by (auto; lia). reflexivity.
  - apply yields_sub; auto. intros p. apply (selects_range lm w _ idx ps p S).
Qed.
Print Assumptions c22_subset_reads_partial.
(** v(c(3, 1)) and v(2.5) for v = 1, 2, 3. *)
Example c22_ex1 : selects ex_lm ex_w 3 (IV TInt (ints [3; 1])) [2; 0] /\ yields ex_lm ex_w (EVar 0) [d1; d2; d3].
Proof.
  split; [|apply vholds_yields; exact ex_holds0].
  apply (Sel_ints _ _ _ _ [3; 1]); [apply yields_tmp|easy|].
  intros z [<-|[<-|[]]]; lia.
Qed.
Example c22_ex2 : selects ex_lm ex_w 3 (IF f25) [1] /\ selects ex_lm ex_w 3 (IV TDouble (dbls [f25; i2f 3])) [1; 2].
Proof.
  split; [apply (Sel_dbl _ _ _ f25 2); [show_part|lia]|].
  apply (Sel_dbls _ _ _ _ [f25; i2f 3] [2; 3]); [apply yields_tmp| |easy|].
  - constructor; [show_part|]. constructor; [show_part|constructor].
  - intros z [<-|[<-|[]]]; lia.
Qed.

(** With more positions than elements, element i of the subset is taken from
    position number i mod length(v). *)
Theorem c22_too_many_positions_refuted : forall lm w e l idx ps,
  yields lm w e l -> l <> [] -> selects lm w (Z.of_nat (length l)) idx ps ->
  Z.of_nat (length l) <= int_max -> Z.of_nat (length ps) < 2 ^ 64 -> (length l <= length ps)%nat ->
  exists e', subset_vec lm w e idx = Done e' /\ esize w e' = Z.of_nat (length ps) /\
    forall i, elem lm e' (Z.of_nat i) w =
      (Done (read e (nth (Z.to_nat (nth (i mod length l) ps 0)) l (VB false))), w).
Proof.
  intros lm w e l idx ps Y N S B L64 L. exists (ESub e ps mp_none). split; [|split; [reflexivity|]].
  - unfold subset_vec. rewrite (proj1 Y).
    rewrite (calc_ind_vector_selects lm w _ idx ps) by auto. reflexivity.
  - intros i. apply sub_wraps; auto. intros p. apply (selects_range lm w _ idx ps p S).
Qed.
Print Assumptions c22_too_many_positions_refuted.
(** c(1, 2)(c(1, 1, 2)) ends with 1 instead of 2. *)
Example c22_refuted_ex : exists e', subset_vec ex_lm ex_w (dbls [i2f 1; i2f 2]) (IV TInt (ints [1; 1; 2])) = Done e' /\
  elem ex_lm e' 2 ex_w = (Done d1, ex_w) /\
  selects ex_lm ex_w 2 (IV TInt (ints [1; 1; 2])) [0; 0; 1].
Proof.
  eexists. split; [vm_compute; reflexivity|]. split; [apply pair_eta; [vm_compute; reflexivity|reflexivity]|].
  apply (Sel_ints _ _ _ _ [1; 1; 2]); [apply yields_tmp|easy|]. intros z [<-|[<-|[<-|[]]]]; lia.
Qed.

(* ------------------------------------------------------------------ C23 *)

(** V are the vectors of the program, rho their contents before.  Missing to
    the full property: more positions than x has elements, where it is false. *)
Theorem c23_subset_assignment_partial : forall lm ty lim V w rho s x idx ps same e us,
  repr w lim ty V rho -> In x V -> ~ In s V -> incl (vars e) V -> wf_expr rho e -> 2 * xsize rho e <= lim ->
  value_of lm rho (ty x) e us -> length us = length ps ->
  selects lm w (Z.of_nat (length (rho x))) idx ps ->
  Z.of_nat (length (rho x)) <= int_max -> (length ps <= length (rho x))%nat ->
  exists w' l', subset_vec lm w (EVar x) idx = Done (ESub (EVar x) ps mp_none) /\
    assign_subset lm s x ps same e w = (Done tt, w') /\
    overwritten (rho x) ps us l' /\ vholds w' x l' /\
    (forall y, In y V -> y <> x -> vholds w' y (rho y)) /\ (no_leak w -> no_leak w').
Proof.
  intros lm ty lim V w rho s x idx ps same e us R Vx Vs Ve WF Ft VO L S B Len.
  destruct (subset_assigned lm ty lim V w rho s x ps same e us) as [w' [l' [A1 [A2 [A3 A4]]]]]; auto.
  - apply (selects_nonempty _ _ _ _ _ S).
  - intros j. apply (selects_range _ _ _ _ _ j S).
  - exists w', l'. split.
    + unfold subset_vec. cbn [esize].
      rewrite (proj1 (re_holds _ _ _ _ _ R x Vx)). unfold int_max in B.
      rewrite (calc_ind_vector_selects lm w _ idx ps) by (auto; lia). reflexivity.
    + split; [exact A1|]. split; [exact A2|]. split; [|split; [|exact A4]].
      * pose proof (re_holds _ _ _ _ _ A3 x Vx) as H. unfold setl in H. now rewrite Nat.eqb_refl in H.
      * intros y Vy Ny. pose proof (re_holds _ _ _ _ _ A3 y Vy) as H. unfold setl in H.
        destruct (Nat.eqb_spec y x); [easy|exact H].
Qed.
Print Assumptions c23_subset_assignment_partial.
(** x0(c(3, 1)) = x0(TRUE-prefix of two) + x1 style: here x0(c(3, 1)) = x1 + 1. *)
Example c23_ex : exists w' l', assign_subset ex_lm 5 0 [2; 0] false (EBin OPlus (EVar 1) (ESca d1)) ex_w = (Done tt, w') /\
  overwritten [d1; d2; d3] [2; 0] [d1; d1] l' /\ vholds w' 0 l'.
Proof.
  destruct (c23_subset_assignment_partial ex_lm (fun _ => TDouble) 1000 [0%nat; 1%nat] ex_w ex_rho 5 0
    (IV TInt (ints [3; 1])) [2; 0] false (EBin OPlus (EVar 1) (ESca d1)) [d1; d1]) as [w' [l' [_ [A [B [C _]]]]]]; [..|eauto].
  - exact ex_repr.
  - simpl; tauto.
  - simpl; intros [?|[?|[]]]; lia.
  - intros ? ?; simpl in *; tauto.
  - cbn [wf_expr]. repeat split; vm_compute; congruence.
  - vm_compute; congruence.
  - split; [reflexivity|]. intros i Hi.
    repeat (destruct i as [|i]; [exists d1; split; vm_compute; reflexivity|]). simpl in Hi. lia.
  - reflexivity.
  - exact (proj1 c22_ex1).
  - vm_compute; congruence.
  - vm_compute; lia.
Qed.

(** A scalar is written to every selected position, and to no other. *)
Theorem c23_subset_scalar_partial : forall lm ty lim V w rho x idx ps v v',
  repr w lim ty V rho -> In x V -> cast (ty x) v = Done v' ->
  selects lm w (Z.of_nat (length (rho x))) idx ps ->
  Z.of_nat (length (rho x)) <= int_max -> (length ps <= length (rho x))%nat ->
  exists w' l', subset_vec lm w (EVar x) idx = Done (ESub (EVar x) ps mp_none) /\
    assign_subset_scalar x ps v w = (Done tt, w') /\ vholds w' x l' /\ length l' = length (rho x) /\
    (forall p, (p < length l')%nat -> In (Z.of_nat p) ps -> nth p l' (VB false) = v') /\
    (forall p, (p < length l')%nat -> ~ In (Z.of_nat p) ps -> nth p l' (VB false) = nth p (rho x) (VB false)) /\
    (forall y, In y V -> y <> x -> vholds w' y (rho y)) /\ (no_leak w -> no_leak w').
Proof.
  intros lm ty lim V w rho x idx ps v v' R Vx C S B Len.
  destruct (subset_scalar_assigned lm ty lim V w rho x ps v v') as [w' [l' [A1 [A2 [A3 [A4 [A5 A6]]]]]]]; auto.
  { intros j. apply (selects_range _ _ _ _ _ j S). }
  exists w', l'. split.
  { unfold subset_vec. cbn [esize]. rewrite (proj1 (re_holds _ _ _ _ _ R x Vx)). unfold int_max in B.
    rewrite (calc_ind_vector_selects lm w _ idx ps) by (auto; lia). reflexivity. }
  split; [exact A1|]. split; [|split; [exact A2|split; [exact A3|split; [exact A4|split; [|exact A6]]]]].
  - pose proof (re_holds _ _ _ _ _ A5 x Vx) as H. unfold setl in H. now rewrite Nat.eqb_refl in H.
  - intros y Vy Ny. pose proof (re_holds _ _ _ _ _ A5 y Vy) as H. unfold setl in H.
    destruct (Nat.eqb_spec y x); [easy|exact H].
Qed.
Print Assumptions c23_subset_scalar_partial.
(** x0(c(3, 1)) = 1. *)
Example c23_scalar_ex : exists w', assign_subset_scalar 0 [2; 0] d1 ex_w = (Done tt, w') /\ vholds w' 0 [d1; d2; d1].
Proof. eexists. split; [apply pair_eta; [vm_compute; reflexivity|reflexivity]|]. show_holds. Qed.

Theorem c23_length_mismatch : forall lm ty lim V w rho s x ind same e,
  repr w lim ty V rho -> In x V -> ~ In s V -> incl (vars e) V -> wf_expr rho e -> 2 * xsize rho e <= lim ->
  xsize rho e <> Z.of_nat (length ind) -> (length ind <= length (rho x))%nat -> (forall j, In j ind -> 0 <= j) ->
  exists w', assign_subset lm s x ind same e w = (Thrown msg_len, w') /\
    (forall y, In y V -> vholds w' y (rho y)) /\ (no_leak w -> no_leak w').
Proof.
  intros. destruct (subset_mismatch lm ty lim V w rho s x ind same e) as [w' [A [B C]]]; auto.
  exists w'. split; [exact A|]. split; [apply B|exact C].
Qed.
Print Assumptions c23_length_mismatch.
Example c23_mismatch_ex : exists w', assign_subset ex_lm 5 0 [2] false (EVar 1) ex_w = (Thrown msg_len, w').
Proof. eexists. apply pair_eta; [vm_compute; reflexivity|reflexivity]. Qed.

(** x1 = 0, 0; x1(c(1, 1, 2)) = c(1, 2, 3) should give 2, 3; it gives 3, 0. *)
Theorem c23_too_many_positions_refuted : exists w',
  assign_subset ex_lm 5 1 [0; 0; 1] false (EVar 0) ex_w = (Done tt, w') /\
  vholds w' 1 [d3; d0] /\ ~ overwritten [d0; d0] [0; 0; 1] [d1; d2; d3] [d3; d0].
Proof.
  eexists. split; [apply pair_eta; [vm_compute; reflexivity|reflexivity]|].
  split; [show_holds|]. intros [_ [_ O]]. specialize (O 2%nat ltac:(simpl; lia) ltac:(simpl; lia)).
  vm_compute in O. discriminate.
Qed.
Print Assumptions c23_too_many_positions_refuted.

(* ------------------------------------------------------------------ C24 *)

(** A mask of any length >= 1, and the elements it selects; a mask without TRUE
    is rejected. *)
Theorem c24_mask : forall lm w e l em bs, yields lm w e l -> Z.of_nat (length l) < 2 ^ 64 ->
  yields lm w em (map VB bs) -> bs <> [] ->
  let ps := filter (fun i => nth (i mod length bs) bs false) (seq 0 (length l)) in
  (ps = [] -> exists m, subset_vec lm w e (IV TBool em) = Thrown (Ass m)) /\
  (ps <> [] -> exists e', subset_vec lm w e (IV TBool em) = Done e' /\
     yields lm w e' (map (fun p => read e (nth p l (VB false))) ps)).
Proof.
  intros lm w e l em bs Y B Ym Ne ps.
  destruct (calc_ind_vector_mask lm w (Z.of_nat (length l)) em bs) as [A1 A2]; auto; [lia|].
  rewrite Nat2Z.id in *. fold ps in A1, A2.
  assert (LP : (length ps <= length l)%nat) by (unfold ps; rewrite <- (seq_length (length l) 0) at 2; apply filter_len).
  unfold subset_vec. rewrite (proj1 Y). split; intros H.
  - rewrite A2 by (now rewrite H). eexists. reflexivity.
  - rewrite A1 by (destruct ps; easy). eexists. split; [reflexivity|].
    replace (map (fun p => read e (nth p l (VB false))) ps)
      with (map (fun p => read e (nth (Z.to_nat p) l (VB false))) (map Z.of_nat ps)).
    + apply yields_sub; auto; [|now rewrite map_length].
      intros p Hp. apply in_map_iff in Hp. destruct Hp as [k [<- Hk]]. unfold ps in Hk.
      apply filter_In in Hk. destruct Hk as [Hk _]. apply in_seq in Hk. lia.
    + rewrite map_map. apply map_ext. intros p. now rewrite Nat2Z.id.
Qed.
Print Assumptions c24_mask.
(** v(v > 1) for v = 1, 2, 3, and the recycled mask c(TRUE, FALSE). *)
Example c24_ex1 : yields ex_lm ex_w (EBin OGt (EVar 0) (ESca d1)) (map VB [false; true; true]).
Proof.
  split; [vm_compute; reflexivity|]. intros i Hi.
  repeat (destruct i as [|i]; [apply pair_eta; [vm_compute; reflexivity|apply elem_pure]|]). simpl in Hi. lia.
Qed.
Example c24_ex2 : exists e', subset_vec ex_lm ex_w (EVar 0) (IV TBool (bools [true; false])) = Done e' /\
  yields ex_lm ex_w e' [d1; d3].
Proof.
  destruct (c24_mask ex_lm ex_w (EVar 0) [d1; d2; d3] (bools [true; false]) [true; false]) as [_ H];
    [apply vholds_yields; exact ex_holds0|vm_compute; reflexivity|apply yields_tmp|easy|].
  destruct H as [e' H]; [vm_compute; easy|]. exists e'. exact H.
Qed.

Theorem c24_true : forall lm w e l, yields lm w e l -> l <> [] -> Z.of_nat (length l) < 2 ^ 64 ->
  exists e', subset_vec lm w e (IB true) = Done e' /\ yields lm w e' (map (read e) l).
Proof.
  intros lm w e l Y N B. exists (ESub e (iota (length l)) mp_none). split.
  - unfold subset_vec. rewrite (proj1 Y). cbn [calc_ind_vector]. rewrite Nat2Z.id.
    rewrite store_ind_ok; [reflexivity| |now rewrite iota_length].
    intros E. apply (f_equal (@List.length Z)) in E. rewrite iota_length in E. destruct l; easy.
  - assert (E : l = map (fun p => nth (Z.to_nat p) l (VB false)) (iota (length l))).
    { apply nth_ext with (d := VB false) (d' := VB false).
      - now rewrite map_length, iota_length.
      - intros i Hi. rewrite nth_map_in with (a := 0) by (now rewrite iota_length).
        rewrite iota_nth by auto. now rewrite Nat2Z.id. }
    rewrite E at 2. rewrite map_map. apply yields_sub; auto; [|rewrite iota_length; lia].
    intros p Hp. now apply iota_in in Hp.
Qed.
Print Assumptions c24_true.
Example c24_true_ex : yields ex_lm ex_w (EVar 0) [d1; d2; d3].
Proof. apply vholds_yields; exact ex_holds0. Qed.

(* ------------------------------------------------------------------ C25 *)

(** Reading element k of v(idx) when the k-th position is not within 1..n; a
    single int, a single double, a vector of ints, a vector of doubles (not
    negative, see below).  Nothing changes. *)
Theorem c25_int_read : forall lm w x l z, world_shape w -> vholds w x l -> l <> [] ->
  - 2 ^ 31 < z < 2 ^ 31 -> ~ 1 <= z <= Z.of_nat (length l) ->
  exists e', subset_vec lm w (EVar x) (IZ z) = Done e' /\ elem lm e' 0 w = (Thrown msg_oob, w).
Proof.
  intros lm w x l z W H N B O.
  assert (Ln : (0 < length l)%nat) by (destruct l; simpl; [easy|lia]).
  pose proof (vholds_len w x l W H) as L60.
  unfold subset_vec. cbn [calc_ind_vector]. rewrite int_res_ok by lia. cbn [obind].
  rewrite store_ind_ok by (discriminate || (simpl; lia)). cbn [obind]. eexists. split; [reflexivity|].
  apply (sub_out lm w x l _ _ 0%nat); [auto|auto|auto|simpl; lia|lia|]. cbn [nth].
  apply wrap_less1_out; lia.
Qed.
Print Assumptions c25_int_read.
Theorem c25_double_read : forall lm w x l f z, world_shape w -> vholds w x l -> l <> [] ->
  int_part f z -> - 2 ^ 31 < z < 2 ^ 31 -> ~ 1 <= z <= Z.of_nat (length l) ->
  (z < 1 /\ exists m, subset_vec lm w (EVar x) (IF f) = Thrown (Ass m)) \/
  (exists e', subset_vec lm w (EVar x) (IF f) = Done e' /\ elem lm e' 0 w = (Thrown msg_oob, w)).
Proof.
  intros lm w x l f z W H N I B O.
  assert (Ln : (0 < length l)%nat) by (destruct l; simpl; [easy|lia]).
  unfold subset_vec. cbn [calc_ind_vector]. destruct (Z_lt_le_dec z 1).
  - left. split; auto. unfold convert_sub. rewrite (int_part_f2int f z) by (auto; lia). cbn [obind].
    assert (E : flt_leb fone f = false).
    { destruct (flt_leb fone f) eqn:E; auto. exfalso. destruct I as [V [F T]].
      assert (O1 : fR fone = 1%R /\ finite fone) by (apply (i2f_exact 1); simpl; lia).
      apply fleb_correct in E; auto; [|apply i2f_valid|apply O1]. rewrite (proj1 O1) in E.
      assert (1 <= Ztrunc (fR f)); [|lia].
      rewrite <- (Ztrunc_IZR 1). now apply Ztrunc_le. }
    rewrite E. eexists. reflexivity.
  - right. rewrite (convert_sub_ok f z) by (auto; lia). cbn [obind].
    rewrite store_ind_ok by (discriminate || (simpl; lia)). cbn [obind]. eexists. split; [reflexivity|].
    apply (sub_out lm w x l _ _ 0%nat); [auto|auto|auto|simpl; lia|lia|]. cbn [nth].
    rewrite wrap64_small by lia. lia.
Qed.
Print Assumptions c25_double_read.
Theorem c25_int_vector_read : forall lm w x l ei zs k, world_shape w -> vholds w x l -> l <> [] ->
  yields lm w ei (map VI zs) -> (own_type ei = false -> forall z, In z zs -> 1 <= z) ->
  (forall z, In z zs -> - 2 ^ 31 < z < 2 ^ 31) ->
  (length zs <= length l)%nat -> (k < length zs)%nat -> ~ 1 <= nth k zs 0 <= Z.of_nat (length l) ->
  exists e', subset_vec lm w (EVar x) (IV TInt ei) = Done e' /\ elem lm e' (Z.of_nat k) w = (Thrown msg_oob, w).
Proof.
  intros lm w x l ei zs k W H N Y OT R L Hk O. pose proof (vholds_len w x l W H) as L60.
  unfold subset_vec. rewrite (int_index_positions lm w _ ei zs); auto;
    [|intros ->; simpl in Hk; lia|lia]. cbn [obind].
  eexists. split; [reflexivity|]. apply (sub_out lm w x l); auto; [now rewrite map_length|lia|].
  rewrite nth_map_in with (a := 0) by auto. apply wrap_less1_out; auto; [lia|]. apply R. now apply nth_In.
Qed.
Print Assumptions c25_int_vector_read.
Example c25_ex : exists e', subset_vec ex_lm ex_w (EVar 0) (IV TInt (ints [1; 0])) = Done e' /\
  elem ex_lm e' 1 ex_w = (Thrown msg_oob, ex_w).
Proof.
  destruct (c25_int_vector_read ex_lm ex_w 0 [d1; d2; d3] (ints [1; 0]) [1; 0] 1) as [e' H]; [..|eauto].
  - exact ex_shape.
  - exact ex_holds0.
  - easy.
  - apply yields_tmp.
  - discriminate.
  - intros z [<-|[<-|[]]]; lia.
  - simpl; lia.
  - simpl; lia.
  - cbn [nth]. lia.
Qed.
Example c25_ex2 : int_part f25 2 /\ vholds ex_w 1 [d0; d0] /\ int_part (i2f 0) 0.
Proof. split; [show_part|]. split; [exact ex_holds1|show_part]. Qed.

(** Writing: v(idx) = e with a position out of 1..n throws; a single such
    position changes nothing, with several the earlier ones may have been
    written already (see the refuted statement below). *)
Theorem c25_write_throws_partial : forall lm ty lim V w rho s x ei zs same e us,
  repr w lim ty V rho -> In x V -> ~ In s V -> incl (vars e) V -> wf_expr rho e -> 2 * xsize rho e <= lim ->
  value_of lm rho (ty x) e us -> length us = length zs -> (length zs <= length (rho x))%nat ->
  yields lm w ei (map VI zs) -> (own_type ei = false -> forall z, In z zs -> 1 <= z) ->
  (forall z, In z zs -> - 2 ^ 31 < z < 2 ^ 31) ->
  (exists z, In z zs /\ ~ 1 <= z <= Z.of_nat (length (rho x))) ->
  exists ps w' l', subset_vec lm w (EVar x) (IV TInt ei) = Done (ESub (EVar x) ps mp_none) /\
    assign_subset lm s x ps same e w = (Thrown msg_oob, w') /\
    (forall y, In y V -> y <> x -> vholds w' y (rho y)) /\
    vholds w' x l' /\ length l' = length (rho x) /\ (length zs = 1%nat -> l' = rho x).
Proof.
  intros lm ty lim V w rho s x ei zs same e us R Vx Vs Ve WF Ft VO Lu Len Y OT Rg [z [Iz Oz]].
  pose proof (re_holds _ _ _ _ _ R x Vx) as Hx.
  pose proof (vholds_len w x _ (re_shape _ _ _ _ _ R) Hx) as L60.
  assert (P0 : forall z, 0 <= wrap64 z) by (intros q; unfold wrap64; pose proof (Z.mod_pos_bound q (2 ^ 64)); lia).
  destruct (subset_bad_write lm ty lim V w rho s x (map (fun z => wrap64 (z - 1)) zs) same e us)
    as [w' [l' [A [B [C D]]]]]; auto.
  - now rewrite map_length.
  - now rewrite map_length.
  - intros j Hj. apply in_map_iff in Hj. destruct Hj as [q [<- _]]. apply P0.
  - exists (wrap64 (z - 1)). split; [apply in_map_iff; eauto|]. apply wrap_less1_out; auto. lia.
  - exists (map (fun z => wrap64 (z - 1)) zs), w', l'. split.
    + unfold subset_vec. rewrite (int_index_positions lm w _ ei zs); auto; [intros ->; easy|lia].
    + split; [exact A|]. split; [|split; [|split; [exact C|]]].
      * intros y Vy Ny. pose proof (re_holds _ _ _ _ _ B y Vy) as H. unfold setl in H.
        destruct (Nat.eqb_spec y x); [easy|exact H].
      * pose proof (re_holds _ _ _ _ _ B x Vx) as H. unfold setl in H. now rewrite Nat.eqb_refl in H.
      * rewrite map_length in D. exact D.
Qed.
Print Assumptions c25_write_throws_partial.

(** x0(c(1, 9)) = x1 + 3: throws, but the first element has changed. *)
Theorem c25_write_changes_refuted : exists ps w',
  subset_vec ex_lm ex_w (EVar 0) (IV TInt (ints [1; 9])) = Done (ESub (EVar 0) ps mp_none) /\
  assign_subset ex_lm 5 0 ps false (EBin OPlus (EVar 1) (ESca d3)) ex_w = (Thrown msg_oob, w') /\
  vholds ex_w 0 [d1; d2; d3] /\ vholds w' 0 [d3; d2; d3].
Proof.
  eexists. eexists. split; [vm_compute; reflexivity|].
  split; [apply pair_eta; [vm_compute; reflexivity|reflexivity]|].
  split; [exact ex_holds0|show_holds].
Qed.
Print Assumptions c25_write_changes_refuted.

(** A vector of doubles with a negative entry is not rejected: its conversion
    to an unsigned integer is undefined. *)
Theorem c25_negative_double_refuted : forall lm w x ei fs zs,
  yields lm w ei (map VD fs) -> Forall2 int_part fs zs ->
  (exists z, In z zs /\ z < 0) -> (forall z, In z zs -> z < 2 ^ 64) ->
  subset_vec lm w (EVar x) (IV TDouble ei) = Undef UB_cast.
Proof.
  intros lm w x ei fs zs Y F Ng R. unfold subset_vec.
  now rewrite (double_index_undef lm w (esize w (EVar x)) ei fs zs).
Qed.
Print Assumptions c25_negative_double_refuted.
Example c25_negative_ex : yields ex_lm ex_w (dbls [i2f (-1)]) (map VD [i2f (-1)]) /\ Forall2 int_part [i2f (-1)] [-1].
Proof. split; [apply yields_tmp|]. constructor; [show_part|constructor]. Qed.

(** Positions of type int that are computed, or are themselves a subset, arrive
    as doubles: one below 1 is converted to an unsigned integer, too. *)
Theorem c25_computed_int_refuted : forall lm w x ei zs,
  yields lm w ei (map VI zs) -> own_type ei = false ->
  (exists z, In z zs /\ z < 1) -> (forall z, In z zs -> - 2 ^ 31 < z < 2 ^ 31) ->
  subset_vec lm w (EVar x) (IV TInt ei) = Undef UB_cast.
Proof.
  intros lm w x ei zs Y F Ng R. unfold subset_vec.
  now rewrite (int_index_undef lm w (esize w (EVar x)) ei zs).
Qed.
Print Assumptions c25_computed_int_refuted.
(** c(1, 2) - 1 as positions: 0 and 1. *)
Example c25_computed_ex : yields ex_lm ex_w (EBin OMinus (ints [1; 2]) (ESca (VI 1))) (map VI [0; 1]).
Proof.
  split; [vm_compute; reflexivity|]. intros i Hi.
  repeat (destruct i as [|i]; [apply pair_eta; [vm_compute; reflexivity|apply elem_pure]|]). simpl in Hi. lia.
Qed.

(* ------------------------------------------------------------------ C26 *)

(** l are the elements of the matrix, nr x nc its shape; rs and cs the rows and
    columns that the two selectors select.  All 36 combinations of selectors
    except two doubles.  Missing to the full property: the exceptions in
    [good_pair], masks that are shorter than the dimension, and selections with
    more elements than the matrix. *)
Theorem c26_matrix_subset_partial : forall lm w e l iL iR nr nc rs cs,
  yields lm w e l -> eim w e = true -> edim rows w e = Done nr -> edim cols w e = Done nc ->
  Z.of_nat (length l) = nr * nc -> nr <= int_max -> nc <= int_max ->
  selects lm w nr iL rs -> selects lm w nc iR cs -> good_pair nr nc iL iR ->
  (length rs * length cs <= length l)%nat -> Z.of_nat (length rs) <= int_max -> Z.of_nat (length cs) <= int_max ->
  exists ind m, subset_mat lm w e iL iR = Done (ESub e ind m) /\ column_major nr rs cs ind /\
    (forall a b, (a < length cs)%nat -> (b < length rs)%nat ->
       elem lm (ESub e ind m) (Z.of_nat (a * length rs + b)) w =
       (Done (read e (nth (Z.to_nat (nth a cs 0 * nr + nth b rs 0)) l (VB false))), w)) /\
    (shaped_pair e iL iR = true -> m = mkMP true (Z.of_nat (length rs)) (Z.of_nat (length cs))).
Proof.
  intros lm w e l iL iR nr nc rs cs Y Im Dr Dc S Br Bc SL SR G Ln Lr Lc.
  pose proof (calc_ind_matrix_selects lm w e iL iR nr nc rs cs Im Dr Dc (eq_trans (proj1 Y) S) Br Bc SL SR Lr Lc G) as E.
  eexists. eexists. split; [unfold subset_mat; rewrite E; reflexivity|].
  pose proof (grid_column_major nr rs cs) as CM. split; [exact CM|]. split.
  - intros a b Ha Hb. destruct CM as [CL CN].
    assert (Ri : forall p, In p (grid nr rs cs) -> 0 <= p < Z.of_nat (length l)).
    { intros p Hp. unfold grid in Hp. apply in_flat_map in Hp. destruct Hp as [c [Ic Hp]].
      apply in_map_iff in Hp. destruct Hp as [r [<- Ir]].
      pose proof (selects_range _ _ _ _ _ _ SL Ir). pose proof (selects_range _ _ _ _ _ _ SR Ic). nia. }
    assert (Hab : (a * length rs + b < length rs * length cs)%nat) by nia.
    match goal with |- elem _ (ESub _ _ ?m) _ _ = _ =>
      destruct (yields_sub lm w e l (grid nr rs cs) m Y Ri) as [_ YS] end; [lia|].
    rewrite map_length, CL in YS. rewrite YS by auto.
    rewrite nth_map_in with (a := 0) by (rewrite CL; auto). now rewrite CN.
  - cbn [snd]. intros ->. reflexivity.
Qed.
Print Assumptions c26_matrix_subset_partial.
(** m(c(2, 1), TRUE) of the 2 x 2 matrix 3, 2, 1, 0. *)
Example c26_ex : exists ind m, subset_mat ex_lm ex_w ex_mat (IV TInt (ints [2; 1])) (IB true) = Done (ESub ex_mat ind m) /\
  ind = [1; 0; 3; 2] /\ selects ex_lm ex_w 2 (IV TInt (ints [2; 1])) [1; 0] /\ selects ex_lm ex_w 2 (IB true) [0; 1].
Proof.
  eexists. eexists. split; [vm_compute; reflexivity|]. split; [reflexivity|]. split.
  - apply (Sel_ints _ _ _ _ [2; 1]); [apply yields_tmp|easy|]. intros z [<-|[<-|[]]]; lia.
  - apply (Sel_all ex_lm ex_w 2). lia.
Qed.

(** m(double, double) asks for one element and gets another one, whenever the
    matrix has more than one row. *)
Theorem c26_two_doubles_refuted : forall lm w e nr nc r c zr zc,
  eim w e = true -> edim rows w e = Done nr -> edim cols w e = Done nc ->
  2 <= nr <= int_max -> nc <= int_max -> int_part r zr -> int_part c zc -> 1 <= zr <= nr -> 1 <= zc <= nc ->
  exists p, subset_mat lm w e (IF r) (IF c) = Done (ESub e [p] mp_none) /\ p <> (zc - 1) * nr + (zr - 1).
Proof.
  intros lm w e nr nc r c zr zc Im Dr Dc Br Bc Pr Pc Hr Hc.
  exists (wrap64 (zc - nr + (zr - 1))). split.
  - unfold subset_mat. rewrite (two_doubles_pos lm w e nr nc r c zr zc) by (auto; lia). reflexivity.
  - unfold int_max in *. destruct (Z_lt_le_dec (zc - nr + (zr - 1)) 0).
    + unfold wrap64. rewrite <- (Z_mod_plus_full _ 1). rewrite Z.mod_small by lia. nia.
    + rewrite wrap64_small by lia. nia.
Qed.
Print Assumptions c26_two_doubles_refuted.
Example c26_two_doubles_ex : exists p, subset_mat ex_lm ex_w ex_mat (IF (i2f 2)) (IF (i2f 2)) = Done (ESub ex_mat [p] mp_none) /\ p = 1.
Proof. eexists. split; vm_compute; reflexivity. Qed.

(** A logical vector shorter than the number of rows is not recycled: only the
    rows it covers can be selected. *)
Theorem c26_short_mask_refuted : forall lm w e er bs nr nc,
  eim w e = true -> edim rows w e = Done nr -> edim cols w e = Done nc ->
  1 <= nr <= int_max -> 1 <= nc <= int_max -> yields lm w er (map VB bs) -> In true bs ->
  Z.of_nat (length bs) <= nr ->
  exists ind m, subset_mat lm w e (IV TBool er) (IB true) = Done (ESub e ind m) /\
    column_major nr (map Z.of_nat (filter (fun i => nth i bs false) (seq 0 (length bs))))
      (map Z.of_nat (seq 0 (Z.to_nat nc))) ind.
Proof.
  intros lm w e er bs nr nc Im Dr Dc Br Bc Y T L. eexists. eexists. split.
  - unfold subset_mat. rewrite (short_mask lm w e er bs nr nc) by auto. reflexivity.
  - apply grid_column_major.
Qed.
Print Assumptions c26_short_mask_refuted.
(** m(c(TRUE), TRUE) of a 2 x 2 matrix selects only the first row. *)
Example c26_short_mask_ex : exists ind m, subset_mat ex_lm ex_w ex_mat (IV TBool (bools [true])) (IB true) = Done (ESub ex_mat ind m) /\
  ind = [0; 2].
Proof. eexists. eexists. split; vm_compute; reflexivity. Qed.

(** All rows and columns of an operation: the elements are there, but the
    result is no longer a matrix. *)
Theorem c26_operation_refuted : forall lm w op a b nr nc,
  eim w (EBin op a b) = true -> edim rows w (EBin op a b) = Done nr -> edim cols w (EBin op a b) = Done nc ->
  1 <= esize w (EBin op a b) < 2 ^ 64 ->
  exists ind e', subset_mat lm w (EBin op a b) (IB true) (IB true) = Done e' /\ e' = ESub (EBin op a b) ind mp_none /\
    eim w e' = false /\ ind = map Z.of_nat (seq 0 (Z.to_nat (esize w (EBin op a b)))).
Proof.
  intros lm w op a b nr nc Im Dr Dc B. eexists. eexists. split; [|split; [reflexivity|split; [reflexivity|reflexivity]]].
  unfold subset_mat, calc_ind_matrix. rewrite Im, Dr, Dc. cbn [negb obind andb emp].
  remember (esize w (EBin op a b)) as n eqn:En. clear En.
  fold (iota (Z.to_nat n)). rewrite store_ind_ok; [reflexivity| |rewrite iota_length; lia].
  intros E. apply (f_equal (@List.length Z)) in E. rewrite iota_length in E. simpl in E. lia.
Qed.
Print Assumptions c26_operation_refuted.
(** (m + m)(TRUE, TRUE) of the 2 x 2 matrix. *)
Example c26_operation_ex : eim ex_w (EBin OPlus ex_mat ex_mat) = true /\ edim rows ex_w (EBin OPlus ex_mat ex_mat) = Done 2 /\
  edim cols ex_w (EBin OPlus ex_mat ex_mat) = Done 2 /\ esize ex_w (EBin OPlus ex_mat ex_mat) = 4.
Proof. split; [|split; [|split]]; vm_compute; reflexivity. Qed.

(** A mask without TRUE selects no rows (or no columns): whatever the other
    index is, there is no subset. *)
Theorem c26_no_true : forall lm w e em bs idx e', yields lm w em (map VB bs) -> bs <> [] -> ~ In true bs ->
  subset_mat lm w e (IV TBool em) idx <> Done e' /\ subset_mat lm w e idx (IV TBool em) <> Done e'.
Proof.
  intros lm w e em bs idx e' Y Ne NT.
  assert (Z : forall l, (forall b, In b l -> In b bs) -> true_at l 0 = []).
  { intros l Hl. generalize 0. induction l as [|b l IH]; intros k; [reflexivity|]. cbn [true_at].
    destruct b; [destruct NT; apply Hl; now left|]. apply IH. intros; apply Hl; now right. }
  assert (PN : forall l d, (forall b, In b l -> In b bs) -> positions l d = Thrown zero_size).
  { intros l d Hl. unfold positions. now rewrite (Z l Hl). }
  assert (RN : forall n, exists l, mask_rec lm w em n = Done l /\ forall b, In b l -> In b bs).
  { intros n. rewrite (mask_rec_ok lm w em bs n Y Ne). eexists. split; [reflexivity|].
    intros b Hb. apply in_map_iff in Hb. destruct Hb as [k [<- _]]. apply nth_In. apply Nat.mod_upper_bound.
    destruct bs; [congruence|cbn; lia]. }
  pose proof (mask_own_ok lm w em bs Y) as O. pose proof (mask_ones_ok lm w em bs Y) as O1.
  split; unfold subset_mat, calc_ind_matrix; destruct (negb (eim w e)); try discriminate;
    (destruct (edim rows w e) as [nr| |]; [|discriminate|discriminate]); cbn [obind];
    (destruct (edim cols w e) as [nc| |]; [|discriminate|discriminate]); cbn [obind];
    destruct (RN nr) as [lr [Er Hr]], (RN nc) as [lc [Ec Hc]]; destruct idx as [| | |[] ex]; cbn zeta;
    rewrite ?Er, ?Ec, ?O, ?O1; cbn [obind]; unfold positions_int, positions_ones;
    rewrite ?(PN _ _ Hr), ?(PN _ _ Hc), ?(PN bs _ (fun b H => H)), ?(Z bs (fun b H => H)); cbn [obind];
    repeat match goal with
    | |- context [if ?b then _ else _] => destruct b; cbn [obind]
    | |- context [obind ?m _] =>
        lazymatch m with obind _ _ => fail | (if _ then _ else _) => fail | _ => destruct m end; cbn [obind]
    end; discriminate.
Qed.
Print Assumptions c26_no_true.
Example c26_no_true_ex : yields ex_lm ex_w (bools [false; false]) (map VB [false; false]) /\ ~ In true [false; false] /\
  exists e', subset_mat ex_lm ex_w ex_mat (IV TBool (bools [true; false])) (IZ 1) = Done e'.
Proof. split; [apply (yields_tmp _ _ TBool (map VB [false; false]))|]. split; [now intros [H|[H|[]]]|]. eexists. vm_compute. reflexivity. Qed.

(** Rows by a mask and columns by positions: not a matrix either, however many
    rows and columns are selected. *)
Theorem c26_mask_positions_refuted : forall lm w e l er ec t nr nc rs cs,
  yields lm w e l -> eim w e = true -> edim rows w e = Done nr -> edim cols w e = Done nc ->
  Z.of_nat (length l) = nr * nc -> nr <= int_max -> nc <= int_max -> t <> TBool ->
  selects lm w nr (IV TBool er) rs -> selects lm w nc (IV t ec) cs ->
  Z.of_nat (length rs) <= int_max -> Z.of_nat (length cs) <= int_max ->
  exists ind, subset_mat lm w e (IV TBool er) (IV t ec) = Done (ESub e ind mp_none) /\ column_major nr rs cs ind.
Proof.
  intros lm w e l er ec t nr nc rs cs Y Im Dr Dc S Br Bc Ht SL SR Lr Lc. exists (grid nr rs cs). split; [|apply grid_column_major].
  unfold subset_mat. rewrite (calc_ind_matrix_selects lm w e _ _ nr nc rs cs Im Dr Dc (eq_trans (proj1 Y) S) Br Bc SL SR Lr Lc).
  - cbn [obind fst snd]. unfold shaped_pair. cbn [single negb andb]. destruct t; [easy|reflexivity|reflexivity].
  - destruct t; [easy|exact I|exact I].
Qed.
Print Assumptions c26_mask_positions_refuted.
(** m(c(TRUE, TRUE), c(1, 2)): all four elements. *)
Example c26_mask_positions_ex : selects ex_lm ex_w 2 (IV TBool (bools [true; true])) [0; 1] /\
  selects ex_lm ex_w 2 (IV TInt (ints [1; 2])) [0; 1] /\
  subset_mat ex_lm ex_w ex_mat (IV TBool (bools [true; true])) (IV TInt (ints [1; 2])) = Done (ESub ex_mat [0; 1; 2; 3] mp_none).
Proof.
  split; [|split; [|vm_compute; reflexivity]].
  - apply (Sel_mask ex_lm ex_w 2 _ [true; true]); [apply yields_tmp|reflexivity|simpl; auto].
  - apply (Sel_ints _ _ _ _ [1; 2]); [apply yields_tmp|easy|]. intros z [<-|[<-|[]]]; lia.
Qed.

(* ------------------------------------------------------------------ C27 *)

(** A row beyond the number of rows whose position is still inside the matrix
    is not rejected: an element of another column is read. *)
Theorem c27_row_beyond_refuted : forall lm w e l nr nc r c,
  yields lm w e l -> eim w e = true -> edim rows w e = Done nr -> edim cols w e = Done nc ->
  Z.of_nat (length l) = nr * nc -> nr <= int_max -> nc <= int_max ->
  nr < r <= int_max -> 1 <= c < nc -> (c - 1) * nr + (r - 1) < nr * nc ->
  exists e', subset_mat lm w e (IZ r) (IZ c) = Done e' /\
    elem lm e' 0 w = (Done (read e (nth (Z.to_nat ((c - 1) * nr + (r - 1))) l (VB false))), w).
Proof.
  intros lm w e l nr nc r c Y Im Dr Dc S Br Bc Hr Hc B. unfold int_max in *.
  eexists. split.
  - unfold subset_mat. rewrite (int_pair lm w e nr nc) by (auto; lia). reflexivity.
  - cbn [fst snd]. assert (0 <= (c - 1) * nr + (r - 1) < nr * nc) by nia.
    assert (Pn : 0 < nr) by nia. assert (nr * nc <= (2 ^ 31 - 1) * (2 ^ 31 - 1)) by (apply Z.mul_le_mono_nonneg; lia).
    rewrite wrap64_small by lia.
    destruct (yields_sub lm w e l [(c - 1) * nr + (r - 1)] mp_none Y) as [_ YS];
      [intros p [<-|[]]; lia|simpl; lia|].
    exact (YS 0%nat ltac:(simpl; lia)).
Qed.
Print Assumptions c27_row_beyond_refuted.
(** m(3, 1) of a 2 x 2 matrix is m(1, 2). *)
Example c27_ex : exists e', subset_mat ex_lm ex_w ex_mat (IZ 3) (IZ 1) = Done e' /\ elem ex_lm e' 0 ex_w = (Done d1, ex_w).
Proof. exists (ESub ex_mat [2] mp_none). split; [vm_compute; reflexivity|]. apply pair_eta; [vm_compute; reflexivity|apply elem_pure]. Qed.

(** Rejected are positions beyond the whole matrix, in particular every column
    beyond the number of columns.  Missing: rows beyond the number of rows. *)
Theorem c27_beyond_matrix_partial : forall lm w x l nr nc r c,
  world_shape w -> vholds w x l -> is_matrix w x nr nc ->
  1 <= nr <= int_max -> 1 <= nc <= int_max -> 1 <= r <= int_max -> 1 <= c <= int_max ->
  nr * nc <= (c - 1) * nr + (r - 1) ->
  exists e', subset_mat lm w (EVar x) (IZ r) (IZ c) = Done e' /\ elem lm e' 0 w = (Thrown msg_oob, w).
Proof.
  intros lm w x l nr nc r c W H [M S] Hnr Hnc Hr Hc B. unfold int_max in *. pose proof (proj1 H) as SL.
  assert (L1 : Z.of_nat (length l) = nr * nc) by congruence.
  assert (N : l <> []) by (intros ->; simpl in L1; nia).
  eexists. split.
  - unfold subset_mat. rewrite (int_pair lm w (EVar x) nr nc); [reflexivity| | | |lia];
      cbn [eim edim]; now rewrite M.
  - cbn [fst snd]. apply (sub_out lm w x l _ _ 0%nat); [auto|auto|auto|simpl; lia|destruct l; simpl; [congruence|lia]|].
    cbn [nth]. rewrite wrap64_small by nia. lia.
Qed.
Print Assumptions c27_beyond_matrix_partial.
Example c27_ex2 : exists w1, assign ex_lm 0 ex_mat ex_w = (Done tt, w1) /\ is_matrix w1 0 2 2 /\ vholds w1 0 [d3; d2; d1; d0].
Proof.
  eexists. split; [apply pair_eta; [vm_compute; reflexivity|reflexivity]|].
  split; [split; vm_compute; reflexivity|show_holds].
Qed.

(* ------------------------------------------------------------------ C28 *)

(** at(v, i) on a vector variable: i counts from 1; positions outside throw. *)
Theorem c28_at_vector_partial : forall w x l i z, world_shape w -> vholds w x l -> pos_is i z ->
  - 2 ^ 31 < z < 2 ^ 31 -> l <> [] ->
  (1 <= z <= Z.of_nat (length l) -> at_vec x i w = (Done (nth (Z.to_nat (z - 1)) l (VB false)), w)) /\
  (~ 1 <= z <= Z.of_nat (length l) -> exists m, at_vec x i w = (Thrown (Ass m), w)).
Proof.
  intros w x l i z W H P B N. split; intros R.
  - apply (at_vec_in w x l W H); auto. lia.
  - unfold at_vec. rewrite bind_get, (at_pos_out w x l W H i z) by auto.
    destruct (z <? 1); eexists; reflexivity.
Qed.
Print Assumptions c28_at_vector_partial.
(** at(v, i) = u changes exactly that element. *)
Theorem c28_at_vector_write_partial : forall w x l i z u, world_shape w -> kd (ob w (OD x)) = KBuffer ->
  vholds w x l -> pos_is i z -> 1 <= z <= Z.of_nat (length l) -> z < 2 ^ 31 ->
  exists w', at_vec_set x i u w = (Done tt, w') /\ step1 w w' (OD x) /\ ob w' = ob w /\
    vholds w' x (list_set l (Z.to_nat (z - 1)) u).
Proof.
  intros w x l i z u W K H P R B. rewrite (at_vec_set_in w x l W H i z u) by auto.
  apply at_wr_own; auto. lia.
Qed.
Print Assumptions c28_at_vector_write_partial.
Theorem c28_at_matrix_partial : forall w x l i j r c nr nc, world_shape w -> vholds w x l -> is_matrix w x nr nc ->
  pos_is i r -> pos_is j c -> 1 <= r <= nr -> 1 <= c <= nc -> nr < 2 ^ 31 -> nc < 2 ^ 31 ->
  at_mat x i j w = (Done (nth (Z.to_nat ((c - 1) * nr + (r - 1))) l (VB false)), w).
Proof. intros. apply (at_mat_in w x l) with (nc := nc); auto. Qed.
Print Assumptions c28_at_matrix_partial.
Theorem c28_at_matrix_write_partial : forall w x l i j r c nr nc u, world_shape w -> kd (ob w (OD x)) = KBuffer ->
  vholds w x l -> is_matrix w x nr nc ->
  pos_is i r -> pos_is j c -> 1 <= r <= nr -> 1 <= c <= nc -> nr < 2 ^ 31 -> nc < 2 ^ 31 ->
  exists w', at_mat_set x i j u w = (Done tt, w') /\ step1 w w' (OD x) /\ ob w' = ob w /\
    vholds w' x (list_set l (Z.to_nat ((c - 1) * nr + (r - 1))) u).
Proof.
  intros w x l i j r c nr nc u W K H M P1 P2 R1 R2 B1 B2.
  rewrite (at_mat_set_in w x l W H i j r c nr nc u) by auto.
  apply at_wr_own; auto. destruct M as [_ S]. pose proof (proj1 H) as S'. rewrite <- S', S. nia.
Qed.
Print Assumptions c28_at_matrix_write_partial.
(** A matrix value of an expression. *)
Theorem c28_at_matrix_value_partial : forall lm w e l i j r c nr nc,
  yields lm w e l -> eim w e = true -> edim rows w e = Done nr ->
  Z.of_nat (length l) = nr * nc -> pos_is i r -> pos_is j c ->
  1 <= r <= nr -> 1 <= c <= nc -> nr < 2 ^ 31 -> nc < 2 ^ 31 ->
  at_mat_expr lm e i j w = (Done (read e (nth (Z.to_nat ((c - 1) * nr + (r - 1))) l (VB false))), w).
Proof. intros. apply at_mat_expr_in with (nc := nc); auto. Qed.
Print Assumptions c28_at_matrix_value_partial.
Example c28_ex : at_vec 0 (PF f25) ex_w = (Done d2, ex_w) /\ pos_is (PF f25) 2 /\
  at_mat_expr ex_lm ex_mat (PZ 2) (PF f25) ex_w = (Done d0, ex_w).
Proof.
  split; [apply (c28_at_vector_partial ex_w 0 [d1; d2; d3] (PF f25) 2);
    [exact ex_shape|exact ex_holds0|show_part|lia|easy|simpl; lia]|].
  split; [show_part|]. apply (c28_at_matrix_value_partial _ _ ex_mat [d3; d2; d1; d0] _ _ 2 2 2 2);
    try reflexivity; try lia; [apply yields_tmp|show_part].
Qed.

(** On the value of an expression (or a temporary, or a subset) positions of
    at(v, i) count from 0: at(e, i) is element i + 1. *)
Theorem c28_at_value_refuted : forall lm w e l i, yields lm w e l -> 0 <= i < Z.of_nat (length l) -> i < 2 ^ 64 ->
  at_expr lm e (PZ i) w = (Done (read e (nth (Z.to_nat i) l (VB false))), w).
Proof.
  intros lm w e l i Y B B64. unfold at_expr. rewrite bind_lift_done, wrap64_small by lia.
  rewrite <- (Z2Nat.id i) at 1 by lia. apply vat_done, (proj2 Y). lia.
Qed.
Print Assumptions c28_at_value_refuted.
Example c28_refuted_ex : at_expr ex_lm (dbls [i2f 1; i2f 2]) (PZ 1) ex_w = (Done d2, ex_w).
Proof. apply pair_eta; [vm_compute; reflexivity|reflexivity]. Qed.
