(** Proofs about structured programs: expressions, conditions and calls that
    make vectors. *)
From Coq Require Import ZArith List String Bool Lia Reals Psatz.
From Flocq Require Import Core BinarySingleNaN.
From Verif Require Import Base Num StoreModel VecModel SubsetModel AllocModel ProgModel FloatBridge
  Spec SpecExpr SpecHist SpecProg SpecSub SpecAlloc SpecStmt
  StoreProofs StoreOps StoreThms StoreThms2 VecProofs VecThms VecEval SubsetProofs SubsetThms
  AllocProofs AllocProofs2 AllocProofs3 AllocProofs4 ProgProofs.
Import ListNotations.
Open Scope Z_scope.
Local Notation length := List.length (only parsing).

Scheme pexpr_mut := Induction for pexpr Sort Prop with pindex_mut := Induction for pindex Sort Prop.
Combined Scheme pexpr_pindex_ind from pexpr_mut, pindex_mut.

Definition index_vars (i : index) : list nat := match i with IV _ e => vars e | _ => [] end.

Lemma means_vars lm V rho : (forall e e', means lm V rho e e' -> incl (vars e') V) /\
  (forall i i', means_index lm V rho i i' -> incl (index_vars i') V).
Proof.
  apply pexpr_pindex_ind; intros; cbn [means means_index] in *.
  - destruct H as [Hx ->]. intros y [<-|[]]. exact Hx.
  - subst. intros y [].
  - destruct H1 as [l' [r' [M1 [M2 ->]]]]. cbn [vars]. apply incl_app; auto.
  - destruct H0 as [e1 [M1 ->]]. cbn [vars]. auto.
  - destruct H1 as [e1 [i1 [ps [M1 [_ [_ [_ ->]]]]]]]. cbn [vars]. auto.
  - subst. intros y [].
  - subst. intros y [].
  - subst. intros y [].
  - destruct H0 as [e1 [M1 ->]]. cbn [index_vars]. auto.
Qed.

Lemma zseq_seq k n : zseq (Z.of_nat k) n = map Z.of_nat (seq k n).
Proof.
  revert k. induction n as [|n IH]; intros k; cbn [zseq seq map]; [reflexivity|].
  f_equal. rewrite <- IH. f_equal. lia.
Qed.

Section Build.
Variables (lm : libm) (lim : Z) (ty : nat -> ety) (V : list nat) (w : world) (rho : state).
Hypothesis R : repr w lim ty V rho.

Lemma denotes_yields e l : incl (vars e) V -> wf_expr rho e -> denotes lm rho e l -> yields lm w e l.
Proof.
  intros I F [L D]. pose proof (repr_env _ _ _ _ _ _ R I) as E. split.
  - rewrite (esize_xsize w rho e E F). congruence.
  - intros i Hi. rewrite (elem_xval lm w rho e (re_shape _ _ _ _ _ R) E F) by lia. now rewrite D.
Qed.

Lemma size_here e : incl (vars e) V -> wf_expr rho e -> esize w e = xsize rho e.
Proof. intros I F. apply esize_xsize; auto. eapply repr_env; eauto. Qed.

Lemma picks_calc d i ps : 0 <= d -> incl (index_vars i) V -> picks lm rho d i ps ->
  calc_ind_vector lm w d i = Done ps.
Proof.
  intros D I P. destruct P; cbn [index_vars] in I.
  - cbn [calc_ind_vector]. assert (E : zseq 0 (Z.to_nat d) = iota (Z.to_nat d)).
    { apply (zseq_seq 0). }
    rewrite E. apply store_ind_ok.
    + intros X. apply (f_equal (@List.length Z)) in X. rewrite iota_length in X. simpl in X. lia.
    + rewrite iota_length. lia.
  - cbn [calc_ind_vector]. rewrite SubsetProofs.int_res_ok by lia. cbn [obind]. apply store_ind_ok; [discriminate|reflexivity].
  - cbn [calc_ind_vector]. rewrite (convert_sub_ok f z) by auto. cbn [obind]. rewrite wrap64_small by lia.
    apply store_ind_ok; [discriminate|reflexivity].
  - pose proof (denotes_yields _ _ I H0 H1) as Y.
    destruct (calc_ind_vector_mask lm w d e bs) as [A _]; [now split|auto|auto|]. cbv zeta in A. rewrite <- H3 in A. now apply A.
  - pose proof (denotes_yields _ _ I H H0) as Y. apply int_index_positions; auto.
  - pose proof (denotes_yields _ _ I H H0) as Y.
    pose proof (Forall2_len _ _ _ H3) as L.
    cbn [calc_ind_vector]. rewrite (yields_size _ _ _ _ _ Y), Nat2Z.id.
    rewrite (omap_iota _ _ (map (fun z => z - 1) zs) 0).
    + cbn [obind]. apply store_ind_ok; [destruct zs; simpl; congruence|now rewrite map_length].
    + now rewrite map_length.
    + intros k Hk. rewrite (yields_at _ _ _ _ _ _ Y) by (now rewrite map_length).
      rewrite (nth_map_val VD fs k fzero) by lia.
      replace (if stored e then cast TDouble (VD (nth k fs fzero)) else Done (VD (v2f (VD (nth k fs fzero))))) with (Done (VD (nth k fs fzero)))
        by (destruct (stored e); reflexivity). cbn [obind v2f].
      pose proof (Forall2_nth _ _ _ fzero 0 k H3 Hk) as IP.
      assert (Bz : 1 <= nth k zs 0 < 2 ^ 31) by (apply H4; apply nth_In; lia).
      rewrite (int_part_f2size _ _ IP) by lia. cbn [obind]. rewrite wrap64_small by lia.
      now rewrite (nth_map_in (fun z => z - 1) zs k 0 0) by lia.
Qed.

Lemma build_means : (forall e e', means lm V rho e e' -> build lm w e = Done e') /\
  (forall i i', means_index lm V rho i i' -> build_index lm w i = Done i').
Proof.
  apply pexpr_pindex_ind; intros; cbn [means means_index build build_index] in *.
  - destruct H as [_ ->]. reflexivity.
  - now subst.
  - destruct H1 as [l' [r' [M1 [M2 ->]]]]. now rewrite (H _ M1), (H0 _ M2).
  - destruct H0 as [e1 [M1 ->]]. now rewrite (H _ M1).
  - destruct H1 as [e1 [i1 [ps [M1 [F [M2 [P ->]]]]]]]. rewrite (H _ M1), (H0 _ M2). cbn [obind].
    destruct (means_vars lm V rho) as [MV MI].
    unfold subset_vec. rewrite (size_here e1) by (auto; now apply MV in M1).
    rewrite (picks_calc _ _ ps); [reflexivity|apply xsize_nonneg|now apply MI in M2|exact P].
  - now subst.
  - now subst.
  - now subst.
  - destruct H0 as [e1 [M1 ->]]. now rewrite (H _ M1).
Qed.

Lemma condition_decides c b : decides lm V rho c b -> condition lm c w = (b, w).
Proof.
  intros [e [M [F [S ->]]]]. unfold condition. rewrite bind_get, (proj1 build_means _ _ M), bind_lift_done.
  unfold to_scalar. unfold bind. rewrite vat_read. unfold bind. rewrite (elem_xval lm w rho e (re_shape _ _ _ _ _ R)); auto; try lia.
  - destruct (xval lm rho e 0); try reflexivity. unfold ret. now rewrite truth_read.
  - eapply repr_env; eauto. now apply (proj1 (means_vars lm V rho)) in M.
Qed.

Lemma arg_built a l : arg_is lm V rho a l -> exists a', build_arg lm w a = Done a' /\ items lm w a' l /\
  arg_ty a' = parg_ty a /\ incl (arg_vars a') V.
Proof.
  destruct a as [v|t e]; cbn [arg_is build_arg].
  - intros ->. exists (AS v). repeat split; auto. intros y [].
  - intros [e' [M [F D]]]. exists (AV t e'). rewrite (proj1 build_means _ _ M). split; [reflexivity|].
    pose proof (proj1 (means_vars lm V rho) _ _ M) as I. split; [|split; auto]. now apply denotes_yields.
Qed.

Lemma arg_first a l : arg_is lm V rho a l -> l <> [] -> of_type a l -> exists a', build_arg lm w a = Done a' /\
  first_is lm w a' (hd (VB false) l) /\ arg_ty a' = parg_ty a.
Proof.
  intros A Ne T. destruct (arg_built a l A) as [a' [B [It [Ty _]]]]. exists a'. split; [exact B|]. split; [|exact Ty].
  destruct l as [|v l]; [congruence|]. simpl. destruct a' as [u|t e]; simpl in *; [congruence|].
  split; [rewrite Ty; apply T; now left|]. apply (proj2 It 0%nat). simpl; lia.
Qed.
End Build.

(* -------------------------------------------------------------- the makers *)

Lemma dbl_unique d z : valid d -> finite d -> fR d = IZR z -> z <> 0 -> Z.abs z <= 2 ^ 53 -> d = i2f z.
Proof.
  intros Vd Fd E Nz Bz. destruct (i2f_exact z Bz) as [E2 F2]. pose proof (i2f_valid z) as V2.
  destruct (valid_b d Vd) as [b1 H1], (valid_b (i2f z) V2) as [b2 H2].
  rewrite <- H2 in *. subst d. f_equal.
  apply finite_b in Fd. apply finite_b in F2.
  assert (B1 : B2R b1 = IZR z) by (rewrite <- E; symmetry; apply SF2R_B2SF).
  assert (B2 : B2R b2 = IZR z) by (rewrite <- E2; symmetry; apply SF2R_B2SF).
  apply B2R_inj; [| |congruence].
  - destruct b1; simpl in *; try discriminate; auto. exfalso. apply Nz. apply eq_IZR. now rewrite <- B1.
  - destruct b2; simpl in *; try discriminate; auto. exfalso. apply Nz. apply eq_IZR. now rewrite <- B2.
Qed.

Lemma count_from_len a b : length (count_from a b) = Z.to_nat (Z.abs (a - b) + 1).
Proof. unfold count_from. now rewrite map_length, seq_length. Qed.

Lemma nth_ext_vals (l l' : list val) : length l = length l' ->
  (forall i, (i < length l)%nat -> nth i l (VB false) = nth i l' (VB false)) -> l = l'.
Proof. apply nth_ext. Qed.

Section Make.
Variables (lm : libm) (lim : Z) (ty : nat -> ety).

Lemma made_colon_int w x a' b' u v p q : world_shape w -> unborn w (OD x) -> unborn w (OT x) ->
  first_is lm w a' u -> first_is lm w b' v -> int_val u p -> int_val v q ->
  common (arg_ty a') (arg_ty b') = TInt -> ty_of u = arg_ty a' -> ty_of v = arg_ty b' ->
  - 2 ^ 30 < p < 2 ^ 30 -> - 2 ^ 30 < q < 2 ^ 30 -> fits w (Z.abs (p - q) + 1) ->
  exists w', colon_fn lm x a' b' w = (Done tt, w') /\ made w w' x TInt (map VI (count_from p q)) mp_none.
Proof.
  intros W D1 D2 Fa Fb Iu Iv C Tu Tv Bp Bq Ft.
  assert (Vu : v2z u = Some p).
  { destruct u; simpl in *; try congruence. rewrite <- Tu in C. simpl in C. discriminate. }
  assert (Vv : v2z v = Some q).
  { destruct v; simpl in *; try congruence. rewrite <- Tv in C. destruct (arg_ty a'); simpl in C; discriminate. }
  destruct (colon_int_done w x p q W D1 D2) as [w' [E M]]; unfold is_int; auto; try lia.
  exists w'. rewrite (colon_fn_int lm w x a' b' u v p q) by auto. split; [exact E|].
  unfold count_from. rewrite map_map.
  replace (map (fun k => VI (if p <=? q then p + Z.of_nat k else p - Z.of_nat k)) (seq 0 (Z.to_nat (Z.abs (p - q) + 1))))
    with (map (fun k => VI (colon_nth p q k)) (seq 0 (Z.to_nat (Z.abs (p - q) + 1)))); [exact M|].
  apply map_ext. intros k. reflexivity.
Qed.

Lemma int_val_dbl v z : int_val v z -> Z.abs z < 2 ^ 30 -> valid (v2f v) /\ finite (v2f v) /\ fR (v2f v) = IZR z.
Proof.
  intros I B. destruct v as [b|k|d]; simpl in I |- *; [..|exact I]; subst z.
  - destruct (i2f_exact (b2z b)) as [E F]; [lia|]. split; [apply i2f_valid|auto].
  - destruct (i2f_exact k) as [E F]; [lia|]. split; [apply i2f_valid|auto].
Qed.

Lemma made_colon_dbl w x a' b' u v p q : world_shape w -> unborn w (OD x) -> unborn w (OT x) ->
  first_is lm w a' u -> first_is lm w b' v -> int_val u p -> int_val v q ->
  common (arg_ty a') (arg_ty b') = TDouble ->
  0 < p < 2 ^ 30 -> 0 < q < 2 ^ 30 -> fits w (Z.abs (p - q) + 1) ->
  exists w', colon_fn lm x a' b' w = (Done tt, w') /\
    made w w' x TDouble (map (fun z => VD (i2f z)) (count_from p q)) mp_none.
Proof.
  intros W D1 D2 Fa Fb Iu Iv C Bp Bq Ft.
  destruct (int_val_dbl u p Iu) as [V1 [F1 R1]]; [lia|]. destruct (int_val_dbl v q Iv) as [V2 [F2 R2]]; [lia|].
  rewrite (colon_fn_dbl lm w x a' b' u v) by auto.
  assert (Ga : gridf 0 (v2f u) p) by (split; [|split]; auto; rewrite R1; unfold grid; simpl; lra).
  assert (Gb : gridf 0 (v2f v) q) by (split; [|split]; auto; rewrite R2; unfold grid; simpl; lra).
  destruct (colon_dbl_grid w x (v2f u) (v2f v) 0 p q W D1 D2) as [w' [us [E [M [L N]]]]]; auto; try (change (2 ^ 0) with 1; lia).
  { change (2 ^ 0) with 1. rewrite Z.div_1_r. lia. }
  { change (2 ^ 0) with 1. rewrite Z.div_1_r. exact Ft. }
  change (2 ^ 0) with 1 in L. rewrite Z.div_1_r in L.
  exists w'. split; [exact E|]. replace (map (fun z => VD (i2f z)) (count_from p q)) with us; [exact M|].
  assert (L2 : length (map (fun z => VD (i2f z)) (count_from p q)) = length us) by (now rewrite map_length, count_from_len).
  apply nth_ext_vals; [congruence|]. intros i Hi. destruct (N i Hi) as [d [-> [Vd [Fd Rd]]]].
  rewrite (nth_map_in (fun z => VD (i2f z)) (count_from p q) i 0) by (rewrite count_from_len; lia).
  f_equal. unfold count_from. rewrite nth_map_seq by lia. rewrite R1, R2, INR_IZR_INZ in Rd.
  destruct (Z.leb_spec p q) as [A|A]; destruct (Rle_dec (IZR p) (IZR q)) as [B|B].
  - apply dbl_unique; auto; [now rewrite plus_IZR|lia|lia].
  - exfalso. apply B. now apply IZR_le.
  - apply le_IZR in B. lia.
  - apply dbl_unique; auto; [now rewrite minus_IZR|lia|lia].
Qed.

Lemma concat_repeat_nth (us : list val) k i : us <> [] -> (i < k * length us)%nat ->
  nth i (List.concat (repeat us k)) (VB false) = nth (i mod length us) us (VB false).
Proof.
  intros Ne. assert (L : (length us <> 0)%nat) by (destruct us; simpl; congruence).
  revert i. induction k as [|k IH]; intros i Hi; [simpl in Hi; lia|]. cbn [repeat List.concat].
  destruct (le_lt_dec (length us) i) as [G|G].
  - rewrite app_nth2 by lia. rewrite IH by (simpl in Hi; lia). f_equal.
    replace i with ((i - length us) + 1 * length us)%nat at 2 by lia. now rewrite Nat.mod_add.
  - rewrite app_nth1 by lia. now rewrite Nat.mod_small.
Qed.
Lemma concat_repeat_len (us : list val) k : length (List.concat (repeat us k)) = (k * length us)%nat.
Proof. induction k as [|k IH]; [reflexivity|]. cbn [repeat List.concat]. rewrite app_length, IH. simpl. lia. Qed.

Lemma args_built V w rho args ls : repr w lim ty V rho -> Forall2 (arg_is lm V rho) args ls ->
  exists args', omap (build_arg lm w) args = Done args' /\ Forall2 (items lm w) args' ls /\
    map arg_ty args' = map parg_ty args /\ forall a, In a args' -> incl (arg_vars a) V.
Proof.
  intros R F. induction F as [|a l args ls A F IH].
  - exists []. repeat split; auto. intros a [].
  - destruct IH as [as' [E1 [E2 [E3 E4]]]]. destruct (arg_built lm lim ty V w rho R a l A) as [a' [B [It [Ty I]]]].
    exists (a' :: as'). cbn [omap]. rewrite B, E1. cbn [obind map]. rewrite Ty, E3. repeat split; auto.
    intros c [<-|Hc]; auto.
Qed.

Lemma make_creates w H V rho x m t l : alive w lim ty H V rho -> ~ In x (H ++ V) -> creates lm V lim rho m t l ->
  exists w', make lm x m w = (Done tt, w') /\ made w w' x t l mp_none.
Proof.
  intros A N [Lm C]. pose proof A as [R [O U]].
  pose proof (re_shape _ _ _ _ _ R) as W. pose proof (U x N) as D1.
  assert (Nv : ~ In x V) by (intros X; apply N; apply in_or_app; auto).
  pose proof (re_temp _ _ _ _ _ R x Nv) as D2.
  assert (Ft : fits w (Z.of_nat (length l))) by (unfold fits; rewrite (re_lim _ _ _ _ _ R); exact Lm).
  unfold make. rewrite bind_get. destruct m as [vt a|a b|i n|args].
  - destruct C as [v [n [Ai [Sz [Hn [-> ->]]]]]].
    destruct (arg_built lm lim ty V w rho R a [v] Ai) as [a' [B [It _]]]. rewrite B, bind_lift_done.
    rewrite repeat_length in Ft.
    eapply vector_fn_done; eauto. unfold fits in *. lia.
  - destruct C as [us [vs [p [q [Aa [Ab [N1 [N2 [T1 [T2 [I1 [I2 [Bp [Bq [Et C]]]]]]]]]]]]]]].
    destruct (arg_first lm lim ty V w rho R a us Aa N1 T1) as [a' [Ba [Fa Ta]]].
    destruct (arg_first lm lim ty V w rho R b vs Ab N2 T2) as [b' [Bb [Fb Tb]]].
    rewrite Ba, bind_lift_done, Bb, bind_lift_done.
    assert (Hu : ty_of (hd (VB false) us) = arg_ty a') by (rewrite Ta; apply T1; destruct us; [congruence|now left]).
    assert (Hv : ty_of (hd (VB false) vs) = arg_ty b') by (rewrite Tb; apply T2; destruct vs; [congruence|now left]).
    rewrite <- Ta, <- Tb in Et. destruct t; [contradiction| |].
    + subst l. rewrite map_length, count_from_len in Ft. eapply made_colon_int; eauto. unfold fits in *. lia.
    + destruct C as [Hp [Hq ->]]. rewrite map_length, count_from_len in Ft.
      eapply made_colon_dbl; eauto; try lia. unfold fits in *. lia.
  - destruct C as [us [vs [k [Ai [N1 [T1 [An [N2 [T2 [Sz [Hk [-> ->]]]]]]]]]]]].
    destruct (arg_built lm lim ty V w rho R i us Ai) as [i' [Bi [It [Ti Ii]]]].
    destruct (arg_first lm lim ty V w rho R n vs An N2 T2) as [n' [Bn [Fn Tn]]].
    rewrite Bi, bind_lift_done, Bn, bind_lift_done. rewrite concat_repeat_len in Ft.
    destruct (rep_done lm w x i' n' us (hd (VB false) vs) k) as [w' [us' [E [M [L Nt]]]]]; auto.
    { intros u Hu. rewrite Ti. now apply T1. }
    { unfold fits in *. nia. }
    exists w'. split; [exact E|]. rewrite <- Ti.
    replace (List.concat (repeat us (Z.to_nat k))) with us'; [exact M|].
    assert (L' : length us' = (Z.to_nat k * length us)%nat) by nia.
    apply nth_ext_vals; [now rewrite concat_repeat_len|]. intros j Hj. rewrite Nt by auto.
    symmetry. apply concat_repeat_nth; auto. lia.
  - destruct C as [ls [Aa [Tl [[a0 [In0 Ty0]] [Hi [Cs [Ne Bl]]]]]]].
    destruct (args_built V w rho args ls R Aa) as [args' [E1 [E2 [E3 E4]]]]. rewrite E1, bind_lift_done.
    assert (Ct : coca_type args' = t).
    { assert (Na : args' <> []) by (intros ->; destruct args; [destruct In0|discriminate]).
      destruct (coca_type_spec args' Na) as [[c [Hc Ec]] Hm].
      assert (X1 : In (arg_ty c) (map parg_ty args)) by (rewrite <- E3; apply in_map; auto).
      apply in_map_iff in X1. destruct X1 as [c2 [Ec2 Hc2]].
      assert (X2 : In (parg_ty a0) (map arg_ty args')) by (rewrite E3; apply in_map; auto).
      apply in_map_iff in X2. destruct X2 as [c3 [Ec3 Hc3]].
      pose proof (Hi c2 Hc2) as Y1. pose proof (Hm c3 Hc3) as Y2.
      rewrite Ec2, Ec in Y1. rewrite Ec3, Ty0 in Y2.
      clear - Y1 Y2. destruct (coca_type args'), t; simpl in *; auto; lia. }
    rewrite <- Ct in Cs |- *. eapply coca_done; eauto.
    intros a Ha X. apply Nv. now apply (E4 a Ha).
Qed.
End Make.
