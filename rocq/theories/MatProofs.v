(** Proofs about programs with matrices: shapes, expressions, makers. *)
From Coq Require Import ZArith List String Bool Lia Reals Floats.SpecFloat.
From Verif Require Import Base Num StoreModel VecModel SubsetModel AllocModel ProgModel LangModel FloatBridge
  Spec SpecExpr SpecVec SpecHist SpecProg SpecSub SpecAlloc SpecCons SpecStmt SpecMat
  CapProofs StoreProofs StoreOps StoreThms StoreThms2 VecProofs VecThms VecAssign VecEval SubsetProofs SubsetThms
  AllocProofs AllocProofs2 AllocProofs3 AllocProofs4 ConsProofs ConsProofs2 ProgProofs ProgProofs2 LangProofs.
Import ListNotations.
Open Scope Z_scope.
Local Notation length := List.length (only parsing).

(* ------------------------------------------------ calls that keep all shapes *)

Definition keep {A} (m : M world A) : Prop := forall w y, mp (ob (snd (m w)) (OD y)) = mp (ob w (OD y)).

Lemma keep_only {A} (m : M world A) : only (fun _ => False) m -> keep m.
Proof. intros O w y. now rewrite (O w (OD y)). Qed.
Lemma keep_temp {A} x (m : M world A) : only (fun o => o = OT x) m -> keep m.
Proof. intros O w y. rewrite (O w (OD y)); [reflexivity|congruence]. Qed.
Lemma keep_bind {A B} (m : M world A) (f : A -> M world B) : keep m -> (forall a, keep (f a)) -> keep (bind m f).
Proof.
  intros Hm Hf w y. unfold bind. specialize (Hm w y). destruct (m w) as [[a|e|u] w1]; simpl in *; auto.
  rewrite (Hf a w1 y). exact Hm.
Qed.
Lemma keep_upd x f : (forall s, mp (f s) = mp s) -> keep (upd x f).
Proof.
  intros H w y. unfold upd. cbn [snd]. destruct (oid_dec (OD y) x) as [<-|N]; [rewrite ob_set_same; apply H|now rewrite ob_set_other].
Qed.
Lemma keep_forN n : forall i body, (forall k, keep (body k)) -> keep (forN n i body).
Proof. induction n as [|n IH]; intros i body Hb; simpl; [intros w y; reflexivity|]. apply keep_bind; auto. Qed.
Lemma keep_for n body : (forall k, keep (body k)) -> keep (for_ n body).
Proof. apply keep_forN. Qed.

Ltac kept := repeat first
  [ assumption
  | apply keep_only; first [apply only_ret | apply only_throw | apply only_undef | apply only_lift | apply only_get
      | apply only_st | apply only_ass | apply only_new | apply only_del | apply only_rd | apply only_wr | apply only_fill
      | apply only_at_rd | apply only_at_wr | apply only_elem | apply only_fill_temp | apply only_sub_wr]
  | simple apply keep_upd; reflexivity
  | simple apply keep_bind; [|intro]
  | simple apply keep_for; intro
  | match goal with
    | |- keep (if ?b then _ else _) => destruct b
    | |- keep (match ?k with KBuffer => _ | KBorrow => _ | KBorrowSEXP => _ end) => destruct k
    | |- keep (match ?k with Some _ => _ | None => _ end) => destruct k
    end ].

Lemma keep_resize x n : keep (resize x n).
Proof. unfold resize, init. kept. Qed.
Lemma keep_sexp_resize x n : keep (sexp_resize x n).
Proof. unfold sexp_resize, sexp_init. kept. Qed.
Lemma keep_any_resize x n : keep (any_resize x n).
Proof. unfold any_resize, borrow_resize. kept; auto using keep_resize, keep_sexp_resize. Qed.
Lemma keep_moveit x y : keep (moveit x y).
Proof. unfold moveit. kept. Qed.
Lemma keep_any_destroy x : keep (any_destroy x).
Proof. unfold any_destroy, destroy, sexp_destroy. kept. Qed.
Lemma keep_scoped {A} x (m : M world A) : keep m -> keep (scoped x m).
Proof.
  intros Hm w y. unfold scoped. specialize (Hm w y). destruct (m w) as [[a|e|u] w1]; simpl in *; auto;
    rewrite <- Hm; apply keep_bind; auto using keep_any_destroy; intros; apply keep_only; auto using only_ret, only_throw.
Qed.

Lemma keep_cmd lm c : (forall x e, c <> CAssign x e) -> keep (run_cmd lm c).
Proof.
  intros N. destruct c; cbn [run_cmd].
  - now destruct (N x e).
  - unfold assign_scalar. kept; auto using keep_any_resize.
  - kept.
  - unfold assign_subset, ctor_default. cbv zeta. apply keep_bind; [kept|]. intros w. apply keep_bind.
    { intros w1 y. reflexivity. }
    intros _. apply keep_scoped. unfold get_at. kept; auto using keep_resize, keep_any_resize.
  - unfold assign_subset_scalar. kept.
Qed.

(** x = e gives x the shape of the value if it is done, and changes no shape
    otherwise. *)
Lemma assign_shapes lm w x e o w' : kd (ob w (OD x)) = KBuffer -> assign lm x e w = (o, w') ->
  (forall y, y <> x -> dims_in w' y = dims_in w y) /\
  dims_in w' x = match o with Done _ => received (xdims (dims_in w) e) (dims_in w x) | _ => dims_in w x end.
Proof.
  intros K. unfold assign. rewrite bind_st, K. unfold assign_buffer. rewrite bind_get. cbv zeta.
  set (m := bind (resize (OT x) (esize w e)) (fun _ => bind (fill_temp lm (OT x) (sty (ob w (OD x))) e (esize w e)) (fun _ => moveit (OD x) (OT x)))).
  replace (bind (resize (OT x) (esize w e)) _ w) with (bind m (fun _ => take_shape (OD x) e) w)
    by (unfold m; rewrite !bind_assoc; unfold bind; destruct (resize _ _ w) as [[]]; auto; destruct (fill_temp _ _ _ _ _ _) as [[]]; reflexivity).
  assert (Km : keep m) by (unfold m; kept; auto using keep_resize, keep_moveit).
  specialize (Km w). unfold bind. destruct (m w) as [[[]|ex|u] w1]; cbn [snd] in Km.
  - rewrite take_shape_done. intros Q.
    assert (S : shape_of w1 e (mp (ob w1 (OD x))) = shape_of w e (mp (ob w (OD x)))).
    { unfold shape_of. rewrite (eim_mp w w1), (edim_mp rows w w1), (edim_mp cols w w1), Km by (intros; apply Km). reflexivity. }
    assert (X : mp (ob w' (OD x)) = shape_of w e (mp (ob w (OD x))) /\ o = Done tt /\ forall y, y <> x -> mp (ob w' (OD y)) = mp (ob w (OD y))).
    { rewrite S in Q. destruct (eim w1 e) eqn:EI; injection Q as <- <-.
      - rewrite ob_set_same. split; [reflexivity|]. split; [reflexivity|]. intros y Ny. rewrite ob_set_other by congruence. apply Km.
      - split; [|split; [reflexivity|intros; apply Km]]. rewrite <- S. unfold shape_of. now rewrite EI. }
    destruct X as [X1 [-> X2]]. split.
    + intros y Ny. unfold dims_in. now rewrite X2.
    + unfold dims_in. rewrite X1. apply shape_dims.
  - intros [= <- <-]. unfold dims_in. split; intros; now rewrite Km.
  - intros [= <- <-]. unfold dims_in. split; intros; now rewrite Km.
Qed.

Lemma cmd_shapes lm ty w lim V H rho sh c : alive w lim ty H V rho -> cmd_wf lim V rho c ->
  (forall x, In x V -> dims_in w x = sh x) -> forall o w', run_cmd lm c w = (o, w') ->
  forall x, In x V -> dims_in w' x = shapes_after sh c o x.
Proof.
  intros A WF D o w' E x Hx. destruct c as [y e|y v|y k v|s y ind same e|y ind v];
    try (cbn [shapes_after]; match type of E with run_cmd ?l ?c ?w = _ =>
      pose proof (keep_cmd l c ltac:(discriminate) w x) as K end; rewrite E in K; cbn [snd] in K; rewrite <- D by auto; unfold dims_in; congruence).
  destruct WF as [Hy [Iv _]]. cbn [run_cmd] in E.
  destruct (assign_shapes lm w y e o w' (proj1 (re_own _ _ _ _ _ (proj1 A) y Hy)) E) as [S1 S2].
  assert (X : xdims (dims_in w) e = xdims sh e).
  { clear - D Iv. induction e; cbn [xdims vars] in *; auto.
    - apply D, Iv. now left.
    - rewrite IHe1, IHe2; auto; intros z Hz; apply Iv, in_or_app; auto. }
  cbn [shapes_after]. destruct (Nat.eq_dec x y) as [->|Ne].
  - rewrite S2, X, D by auto. destruct o; auto. unfold setd. now rewrite Nat.eqb_refl.
  - rewrite S1, D by auto. destruct o; auto. unfold setd. now replace (x =? y)%nat with false by (symmetry; now apply Nat.eqb_neq).
Qed.

(* --------------------------------------------------------------- expressions *)

Lemma lmeans_vars lm V rho sh : (forall e e', lmeans lm V rho sh e (Done e') -> incl (vars e') V) /\
  (forall i i', lmeans_index lm V rho sh i (Done i') -> incl (index_vars i') V).
Proof.
  apply lexpr_lindex_ind; intros; cbn [lmeans lmeans_index] in *.
  - destruct H as [Hx [= ->]]. intros y [<-|[]]. exact Hx.
  - injection H as ->. intros y [].
  - destruct H1 as [a [b [M1 [M2 E]]]]. destruct a as [a|?|?]; try discriminate. destruct b as [b|?|?]; try discriminate.
    injection E as ->. cbn [vars]. apply incl_app; auto.
  - destruct H0 as [a [M1 E]]. destruct a as [a|?|?]; try discriminate. injection E as ->. cbn [vars]. auto.
  - destruct H1 as [a [b [M1 [M2 E]]]]. destruct a as [a|?|?]; [|discriminate|contradiction].
    destruct b as [b|?|?]; [|discriminate|contradiction].
    destruct E as [ps [_ [_ [= ->]]]]. cbn [vars]. auto.
  - destruct H2 as [a [b [c [M1 [M2 [M3 E]]]]]]. destruct a as [a|?|?]; [|discriminate|contradiction].
    destruct b as [b|?|?]; [|discriminate|contradiction]. destruct c as [c|?|?]; [|discriminate|contradiction].
    destruct E as [ps [d [_ [_ [= ->]]]]]. cbn [vars]. auto.
  - destruct H as [z [_ [_ [_ [_ E]]]]]. destruct (z <? 1); [discriminate|]. destruct (_ <? z); [discriminate|].
    injection E as ->. intros y [].
  - destruct H as [_ [_ E]]. destruct (sh x) as [[nr nc]|]; [|discriminate].
    destruct E as [r [c [k [ins [_ [_ [_ E]]]]]]]. destruct ins; [|discriminate]. injection E as ->. intros y [].
  - destruct H0 as [a [z [M1 [_ [_ E]]]]]. destruct a as [a|?|?]; [|discriminate|contradiction].
    destruct E as [_ [_ E]]. destruct (xval lm rho a z); try discriminate. injection E as ->. intros y [].
  - destruct H0 as [a [M1 E]]. destruct a as [a|?|?]; [|discriminate|contradiction]. destruct E as [_ E].
    destruct (xdims sh a) as [[nr nc]|]; [|discriminate]. destruct E as [r [c [k [ins [_ [_ [_ E]]]]]]].
    destruct ins; [|discriminate]. destruct (xval lm rho a k); try discriminate. injection E as ->. intros y [].
  - destruct H0 as [a [M1 [_ E]]]. destruct a as [a|?|?]; try discriminate. injection E as ->. intros y [].
  - injection H as ->. intros y [].
  - injection H as ->. intros y [].
  - injection H as ->. intros y [].
  - destruct H0 as [a [M1 E]]. destruct a as [a|?|?]; try discriminate. injection E as ->. cbn [index_vars]. auto.
Qed.

Lemma xdims_ext sh sh' e : (forall x, In x (vars e) -> sh x = sh' x) -> xdims sh e = xdims sh' e.
Proof.
  induction e; cbn [xdims vars]; intros H; auto.
  - apply H. now left.
  - rewrite IHe1, IHe2; auto; intros z Hz; apply H, in_or_app; auto.
Qed.

Lemma dims_of_to_mp d : dims_of (to_mp d) = d.
Proof. destruct d as [[r c]|]; reflexivity. Qed.

Lemma keep_fst {A B} (o : outcome A) (w : world) (k : A -> outcome B) o2 :
  obind o k = o2 -> obind (fst (o, w)) k = o2.
Proof. auto. Qed.

Section LBuild.
Variables (lm : libm) (lim : Z) (ty : nat -> ety) (V : list nat) (w : world) (rho : state) (sh : shapes).
Hypothesis R : repr w lim ty V rho.
Hypothesis D : forall x, In x V -> dims_in w x = sh x.

Let W : world_shape w := re_shape _ _ _ _ _ R.

Lemma xdims_here e : incl (vars e) V -> xdims sh e = xdims (dims_in w) e.
Proof. intros I. apply xdims_ext. intros x Hx. symmetry. apply D, I, Hx. Qed.

Lemma selected_selects d i ps : incl (index_vars i) V -> selected lm rho d i ps -> selects lm w d i ps.
Proof.
  intros I S. destruct S; cbn [index_vars] in I.
  - now apply Sel_all.
  - now apply Sel_int.
  - now apply Sel_dbl.
  - apply Sel_mask; auto. eapply denotes_yields; eauto.
  - apply Sel_ints; auto. eapply denotes_yields; eauto.
  - eapply Sel_dbls; eauto. eapply denotes_yields; eauto.
Qed.

Lemma cells_calc e i j ps d : incl (vars e) V -> wf_expr rho e -> incl (index_vars i) V -> incl (index_vars j) V ->
  cells lm rho sh e i j ps d -> calc_ind_matrix lm w e i j = Done (ps, to_mp d).
Proof.
  intros Ie F Ii Ij [nr [nc [rs [cs [Xd [Xs [Br [Bc [Si [Sj [G [Lr [Lc [-> ->]]]]]]]]]]]]]].
  rewrite (xdims_here e Ie) in Xd. destruct (edim_dims w e nr nc Xd) as [Er Ec].
  rewrite (calc_ind_matrix_selects lm w e i j nr nc rs cs); auto; try (unfold int_max; lia).
  - f_equal. f_equal. destruct (shaped_pair e i j); reflexivity.
  - rewrite eim_dims, Xd. reflexivity.
  - rewrite (size_here lim ty V w rho R); auto.
  - now apply selected_selects.
  - now apply selected_selects.
Qed.

Lemma at_mat_pos_cell x i j r c nr nc k ins : In x V -> rho x <> [] -> sh x = Some (nr, nc) ->
  pos_is i r -> pos_is j c -> cell_at nr (Z.of_nat (length (rho x))) r c k ins ->
  0 <= k /\ at_mat_pos w x i j = if ins then Done k else Thrown beyond.
Proof.
  intros Hx Ne Sx Pr Pc [Br [Bc [Bn [-> ->]]]]. split; [nia|].
  pose proof (re_holds _ _ _ _ _ R x Hx) as Hh. pose proof (D x Hx) as Dx. rewrite Sx in Dx.
  unfold dims_in, dims_of in Dx. unfold at_mat_pos. destruct (ismat (mp (ob w (OD x)))); [|discriminate].
  injection Dx as Dr Dc. rewrite Dr. cbn [negb].
  destruct (at_ptr w x (rho x) W Hh Ne) as [a [_ ->]]. cbn [negb].
  rewrite (pos_less1_ok i r), (pos_less1_ok j c) by (auto; lia). cbn [obind].
  assert (B : 0 <= (c - 1) * nr + (r - 1) < 2 ^ 64).
  { split; [nia|]. assert ((c - 1) * nr <= 2 ^ 31 * 2 ^ 31) by (apply Z.mul_le_mono_nonneg; lia). lia. }
  rewrite wrap64_small by exact B. rewrite (proj1 Hh).
  destruct (Z.leb_spec (Z.of_nat (length (rho x))) ((c - 1) * nr + (r - 1)));
    destruct (Z.ltb_spec ((c - 1) * nr + (r - 1)) (Z.of_nat (length (rho x)))); auto; lia.
Qed.

Lemma at_mat_pos_none x i j : In x V -> sh x = None -> at_mat_pos w x i j = Thrown msg_nomat.
Proof.
  intros Hx Sx. pose proof (D x Hx) as Dx. rewrite Sx in Dx. unfold dims_in, dims_of in Dx. unfold at_mat_pos.
  destruct (ismat (mp (ob w (OD x)))); [discriminate|reflexivity].
Qed.

Lemma lbuild_lmeans : (forall e o, lmeans lm V rho sh e o -> lbuild lm w e = o) /\
  (forall i o, lmeans_index lm V rho sh i o -> lbuild_index lm w i = o).
Proof.
  destruct (lmeans_vars lm V rho sh) as [MV MI].
  apply lexpr_lindex_ind; intros; cbn [lmeans lmeans_index lbuild lbuild_index] in *.
  - destruct H as [_ ->]. reflexivity.
  - now subst.
  - destruct H1 as [a [b [M1 [M2 ->]]]]. now rewrite (H _ M1), (H0 _ M2).
  - destruct H0 as [a [M1 ->]]. now rewrite (H _ M1).
  - destruct H1 as [a [b [M1 [M2 E]]]]. rewrite (H _ M1), (H0 _ M2).
    destruct a as [a|x|?]; [|now subst|contradiction]. destruct b as [b|x|?]; [|now subst|contradiction].
    destruct E as [ps [F [P ->]]]. cbn [obind]. unfold subset_vec. rewrite (size_here lim ty V w rho R a) by eauto.
    rewrite (picks_calc lm lim ty V w rho R _ _ ps); eauto. apply xsize_nonneg.
  - destruct H2 as [a [b [c [M1 [M2 [M3 E]]]]]]. rewrite (H _ M1), (H0 _ M2), (H1 _ M3).
    destruct a as [a|x|?]; [|now subst|contradiction]. destruct b as [b|x|?]; [|now subst|contradiction].
    destruct c as [c|x|?]; [|now subst|contradiction].
    destruct E as [ps [d [F [P ->]]]]. cbn [obind]. unfold subset_mat. rewrite (cells_calc a b c ps d); eauto.
  - destruct H as [z [Hx [P [B [Ne ->]]]]]. pose proof (re_holds _ _ _ _ _ R x Hx) as Hh.
    destruct (Z.ltb_spec z 1) as [L1|L1]; [|destruct (Z.ltb_spec (Z.of_nat (length (rho x))) z) as [L2|L2]].
    + unfold at_vec. rewrite bind_get, (at_pos_out w x (rho x) W Hh i z) by (auto; lia).
      replace (z <? 1) with true by (symmetry; apply Z.ltb_lt; lia). reflexivity.
    + unfold at_vec. rewrite bind_get, (at_pos_out w x (rho x) W Hh i z) by (auto; lia).
      replace (z <? 1) with false by (symmetry; apply Z.ltb_ge; lia). reflexivity.
    + rewrite (at_vec_in w x (rho x) W Hh i z) by (auto; lia). reflexivity.
  - destruct H as [Hx [Ne E]]. pose proof (re_holds _ _ _ _ _ R x Hx) as Hh. unfold at_mat. rewrite bind_get.
    destruct (sh x) as [[nr nc]|] eqn:Sx.
    + destruct E as [r [c [k [ins [Pr [Pc [C ->]]]]]]].
      destruct (at_mat_pos_cell x i j r c nr nc k ins) as [K ->]; auto. destruct ins; [|reflexivity].
      destruct C as [_ [_ [_ [_ C]]]]. symmetry in C. apply Z.ltb_lt in C.
      rewrite bind_lift_done, (rd_elem w x (rho x) W Hh k) by lia. reflexivity.
    + subst o. rewrite (at_mat_pos_none x i j) by eauto. reflexivity.
  - destruct H0 as [a [z [M1 [P [B E]]]]]. rewrite (H _ M1). destruct a as [a|x|?]; [|now subst|contradiction].
    destruct E as [F [Lz ->]]. cbn [obind]. unfold at_expr.
    replace (match i with PZ z => Done (wrap64 z) | PF f => z <-o f2int f;; Done (wrap64 z) end) with (Done z).
    2:{ destruct i; cbn [pos_is] in P; [subst; now rewrite wrap64_small by lia|].
        rewrite (int_part_f2int f z) by (auto; lia). cbn [obind]. now rewrite wrap64_small by lia. }
    rewrite bind_lift_done, vat_read. unfold bind. rewrite (elem_xval lm w rho a W); auto; try lia; [|eapply repr_env; eauto].
    destruct (xval lm rho a z); reflexivity.
  - destruct H0 as [a [M1 E]]. rewrite (H _ M1). destruct a as [a|x|?]; [|now subst|contradiction].
    destruct E as [F E]. cbn [obind]. unfold at_mat_expr. rewrite bind_get, eim_dims, <- (xdims_here a) by eauto.
    destruct (xdims sh a) as [[nr nc]|] eqn:Xd.
    + destruct E as [r [c [k [ins [Pr [Pc [[Br [Bc [Bn [Ek Ei]]]] ->]]]]]]]. rewrite bind_ass_true.
      rewrite (pos_less1_ok i r), (pos_less1_ok j c) by (auto; lia). rewrite !bind_lift_done.
      destruct (edim_dims w a nr nc) as [Er _]; [now rewrite <- xdims_here by eauto|].
      rewrite Er, bind_lift_done, <- Ek.
      assert (Bk : 0 <= k < 2 ^ 64).
      { split; [nia|]. assert ((c - 1) * nr <= 2 ^ 31 * 2 ^ 31) by (apply Z.mul_le_mono_nonneg; lia). lia. }
      rewrite wrap64_small by exact Bk. rewrite (size_here lim ty V w rho R) by eauto. rewrite <- Ei.
      destruct ins; [|reflexivity]. symmetry in Ei. apply Z.ltb_lt in Ei.
      rewrite bind_ass_true, vat_read. unfold bind. rewrite (elem_xval lm w rho a W); auto; try lia; [|eapply repr_env; eauto].
      destruct (xval lm rho a k); reflexivity.
    + subst o. reflexivity.
  - destruct H0 as [a [M1 [F ->]]]. rewrite (H _ M1). destruct a as [a|x|?]; [|reflexivity|reflexivity].
    cbn [obind]. destruct (F a eq_refl) as [F1 F2]. rewrite (size_here lim ty V w rho R) by eauto.
    rewrite to_int_small; [reflexivity|]. pose proof (xsize_nonneg rho a). lia.
  - now subst.
  - now subst.
  - now subst.
  - destruct H0 as [a [M1 ->]]. now rewrite (H _ M1).
Qed.

Lemma lvalue_here e o : lvalue lm V (rho, sh) e o -> lcondition lm e w = (o, w).
Proof.
  intros [a [M [F ->]]]. cbn [fst snd] in *. unfold lcondition. rewrite bind_get, (proj1 lbuild_lmeans _ _ M).
  destruct a as [e'|x|u]; [|reflexivity|reflexivity]. rewrite bind_lift_done. cbn [obind].
  destruct (F e' eq_refl) as [F1 F2]. unfold to_scalar. rewrite vat_read. unfold bind. rewrite (elem_xval lm w rho e' W); auto; try lia.
  { destruct (xval lm rho e' 0); reflexivity. }
  eapply repr_env; eauto. now apply (proj1 (lmeans_vars lm V rho sh)) in M.
Qed.

Lemma larg_built a l : larg_is lm V rho sh a l -> exists a', lbuild_arg lm w a = Done a' /\ items lm w a' l /\
  arg_ty a' = larg_ty a /\ incl (arg_vars a') V /\ match a with LS v => a' = AS v | LV t _ => exists e, a' = AV t e end.
Proof.
  destruct a as [v|t e]; cbn [larg_is lbuild_arg].
  - intros ->. exists (AS v). repeat split; auto. intros y [].
  - intros [e' [M [F Dn]]]. exists (AV t e'). rewrite (proj1 lbuild_lmeans _ _ M). split; [reflexivity|].
    pose proof (proj1 (lmeans_vars lm V rho sh) _ _ M) as I. split; [|split; [auto|split; eauto]].
    eapply denotes_yields; eauto.
Qed.

Lemma larg_first a l : larg_is lm V rho sh a l -> l <> [] -> has_type a l -> exists a', lbuild_arg lm w a = Done a' /\
  first_is lm w a' (hd (VB false) l) /\ arg_ty a' = larg_ty a.
Proof.
  intros A Ne T. destruct (larg_built a l A) as [a' [B [It [Ty _]]]]. exists a'. split; [exact B|]. split; [|exact Ty].
  destruct l as [|v l]; [congruence|]. simpl. destruct a' as [u|t e]; simpl in *; [congruence|].
  split; [rewrite Ty; apply T; now left|]. apply (proj2 It 0%nat). simpl; lia.
Qed.

Lemma counts_first a n : counts lm V rho sh a n -> exists a' v, lbuild_arg lm w a = Done a' /\
  first_is lm w a' v /\ size_is v n /\ 1 <= n.
Proof.
  intros [us [A [Ne [T [Sz Hn]]]]]. destruct (larg_first a us A Ne T) as [a' [B [F _]]]. exists a', (hd (VB false) us). auto.
Qed.

Lemma largs_built args ls : Forall2 (larg_is lm V rho sh) args ls ->
  exists args', omap (lbuild_arg lm w) args = Done args' /\ Forall2 (items lm w) args' ls /\
    map arg_ty args' = map larg_ty args /\ forall a, In a args' -> incl (arg_vars a) V.
Proof.
  intros F. induction F as [|a l args ls A F IH].
  - exists []. repeat split; auto. intros a [].
  - destruct IH as [as' [E1 [E2 [E3 E4]]]]. destruct (larg_built a l A) as [a' [B [It [Ty [I _]]]]].
    exists (a' :: as'). cbn [omap]. rewrite B, E1. cbn [obind map]. rewrite Ty, E3. repeat split; auto.
    intros c [<-|Hc]; auto.
Qed.
End LBuild.

(* ------------------------------------------------------------- new vectors *)

Lemma cap115_small n c : 1 <= n <= max_len -> cap115 n = Done c -> c < 2 ^ 31.
Proof.
  unfold max_len. intros B E. destruct (cap115_int_ok n) as [c' [E' [_ S]]]; [lia|].
  rewrite cap115_same_int in E' by lia. congruence.
Qed.

Lemma vec_of_expr_cap lm w x t e w' : 1 <= esize w e <= max_len -> vec_of_expr lm x t e w = (Done tt, w') ->
  cap (ob w' (OD x)) < 2 ^ 31.
Proof.
  intros B. unfold vec_of_expr. rewrite bind_get. cbv zeta. set (n := esize w e) in *.
  unfold vec_default, ctor_default. rewrite bind_assoc, bind_upd, bind_upd.
  set (w1 := set_ob _ (OT x) _).
  assert (O1 : ob w1 (OD x) = store_default KBuffer t) by (unfold w1; rewrite ob_set_other, ob_set_same by congruence; reflexivity).
  clearbody w1. replace (0 <? n) with true by (symmetry; apply Z.ltb_lt; lia).
  assert (R : forall o w2, resize (OD x) n w1 = (o, w2) -> o = Done tt -> cap (ob w2 (OD x)) < 2 ^ 31).
  { unfold resize. replace (1 <=? n) with true by (symmetry; apply Z.leb_le; lia). rewrite bind_ass_true, bind_st, O1.
    cbn [store_default alloc negb]. unfold init. rewrite bind_assoc, bind_st, O1. cbn [store_default alloc].
    rewrite bind_assoc. unfold bind at 1. cbn [ret]. intros o w2. rewrite bind_assoc, bind_upd, bind_assoc.
    destruct (cap115 n) as [c|?|?] eqn:C; [|unfold bind, lift; congruence|unfold bind, lift; congruence].
    rewrite bind_lift_done, bind_assoc, bind_upd, bind_assoc.
    set (w3 := set_ob _ (OD x) _).
    assert (C3 : cap (ob w3 (OD x)) = c) by (unfold w3; rewrite ob_set_same; reflexivity). clearbody w3.
    intros E Eo. subst o. revert E. unfold bind at 1. destruct (new_ c w3) as [[a|?|?] w4] eqn:N; try congruence.
    pose proof (only_new (fun _ => False) c w3 (OD x)) as O4. rewrite N in O4. cbn [snd] in O4.
    intros E. rewrite bind_assoc, bind_upd, bind_upd in E. cbn [sty store_default] in E.
    match type of E with fill _ _ ?w5 = _ => pose proof (only_fill (fun _ => False) (OD x) (zero_of t) w5 (OD x)) as O5; rewrite E in O5 end.
    cbn [snd] in O5. rewrite O5 by auto. rewrite ?ob_set_same. cbn. rewrite O4 by auto. rewrite C3. eapply cap115_small; eauto. }
  unfold bind at 1. destruct (resize (OD x) n w1) as [[[]|ex|u] w2] eqn:E; [| |congruence].
  2:{ unfold bind. destruct (any_destroy (OD x) w2) as [[]]; discriminate. }
  specialize (R _ _ eq_refl eq_refl).
  unfold bind at 1. pose proof (only_fill_temp (fun _ => False) lm (OD x) t e n w2 (OD x)) as O2.
  destruct (fill_temp lm (OD x) t e n w2) as [[[]|ex|u] w3]; [| |congruence].
  2:{ unfold bind. destruct (any_destroy (OD x) w3) as [[]]; discriminate. }
  cbn [snd] in O2. rewrite take_shape_done. intros [= <-].
  destruct (eim w3 e); [rewrite ob_set_same; cbn [cap with_mp]|]; rewrite O2; auto.
Qed.

Lemma only_vec_end s : only (fun o => o = OD s \/ o = OT s) (vec_end s).
Proof.
  unfold vec_end, vec_destroy. simple apply only_bind; [simple apply only_bind; [|intro]|intro].
  - apply only_any_destroy. auto.
  - apply only_any_destroy. auto.
  - simple apply only_bind; [|intro]; apply only_upd; auto.
Qed.
Lemma vec_end_dims x w w' o : vec_end x w = (o, w') -> forall y, y <> x -> dims_in w' y = dims_in w y.
Proof.
  intros E y N. pose proof (only_vec_end x w (OD y)) as O. rewrite E in O. cbn [snd] in O. unfold dims_in. rewrite O; [reflexivity|].
  intros [X|X]; congruence.
Qed.

Lemma steal_end_dims x s t w w' o : x <> s -> (vec_steal x s t ;; vec_end s) w = (o, w') ->
  dims_in w' x = dims_in w s /\ forall y, y <> x -> y <> s -> dims_in w' y = dims_in w y.
Proof.
  intros Ne. unfold vec_steal, ctor_steal. rewrite !bind_assoc, bind_upd, !bind_assoc, bind_st, ob_set_other by congruence.
  rewrite !bind_assoc, bind_upd, !bind_assoc, bind_upd, !bind_assoc, bind_upd, !bind_assoc, bind_upd, !bind_assoc, bind_upd.
  set (m := mp (ob w (OD s))). set (wa := set_ob _ (OD x) _).
  assert (Oa : forall y, y <> x -> y <> s -> ob wa (OD y) = ob w (OD y)).
  { intros y N1 N2. unfold wa. now rewrite !ob_set_other by congruence. }
  assert (Ma : mp (ob wa (OD x)) = mp_none).
  { unfold wa. rewrite ob_set_same. cbn [mp with_ptr]. rewrite ob_set_other, ob_set_same by congruence. cbn [mp with_sz].
    rewrite ob_set_other, ob_set_same by congruence. cbn [mp with_alloc]. rewrite ob_set_same. reflexivity. }
  clearbody wa.
  assert (G : exists wb, (if ismat m then upd (OD x) (with_mp (mkMP true (rows m) (cols m))) else ret tt) wa = (Done tt, wb) /\
     dims_of (mp (ob wb (OD x))) = dims_of m /\ forall y, y <> x -> y <> s -> ob wb (OD y) = ob w (OD y)).
  { unfold dims_of at 2. destruct (ismat m) eqn:Im.
    - eexists. split; [reflexivity|]. rewrite ob_set_same. split; [reflexivity|]. intros y N1 N2.
      rewrite ob_set_other by congruence. now apply Oa.
    - exists wa. split; [reflexivity|]. rewrite Ma. split; [reflexivity|exact Oa]. }
  destruct G as [wb [Eb [Db Ob]]]. rewrite (bind_done _ _ _ _ _ Eb). unfold ctor_default. rewrite bind_upd. intros E.
  pose proof (vec_end_dims _ _ _ _ E) as F. split.
  - rewrite F by auto. unfold dims_in. rewrite ob_set_other by congruence. exact Db.
  - intros y N1 N2. rewrite F by auto. unfold dims_in. rewrite ob_set_other by congruence. now rewrite Ob.
Qed.

Section LMake.
Variables (lm : libm) (lim : Z) (ty : nat -> ety).

Lemma is_nan_only u : int32 u -> (is_nan (v2f u) = true <-> u = VD S754_nan).
Proof.
  destruct u as [b|z|d]; cbn [int32 v2f]; intros B.
  - destruct (finite_not_special (i2f (b2z b))) as [-> _]; [apply i2f_exact; destruct b; cbn; lia|]. split; discriminate.
  - destruct (finite_not_special (i2f z)) as [-> _]; [apply i2f_exact; lia|]. split; discriminate.
  - destruct d; simpl; split; congruence.
Qed.
Lemma is_inf_only u : int32 u -> (is_inf (v2f u) = true <-> exists s, u = VD (S754_infinity s)).
Proof.
  destruct u as [b|z|d]; cbn [int32 v2f]; intros B.
  - destruct (finite_not_special (i2f (b2z b))) as [_ ->]; [apply i2f_exact; destruct b; cbn; lia|].
    split; [discriminate|intros [s E]; discriminate].
  - destruct (finite_not_special (i2f z)) as [_ ->]; [apply i2f_exact; lia|]. split; [discriminate|intros [s E]; discriminate].
  - destruct d; simpl; split; try congruence; eauto; intros [s' E]; congruence.
Qed.

Lemma lmake_creates w H V rho sh x m t l d : alive w lim ty H V rho -> (forall y, In y V -> dims_in w y = sh y) ->
  ~ In x (H ++ V) -> lcreates lm V lim rho sh m t l d ->
  exists w', lmake lm x m w = (Done tt, w') /\ made w w' x t l (to_mp d).
Proof.
  intros A Dm N [Lm C]. pose proof A as [R [O U]].
  pose proof (re_shape _ _ _ _ _ R) as W. pose proof (U x N) as D1.
  assert (Nv : ~ In x V) by (intros X; apply N; apply in_or_app; auto).
  pose proof (re_temp _ _ _ _ _ R x Nv) as D2.
  assert (Ft : fits w (Z.of_nat (length l))) by (unfold fits; rewrite (re_lim _ _ _ _ _ R); exact Lm).
  unfold lmake. rewrite bind_get. destruct m as [vt a|a b|i n|args|i a b|inf e|a].
  - destruct C as [v [n [Ai [Sz [Hn [-> [-> ->]]]]]]].
    destruct (larg_built lm lim ty V w rho sh R Dm a [v] Ai) as [a' [B [It _]]]. rewrite B, bind_lift_done.
    rewrite repeat_length in Ft.
    eapply vector_fn_done; eauto. unfold fits in *. lia.
  - destruct C as [us [vs [p [q [Aa [Ab [N1 [N2 [T1 [T2 [I1 [I2 [Bp [Bq [Et [-> C]]]]]]]]]]]]]]]].
    destruct (larg_first lm lim ty V w rho sh R Dm a us Aa N1 T1) as [a' [Ba [Fa Ta]]].
    destruct (larg_first lm lim ty V w rho sh R Dm b vs Ab N2 T2) as [b' [Bb [Fb Tb]]].
    rewrite Ba, bind_lift_done, Bb, bind_lift_done.
    assert (Hu : ty_of (hd (VB false) us) = arg_ty a') by (rewrite Ta; apply T1; destruct us; [congruence|now left]).
    assert (Hv : ty_of (hd (VB false) vs) = arg_ty b') by (rewrite Tb; apply T2; destruct vs; [congruence|now left]).
    rewrite <- Ta, <- Tb in Et. destruct t; [contradiction| |].
    + subst l. rewrite map_length, count_from_len in Ft. eapply made_colon_int; eauto. unfold fits in *. lia.
    + destruct C as [Hp [Hq ->]]. rewrite map_length, count_from_len in Ft.
      eapply made_colon_dbl; eauto; try lia. unfold fits in *. lia.
  - destruct C as [us [k [Ai [N1 [T1 [Cn [-> [-> ->]]]]]]]].
    destruct (larg_built lm lim ty V w rho sh R Dm i us Ai) as [i' [Bi [It [Ti [Ii _]]]]].
    destruct (counts_first lm lim ty V w rho sh R Dm n k Cn) as [n' [v [Bn [Fn [Sz Hk]]]]].
    rewrite Bi, bind_lift_done, Bn, bind_lift_done. rewrite concat_repeat_len in Ft.
    destruct (rep_done lm w x i' n' us v k) as [w' [us' [E [M [L Nt]]]]]; auto.
    { intros u Hu. rewrite Ti. now apply T1. }
    { unfold fits in *. nia. }
    exists w'. split; [exact E|]. rewrite <- Ti.
    replace (List.concat (repeat us (Z.to_nat k))) with us'; [exact M|].
    assert (L' : length us' = (Z.to_nat k * length us)%nat) by nia.
    apply nth_ext_vals; [now rewrite concat_repeat_len|]. intros j Hj. rewrite Nt by auto.
    symmetry. apply concat_repeat_nth; auto. lia.
  - destruct C as [ls [Aa [Tl [[a0 [In0 Ty0]] [Hi [Cs [Ne [Bl ->]]]]]]]].
    destruct (largs_built lm lim ty V w rho sh R Dm args ls Aa) as [args' [E1 [E2 [E3 E4]]]]. rewrite E1, bind_lift_done.
    assert (Ct : coca_type args' = t).
    { assert (Na : args' <> []) by (intros ->; destruct args; [destruct In0|discriminate]).
      destruct (coca_type_spec args' Na) as [[c [Hc Ec]] Hm].
      assert (X1 : In (arg_ty c) (map larg_ty args)) by (rewrite <- E3; apply in_map; auto).
      apply in_map_iff in X1. destruct X1 as [c2 [Ec2 Hc2]].
      assert (X2 : In (larg_ty a0) (map arg_ty args')) by (rewrite E3; apply in_map; auto).
      apply in_map_iff in X2. destruct X2 as [c3 [Ec3 Hc3]].
      pose proof (Hi c2 Hc2) as Y1. pose proof (Hm c3 Hc3) as Y2.
      rewrite Ec2, Ec in Y1. rewrite Ec3, Ty0 in Y2.
      clear - Y1 Y2. destruct (coca_type args'), t; simpl in *; auto; lia. }
    rewrite <- Ct in Cs |- *. eapply coca_done; eauto.
    intros a Ha X. apply Nv. now apply (E4 a Ha).
  - destruct C as [r [c [Cr [Cc [-> [-> [Ln C]]]]]]].
    destruct (counts_first lm lim ty V w rho sh R Dm a r Cr) as [a' [u [Ba [Fa [Sa Ha]]]]].
    destruct (counts_first lm lim ty V w rho sh R Dm b c Cc) as [b' [v [Bb [Fb [Sb Hb]]]]].
    rewrite Ln in Ft. destruct i as [v0|t e].
    + cbn [lbuild_arg]. rewrite bind_lift_done, Ba, bind_lift_done, Bb, bind_lift_done. subst l.
      cbn [larg_ty to_mp]. eapply matrix_scalar; eauto.
    + destruct C as [Ai Ti].
      destruct (larg_built lm lim ty V w rho sh R Dm (LV t e) l Ai) as [i' [Bi [It [Ty [Ii [e' ->]]]]]].
      rewrite Bi, bind_lift_done, Ba, bind_lift_done, Bb, bind_lift_done.
      rewrite <- Ty. cbn [to_mp]. eapply matrix_done; eauto.
  - destruct C as [e' [us [bs [M [F [Dn [Ne [I32 [-> [-> [-> Fb]]]]]]]]]]].
    rewrite (proj1 (lbuild_lmeans lm lim ty V w rho sh R Dm) _ _ M), bind_lift_done.
    pose proof (proj1 (lmeans_vars lm V rho sh) _ _ M) as Iv.
    pose proof (denotes_yields lm lim ty V w rho R e' us Iv F Dn) as Y.
    rewrite map_length in Ft. assert (Lb : length bs = length us) by (symmetry; eapply Forall2_len; eauto).
    rewrite Lb in Ft.
    destruct (test_done lm (if inf then is_inf else is_nan) w x e' us) as [w' [E Md]]; auto.
    exists w'. split; [exact E|]. cbn [to_mp].
    replace (map VB bs) with (map (fun v => VB ((if inf then is_inf else is_nan) (v2f v))) us); [exact Md|].
    clear - Fb I32. induction Fb as [|u b us bs Hub Fb IH]; [reflexivity|]. cbn [map]. inversion I32 as [|? ? I1 I2]; subst.
    rewrite IH by auto. f_equal. f_equal. destruct inf; destruct b.
    + apply is_inf_only; auto. now apply Hub.
    + pose proof (is_inf_only u I1) as X. destruct (is_inf (v2f u)); [|reflexivity]. symmetry. apply Hub, X. reflexivity.
    + apply is_nan_only; auto. now apply Hub.
    + pose proof (is_nan_only u I1) as X. destruct (is_nan (v2f u)); [|reflexivity]. symmetry. apply Hub, X. reflexivity.
  - destruct a as [v|t0 e]; [contradiction|]. destruct C as [e' [r [c [M [Xd [Br [Bc [-> [-> ->]]]]]]]]].
    cbn [lbuild_arg]. rewrite (proj1 (lbuild_lmeans lm lim ty V w rho sh R Dm) _ _ M). cbn [obind]. rewrite bind_lift_done.
    pose proof (proj1 (lmeans_vars lm V rho sh) _ _ M) as Iv.
    rewrite (xdims_here V w sh Dm e' Iv) in Xd. destruct (edim_dims w e' r c Xd) as [Er Ec].
    apply dim_done; auto. rewrite eim_dims, Xd. reflexivity.
Qed.
End LMake.
