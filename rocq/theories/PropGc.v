(** Property C89: conversions to R and R's garbage collector. *)
From Coq Require Import String ZArith List Bool Lia Arith.
From Verif Require Import Base Num StoreModel VecModel OutModel RgcModel Spec SpecExpr SpecVec SpecSub SpecOut SpecGc StoreProofs StoreOps VecProofs
  SubsetProofs VecThms StoreThms SpecHist StoreHist OutProofs GcProofs SubsetThms Examples PropVec PropSubset BorrowProofs SpecProg.
Import ListNotations.
Open Scope Z_scope.
Local Notation length := List.length (only parsing).

(* ------------------------------------------------------------------ C89 *)

(** Whatever R's collector frees when the object is allocated: if R keeps the
    memory the expression reads, the conversion gives R an object with the
    elements of the expression, protects and unprotects it, and leaves what
    was protected before as it was. *)
Theorem c89_vector : forall G lm t e rho us s, world_shape (rw s) -> env_of (rw s) rho e -> wf_expr rho e ->
  value_of lm rho (in_R t) e us -> flat (rw s) e -> secured s e ->
  Z.of_nat (length us) <= 2 ^ 31 - 1 -> Z.of_nat (length us) <= hlim (hp (rw s)) ->
  exists o s', cpp2R_g G lm t e s = (Done o, s') /\ r_got_g s s' o t us None.
Proof.
  intros G lm t e rho us s W EN F V Fl Se L1 L2.
  destruct (cpp2R_g_flat G lm t e rho us s W EN F V (flat_im _ _ Fl) L1 L2 Se) as [o [s' [E [Gt _]]]]. eauto.
Qed.
Print Assumptions c89_vector.

Theorem c89_matrix : forall G lm t e rho us s r c, world_shape (rw s) -> env_of (rw s) rho e -> wf_expr rho e ->
  value_of lm rho (in_R t) e us -> shaped (rw s) rho r c e -> secured s e -> 0 <= r < 2 ^ 31 -> 0 <= c < 2 ^ 31 ->
  Z.of_nat (length us) <= 2 ^ 31 - 1 -> Z.of_nat (length us) <= hlim (hp (rw s)) ->
  exists o s', cpp2R_g G lm t e s = (Done o, s') /\ r_got_g s s' o t us (Some (r, c)).
Proof. intros. eapply cpp2R_g_matrix; eauto. Qed.
Print Assumptions c89_matrix.

(** A matrix of the wrong length is refused before anything is protected. *)
Theorem c89_mismatch : forall G lm t s x r c, mp (ob (rw s) (OD x)) = mkMP true r c -> sz (ob (rw s) (OD x)) <> (r * c) mod 2 ^ 64 ->
  exists m, cpp2R_g G lm t (EVar x) s = (Thrown (Ass m), s).
Proof.
  intros G lm t s x r c M S. apply (cpp2R_g_mismatch G lm t (EVar x) s r c); cbn [eim edim esize]; rewrite ?M; auto.
Qed.
Print Assumptions c89_mismatch.

(** Numbers. *)
Theorem c89_number : forall G v s, world_shape (rw s) -> 1 <= hlim (hp (rw s)) ->
  exists o s', cpp2R_scalar G v s = (Done o, s') /\ r_got_g s s' o (ty_of v) [number_in_R v] None.
Proof.
  intros G v s W H. set (a := hnext (hp (rw s))).
  assert (Cv : cast (r_cell (ty_of v)) v = Done (number_in_R v)) by (now destruct v as [[]| |]).
  assert (A : r_vector_g G (ty_of v) 1 s = (Done (mkR (ty_of v) a None), mkRW (r_world (swept G s) 1) (pstk s) (root s))).
  { unfold r_vector_g. unfold bind at 1. change (collect G s) with (Done tt, snd (collect G s)). cbv iota beta.
    rewrite (inw_eq _ (snd (collect G s)) (Done (mkR (ty_of v) a None)) (r_world (swept G s) 1)); [reflexivity|].
    change (rw (snd (collect G s))) with (swept G s). unfold r_vector.
    now rewrite (bind_done _ _ _ _ _ (r_new_done (swept G s) 1 H)). }
  assert (B : hblk (hp (r_world (swept G s) 1)) a = Live OwnR [None]) by (cbn [r_world set_hp hp hblk]; rewrite swept_next; fold a; now rewrite Nat.eqb_refl).
  destruct (wrc_ok (r_world (swept G s) 1) a 0 (Some (number_in_R v)) _ _ B) as [w' [E U]]; [cbn; lia|].
  exists (mkR (ty_of v) a None), (mkRW w' (pstk s) (root s)). split.
  - unfold cpp2R_scalar. rewrite (gdone _ _ _ _ _ A). rewrite Cv.
    rewrite (gdone _ _ tt _ (mkRW w' (pstk s) (root s))); [reflexivity|]. exact (inw_eq _ (mkRW (r_world (swept G s) 1) (pstk s) (root s)) (Done tt) w' E).
  - destruct U as [U1 [U2 [U3 [U4 U5]]]]. apply (r_got_swept G); auto; [|exact (ws_fresh _ W _ (le_n _))|cbn; unfold int_max; lia].
    unfold r_got. cbn [r_ty r_dim r_mem]. split; [reflexivity|]. split; [reflexivity|]. split; [exact U4|].
    split; [exact (swept_fresh G s W)|]. split; [exact U1|]. intros b Hb. rewrite U5 by exact Hb. cbn [r_world set_hp hp hblk].
    rewrite swept_next. fold a. now replace (Nat.eqb b a) with false by (symmetry; now apply Nat.eqb_neq).
Qed.
Print Assumptions c89_number.

(** What is protected, or reached by R, survives every conversion. *)
Theorem c89_kept : forall s s' o t us dim a cs, r_got_g s s' o t us dim -> holds_on s a ->
  hblk (hp (rw s)) a = Live OwnR cs -> hblk (hp (rw s')) a = Live OwnR cs /\ holds_on s' a.
Proof.
  intros s s' o t us dim a cs [_ [_ [_ [G4 [[_ [_ G5]] [G6 [G7 _]]]]]]] H B. split.
  - destruct (G5 a) as [E|[_ [N _]]]; [congruence|now rewrite E|contradiction].
  - unfold holds_on in *. now rewrite G6, G7.
Qed.
Print Assumptions c89_kept.

(** When the collector does nothing, this conversion and the one of C49 (and
    of the functions of C82, C83) are the same, also when they do not end. *)
Theorem c89_model : forall lm t e s, fst (cpp2R_g idle lm t e s) = fst (cpp2R lm t e (rw s)) /\
  rw (snd (cpp2R_g idle lm t e s)) = snd (cpp2R lm t e (rw s)).
Proof. exact cpp2R_g_idle. Qed.
Print Assumptions c89_model.

Lemma nth_map_seq (f : nat -> val) n k d : (k < n)%nat -> nth k (map f (seq 0 n)) d = f k.
Proof.
  intros H. assert (E : nth_error (map f (seq 0 n)) k = Some (f k)).
  { apply map_nth_error. rewrite (nth_error_nth' _ 0%nat) by (now rewrite seq_length). now rewrite seq_nth. }
  now apply nth_error_nth.
Qed.
Lemma nth_in_map {A} (g : A -> val) l k d : (k < length l)%nat -> exists a, nth k (map g l) d = g a.
Proof. revert k. induction l as [|a l IH]; intros [|k] H; cbn in *; try lia; eauto. apply IH. lia. Qed.

(** An element that cannot be read: the exception leaves cpp2R with the new
    object still protected, one more than before. *)
Theorem c89_exception_refuted : forall G lm s x fs ind i, world_shape (rw s) -> vholds (rw s) x (map VD fs) -> secured s (EVar x) ->
  (length ind <= length fs)%nat -> (i < length ind)%nat ->
  (forall k, (k < i)%nat -> 0 <= nth k ind 0 < Z.of_nat (length fs)) -> Z.of_nat (length fs) <= nth i ind 0 ->
  Z.of_nat (length ind) <= 2 ^ 31 - 1 -> Z.of_nat (length ind) <= hlim (hp (rw s)) ->
  exists m a w', cpp2R_g G lm TDouble (ESub (EVar x) ind mp_none) s = (Thrown m, mkRW w' (a :: pstk s) (root s)).
Proof.
  intros G lm s x fs ind i W H Se Li Hi Lo Hi2 Hm HL.
  assert (Ne : map VD fs <> []) by (destruct fs; [cbn in Li; lia|discriminate]).
  assert (SW : forall j, elem lm (ESub (EVar x) ind mp_none) j (swept G s) =
    (fst (elem lm (ESub (EVar x) ind mp_none) j (rw s)), swept G s)).
  { intros j. apply pair_eta; [|apply elem_pure]. apply elem_same. intros y Iy. cbn [vars] in Iy. now apply (swept_same G s (EVar x)). }
  set (us := map (fun k => nth (Z.to_nat (nth k ind 0)) (map VD fs) (VB false)) (seq 0 i)).
  assert (Lu : length us = i) by (unfold us; now rewrite map_length, seq_length).
  destruct (g_stop G lm TDouble (ESub (EVar x) ind mp_none) us s (length ind) (Thrown msg_oob)) as [w' [a E]]; auto; try (rewrite Lu; auto); try discriminate.
  - intros k Hk. destruct (Lo k Hk) as [K1 K2].
    exists (nth (Z.to_nat (nth k ind 0)) (map VD fs) (VB false)). rewrite SW.
    pose proof (vholds_yields lm (rw s) x _ H) as Y.
    rewrite (elem_sub_at lm (rw s) (EVar x) (map VD fs)) by (auto; rewrite map_length, Nat.mod_small by lia; lia).
    rewrite map_length, Nat.mod_small by lia. cbn [elem]. unfold bind.
    rewrite at_rd_pick with (l := map VD fs) by (auto; lia). rewrite pick_val_in by (rewrite map_length; lia).
    split; [reflexivity|]. unfold us. rewrite nth_map_seq by lia.
    destruct (nth_in_map VD fs (Z.to_nat (nth k ind 0)) (VB false)) as [f ->]; [lia|]. reflexivity.
  - rewrite SW. rewrite (sub_out lm (rw s) x (map VD fs)) by (rewrite ?map_length; auto; lia). reflexivity.
  - exists msg_oob, a, w'. exact E.
Qed.
Print Assumptions c89_exception_refuted.

(** Nothing in the library keeps the R object that a vector wraps.  If R does
    not reach it, a collector can free it when the result is allocated, and
    the conversion then reads freed memory. *)
Theorem c89_wrapped_refuted : forall lm t s x l a cs, world_shape (rw s) -> vholds (rw s) x l -> l <> [] ->
  ismat (mp (ob (rw s) (OD x))) = false -> ptr (ob (rw s) (OD x)) = Some a -> hblk (hp (rw s)) a = Live OwnR cs -> ~ holds_on s a ->
  Z.of_nat (length l) <= 2 ^ 31 - 1 -> Z.of_nat (length l) <= hlim (hp (rw s)) ->
  exists G, fst (cpp2R_g G lm t (EVar x) s) = Undef UB_freed.
Proof.
  intros lm t s x l a cs W H Ne Nm P B Nh Hm HL. exists (fun _ b => Nat.eqb b a). set (G := fun _ b => Nat.eqb b a).
  assert (Bf : hblk (hp (swept G s)) a = Freed).
  { simpl. rewrite B. unfold G. rewrite Nat.eqb_refl. destruct (kept s a) eqn:K; [apply kept_holds in K; contradiction|reflexivity]. }
  destruct (ws_store _ (W) (OD x)) as [_ [_ Sx]]. rewrite P in Sx. destruct Sx as [Al [cs' [B' [S1 S2]]]].
  destruct (g_stop G lm t (EVar x) [] s (length l) (Undef UB_freed)) as [w' [b E]]; auto; try discriminate.
  - exact (proj1 H).
  - destruct l; [congruence|cbn; lia].
  - cbn [length]. intros i Hi. lia.
  - cbn [length elem]. unfold at_rd. rewrite bind_st. 
    assert (K : kd (ob (swept G s) (OD x)) = KBorrowSEXP).
    { rewrite swept_ob. rewrite B in B'. destruct (kd (ob (rw s) (OD x))) eqn:K; auto; unfold owner_of in B'; rewrite K in B'; discriminate. }
    rewrite K. unfold sexp_get_at. rewrite bind_st. rewrite swept_ob. rewrite P. rewrite bind_ass_true.
    destruct H as [Sz _]. assert (0 < sz (ob (rw s) (OD x))) by (rewrite Sz; destruct l; [congruence|cbn; lia]).
    replace (Z.of_nat 0 <? sz (ob (rw s) (OD x))) with true by (symmetry; apply Z.ltb_lt; lia). rewrite bind_ass_true.
    unfold rd. now rewrite Bf.
  - now rewrite E.
Qed.
Print Assumptions c89_wrapped_refuted.

(** The object a conversion returns is not protected any more: a second
    conversion before it reaches R can free it. *)
Theorem c89_second_refuted : forall lm t1 t2 e1 e2 rho us1 us2 s, world_shape (rw s) -> all_secured s ->
  (forall a, hblk (hp (rw s)) a = Unused -> ~ holds_on s a) ->
  env_of (rw s) rho e1 -> wf_expr rho e1 -> value_of lm rho (in_R t1) e1 us1 -> flat (rw s) e1 ->
  env_of (rw s) rho e2 -> wf_expr rho e2 -> value_of lm rho (in_R t2) e2 us2 -> flat (rw s) e2 ->
  Z.of_nat (length us1) <= 2 ^ 31 - 1 -> Z.of_nat (length us1) <= hlim (hp (rw s)) ->
  Z.of_nat (length us2) <= 2 ^ 31 - 1 -> Z.of_nat (length us2) <= hlim (hp (rw s)) ->
  exists G o1 s1 o2 s2, cpp2R_g G lm t1 e1 s = (Done o1, s1) /\ r_got_g s s1 o1 t1 us1 None /\
    cpp2R_g G lm t2 e2 s1 = (Done o2, s2) /\ hblk (hp (rw s2)) (r_mem o1) = Freed.
Proof.
  intros lm t1 t2 e1 e2 rho us1 us2 s W AS Fr EN1 F1 V1 Fl1 EN2 F2 V2 Fl2 A1 A2 B1 B2.
  assert (S1 : secured s e1) by (intros x a cs _; apply AS). assert (S2 : secured s e2) by (intros x a cs _; apply AS).
  set (G := fun (_ : rworld) (_ : nat) => true). exists G.
  destruct (cpp2R_g_flat G lm t1 e1 rho us1 s W EN1 F1 V1 (flat_im _ _ Fl1) A1 A2 S1) as [o1 [s1 [E1 [G1 _]]]].
  pose proof G1 as [_ [_ [Lv [Un [[Ob [Lim _]] [Ps [Rt Sh]]]]]]].
  destruct (cpp2R_g_flat G lm t2 e2 rho us2 s1) as [o2 [s2 [E2 [G2 K2]]]]; auto.
  - intros x Ix. apply (holds_same (rw s)); [|now apply EN2]. exact (got_same _ _ _ _ _ _ _ _ W G1 S2 Ix).
  - rewrite (eim_ob (rw s)) by exact Ob. exact (flat_im _ _ Fl2).
  - now rewrite Lim.
  - exact (got_secured _ _ _ _ _ _ _ W G1 S2).
  - exists o1, s1, o2, s2. split; [exact E1|]. split; [exact G1|]. split; [exact E2|].
    destruct G2 as [_ [_ [_ [Un2 _]]]]. rewrite K2 by congruence. simpl. rewrite Lv. unfold G. cbn [andb].
    destruct (kept s1 (r_mem o1)) eqn:K; [|reflexivity]. apply kept_holds in K. unfold holds_on in K. rewrite Ps, Rt in K.
    elim (Fr (r_mem o1) Un K).
Qed.
Print Assumptions c89_second_refuted.

(** The example: vector 0 holds 1, 2, 3 in memory of the library, vector 7 wraps
    an R object holding 1, 2 (block 2).  With the object reached by R, and
    without. *)
Definition gc_w : world := snd (vec_sexp 7 TDouble (Some 2%nat) 2 mp_none (user_block ex_w OwnR [d1; d2])).
Definition gc_s (b : bool) : rworld := mkRW gc_w [] (fun a => b && Nat.eqb a 2).
Lemma gc_base : world_ok (user_block ex_w OwnR [d1; d2]).
Proof. apply (user_block_ok ex_w OwnR [d1; d2] ex_ok); [congruence|vm_compute; congruence]. Qed.
Lemma gc_ok : world_ok gc_w.
Proof.
  destruct (vec_sexp_done (user_block ex_w OwnR [d1; d2]) 7 TDouble 2%nat [d1; d2] mp_none gc_base) as [w' [E [O _]]].
  - apply unborn_ptr. vm_compute. reflexivity.
  - apply unborn_ptr. vm_compute. reflexivity.
  - vm_compute. reflexivity.
  - unfold gc_w. change 2 with (Z.of_nat (length [d1; d2])). rewrite E. exact O.
Qed.
Lemma gc_seven : vholds gc_w 7 [d1; d2]. Proof. show_holds. Qed.
Lemma gc_zero : vholds gc_w 0 [d1; d2; d3]. Proof. show_holds. Qed.
Lemma gc_R a cs : hblk (hp gc_w) a = Live OwnR cs -> a = 2%nat.
Proof. intros B. destruct a as [|[|[|a]]]; vm_compute in B; congruence. Qed.
Lemma gc_all : all_secured (gc_s true).
Proof. intros o a cs _ B. left. now rewrite (gc_R a cs B). Qed.
Definition gc_rho (x : nat) : list val := if Nat.eqb x 7 then [d1; d2] else [d1; d2; d3].

(** The wrapped vector survives any collection. *)
Example c89_ex : forall G, exists o s', cpp2R_g G ex_lm TDouble (EBin OPlus (EVar 0) (EVar 7)) (gc_s true) = (Done o, s') /\
  r_got_g (gc_s true) s' o TDouble [VD (i2f 2); VD (i2f 4); VD (i2f 4)] None.
Proof.
  intros G. apply (c89_vector G ex_lm TDouble _ gc_rho).
  - exact (proj1 gc_ok).
  - intros x [<-|[<-|[]]]; [exact gc_zero|exact gc_seven].
  - cbn. repeat split; lia.
  - split; [reflexivity|]. intros i Hi. destruct i as [|[|[|i]]]; [eexists; split; vm_compute; reflexivity..|cbn in Hi; lia].
  - apply Fl_bin; apply Fl_var; vm_compute; reflexivity.
  - intros x a cs _. apply gc_all.
  - cbn. lia.
  - vm_compute. congruence.
Qed.
Example c89_number_ex : exists o s', cpp2R_scalar (fun _ _ => true) (VB true) (gc_s true) = (Done o, s') /\ r_got_g (gc_s true) s' o TBool [VI 1] None.
Proof. apply (c89_number _ (VB true)); [exact (proj1 gc_ok)|vm_compute; congruence]. Qed.
(** x[c(2, 10)] *)
Example c89_exception_ex : exists m a w', cpp2R_g idle ex_lm TDouble (ESub (EVar 0) [1; 9] mp_none) (gc_s true) =
  (Thrown m, mkRW w' [a] (root (gc_s true))).
Proof.
  apply (c89_exception_refuted idle ex_lm (gc_s true) 0 [i2f 1; i2f 2; i2f 3] [1; 9] 1); try (cbn; lia).
  - exact (proj1 gc_ok).
  - exact gc_zero.
  - intros x a cs _. apply gc_all.
  - intros [|k] Hk; cbn; lia.
  - vm_compute. congruence.
Qed.
Example c89_wrapped_ex : exists G, fst (cpp2R_g G ex_lm TDouble (EVar 7) (gc_s false)) = Undef UB_freed.
Proof.
  apply (c89_wrapped_refuted ex_lm TDouble (gc_s false) 7 [d1; d2] 2 (map Some [d1; d2])).
  - exact (proj1 gc_ok).
  - exact gc_seven.
  - discriminate.
  - vm_compute. reflexivity.
  - vm_compute. reflexivity.
  - vm_compute. reflexivity.
  - intros [H|[]]. discriminate H.
  - cbn. lia.
  - vm_compute. congruence.
Qed.
Example c89_second_ex : exists G o1 s1 o2 s2, cpp2R_g G ex_lm TDouble (EVar 7) (gc_s true) = (Done o1, s1) /\
  r_got_g (gc_s true) s1 o1 TDouble [d1; d2] None /\
  cpp2R_g G ex_lm TDouble (EVar 0) s1 = (Done o2, s2) /\ hblk (hp (rw s2)) (r_mem o1) = Freed.
Proof.
  apply (c89_second_refuted ex_lm TDouble TDouble (EVar 7) (EVar 0) gc_rho [d1; d2] [d1; d2; d3]).
  - exact (proj1 gc_ok).
  - exact gc_all.
  - intros a U [H|[]]. unfold gc_s in H. cbn [root] in H. apply andb_prop in H. destruct H as [_ H]. apply Nat.eqb_eq in H. subst. vm_compute in U. discriminate.
  - intros x [<-|[]]. exact gc_seven.
  - exact I.
  - split; [reflexivity|]. intros i Hi. destruct i as [|[|i]]; [eexists; split; vm_compute; reflexivity..|cbn in Hi; lia].
  - apply Fl_var. vm_compute. reflexivity.
  - intros x [<-|[]]. exact gc_zero.
  - exact I.
  - split; [reflexivity|]. intros i Hi. destruct i as [|[|[|i]]]; [eexists; split; vm_compute; reflexivity..|cbn in Hi; lia].
  - apply Fl_var. vm_compute. reflexivity.
  - cbn. lia.
  - vm_compute. congruence.
  - cbn. lia.
  - vm_compute. congruence.
Qed.
Example c89_matrix_ex : forall G, exists o s', cpp2R_g G ex_lm TInt (EBin OPlus ex_mat (EVar 7)) (gc_s true) = (Done o, s') /\
  r_got_g (gc_s true) s' o TInt [VI 4; VI 4; VI 2; VI 2] (Some (2, 2)).
Proof.
  intros G. apply (c89_matrix G ex_lm TInt (EBin OPlus ex_mat (EVar 7)) gc_rho); try lia.
  - exact (proj1 gc_ok).
  - intros x [<-|[]]. exact gc_seven.
  - cbn [wf_expr ex_mat]. repeat split; vm_compute; congruence.
  - split; [reflexivity|]. intros i Hi.
    do 4 (destruct i as [|i]; [eexists; split; [vm_compute; reflexivity|vm_compute; reflexivity]|]). simpl in Hi. lia.
  - apply Sh_left; [apply Sh_tmp; reflexivity|apply Fl_var; vm_compute; reflexivity|vm_compute; congruence].
  - intros x a cs _. apply gc_all.
  - simpl. lia.
  - vm_compute. congruence.
Qed.
(** The wrapped R object itself is as before afterwards. *)
Example c89_kept_ex : forall G, exists o s', cpp2R_g G ex_lm TDouble (EBin OPlus (EVar 0) (EVar 7)) (gc_s true) = (Done o, s') /\
  hblk (hp (rw s')) 2%nat = Live OwnR (map Some [d1; d2]).
Proof.
  intros G. destruct (c89_ex G) as [o [s' [E Gt]]]. exists o, s'. split; [exact E|].
  apply (c89_kept _ _ _ _ _ _ _ _ Gt); [left; reflexivity|vm_compute; reflexivity].
Qed.
(** A matrix of two rows and one column that got 3 elements. *)
Definition gc_bad : world := set_ob gc_w (OD 0) (with_mp (mkMP true 2 1) (ob gc_w (OD 0))).
Example c89_mismatch_ex : forall G, exists m, cpp2R_g G ex_lm TDouble (EVar 0) (mkRW gc_bad [5%nat] (fun _ => false)) =
  (Thrown (Ass m), mkRW gc_bad [5%nat] (fun _ => false)).
Proof. intros G. apply (c89_mismatch G ex_lm TDouble _ 0 2 1); vm_compute; congruence. Qed.
