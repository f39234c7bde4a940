(** Vectors from Rcpp and Armadillo objects and back. *)
From Coq Require Import ZArith List String Bool Lia.
From Verif Require Import Base Num StoreModel VecModel OutModel ForeignModel Spec SpecExpr SpecHist SpecVec SpecForeign SpecOut SpecSub
  CapProofs StoreProofs StoreOps VecProofs VecAssign StoreThms StoreHist StoreThms2 BorrowProofs VecEval VecThms OutProofs
  ForeignProofs ForeignProofs2 ForeignProofs3 ForeignProofs4.
Import ListNotations.
Open Scope Z_scope.
Local Notation length := List.length (only parsing).
Arguments Z.mul : simpl never.

(** The loop of the assignments from foreign vectors. *)
Lemma foreign_loop w o own a cs t f us :
  world_shape w -> ptr (ob w o) = Some a -> hblk (hp w) a = Live own cs -> sz (ob w o) = Z.of_nat (length us) ->
  (length us <= length cs)%nat -> converted t (map VD f) us ->
  exists w' cs', for_ (Z.of_nat (length f)) (fun i =>
      v <- lift (cast t (VD (nth (Z.to_nat i) f fzero))) ;; at_wr o i v) w = (Done tt, w') /\
    upd_cells w w' a own cs' /\ length cs' = length cs /\
    (forall j, nth j cs' None = if Nat.ltb j (length us) then Some (nth j us (VB false)) else nth j cs None) /\
    world_shape w' /\ holds w' o us.
Proof.
  intros W P B Sz Len CV. pose proof (converted_length _ _ _ CV) as CL. rewrite map_length in CL.
  unfold for_. rewrite CL, Nat2Z.id. apply (fill_any w o own a cs us); auto.
  intros k w1 cs1 Hk [U1 [U2 [U3 [U4 U5]]]].
  pose proof (converted_nth t _ us (Z.to_nat k) CV) as CN. rewrite map_length in CN. specialize (CN ltac:(lia)).
  rewrite (nth_indep _ _ (VD fzero)), map_nth in CN by (rewrite map_length; lia).
  rewrite CN, bind_lift_done. apply at_wr_in; rewrite ?U1; auto; [eapply shape_alloc; eauto|lia].
Qed.

Lemma assign_foreign_own w x f us :
  world_ok w -> owning w x -> (alloc (ob w (OD x)) = true -> ptr (ob w (OD x)) <> None) ->
  f_el f <> [] -> fits w (Z.of_nat (length (f_el f))) -> converted (sty (ob w (OD x))) (map VD (f_el f)) us ->
  exists w', assign_foreign x f w = (Done tt, w') /\ vstep w w' x /\ world_ok w' /\ owning w' x /\
    vholds w' x us /\ mp (ob w' (OD x)) = f_shape f /\ sty (ob w' (OD x)) = sty (ob w (OD x)) /\
    ptr (ob w' (OD x)) <> None /\ ob w' (OT x) = ob w (OT x).
Proof.
  intros WO [K1 K2] HA NE Ft CV. pose proof WO as [W IN]. pose proof (ws_lim _ W) as Lim. unfold fits in Ft.
  pose proof (converted_length _ _ _ CV) as CL. rewrite map_length in CL.
  assert (L1 : (1 <= length (f_el f))%nat) by (destruct (f_el f); [congruence|simpl; lia]).
  destruct (cap115_ok (Z.of_nat (length (f_el f)))) as [c [C Bc]]; [lia|].
  destruct (resize_done w (OD x) (Z.of_nat (length (f_el f))) c W K1) as [w1 [E1 [S1 [R1 [R2 [R3 [R4 [R5 [R6 [R7 [R8 R9]]]]]]]]]]];
    auto; try lia.
  unfold assign_foreign. rewrite bind_st. unfold any_resize at 1. rewrite bind_assoc, bind_st, K1.
  rewrite (bind_done _ _ _ _ _ E1), bind_upd.
  set (w2 := set_ob w1 (OD x) (with_mp (f_shape f) (ob w1 (OD x)))).
  pose proof (with_mp_step w1 (OD x) (f_shape f) (s1_shape _ _ _ S1)) as S2. fold w2 in S2.
  assert (O2 : ob w2 (OD x) = with_mp (f_shape f) (ob w1 (OD x))) by apply ob_set_same.
  destruct (ptr (ob w1 (OD x))) as [a|] eqn:P; [|congruence].
  assert (P2 : ptr (ob w2 (OD x)) = Some a) by now rewrite O2.
  destruct (ptr_live _ _ _ (s1_shape _ _ _ S2) P2) as [cs [B [LB1 LB2]]].
  assert (Ow : owner_of (ob w2 (OD x)) = OwnCpp) by (rewrite O2; unfold owner_of; simpl; now rewrite R1). rewrite Ow in B.
  assert (Z2 : sz (ob w2 (OD x)) = Z.of_nat (length us)) by (rewrite O2; simpl; lia).
  destruct (foreign_loop w2 (OD x) OwnCpp a cs (sty (ob w (OD x))) (f_el f) us (s1_shape _ _ _ S2) P2 B Z2)
    as [w3 [cs3 [E3 [U3 [Len3 [Nth3 [W3 H3]]]]]]]; auto; [lia|].
  exists w3. split; [exact E3|].
  assert (S3 : step1 w2 w3 (OD x)).
  { eapply step1_cells; eauto; [apply S2|]. split; auto. }
  destruct U3 as [U1 _].
  assert (S : step1 w w3 (OD x)) by (eapply step1_trans; [exact S1|]; eapply step1_trans; eauto).
  split; [eapply step1_vstep; [left; reflexivity|exact S]|].
  assert (O3 : ob w3 (OD x) = with_mp (f_shape f) (ob w1 (OD x))) by (rewrite U1; exact O2).
  split; [eapply step1_ok; eauto; eapply inited_buffer; eauto; rewrite O3; exact R1|].
  assert (OT3 : ob w3 (OT x) = ob w (OT x)) by (apply (s1_other _ _ _ S); congruence).
  split; [unfold owning; rewrite O3, OT3; auto|]. split; [exact H3|]. rewrite O3. cbn [mp sty ptr with_mp].
  rewrite P. repeat split; auto.
Qed.

(** Borrowed memory: within the capacity the elements go to the user's memory. *)
Lemma assign_foreign_borrow w x a f us cs :
  world_ok w -> borrows w x a -> hblk (hp w) a = Live OwnExt cs ->
  f_el f <> [] -> Z.of_nat (length (f_el f)) <= cap (ob w (OD x)) -> converted (sty (ob w (OD x))) (map VD (f_el f)) us ->
  exists w', assign_foreign x f w = (Done tt, w') /\ world_ok w' /\ borrows w' x a /\
    vholds w' x us /\ mp (ob w' (OD x)) = f_shape f /\
    hblk (hp w') a = Live OwnExt (map Some us ++ skipn (length us) cs) /\
    (forall b, b <> a -> hblk (hp w') b = hblk (hp w) b) /\ (forall o, o <> OD x -> ob w' o = ob w o).
Proof.
  intros WO [K1 [P K2]] B NE HC CV. pose proof WO as [W IN].
  pose proof (converted_length _ _ _ CV) as CL. rewrite map_length in CL.
  assert (L1 : (1 <= length (f_el f))%nat) by (destruct (f_el f); [congruence|simpl; lia]).
  destruct (ptr_live _ _ _ W P) as [cs0 [B0 [LB1 LB2]]].
  unfold owner_of in B0. rewrite K1, B in B0. injection B0 as <-.
  set (n := Z.of_nat (length (f_el f))) in *.
  unfold assign_foreign. fold n. rewrite bind_st. unfold any_resize. rewrite bind_assoc, bind_st, K1.
  unfold borrow_resize. replace (1 <=? n) with true by (symmetry; apply Z.leb_le; lia).
  rewrite bind_assoc, bind_ass_true, bind_assoc, bind_st. replace (n <=? cap (ob w (OD x))) with true by (symmetry; now apply Z.leb_le).
  rewrite !bind_upd.
  match goal with |- context [for_ n _ ?W] => set (w2 := W) end.
  assert (O2 : ob w2 (OD x) = with_mp (f_shape f) (with_sz n (ob w (OD x)))) by (unfold w2; now rewrite !ob_set_same).
  assert (X2 : forall o, o <> OD x -> ob w2 o = ob w o) by (intros o N; unfold w2; now rewrite !ob_set_other).
  assert (S2 : step1 w w2 (OD x)).
  { eapply (step1_foreign w w2 (OD x) a cs); auto; rewrite ?O2; simpl; auto; unfold owner_of; simpl; rewrite ?K1; auto; try discriminate; try lia.
    - intros b [_ O]. unfold owner_of in O. rewrite K1 in O. discriminate.
    - eapply shape_alloc; eauto.
    }
  assert (P2 : ptr (ob w2 (OD x)) = Some a) by now rewrite O2.
  destruct (foreign_loop w2 (OD x) OwnExt a cs (sty (ob w (OD x))) (f_el f) us (s1_shape _ _ _ S2) P2 B)
    as [w3 [cs3 [E3 [U3 [Len3 [Nth3 [W3 H3]]]]]]]; auto; [rewrite O2; simpl; lia|lia|].
  exists w3. split; [exact E3|]. pose proof U3 as [U1 [U2 [U4 [U5 U6]]]].
  assert (EC : cs3 = map Some us ++ skipn (length us) cs).
  { apply nth_ext with (d := None) (d' := None).
    - rewrite app_length, map_length, skipn_length. lia.
    - intros j Hj. rewrite Nth3. destruct (Nat.ltb_spec j (length us)) as [Lj|Lj].
      + rewrite app_nth1 by (rewrite map_length; lia). symmetry. now apply map_some_nth.
      + rewrite app_nth2, map_length by (rewrite map_length; lia).
        rewrite <- (firstn_skipn (length us) cs) at 1. rewrite app_nth2 by (rewrite firstn_length; lia).
        f_equal. rewrite firstn_length. lia. }
  assert (WO3 : world_ok w3).
  { split; [exact W3|]. intros o. destruct (oid_dec o (OD x)) as [->|N].
    - destruct (IN (OD x)) as [_ I2]. destruct (I2 ltac:(congruence)) as [I3 I4].
      split; [eapply inited_holds; eauto|]. intros _. rewrite U1, O2. simpl. split; [lia|].
      intros a' own' cs' P' B' i Hi. simpl in P'. assert (a' = a) by congruence. subst a'.
      simpl in B'. rewrite U5 in B'. injection B' as <- <-. rewrite Nth3.
      destruct (Nat.ltb (Z.to_nat i) (length us)); [eauto|]. apply (I4 a OwnExt cs P B i Hi).
    - apply (inited_cells w2 w3 a OwnExt cs cs3 o B U3).
      + intros i v Hv. rewrite Nth3. destruct (Nat.ltb i (length us)); eauto.
      + eapply inited_same; [apply (s1_other _ _ _ S2); auto|]. apply IN. }
  assert (O3 : ob w3 (OD x) = with_mp (f_shape f) (with_sz n (ob w (OD x)))) by (rewrite U1; exact O2).
  split; [exact WO3|]. split; [unfold borrows; rewrite O3, U1, X2 by congruence; auto|].
  split; [exact H3|]. split; [rewrite O3; reflexivity|]. split; [now rewrite U5, EC|].
  split; [intros b Nb; now rewrite U6|]. intros o N. rewrite U1. auto.
Qed.

Lemma assign_foreign_empty w x f : f_el f = [] ->
  assign_foreign x f w = (Thrown (Ass "Size has to be larger than 0"), w).
Proof.
  intros E. unfold assign_foreign. rewrite E. cbn [length Z.of_nat]. rewrite bind_st.
  unfold any_resize. unfold bind at 1 2, st. destruct (kd (ob w (OD x))); reflexivity.
Qed.

Lemma assign_foreign_borrow_long w x f : kd (ob w (OD x)) = KBorrow ->
  cap (ob w (OD x)) < Z.of_nat (length (f_el f)) -> f_el f <> [] ->
  exists m, assign_foreign x f w = (Thrown (Ass m), w).
Proof.
  intros K C NE. assert (L1 : 1 <= Z.of_nat (length (f_el f))) by (destruct (f_el f); [congruence|simpl length; lia]).
  destruct (borrow_resize_long w (OD x) _ L1 C) as [m E].
  unfold assign_foreign. rewrite bind_st. unfold any_resize. rewrite bind_assoc, bind_st, K.
  unfold bind at 1. rewrite E. eauto.
Qed.

(** A wrapper: more elements than the R object has frees R's memory. *)
Lemma assign_foreign_wrapper_long w x a f : world_shape w -> wraps w x a ->
  cap (ob w (OD x)) < Z.of_nat (length (f_el f)) -> f_el f <> [] ->
  assign_foreign x f w = (Undef UB_foreign_free, w).
Proof.
  intros W [K [P [TD K2]]] C NE. assert (L1 : 1 <= Z.of_nat (length (f_el f))) by (destruct (f_el f); [congruence|simpl length; lia]).
  destruct (ptr_live _ _ _ W P) as [cs [B _]]. unfold owner_of in B. rewrite K, TD in B.
  unfold assign_foreign. rewrite bind_st. unfold any_resize. rewrite bind_assoc, bind_st, K.
  unfold sexp_resize. replace (1 <=? Z.of_nat (length (f_el f))) with true by (symmetry; now apply Z.leb_le).
  rewrite bind_assoc, bind_ass_true, bind_assoc, bind_st, (shape_alloc _ _ _ W P). cbn [negb].
  replace (cap (ob w (OD x)) <? Z.of_nat (length (f_el f))) with true by (symmetry; now apply Z.ltb_lt).
  rewrite P, bind_assoc, bind_ass_true, bind_assoc. unfold bind at 1. now rewrite (del_foreign _ _ _ B).
Qed.

(** Construction. *)
Lemma vec_default_done w x t : world_ok w -> unborn w (OD x) -> unborn w (OT x) ->
  exists w', vec_default x t w = (Done tt, w') /\ vstep w w' x /\ world_ok w' /\
    ob w' (OD x) = store_default KBuffer t /\ ob w' (OT x) = store_default KBuffer t.
Proof.
  intros WO D1 D2. pose proof WO as [W IN].
  destruct (ctor_default_done w (OD x) t W D1) as [w1 [E1 [S1 [O1 H1]]]].
  destruct (ctor_default_done w1 (OT x) t (s1_shape _ _ _ S1)) as [w2 [E2 [S2 [O2 H2]]]].
  { intros a Ha. destruct (s1_other _ _ _ S1 (OT x)) as [Q _]; [congruence|]. rewrite Q in Ha. now apply (D2 a). }
  exists w2. unfold vec_default. rewrite (bind_done _ _ _ _ _ E1). split; [exact E2|].
  split. { eapply vstep_trans; eapply step1_vstep; [left; reflexivity|exact S1|right; reflexivity|exact S2]. }
  assert (O12 : ob w2 (OD x) = store_default KBuffer t).
  { destruct (s1_other _ _ _ S2 (OD x)) as [Q _]; [congruence|]. now rewrite Q. }
  split; [|auto]. eapply step1_ok; [exact S2| |].
  - eapply step1_ok; [exact S1|exact WO|]. eapply inited_buffer; eauto; [apply S1|now rewrite O1].
  - eapply inited_buffer; eauto; [apply S2|now rewrite O2].
Qed.

Lemma vec_of_foreign_done w x t f us :
  world_ok w -> unborn w (OD x) -> unborn w (OT x) ->
  f_el f <> [] -> fits w (Z.of_nat (length (f_el f))) -> converted t (map VD (f_el f)) us ->
  exists w', vec_of_foreign x t f w = (Done tt, w') /\ vstep w w' x /\ world_ok w' /\ owning w' x /\ ready w' x /\
    vholds w' x us /\ mp (ob w' (OD x)) = f_shape f /\ sty (ob w' (OD x)) = t.
Proof.
  intros WO D1 D2 NE Ft CV. destruct (vec_default_done w x t WO D1 D2) as [w1 [E1 [V1 [WO1 [O1 T1]]]]].
  destruct (assign_foreign_own w1 x f us WO1) as [w2 [E2 [V2 [WO2 [OW2 [H2 [M2 [T2 [P2 OT2]]]]]]]]].
  { unfold owning. now rewrite O1, T1. }
  { rewrite O1. discriminate. }
  { exact NE. }
  { unfold fits in *. now rewrite (vs_lim _ _ _ V1). }
  { now rewrite O1. }
  exists w2. unfold vec_of_foreign. rewrite (bind_done _ _ _ _ _ E1), E2. split; [reflexivity|].
  split; [eapply vstep_trans; eauto|]. split; [exact WO2|]. split; [exact OW2|]. split.
  { split; [exact P2|]. left. now rewrite OT2, T1. }
  split; [exact H2|]. split; [exact M2|]. now rewrite T2, O1.
Qed.

(** An empty foreign vector: construction throws and leaves nothing behind. *)
Lemma vec_of_foreign_empty w x t f :
  world_ok w -> unborn w (OD x) -> unborn w (OT x) -> f_el f = [] ->
  exists w', vec_of_foreign x t f w = (Thrown (Ass "Size has to be larger than 0"), w') /\ vstep w w' x /\
    unborn w' (OD x) /\ unborn w' (OT x).
Proof.
  intros WO D1 D2 NE. destruct (vec_default_done w x t WO D1 D2) as [w1 [E1 [V1 [WO1 [O1 T1]]]]].
  unfold vec_of_foreign. rewrite (bind_done _ _ _ _ _ E1), (assign_foreign_empty w1 x f NE).
  destruct (destroy_done w1 (OT x) (proj1 WO1)) as [w2 [E2 [S2 [D2' [P2 [Z2 K2]]]]]]; [now rewrite T1|].
  assert (O2 : ob w2 (OD x) = store_default KBuffer t).
  { destruct (s1_other _ _ _ S2 (OD x)) as [Q _]; [congruence|]. now rewrite Q. }
  destruct (destroy_done w2 (OD x) (s1_shape _ _ _ S2)) as [w3 [E3 [S3 [D3 [P3 [Z3 K3]]]]]]; [now rewrite O2|].
  assert (ED : vec_destroy x w1 = (Done tt, w3)).
  { unfold vec_destroy, any_destroy. rewrite bind_assoc, bind_st, T1. cbn [kd store_default].
    rewrite (bind_done _ _ _ _ _ E2), bind_st, O2. exact E3. }
  rewrite (bind_done _ _ _ _ _ ED). exists w3. split; [reflexivity|]. split.
  { eapply vstep_trans; [exact V1|]. eapply vstep_trans; eapply step1_vstep; [right; reflexivity|exact S2|left; reflexivity|exact S3]. }
  split; [exact D3|]. intros a Ha. destruct (s1_other _ _ _ S3 (OT x)) as [Q _]; [congruence|]. rewrite Q in Ha.
  now apply (D2' a).
Qed.

(* ------------------------------------------------------------------- back *)

Lemma to_doubles_done lm w e us n fs : (n <= length us)%nat -> yields lm w e us -> 
  converted TDouble (firstn n us) (map VD fs) -> to_doubles lm e n w = (Done fs, w).
Proof.
  intros Ln [Sz El] CV. unfold to_doubles.
  rewrite (bind_done _ _ _ _ _ (show_done (elem lm e) (fun i => nth i us (VB false)) w n 0 ltac:(intros; apply El; lia))).
  unfold ret. do 2 f_equal.
  assert (E : map (fun i => nth i us (VB false)) (seq 0 n) = firstn n us).
  { rewrite <- (seq_nth_all (firstn n us) (VB false)) at 1. rewrite firstn_length, Nat.min_l by lia.
    apply map_ext_in. intros i Hi. apply in_seq in Hi. symmetry. apply nth_first. lia. }
  rewrite E. clear -CV. remember (map VD fs) as gs. revert fs Heqgs. induction CV as [|v u vs us' C _ IH]; intros [|f fs] Q; try discriminate; auto.
  injection Q as Q1 Q2. cbn [map]. subst u. rewrite (IH fs Q2). f_equal. cbn in C. destruct v; now injection C.
Qed.

Lemma to_fvec_done lm w e us fs : yields lm w e us -> converted TDouble us (map VD fs) ->
  to_fvec lm e w = (Done (mkF fs None), w).
Proof.
  intros Y CV. unfold to_fvec. rewrite bind_get. pose proof (proj1 Y) as Sz. rewrite Sz, Nat2Z.id.
  rewrite (bind_done _ _ _ fs w); [reflexivity|]. apply (to_doubles_done lm w e us); auto. now rewrite firstn_all.
Qed.

Lemma to_nummat_done lm w e us fs r c : yields lm w e us -> converted TDouble us (map VD fs) ->
  eim w e = true -> edim rows w e = Done r -> edim cols w e = Done c -> 0 <= r < 2 ^ 31 -> 0 <= c < 2 ^ 31 ->
  r * c = Z.of_nat (length us) -> Z.of_nat (length us) <= int_max ->
  to_nummat lm e w = (Done (mkF fs (Some (r, c))), w).
Proof.
  intros Y CV Im R C Hr Hc RC Hm. unfold to_nummat. rewrite bind_get, Im, bind_ass_true, R, bind_lift_done, C, bind_lift_done.
  rewrite !to_int_id by auto.
  replace ((0 <=? r) && (0 <=? c)) with true by (symmetry; apply andb_true_intro; split; apply Z.leb_le; lia).
  rewrite bind_ass_true, RC. replace (Z.of_nat (length us) <=? int_max) with true by (symmetry; now apply Z.leb_le).
  rewrite bind_ass_true, Nat2Z.id.
  rewrite (bind_done _ _ _ fs w); [reflexivity|]. apply (to_doubles_done lm w e us); auto. now rewrite firstn_all.
Qed.

Lemma to_armamat_done lm w e us fs r c : yields lm w e us -> converted TDouble us (map VD fs) ->
  eim w e = true -> edim rows w e = Done r -> edim cols w e = Done c ->
  r * c = Z.of_nat (length us) -> Z.of_nat (length us) < 2 ^ 64 ->
  to_armamat lm e w = (Done (mkF fs (Some (r, c))), w).
Proof.
  intros Y CV Im R C RC Hm. unfold to_armamat. rewrite bind_get, Im, bind_ass_true, R, bind_lift_done, C, bind_lift_done.
  rewrite RC. replace (Z.of_nat (length us) <? 2 ^ 64) with true by (symmetry; now apply Z.ltb_lt).
  rewrite bind_ass_true, Nat2Z.id.
  rewrite (bind_done _ _ _ fs w); [reflexivity|]. apply (to_doubles_done lm w e us); auto. now rewrite firstn_all.
Qed.

(** Anything that is not a matrix is refused. *)
Lemma to_matrix_refused lm w e : eim w e = false ->
  (exists m, to_nummat lm e w = (Thrown (Ass m), w)) /\ (exists m, to_armamat lm e w = (Thrown (Ass m), w)).
Proof. intros Im. unfold to_nummat, to_armamat. rewrite !bind_get, Im, !bind_ass_false. eauto. Qed.
