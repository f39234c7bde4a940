(** Proofs about the bubble sort example. *)
From Coq Require Import String ZArith List Bool Lia Reals Lra.
From Flocq Require Import Core BinarySingleNaN.
From Verif Require Import Base Num StoreModel VecModel SubsetModel AllocModel BubbleModel FloatBridge Spec SpecExpr
  SpecHist SpecProg SpecSub SpecAlloc SpecBubble CapProofs StoreProofs StoreOps VecProofs VecAssign VecEval SubsetProofs
  StoreThms SubsetThms VecThms AllocProofs AllocProofs2 AllocProofs3.
Import ListNotations.
Open Scope Z_scope.
Local Notation length := List.length (only parsing).

(* ------------------------------------------------------- several vectors *)

Lemma frame_refl w xs : world_ok w -> frame w w xs.
Proof. intros W. split; auto. intros. split; apply same_obj_refl. Qed.
Lemma frame_trans w w1 w2 xs : frame w w1 xs -> frame w1 w2 xs -> frame w w2 xs.
Proof.
  intros A B. split.
  - apply B.
  - rewrite (fr_lim _ _ _ B). apply A.
  - intros y N. destruct (fr_other _ _ _ A y N), (fr_other _ _ _ B y N). split; eapply same_obj_trans; eauto.
  - intros N. apply B, A, N.
Qed.
Lemma frame_incl w w' xs ys : frame w w' xs -> incl xs ys -> frame w w' ys.
Proof. intros A I. split; try apply A. intros y N. apply A. auto. Qed.
Lemma vstep_frame w w' x : vstep w w' x -> world_ok w' -> frame w w' [x].
Proof.
  intros V W. split; auto.
  - apply V.
  - intros y N. split; apply (vs_other _ _ _ V); intros E; apply N; left; congruence.
  - now apply (vstep_no_leak _ _ _ V).
Qed.
Lemma frame_holds w w' xs y l : frame w w' xs -> ~ In y xs -> vholds w y l -> vholds w' y l.
Proof. intros F N H. eapply holds_same; [apply (fr_other _ _ _ F y N)|exact H]. Qed.
Lemma frame_ob w w' xs y : frame w w' xs -> ~ In y xs -> ob w' (OD y) = ob w (OD y) /\ ob w' (OT y) = ob w (OT y).
Proof. intros F N. destruct (fr_other _ _ _ F y N) as [[A _] [B _]]. auto. Qed.

(** Storing one element through a subset. *)
Lemma sub_one lm w s x p same e v l : world_ok w -> owning w x -> vholds w x l -> sty (ob w (OD x)) = TDouble ->
  unborn w (OT s) -> s <> x -> fits w 1 -> 0 <= p < Z.of_nat (length l) ->
  esize w e = 1 -> elem lm e 0 w = (Done (VD v), w) ->
  exists w', assign_subset lm s x [p] same e w = (Done tt, w') /\ frame w w' [x; s] /\
    vholds w' x (list_set l (Z.to_nat p) (VD v)) /\
    ob w' (OD x) = ob w (OD x) /\ ob w' (OT x) = ob w (OT x) /\
    ob w' (OD s) = ob w (OD s) /\ unborn w' (OT s).
Proof.
  intros WO [K1 K2] H T U Ne Ft Hp Se Ee. pose proof (world_ok_shape _ WO) as W.
  unfold fits in Ft. pose proof (ws_lim _ W) as Lim.
  unfold assign_subset. rewrite bind_get, T, Se.
  destruct (ctor_default_done w (OT s) TDouble W U) as [w0 [E0 [S0 [O0 H0]]]].
  rewrite (bind_done _ _ _ _ _ E0).
  assert (K0 : kd (ob w0 (OT s)) = KBuffer) by (rewrite O0; reflexivity).
  destruct (cap115_ok 1) as [c [C1 Bc]]; [lia|].
  destruct (resize_done w0 (OT s) 1 c (s1_shape _ _ _ S0) K0) as [w1 [E1 R1]]; try lia; auto.
  { intros _. rewrite (s1_lim _ _ _ S0). lia. }
  { intros _ A. rewrite O0 in A. discriminate. }
  destruct R1 as [ST1 [Kt [Tt [Mt [Dt [St [At [Pt [Ct Rest]]]]]]]]].
  destruct (ptr (ob w1 (OT s))) as [a|] eqn:Pa; [|congruence].
  assert (S01 : step1 w w1 (OT s)) by (eapply step1_trans; eauto).
  assert (EE : elem lm e 0 w1 = (Done (VD v), w1)).
  { apply pair_eta; [|apply elem_pure].
    rewrite (elem_same lm w w1); [now rewrite Ee|intros y Hy; apply (s1_other _ _ _ S01); congruence]. }
  destruct (fill_temp_done lm (OT s) TDouble e [VD v] w1 a (s1_shape _ _ _ ST1) Kt Pa St) as [w2 [E2 [ST2 [O2 H2]]]].
  { intros; congruence. }
  { intros [|i] Hi; [|simpl in Hi; lia]. exists (VD v). split; [exact EE|reflexivity]. }
  assert (S02 : step1 w w2 (OT s)) by (eapply step1_trans; eauto).
  assert (D2 : ob w2 (OD x) = ob w (OD x)) by (apply (s1_other _ _ _ S02); congruence).
  assert (HX2 : vholds w2 x l).
  { eapply holds_same; [apply (s1_other _ _ _ S02); congruence|exact H]. }
  assert (KT2 : kd (ob w2 (OT s)) = KBuffer) by (rewrite O2; exact Kt).
  destruct (at_wr_own w2 (OD x) l p (VD v) (s1_shape _ _ _ S02) ltac:(now rewrite D2) HX2 Hp) as [w3 [E3 [S3 [O3 H3]]]].
  destruct (destroy_done w3 (OT s) (s1_shape _ _ _ S3) ltac:(now rewrite O3)) as [w4 [E4 [S4 [U4 [P4 [Z4 K4]]]]]].
  assert (AD : any_destroy (OT s) w3 = (Done tt, w4)).
  { unfold any_destroy. rewrite bind_st, O3, KT2. exact E4. }
  exists w4.
  assert (X4 : ob w4 (OD x) = ob w (OD x)).
  { destruct (s1_other _ _ _ S4 (OD x)) as [-> _]; [congruence|]. now rewrite O3. }
  split.
  { unfold scoped.
    assert (EM : (ass (1 =? Z.of_nat (length [p])) "number of items to replace is not a multiple of replacement length";;
      resize (OT s) 1;;
      fill_temp lm (OT s) TDouble e 1;;
      w5 <- get;;
      (if same && (sz (ob w5 (OD x)) <? sz (ob w5 (OT s))) then any_resize (OD x) (sz (ob w5 (OT s))) else ret tt);;
      for_ (Z.of_nat (length [p]))
        (fun i : Z => v0 <- get_at (OT s) i;; k <- lift (modz i (Z.of_nat (length [p])));; sub_wr x [p] k v0)) w0
       = (Done tt, w3)).
    { change (1 =? Z.of_nat (length [p])) with true. rewrite bind_ass_true, (bind_done _ _ _ _ _ E1).
      change (Z.of_nat (length [VD v])) with 1 in E2. rewrite (bind_done _ _ _ _ _ E2), bind_get.
      pose proof (proj1 HX2) as SX.
      assert (S1 : sz (ob w2 (OT s)) = 1) by (rewrite O2; exact St).
      replace (sz (ob w2 (OD x)) <? sz (ob w2 (OT s))) with false by (symmetry; apply Z.ltb_ge; rewrite S1; lia).
      rewrite andb_false_r, bind_ret. unfold for_. change (Z.to_nat (Z.of_nat (length [p]))) with 1%nat. cbn [forN].
      rewrite bind_assoc. change 0 with (Z.of_nat 0) at 1.
      rewrite (bind_done _ _ _ _ _ (VecEval.get_at_holds w2 (OT s) [VD v] 0 KT2 H2 ltac:(simpl; lia))).
      change (modz 0 (Z.of_nat (length [p]))) with (@Done Z 0). rewrite bind_assoc, bind_lift_done.
      assert (EW : sub_wr x [p] 0 (nth 0 [VD v] (VB false)) w2 = (Done tt, w3)).
      { pose proof (sub_wr_at w2 x [p] 0 (VD v)) as SW. change (Z.of_nat 0) with 0 in SW. cbn [nth] in *. rewrite SW by (simpl; lia). exact E3. }
      rewrite (bind_done _ _ _ _ _ EW). reflexivity. }
    rewrite EM. now rewrite (bind_done _ _ _ _ _ AD). }
  assert (HX4 : vholds w4 x (list_set l (Z.to_nat p) (VD v))).
  { eapply holds_same; [apply (s1_other _ _ _ S4); congruence|exact H3]. }
  assert (Oth : forall o, o <> OD x -> o <> OT s -> same_obj w w4 o).
  { intros o N1 N2. eapply same_obj_trans; [apply (s1_other _ _ _ S02); auto|].
    eapply same_obj_trans; [apply (s1_other _ _ _ S3); auto|apply (s1_other _ _ _ S4); auto]. }
  split; [|split; [exact HX4|split; [exact X4|split; [apply Oth; congruence|split; [apply Oth; congruence|exact U4]]]]].
  split.
  - split; [apply S4|]. intros o. destruct (oid_dec o (OD x)) as [-> | N1].
    + eapply inited_buffer; [apply S4|now rewrite X4|exact HX4].
    + destruct (oid_dec o (OT s)) as [-> | N2].
      * apply (inited_buffer w4 (OT s) []); [apply S4|exact K4|]. split; [exact Z4|simpl; lia].
      * eapply inited_same; [apply Oth; auto|apply WO].
  - rewrite (s1_lim _ _ _ S4), (s1_lim _ _ _ S3). apply S02.
  - intros y N. split; apply Oth; intros E; try discriminate; injection E as ->; apply N; simpl; auto.
  - intros N. apply (step1_no_leak _ _ _ S4), (step1_no_leak _ _ _ S3), (step1_no_leak _ _ _ S02), N.
Qed.

(* ------------------------------------------------------------- the storage *)

(** After an assignment the scratch buffer has what the vector had before. *)
Lemma assign_scratch lm w x e rho us w' :
  world_shape w -> owning w x -> small w x ->
  can_assign w x -> env_of w rho e -> wf_expr rho e ->
  1 <= xsize rho e <= max_len -> fits w (xsize rho e) ->
  value_of lm rho (sty (ob w (OD x))) e us ->
  assign lm x e w = (Done tt, w') ->
  alloc (ob w' (OT x)) = true /\ cap (ob w' (OT x)) = cap (ob w (OD x)).
Proof.
  intros W [K1 K2] [SM1 SM2] CA EN WF [N1 N2] Ft V E.
  assert (ML : max_len = 1867000000) by reflexivity.
  destruct (assign_stage lm w x e rho us) as [w1 [w2 [c [ES [E1 [E2 [C [ST12 [OD2 [S2 [Ct [At [Kt [Pt H2]]]]]]]]]]]]]]; auto.
  assert (Cs : c < 2 ^ 31).
  { destruct (cap115_int_ok (xsize rho e)) as [c' [C' [_ B']]]; [lia|].
    rewrite cap115_same_int in C' by lia. congruence. }
  unfold assign in E. rewrite bind_st, K1 in E. unfold assign_buffer in E. rewrite bind_get, ES in E.
  rewrite (bind_done _ _ _ _ _ E1), (bind_done _ _ _ _ _ E2) in E.
  destruct (moveit_done w2 x) as [w3 [E3 [V3 [Hp3 [D3 [T3 Oth3]]]]]].
  { apply ST12. }
  { split; [now rewrite OD2|exact Kt]. }
  { rewrite Ct. destruct (cap (ob w (OT x)) <? xsize rho e); lia. }
  { lia. }
  { exact At. }
  rewrite (bind_done _ _ _ _ _ E3), take_shape_done in E. injection E as <-.
  assert (A3 : alloc (ob w3 (OT x)) = true) by (rewrite T3; exact At).
  assert (C3 : cap (ob w3 (OT x)) = cap (ob w (OD x))) by (rewrite T3; simpl; now rewrite OD2).
  destruct (eim w3 e); [rewrite ob_set_other by congruence|]; auto.
Qed.

(** A scratch buffer without memory that is marked as allocated. *)
Lemma assign_stuck lm w x e : kd (ob w (OD x)) = KBuffer -> alloc (ob w (OT x)) = true ->
  ptr (ob w (OT x)) = None -> cap (ob w (OT x)) = 0 -> 1 <= esize w e ->
  assign lm x e w = (Thrown (Ass "try to delete nullptr"), w).
Proof.
  intros K A P C N. unfold assign. rewrite bind_st, K. unfold assign_buffer. rewrite bind_get.
  apply bind_thrown. unfold resize. replace (1 <=? esize w e) with true by (symmetry; now apply Z.leb_le).
  rewrite bind_ass_true, bind_st, A, C. cbn [negb].
  replace (0 <? esize w e) with true by (symmetry; apply Z.ltb_lt; lia).
  rewrite P. reflexivity.
Qed.

(* -------------------------------------------------------- pure counterpart *)

Definition swap (l : list flt) (j : nat) : list flt :=
  list_set (list_set l j (nth (S j) l fzero)) (S j) (nth j l fzero).

(** The for loop from position j on, k rounds: [None] when it throws. *)
Fixpoint scan (k j : nat) (l : list flt) (used sw : bool) : option (list flt * bool * bool) :=
  match k with
  | O => Some (l, used, sw)
  | S k =>
      if flt_ltb (nth (S j) l fzero) (nth j l fzero) then
        if used then None else scan k (S j) (swap l j) true true
      else scan k (S j) l used sw
  end.

Lemma swap_length l j : length (swap l j) = length l.
Proof. unfold swap. now rewrite !list_set_length. Qed.
Lemma map_list_set {A B} (f : A -> B) l i v : map f (list_set l i v) = list_set (map f l) i (f v).
Proof. revert i. induction l; intros [|i]; simpl; auto. now rewrite IHl. Qed.

(* ---------------------------------------------------------- the loop state *)

Section Loop.
Variables (lm : libm) (arr size temp swapped col s : nat).
Hypothesis ND : NoDup [arr; size; temp; swapped; col; s].

Definition b2v (b : bool) : val := VD (v2f (VB b)).

Record LS (w : world) (l : list flt) (used sw : bool) : Prop := {
  ls_ok : world_ok w;
  ls_lim : 2 * Z.of_nat (length l) <= hlim (hp w);
  ls_n : 1 <= Z.of_nat (length l) < 2 ^ 31;
  ls_arr : owning w arr /\ vholds w arr (map VD l) /\ sty (ob w (OD arr)) = TDouble;
  ls_sw : owning w swapped /\ vholds w swapped [b2v sw] /\ sty (ob w (OD swapped)) = TDouble /\
          ptr (ob w (OD swapped)) <> None;
  ls_temp : owning w temp /\ sty (ob w (OD temp)) = TDouble /\
     if used then alloc (ob w (OT temp)) = true /\ ptr (ob w (OT temp)) = None /\ cap (ob w (OT temp)) = 0
     else alloc (ob w (OT temp)) = false /\ ptr (ob w (OD temp)) = None /\ cap (ob w (OD temp)) = 0 /\
          cap (ob w (OT temp)) = 0;
  ls_s : unborn w (OT s) }.

Lemma distinct : arr <> size /\ arr <> temp /\ arr <> swapped /\ arr <> col /\ arr <> s /\
  size <> temp /\ size <> swapped /\ size <> col /\ size <> s /\
  temp <> swapped /\ temp <> col /\ temp <> s /\ swapped <> col /\ swapped <> s /\ col <> s.
Proof.
  repeat match goal with H : NoDup (_ :: _) |- _ => inversion H; clear H; subst end. simpl in *.
  repeat split; intros ->; tauto.
Qed.

Ltac dst := pose proof distinct as DS; simpl;
  match goal with
  | |- ~ (_ = _) => intuition congruence
  | |- ~ _ => let Q := fresh in intros Q; repeat destruct Q as [Q | Q]; intuition congruence
  end.

Lemma at_i_done w l used sw f j : LS w l used sw -> gridf 0 f (Z.of_nat (S j)) -> (S j <= length l)%nat ->
  at_i lm arr f w = (Done (ESub (EVar arr) [Z.of_nat j] mp_none), w) /\
  calc_ind_vector lm w (esize w (EVar arr)) (IF f) = Done [Z.of_nat j].
Proof.
  intros L [Vf [Ff Rf]] H. destruct (ls_arr _ _ _ _ L) as [_ [[SA _] _]]. pose proof (ls_n _ _ _ _ L).
  assert (C : calc_ind_vector lm w (esize w (EVar arr)) (IF f) = Done [Z.of_nat j]).
  { cbn [esize]. rewrite SA, map_length. apply calc_ind_vector_selects; [unfold int_max; lia| |simpl; lia].
    replace (Z.of_nat j) with (Z.of_nat (S j) - 1) by lia. apply Sel_dbl; [|lia].
    split; [exact Vf|]. split; [exact Ff|]. rewrite Rf, grid_trunc by lia.
    change (2 ^ 0) with 1. now rewrite Z.div_1_r. }
  split; [|exact C]. unfold at_i. rewrite bind_get. unfold subset_vec. now rewrite C.
Qed.

Definition rho_of (l : list flt) (x : nat) : list val := map VD l.

Lemma sub_env w l used sw p m : LS w l used sw -> env_of w (rho_of l) (ESub (EVar arr) [p] m).
Proof. intros L y [<- | []]. apply (ls_arr _ _ _ _ L). Qed.
Lemma sub_wf w l used sw j m : LS w l used sw -> wf_expr (rho_of l) (ESub (EVar arr) [Z.of_nat j] m).
Proof.
  intros L. pose proof (ls_n _ _ _ _ L). cbn [wf_expr xsize plain]. unfold rho_of. rewrite map_length. simpl length.
  split; [exact I|]. split; [lia|]. split; [|discriminate]. intros k [<- | []]. lia.
Qed.
Lemma pick_map l j : (j < length l)%nat -> pick_val (map VD l) (Z.of_nat j) = Done (VD (nth j l fzero)).
Proof.
  intros H. unfold pick_val. rewrite Nat2Z.id, nth_error_map, (nth_error_nth' l fzero H). reflexivity.
Qed.
Lemma sub_elem w l used sw j : LS w l used sw -> (j < length l)%nat ->
  elem lm (ESub (EVar arr) [Z.of_nat j] mp_none) 0 w = (Done (VD (nth j l fzero)), w).
Proof.
  intros L H. rewrite (elem_xval lm w (rho_of l)); [| apply L | eapply sub_env; eauto | eapply sub_wf; eauto | lia | ].
  - cbn [xval]. change (Z.to_nat 0) with 0%nat. cbn [nth]. unfold rho_of. now rewrite pick_map.
  - left. cbn [xsize]. simpl. lia.
Qed.

Lemma cond_done w l used sw j : LS w l used sw -> (S j < length l)%nat ->
  to_scalar lm (EBin OGt (ESub (EVar arr) [Z.of_nat j] mp_none) (ESub (EVar arr) [Z.of_nat (S j)] mp_none)) w =
  (Done (VD (v2f (VB (flt_ltb (nth (S j) l fzero) (nth j l fzero))))), w).
Proof.
  intros L H. unfold to_scalar. rewrite vat_read. unfold bind. rewrite (elem_xval lm w (rho_of l)); [| apply L | | | lia | ].
  - cbn [xval xsize]. simpl length. change (0 mod Z.of_nat 1) with 0. change (Z.to_nat 0) with 0%nat. cbn [nth].
    unfold rho_of. rewrite !pick_map by lia. reflexivity.
  - intros y Hy. cbn [vars app] in Hy. destruct Hy as [<- | [<- | []]]; apply (ls_arr _ _ _ _ L).
  - cbn [wf_expr]. split; [apply (sub_wf _ _ _ _ j mp_none L)|]. split; [apply (sub_wf _ _ _ _ (S j) mp_none L)|].
    simpl. lia.
  - left. cbn [xsize]. simpl. lia.
Qed.

(* --------------------------------------------------------- the loop body *)

Definition X3 : list nat := [arr; temp; swapped; s].

Lemma body_keep w l used sw f j : LS w l used sw -> gridf 0 f (Z.of_nat (S j)) -> (S j < length l)%nat ->
  flt_ltb (nth (S j) l fzero) (nth j l fzero) = false ->
  bs_body lm arr temp swapped s f w = (Done tt, w).
Proof.
  intros L G H D. pose proof (ls_n _ _ _ _ L) as N.
  assert (G1 : gridf 0 (fadd f fone) (Z.of_nat (S (S j)))).
  { replace (Z.of_nat (S (S j))) with (Z.of_nat (S j) + 2 ^ 0) by lia.
    apply gridf_add; [lia|exact G|apply gridf_one; lia|lia]. }
  unfold bs_body.
  rewrite (bind_done _ _ _ _ _ (proj1 (at_i_done w l used sw f j L G ltac:(lia)))).
  rewrite (bind_done _ _ _ _ _ (proj1 (at_i_done w l used sw _ (S j) L G1 ltac:(lia)))).
  rewrite (bind_done _ _ _ _ _ (cond_done w l used sw j L H)), D. reflexivity.
Qed.

Lemma body_stuck w l sw f j : LS w l true sw -> gridf 0 f (Z.of_nat (S j)) -> (S j < length l)%nat ->
  flt_ltb (nth (S j) l fzero) (nth j l fzero) = true ->
  bs_body lm arr temp swapped s f w = (Thrown (Ass "try to delete nullptr"), w).
Proof.
  intros L G H D. pose proof (ls_n _ _ _ _ L) as N.
  assert (G1 : gridf 0 (fadd f fone) (Z.of_nat (S (S j)))).
  { replace (Z.of_nat (S (S j))) with (Z.of_nat (S j) + 2 ^ 0) by lia.
    apply gridf_add; [lia|exact G|apply gridf_one; lia|lia]. }
  unfold bs_body.
  rewrite (bind_done _ _ _ _ _ (proj1 (at_i_done w l true sw f j L G ltac:(lia)))).
  rewrite (bind_done _ _ _ _ _ (proj1 (at_i_done w l true sw _ (S j) L G1 ltac:(lia)))).
  rewrite (bind_done _ _ _ _ _ (cond_done w l true sw j L H)), D, truth_dbl.
  rewrite (bind_done _ _ _ _ _ (proj1 (at_i_done w l true sw f j L G ltac:(lia)))).
  apply bind_thrown. destruct (ls_temp _ _ _ _ L) as [[K _] [_ [A [P C]]]].
  apply assign_stuck; auto. simpl. lia.
Qed.

Lemma body_swap w l sw f j : LS w l false sw -> gridf 0 f (Z.of_nat (S j)) -> (S j < length l)%nat ->
  flt_ltb (nth (S j) l fzero) (nth j l fzero) = true ->
  exists w', bs_body lm arr temp swapped s f w = (Done tt, w') /\ LS w' (swap l j) true true /\ frame w w' X3.
Proof.
  intros L G H D. pose proof (ls_n _ _ _ _ L) as N. pose proof (ls_lim _ _ _ _ L) as Lim.
  assert (ML : max_len = 1867000000) by reflexivity.
  assert (G1 : gridf 0 (fadd f fone) (Z.of_nat (S (S j)))).
  { replace (Z.of_nat (S (S j))) with (Z.of_nat (S j) + 2 ^ 0) by lia.
    apply gridf_add; [lia|exact G|apply gridf_one; lia|lia]. }
  unfold bs_body.
  rewrite (bind_done _ _ _ _ _ (proj1 (at_i_done w l false sw f j L G ltac:(lia)))).
  rewrite (bind_done _ _ _ _ _ (proj1 (at_i_done w l false sw _ (S j) L G1 ltac:(lia)))).
  rewrite (bind_done _ _ _ _ _ (cond_done w l false sw j L H)), D, truth_dbl.
  rewrite (bind_done _ _ _ _ _ (proj1 (at_i_done w l false sw f j L G ltac:(lia)))).
  destruct (ls_temp _ _ _ _ L) as [OWt [Tt [At [Pd [Cd Ct]]]]].
  set (e1 := ESub (EVar arr) [Z.of_nat j] mp_none).
  assert (WF1 : wf_expr (rho_of l) e1) by (apply (sub_wf _ _ _ _ j mp_none L)).
  assert (EN1 : env_of w (rho_of l) e1) by (apply (sub_env _ _ _ _ (Z.of_nat j) mp_none L)).
  assert (SM : small w temp) by (unfold small; rewrite Cd, Ct; lia).
  assert (CA : can_assign w temp) by (left; exact At).
  assert (XS : xsize (rho_of l) e1 = 1) by reflexivity.
  assert (VO : value_of lm (rho_of l) (sty (ob w (OD temp))) e1 [VD (nth j l fzero)]).
  { split; [reflexivity|]. intros [|i] Hi; [|simpl in Hi; lia]. exists (VD (nth j l fzero)). rewrite Tt.
    split; [|reflexivity]. unfold e1. cbn [xval]. change (Z.to_nat (Z.of_nat 0)) with 0%nat. cbn [nth].
    unfold rho_of. rewrite pick_map by lia. reflexivity. }
  destruct (assign_buffer_done lm w temp e1 (rho_of l) _ (ls_ok _ _ _ _ L) OWt SM CA EN1 WF1 ltac:(lia)
     ltac:(unfold fits; lia) VO) as [w1 [E1 [V1 [WO1 [H1 [OW1 [P1 [PT1 [T1 _]]]]]]]]].
  destruct (assign_scratch lm w temp e1 (rho_of l) _ w1 (world_ok_shape _ (ls_ok _ _ _ _ L)) OWt SM CA EN1 WF1 ltac:(lia)
     ltac:(unfold fits; lia) VO E1) as [AT1 CT1].
  rewrite (bind_done _ _ _ _ _ E1).
  pose proof (vstep_frame _ _ _ V1 WO1) as F1.
  destruct (ls_arr _ _ _ _ L) as [OA [HA TA]]. destruct (ls_sw _ _ _ _ L) as [OS [HS [TS PS]]].
  pose proof (ls_s _ _ _ _ L) as US.
  assert (Na : ~ In arr [temp]) by dst.
  assert (Ns : ~ In s [temp]) by dst.
  assert (Nw : ~ In swapped [temp]) by dst.
  destruct (frame_ob _ _ _ arr F1 Na) as [A1 A1']. destruct (frame_ob _ _ _ s F1 Ns) as [B1 B1'].
  destruct (frame_ob _ _ _ swapped F1 Nw) as [C1 C1'].
  assert (HA1 : vholds w1 arr (map VD l)) by (eapply frame_holds; eauto).
  assert (HS1 : vholds w1 swapped [b2v sw]) by (eapply frame_holds; eauto).
  assert (US1 : unborn w1 (OT s)) by (intros a; rewrite B1'; apply US).
  assert (OA1 : owning w1 arr) by (unfold owning; rewrite A1, A1'; exact OA).
  assert (Lim1 : hlim (hp w1) = hlim (hp w)) by apply F1.
  (* arr(i) = arr(i + 1) *)
  assert (RD1 : forall k, (k < length l)%nat ->
            elem lm (ESub (EVar arr) [Z.of_nat k] mp_none) 0 w1 = (Done (VD (nth k l fzero)), w1)).
  { intros k Hk. pose proof (yields_sub lm w1 (EVar arr) (map VD l) [Z.of_nat k] mp_none
      (vholds_yields lm w1 arr _ HA1)) as [_ Y].
    - intros p [<- | []]. rewrite map_length. lia.
    - rewrite map_length. simpl. lia.
    - specialize (Y 0%nat ltac:(simpl; lia)). change (Z.of_nat 0) with 0 in Y. rewrite Y. cbn [map nth].
      rewrite Nat2Z.id. now rewrite (nth_map_in VD l k fzero) by lia. }
  assert (CI : forall w' (l' : list val) g k, vholds w' arr l' -> length l' = length l -> gridf 0 g (Z.of_nat (S k)) -> (k < length l)%nat ->
            calc_ind_vector lm w' (esize w' (EVar arr)) (IF g) = Done [Z.of_nat k]).
  { intros w' l' g k [SA _] EL [Vg [Fg Rg]] Hk. cbn [esize]. rewrite SA, EL.
    apply calc_ind_vector_selects; [unfold int_max; lia| |simpl; lia].
    replace (Z.of_nat k) with (Z.of_nat (S k) - 1) by lia. apply Sel_dbl; [|lia].
    split; [exact Vg|]. split; [exact Fg|]. rewrite Rg, grid_trunc by lia.
    change (2 ^ 0) with 1. now rewrite Z.div_1_r. }
  assert (AI : at_i lm arr (fadd f fone) w1 = (Done (ESub (EVar arr) [Z.of_nat (S j)] mp_none), w1)).
  { unfold at_i. rewrite bind_get. unfold subset_vec.
    rewrite (CI w1 (map VD l) _ (S j) HA1); auto. now rewrite map_length. }
  rewrite (bind_done _ _ _ _ _ AI).
  destruct (sub_one lm w1 s arr (Z.of_nat j) true (ESub (EVar arr) [Z.of_nat (S j)] mp_none) (nth (S j) l fzero) (map VD l))
    as [w2 [E2 [F2 [HA2 [A2 [A2' [B2 US2]]]]]]]; auto.
  { now rewrite A1. }
  { dst. }
  { unfold fits. lia. }
  { rewrite map_length. lia. }
  assert (SE2 : set_i lm s arr f true (ESub (EVar arr) [Z.of_nat (S j)] mp_none) w1 = (Done tt, w2)).
  { unfold set_i. rewrite bind_get, (CI w1 (map VD l) f j HA1 (map_length _ _) G ltac:(lia)).
    now rewrite bind_lift_done. }
  rewrite (bind_done _ _ _ _ _ SE2).
  rewrite Nat2Z.id in HA2.
  set (l2 := list_set l j (nth (S j) l fzero)) in *.
  assert (ML2 : list_set (map VD l) j (VD (nth (S j) l fzero)) = map VD l2) by (unfold l2; now rewrite map_list_set).
  rewrite ML2 in HA2.
  assert (LL2 : length l2 = length l) by (unfold l2; apply list_set_length).
  (* arr(i + 1) = temp *)
  assert (Nt : ~ In temp [arr; s]) by dst.
  assert (Nw2 : ~ In swapped [arr; s]) by dst.
  assert (HT2 : vholds w2 temp [VD (nth j l fzero)]) by (eapply frame_holds; eauto).
  destruct (frame_ob _ _ _ temp F2 Nt) as [T2 T2']. destruct (frame_ob _ _ _ swapped F2 Nw2) as [C2 C2'].
  assert (HS2 : vholds w2 swapped [b2v sw]) by (eapply frame_holds; eauto).
  assert (Lim2 : hlim (hp w2) = hlim (hp w1)) by apply F2.
  destruct (sub_one lm w2 s arr (Z.of_nat (S j)) false (EVar temp) (nth j l fzero) (map VD l2))
    as [w3 [E3 [F3 [HA3 [A3 [A3' [B3 US3]]]]]]]; auto.
  { apply F2. }
  { unfold owning. rewrite A2, A2'. exact OA1. }
  { now rewrite A2, A1. }
  { dst. }
  { unfold fits. lia. }
  { rewrite map_length, LL2. lia. }
  { apply HT2. }
  { destruct HT2 as [_ HT2]. cbn [elem]. apply (HT2 0%nat). simpl. lia. }
  assert (SE3 : set_i lm s arr (fadd f fone) false (EVar temp) w2 = (Done tt, w3)).
  { unfold set_i. rewrite bind_get, (CI w2 (map VD l2) (fadd f fone) (S j) HA2 ltac:(now rewrite map_length) G1 H).
    now rewrite bind_lift_done. }
  rewrite (bind_done _ _ _ _ _ SE3).
  rewrite Nat2Z.id, <- (map_list_set VD) in HA3. fold (swap l j) in HA3.
  (* swapped = true *)
  destruct (frame_ob _ _ _ temp F3 Nt) as [T3 T3']. destruct (frame_ob _ _ _ swapped F3 Nw2) as [C3 C3'].
  assert (Lim3 : hlim (hp w3) = hlim (hp w2)) by apply F3.
  assert (SW3 : ob w3 (OD swapped) = ob w (OD swapped)) by congruence.
  assert (SW3' : ob w3 (OT swapped) = ob w (OT swapped)) by congruence.
  destruct (assign_scalar_done w3 swapped (VB true) (b2v true)) as [w4 [E4 [S4 [H4 [K4 [P4 [T4 _]]]]]]].
  { apply (world_ok_shape _ (fr_ok _ _ _ F3)). }
  { unfold owning. rewrite SW3, SW3'. exact OS. }
  { intros _. rewrite SW3. exact PS. }
  { unfold fits. lia. }
  { rewrite SW3, TS. reflexivity. }
  assert (V4 : vstep w3 w4 swapped) by (eapply step1_vstep; [left; reflexivity|exact S4]).
  assert (WO4 : world_ok w4).
  { eapply step1_ok; [exact S4|apply F3|]. eapply inited_buffer; [apply S4|exact K4|exact H4]. }
  pose proof (vstep_frame _ _ _ V4 WO4) as F4.
  assert (Na4 : ~ In arr [swapped]) by dst.
  assert (Nt4 : ~ In temp [swapped]) by dst.
  assert (Ns4 : ~ In s [swapped]) by dst.
  destruct (frame_ob _ _ _ arr F4 Na4) as [A4 A4']. destruct (frame_ob _ _ _ temp F4 Nt4) as [Tm4 Tm4'].
  destruct (frame_ob _ _ _ s F4 Ns4) as [B4 B4'].
  assert (OTs : ob w4 (OT swapped) = ob w3 (OT swapped)) by (apply (s1_other _ _ _ S4); congruence).
  exists w4. split; [exact E4|]. split.
  - split; auto.
    + rewrite swap_length. replace (hlim (hp w4)) with (hlim (hp w3)) by (symmetry; apply F4). lia.
    + now rewrite swap_length.
    + split; [unfold owning; rewrite A4, A4', A3, A3', A2, A2'; exact OA1|].
      split; [eapply frame_holds; eauto|]. rewrite A4, A3, A2, A1. exact TA.
    + split; [split; [exact K4|rewrite OTs, SW3'; apply OS]|]. split; [exact H4|]. split; [|exact P4].
      rewrite T4, SW3. exact TS.
    + rewrite Tm4, Tm4', T3, T3', T2, T2'. unfold owning. rewrite Tm4, Tm4', T3, T3', T2, T2'.
      split; [exact OW1|]. split; [congruence|]. split; [exact AT1|]. split; congruence.
    + intros a. rewrite B4'. apply US3.
  - apply (frame_trans _ w1); [apply (frame_incl _ _ _ _ F1)|].
    { unfold X3. intros y Hy. simpl in *. intuition. }
    apply (frame_trans _ w2); [apply (frame_incl _ _ _ _ F2)|].
    { unfold X3. intros y Hy. simpl in *. intuition. }
    apply (frame_trans _ w3); [apply (frame_incl _ _ _ _ F3)|apply (frame_incl _ _ _ _ F4)].
    { unfold X3. intros y Hy. simpl in *. intuition. }
    { unfold X3. intros y Hy. simpl in *. intuition. }
Qed.

(** The for loop follows [scan]. *)
Lemma for_each_scan : forall us w l used sw j, LS w l used sw -> (j + length us = length l - 1)%nat ->
  (forall i, (i < length us)%nat -> exists d, nth i us (VB false) = VD d /\ gridf 0 d (Z.of_nat (S (j + i)))) ->
  exists w', frame w w' X3 /\ 
  match scan (length us) j l used sw with
  | Some (l', used', sw') => for_each us (bs_body lm arr temp swapped s) w = (Done tt, w') /\ LS w' l' used' sw'
  | None => for_each us (bs_body lm arr temp swapped s) w = (Thrown (Ass "try to delete nullptr"), w') /\
      exists l', LS w' l' true true \/ LS w' l' true sw
  end.
Proof.
  induction us as [|u us IH]; intros w l used sw j L E U.
  - exists w. split; [apply frame_refl, L|]. simpl. auto.
  - simpl in E. destruct (U 0%nat ltac:(simpl; lia)) as [d [Ed G]]. cbn [nth] in Ed. subst u.
    rewrite Nat.add_0_r in G. cbn [length scan for_each v2f].
    assert (U' : forall i, (i < length us)%nat -> exists d, nth i us (VB false) = VD d /\ gridf 0 d (Z.of_nat (S (S j + i)))).
    { intros i Hi. destruct (U (S i) ltac:(simpl; lia)) as [d' [E' G']]. exists d'. split; [exact E'|].
      replace (S (S j + i)) with (S (j + S i)) by lia. exact G'. }
    destruct (flt_ltb (nth (S j) l fzero) (nth j l fzero)) eqn:D.
    + destruct used.
      * exists w. split; [apply frame_refl, L|]. split; [|exists l; auto].
        apply bind_thrown. apply (body_stuck w l sw d j L G); auto. lia.
      * destruct (body_swap w l sw d j L G ltac:(lia) D) as [w1 [E1 [L1 F1]]].
        destruct (IH w1 (swap l j) true true (S j) L1) as [w2 [F2 R]]; auto.
        { rewrite swap_length. lia. }
        exists w2. split; [eapply frame_trans; eauto|]. rewrite (bind_done _ _ _ _ _ E1).
        destruct (scan (length us) (S j) (swap l j) true true) as [[[l' u'] s']|]; auto.
        destruct R as [R [l' Q]]. split; [exact R|]. exists l'. tauto.
    + destruct (IH w l used sw (S j) L) as [w2 [F2 R]]; auto.
      { lia. }
      exists w2. split; [exact F2|]. rewrite (bind_done _ _ _ _ _ (body_keep w l used sw d j L G ltac:(lia) D)). exact R.
Qed.

(* ---------------------------------------------------------------- a round *)

(** Between the rounds. *)
Record LR (w : world) (l : list flt) (used sw : bool) : Prop := {
  lr_ls : LS w l used sw;
  lr_size : owning w size /\ vholds w size [VD (i2f (Z.of_nat (length l)))];
  lr_col : unborn w (OD col) /\ unborn w (OT col) }.

(** The locals can be destroyed. *)
Definition can_end (w : world) : Prop := world_ok w /\ owning w size /\ owning w temp /\ owning w swapped.

Definition X4 : list nat := [arr; temp; swapped; s; col].

Lemma owning_same w w' x : ob w' (OD x) = ob w (OD x) -> ob w' (OT x) = ob w (OT x) -> owning w x -> owning w' x.
Proof. unfold owning. now intros -> ->. Qed.
Lemma unborn_same w w' o : ob w' o = ob w o -> unborn w o -> unborn w' o.
Proof. unfold unborn. now intros ->. Qed.

Lemma LS_frame w w' l used sw : frame w w' [col] -> LS w l used sw -> LS w' l used sw.
Proof.
  intros F L.
  assert (A : ~ In arr [col]) by dst. assert (B : ~ In swapped [col]) by dst.
  assert (C : ~ In temp [col]) by dst. assert (D : ~ In s [col]) by dst.
  destruct (frame_ob _ _ _ _ F A) as [A1 A2]. destruct (frame_ob _ _ _ _ F B) as [B1 B2].
  destruct (frame_ob _ _ _ _ F C) as [C1 C2]. destruct (frame_ob _ _ _ _ F D) as [D1 D2].
  destruct L as [P1 P2 P3 [P4 [P5 P6]] [P7 [P8 [P9 P10]]] [P11 [P12 P13]] P14]. split; auto.
  - apply F.
  - now rewrite (fr_lim _ _ _ F).
  - rewrite A1. split; [eapply owning_same; eauto|]. split; [eapply frame_holds; eauto|exact P6].
  - rewrite B1. split; [eapply owning_same; eauto|]. split; [eapply frame_holds; eauto|auto].
  - rewrite C1, C2. split; [eapply owning_same; eauto|auto].
  - eapply unborn_same; eauto.
Qed.

Lemma LS_swapped w l used sw b : LS w l used sw ->
  exists w', assign_scalar swapped (VB b) w = (Done tt, w') /\ LS w' l used b /\ frame w w' [swapped].
Proof.
  intros L. destruct L as [P1 P2 P3 [P4 [P5 P6]] [P7 [P8 [P9 P10]]] [P11 [P12 P13]] P14].
  destruct (assign_scalar_done w swapped (VB b) (b2v b)) as [w4 [E4 [S4 [H4 [K4 [Q4 [T4 _]]]]]]]; auto.
  { now apply world_ok_shape. }
  { unfold fits. lia. }
  { rewrite P9. reflexivity. }
  assert (V4 : vstep w w4 swapped) by (eapply step1_vstep; [left; reflexivity|exact S4]).
  assert (WO4 : world_ok w4).
  { eapply step1_ok; [exact S4|auto|]. eapply inited_buffer; [apply S4|exact K4|exact H4]. }
  pose proof (vstep_frame _ _ _ V4 WO4) as F.
  assert (OTs : ob w4 (OT swapped) = ob w (OT swapped)) by (apply (s1_other _ _ _ S4); congruence).
  assert (A : ~ In arr [swapped]) by dst. assert (C : ~ In temp [swapped]) by dst. assert (D : ~ In s [swapped]) by dst.
  destruct (frame_ob _ _ _ _ F A) as [A1 A2].
  destruct (frame_ob _ _ _ _ F C) as [C1 C2]. destruct (frame_ob _ _ _ _ F D) as [D1 D2].
  exists w4. split; [exact E4|]. split; [|exact F]. split; auto.
  - now rewrite (fr_lim _ _ _ F).
  - rewrite A1. split; [eapply owning_same; eauto|]. split; [eapply frame_holds; eauto|exact P6].
  - split; [split; [exact K4|rewrite OTs; apply P7]|]. rewrite T4. auto.
  - rewrite C1, C2. split; [eapply owning_same; eauto|auto].
  - eapply unborn_same; eauto.
Qed.

Lemma gridf_i2f n : Z.abs n <= 2 ^ 53 -> gridf 0 (i2f n) n.
Proof.
  intros H. destruct (i2f_exact n H) as [R F]. split; [apply i2f_valid|]. split; [exact F|].
  rewrite R, (grid_int 0 n) by lia. f_equal. lia.
Qed.

Lemma size_minus w n : world_shape w -> vholds w size [VD (i2f n)] ->
  elem lm (EBin OMinus (EVar size) (ESca (VI 1))) 0 w = (Done (VD (fsub (i2f n) fone)), w).
Proof.
  intros W H. rewrite (elem_xval lm w (fun _ => [VD (i2f n)])); [reflexivity|exact W| | |lia|].
  - intros y [<- | []]. exact H.
  - simpl. lia.
  - left. simpl. lia.
Qed.

Lemma colon_done w n : world_ok w -> vholds w size [VD (i2f (Z.of_nat n))] ->
  unborn w (OD col) -> unborn w (OT col) -> 2 <= Z.of_nat n < 2 ^ 31 -> 2 * Z.of_nat n <= hlim (hp w) ->
  exists w' us, colon_fn lm col (AS (VI 1)) (AV TDouble (EBin OMinus (EVar size) (ESca (VI 1)))) w = (Done tt, w') /\
    frame w w' [col] /\ owning w' col /\ vholds w' col us /\ length us = (n - 1)%nat /\
    forall i, (i < length us)%nat -> exists d, nth i us (VB false) = VD d /\ gridf 0 d (Z.of_nat (S i)).
Proof.
  intros WO HS U1 U2 N Lim. pose proof (world_ok_shape _ WO) as W.
  pose proof (gridf_one 0 ltac:(lia)) as G1. change (2 ^ 0) with 1 in G1.
  assert (G2 : gridf 0 (fsub (i2f (Z.of_nat n)) fone) (Z.of_nat n - 1)).
  { apply gridf_sub; [lia|apply gridf_i2f; lia|exact G1|lia]. }
  destruct (colon_dbl_grid w col fone (fsub (i2f (Z.of_nat n)) fone) 0 1 (Z.of_nat n - 1)) as [w' [us [E [M [LU EU]]]]]; auto;
    change (2 ^ 0) with 1; rewrite ?Z.div_1_r; try lia.
  { unfold fits. lia. }
  change (2 ^ 0) with 1 in LU. rewrite Z.div_1_r in LU.
  exists w', us. split.
  { unfold colon_fn. cbn [arg_ty ty_of arg_first]. rewrite bind_ret.
    change (common TInt TDouble) with TDouble. cbn [cast v2f]. change (i2f 1) with fone.
    rewrite bind_lift_done, (bind_done _ _ _ _ _ (size_minus w _ W HS)). cbn [cast v2f].
    rewrite bind_lift_done. exact E. }
  split; [apply vstep_frame; [apply M|now apply M]|]. split; [apply M|]. split; [apply M|].
  assert (LN : length us = (n - 1)%nat) by lia. split; [exact LN|].
  intros i Hi. destruct (EU i Hi) as [d [Ed [Vd [Fd Rd]]]]. exists d. split; [exact Ed|].
  split; [exact Vd|]. split; [exact Fd|]. rewrite Rd.
  destruct G1 as [_ [_ R1]]. destruct G2 as [_ [_ R2]].
  destruct (Rle_dec (fR fone) (fR (fsub (i2f (Z.of_nat n)) fone))) as [_|B].
  - rewrite R1, INR_IZR_INZ. rewrite (grid_int 0 (Z.of_nat i)), grid_plus by lia.
    f_equal. lia.
  - exfalso. apply B. rewrite R1, R2. apply grid_le. lia.
Qed.

Lemma scan_length : forall k j l used sw l' used' sw',
  scan k j l used sw = Some (l', used', sw') -> length l' = length l.
Proof.
  induction k; simpl; intros j l used sw l' used' sw' H; [now injection H as <- _ _|].
  destruct (flt_ltb (nth (S j) l fzero) (nth j l fzero)).
  - destruct used; [discriminate|]. apply IHk in H. now rewrite H, swap_length.
  - eapply IHk; eauto.
Qed.

Lemma round_scan w l used sw : (2 <= length l)%nat -> LR w l used sw ->
  exists w', frame w w' X4 /\
  match scan (length l - 1) 0 l used false with
  | Some (l', used', sw') => bs_round lm arr size temp swapped col s w = (Done tt, w') /\ LR w' l' used' sw'
  | None => bs_round lm arr size temp swapped col s w = (Thrown (Ass "try to delete nullptr"), w') /\ can_end w'
  end.
Proof.
  intros N2 [L [OZ HZ] [U1 U2]]. pose proof (ls_n _ _ _ _ L) as N.
  destruct (LS_swapped w l used sw false L) as [w1 [E1 [L1 F1]]].
  assert (Z1 : ~ In size [swapped]) by dst. assert (C1 : ~ In col [swapped]) by dst.
  destruct (frame_ob _ _ _ _ F1 Z1) as [Z1a Z1b]. destruct (frame_ob _ _ _ _ F1 C1) as [C1a C1b].
  destruct (colon_done w1 (length l)) as [w2 [us [E2 [F2 [O2 [H2 [LU GU]]]]]]]; auto.
  { apply L1. }
  { eapply frame_holds; eauto. }
  { eapply unborn_same; eauto. }
  { eapply unborn_same; eauto. }
  { lia. }
  { apply L1. }
  pose proof (LS_frame _ _ _ _ _ F2 L1) as L2.
  assert (Z2 : ~ In size [col]) by dst. destruct (frame_ob _ _ _ _ F2 Z2) as [Z2a Z2b].
  destruct (for_each_scan us w2 l used false 0 L2 ltac:(lia) GU) as [w3 [F3 R]].
  rewrite LU in R.
  assert (Z3 : ~ In size X3) by (unfold X3; dst). destruct (frame_ob _ _ _ _ F3 Z3) as [Z3a Z3b].
  assert (C3 : ~ In col X3) by (unfold X3; dst). destruct (frame_ob _ _ _ _ F3 C3) as [C3a C3b].
  assert (O3 : owning w3 col) by (eapply owning_same; eauto).
  destruct (vec_end_done w3 col (fr_ok _ _ _ F3) O3) as [w4 [E4 [V4 [WO4 [U4 U4']]]]].
  pose proof (vstep_frame _ _ _ V4 WO4) as F4. destruct (frame_ob _ _ _ _ F4 Z2) as [Z4a Z4b].
  assert (OZ4 : owning w4 size) by (repeat (eapply owning_same; [eassumption|eassumption|]); exact OZ).
  assert (IT : iterate_vec col w2 = (Done us, w2)) by (apply iterate_vec_holds; [apply (world_ok_shape _ (fr_ok _ _ _ F2))|exact H2]).
  assert (FR : frame w w4 X4).
  { apply (frame_trans _ w1); [apply (frame_incl _ _ _ _ F1)|]; [unfold X4; intros y Hy; simpl in *; tauto|].
    apply (frame_trans _ w2); [apply (frame_incl _ _ _ _ F2)|]; [unfold X4; intros y Hy; simpl in *; tauto|].
    apply (frame_trans _ w3); [apply (frame_incl _ _ _ _ F3)|apply (frame_incl _ _ _ _ F4)];
      unfold X4, X3; intros y Hy; simpl in *; tauto. }
  exists w4. split; [exact FR|].
  assert (EN : ends [col] w3 = (Done tt, w4)) by (cbn [ends]; now rewrite (bind_done _ _ _ _ _ E4)).
  unfold bs_round. rewrite (bind_done _ _ _ _ _ E1), (bind_done _ _ _ _ _ E2).
  unfold locals. rewrite (bind_done _ _ _ _ _ IT).
  destruct (scan (length l - 1) 0 l used false) as [[[l' u'] s']|] eqn:SC.
  - destruct R as [R L3]. rewrite R. rewrite (bind_done _ _ _ _ _ EN). split; [reflexivity|].
    split; [eapply LS_frame; eauto| |auto].
    split; [exact OZ4|]. rewrite (scan_length _ _ _ _ _ _ _ _ SC).
    eapply (frame_holds w3); [exact F4|exact Z2|]. eapply (frame_holds w2); [exact F3|exact Z3|].
    eapply (frame_holds w1); [exact F2|exact Z2|]. eapply (frame_holds w); [exact F1|exact Z1|exact HZ].
  - destruct R as [R [l' Q]]. rewrite R. rewrite (bind_done _ _ _ _ _ EN). split; [reflexivity|].
    split; [exact WO4|]. split; [exact OZ4|].
    assert (T4 : ~ In temp [col]) by dst. destruct (frame_ob _ _ _ _ F4 T4) as [T4a T4b].
    assert (S4 : ~ In swapped [col]) by dst. destruct (frame_ob _ _ _ _ F4 S4) as [S4a S4b].
    destruct Q as [Q | Q]; (split; [apply (owning_same w3)|apply (owning_same w3)]); auto; apply Q.
Qed.

(** All the rounds: [None] when the loop throws, [Some None] out of fuel. *)
Fixpoint rounds (fuel : nat) (l : list flt) (used : bool) : option (option (list flt)) :=
  match fuel with
  | O => Some None
  | S k =>
      match scan (length l - 1) 0 l used false with
      | None => None
      | Some (l', used', sw) => if sw then rounds k l' used' else Some (Some l')
      end
  end.

Lemma truth_b2v b : truth (b2v b) = b.
Proof. destruct b; reflexivity. Qed.

Lemma loop_rounds : forall fuel w l used sw, (2 <= length l)%nat -> LR w l used sw ->
  exists w', frame w w' X4 /\ can_end w' /\
  let r := do_while fuel (bs_round lm arr size temp swapped col s) (v <- to_scalar lm (EVar swapped) ;; ret (truth v)) w in
  match rounds fuel l used with
  | Some (Some l') => r = (Done true, w') /\ owning w' arr /\ vholds w' arr (map VD l') /\ unborn w' (OD col) /\ unborn w' (OT col)
  | Some None => r = (Done false, w')
  | None => r = (Thrown (Ass "try to delete nullptr"), w')
  end.
Proof.
  induction fuel as [|k IH]; intros w l used sw N2 L.
  - exists w. split; [apply frame_refl, L|]. split; [|reflexivity].
    destruct L as [L [OZ _] _]. split; [apply L|]. split; [exact OZ|]. split; apply L.
  - destruct (round_scan w l used sw N2 L) as [w1 [F1 R]]. cbn [rounds do_while].
    destruct (scan (length l - 1) 0 l used false) as [[[l' u'] s']|] eqn:SC.
    + destruct R as [E1 L1]. rewrite (bind_done _ _ _ _ _ E1).
      destruct (ls_sw _ _ _ _ (lr_ls _ _ _ _ L1)) as [_ [[_ HS] _]].
      assert (EC : (v <- to_scalar lm (EVar swapped) ;; ret (truth v)) w1 = (Done s', w1)).
      { unfold to_scalar. unfold bind at 1. rewrite vat_read. cbn [elem]. specialize (HS 0%nat ltac:(simpl; lia)). change (Z.of_nat 0) with 0 in HS.
        rewrite (bind_done _ _ _ _ _ HS). cbn [nth ret read own_type]. unfold ret. now rewrite truth_b2v. }
      destruct s'.
      * destruct (IH w1 l' u' true ltac:(rewrite (scan_length _ _ _ _ _ _ _ _ SC); exact N2) L1) as [w2 [F2 [CE R2]]]. exists w2. split; [eapply frame_trans; eauto|].
        split; [exact CE|]. cbv zeta in *. rewrite (bind_done _ _ _ _ _ EC). exact R2.
      * exists w1. split; [exact F1|]. destruct L1 as [L1 [OZ _] [U1 U2]].
        split; [split; [apply L1|]; split; [exact OZ|]; split; apply L1|].
        cbv zeta. rewrite (bind_done _ _ _ _ _ EC). destruct (ls_arr _ _ _ _ L1) as [A1 [A2 _]]. auto.
    + destruct R as [E1 CE]. exists w1. split; [exact F1|]. split; [exact CE|]. cbv zeta.
      now apply bind_thrown.
Qed.

(* --------------------------------------------------------------- the whole *)

Definition X5 : list nat := [arr; size; temp; swapped; s; col].

Lemma vec_default_new w x : world_ok w -> gone w x ->
  exists w', vec_default x TDouble w = (Done tt, w') /\ frame w w' [x] /\ owning w' x /\
    ob w' (OD x) = store_default KBuffer TDouble /\ ob w' (OT x) = store_default KBuffer TDouble.
Proof.
  intros WO [U1 U2]. pose proof (world_ok_shape _ WO) as W.
  destruct (ctor_default_done w (OD x) TDouble W U1) as [w1 [E1 [S1 [O1 H1]]]].
  assert (T1 : ob w1 (OT x) = ob w (OT x)) by (apply (s1_other _ _ _ S1); congruence).
  destruct (ctor_default_done w1 (OT x) TDouble (s1_shape _ _ _ S1)) as [w2 [E2 [S2 [O2 H2]]]].
  { intros a. rewrite T1. apply U2. }
  assert (D2 : ob w2 (OD x) = ob w1 (OD x)) by (apply (s1_other _ _ _ S2); congruence).
  exists w2. split; [unfold vec_default; now rewrite (bind_done _ _ _ _ _ E1)|].
  assert (WO1 : world_ok w1).
  { eapply step1_ok; [exact S1|exact WO|]. apply (inited_buffer w1 (OD x) []); [apply S1|rewrite O1; reflexivity|exact H1]. }
  assert (WO2 : world_ok w2).
  { eapply step1_ok; [exact S2|exact WO1|]. apply (inited_buffer w2 (OT x) []); [apply S2|rewrite O2; reflexivity|exact H2]. }
  split.
  { apply vstep_frame; [|exact WO2].
    eapply vstep_trans; [eapply step1_vstep; [left; reflexivity|exact S1]|eapply step1_vstep; [right; reflexivity|exact S2]]. }
  unfold owning. rewrite D2, O1, O2. repeat split.
Qed.

(** What a caller of bs has to provide: an argument of n >= 1 doubles; nothing
    is alive under the names of the locals. *)
Definition bs_pre (w : world) (l : list flt) : Prop :=
  world_ok w /\ owning w arr /\ vholds w arr (map VD l) /\ sty (ob w (OD arr)) = TDouble /\
  gone w size /\ gone w temp /\ gone w swapped /\ gone w col /\ unborn w (OT s) /\
  fits w (Z.of_nat (length l)).

Lemma gone_frame w w' xs x : frame w w' xs -> ~ In x xs -> gone w x -> gone w' x.
Proof. intros F N [A B]. destruct (frame_ob _ _ _ _ F N). split; eapply unborn_same; eauto. Qed.
Lemma owning_frame w w' xs x : frame w w' xs -> ~ In x xs -> owning w x -> owning w' x.
Proof. intros F N A. destruct (frame_ob _ _ _ _ F N). eapply owning_same; eauto. Qed.

Lemma ends_done w : can_end w -> exists w', ends [swapped; temp; size] w = (Done tt, w') /\
  frame w w' [swapped; temp; size] /\ gone w' size /\ gone w' temp /\ gone w' swapped.
Proof.
  intros [WO [O1 [O2 O3]]].
  destruct (vec_end_done w swapped WO O3) as [w1 [E1 [V1 [WO1 G1]]]].
  pose proof (vstep_frame _ _ _ V1 WO1) as F1.
  destruct (vec_end_done w1 temp WO1) as [w2 [E2 [V2 [WO2 G2]]]].
  { eapply owning_frame; [exact F1|dst|exact O2]. }
  pose proof (vstep_frame _ _ _ V2 WO2) as F2.
  destruct (vec_end_done w2 size WO2) as [w3 [E3 [V3 [WO3 G3]]]].
  { eapply owning_frame; [exact F2|dst|]. eapply owning_frame; [exact F1|dst|exact O1]. }
  pose proof (vstep_frame _ _ _ V3 WO3) as F3.
  exists w3. split.
  { cbn [ends]. rewrite (bind_done _ _ _ _ _ E1), (bind_done _ _ _ _ _ E2), (bind_done _ _ _ _ _ E3). reflexivity. }
  split.
  { apply (frame_trans _ w1); [apply (frame_incl _ _ _ _ F1)|]; [intros y Hy; simpl in *; tauto|].
    apply (frame_trans _ w2); [apply (frame_incl _ _ _ _ F2)|apply (frame_incl _ _ _ _ F3)];
      intros y Hy; simpl in *; tauto. }
  split; [exact G3|]. split; [eapply gone_frame; [exact F3|dst|exact G2]|].
  eapply gone_frame; [exact F3|dst|]. eapply gone_frame; [exact F2|dst|exact G1].
Qed.

(** Lines 5-9. *)
Lemma prologue w l : bs_pre w l -> fits w 1 -> Z.of_nat (length l) < 2 ^ 31 ->
  exists w3 w5, (vec_default size TDouble ;; vec_default temp TDouble ;; vec_default swapped TDouble) w = (Done tt, w3) /\
    (assign_scalar size (VI (length_fn w3 (AV TDouble (EVar arr)))) ;; assign_scalar swapped (VB true)) w3 = (Done tt, w5) /\
    frame w w5 [size; temp; swapped] /\ owning w5 size /\ vholds w5 size [VD (i2f (Z.of_nat (length l)))] /\
    owning w5 swapped /\ vholds w5 swapped [b2v true] /\ sty (ob w5 (OD swapped)) = TDouble /\ ptr (ob w5 (OD swapped)) <> None /\
    owning w5 temp /\ ob w5 (OD temp) = store_default KBuffer TDouble /\ ob w5 (OT temp) = store_default KBuffer TDouble.
Proof.
  intros [WO [OA [HA [TA [G1 [G2 [G3 [G4 [U Ft]]]]]]]]] N1 N2. unfold fits in Ft, N1.
  destruct (vec_default_new w size WO G1) as [w1 [E1 [F1 [O1 [D1 T1]]]]].
  destruct (vec_default_new w1 temp (fr_ok _ _ _ F1)) as [w2 [E2 [F2 [O2 [D2 T2]]]]].
  { eapply gone_frame; [exact F1|dst|exact G2]. }
  destruct (vec_default_new w2 swapped (fr_ok _ _ _ F2)) as [w3 [E3 [F3 [O3 [D3 T3]]]]].
  { eapply gone_frame; [exact F2|dst|]. eapply gone_frame; [exact F1|dst|exact G3]. }
  assert (F03 : frame w w3 [size; temp; swapped]).
  { apply (frame_trans _ w1); [apply (frame_incl _ _ _ _ F1)|]; [intros y Hy; simpl in *; tauto|].
    apply (frame_trans _ w2); [apply (frame_incl _ _ _ _ F2)|apply (frame_incl _ _ _ _ F3)];
      intros y Hy; simpl in *; tauto. }
  assert (HA3 : vholds w3 arr (map VD l)) by (eapply frame_holds; [exact F03|dst|exact HA]).
  assert (LF : length_fn w3 (AV TDouble (EVar arr)) = Z.of_nat (length l)).
  { cbn [length_fn esize]. rewrite (proj1 HA3), map_length. apply to_int_small. lia. }
  assert (Z2 : ~ In size [temp]) by dst. assert (Z3 : ~ In size [swapped]) by dst.
  destruct (frame_ob _ _ _ _ F2 Z2) as [Z2a Z2b]. destruct (frame_ob _ _ _ _ F3 Z3) as [Z3a Z3b].
  assert (DZ : ob w3 (OD size) = store_default KBuffer TDouble) by congruence.
  assert (Lim3 : hlim (hp w3) = hlim (hp w)) by apply F03.
  destruct (assign_scalar_done w3 size (VI (Z.of_nat (length l))) (VD (i2f (Z.of_nat (length l)))))
    as [w4 [E4 [S4 [H4 [K4 [P4 [Y4 _]]]]]]].
  { apply world_ok_shape, F3. }
  { split; [now rewrite DZ|rewrite Z3b, Z2b, T1; reflexivity]. }
  { rewrite DZ. discriminate. }
  { unfold fits. lia. }
  { rewrite DZ. reflexivity. }
  assert (V4 : vstep w3 w4 size) by (eapply step1_vstep; [left; reflexivity|exact S4]).
  assert (WO4 : world_ok w4).
  { eapply step1_ok; [exact S4|apply F3|]. eapply inited_buffer; [apply S4|exact K4|exact H4]. }
  pose proof (vstep_frame _ _ _ V4 WO4) as F4.
  assert (OTz : ob w4 (OT size) = ob w3 (OT size)) by (apply (s1_other _ _ _ S4); congruence).
  assert (OZ4 : owning w4 size) by (split; [exact K4|rewrite OTz, Z3b, Z2b, T1; reflexivity]).
  assert (W4 : ~ In swapped [size]) by dst. destruct (frame_ob _ _ _ _ F4 W4) as [W4a W4b].
  assert (Lim4 : hlim (hp w4) = hlim (hp w3)) by apply F4.
  destruct (assign_scalar_done w4 swapped (VB true) (b2v true)) as [w5 [E5 [S5 [H5 [K5 [P5 [Y5 _]]]]]]].
  { now apply world_ok_shape. }
  { eapply owning_same; eauto. }
  { rewrite W4a, D3. discriminate. }
  { unfold fits. lia. }
  { rewrite W4a, D3. reflexivity. }
  assert (V5 : vstep w4 w5 swapped) by (eapply step1_vstep; [left; reflexivity|exact S5]).
  assert (WO5 : world_ok w5).
  { eapply step1_ok; [exact S5|exact WO4|]. eapply inited_buffer; [apply S5|exact K5|exact H5]. }
  pose proof (vstep_frame _ _ _ V5 WO5) as F5.
  assert (OTs : ob w5 (OT swapped) = ob w4 (OT swapped)) by (apply (s1_other _ _ _ S5); congruence).
  exists w3, w5. split.
  { rewrite (bind_done _ _ _ _ _ E1), (bind_done _ _ _ _ _ E2). exact E3. }
  split.
  { rewrite LF, (bind_done _ _ _ _ _ E4). exact E5. }
  split.
  { apply (frame_trans _ w3); [exact F03|].
    apply (frame_trans _ w4); [apply (frame_incl _ _ _ _ F4)|apply (frame_incl _ _ _ _ F5)];
      intros y Hy; simpl in *; tauto. }
  split; [eapply owning_frame; [exact F5|dst|exact OZ4]|].
  split; [eapply frame_holds; [exact F5|dst|exact H4]|].
  split; [split; [exact K5|rewrite OTs, W4b; apply O3]|].
  split; [exact H5|]. split; [rewrite Y5, W4a, D3; reflexivity|]. split; [exact P5|].
  assert (T3' : ~ In temp [swapped]) by dst. assert (T4' : ~ In temp [size]) by dst.
  destruct (frame_ob _ _ _ _ F3 T3') as [T3a T3b]. destruct (frame_ob _ _ _ _ F4 T4') as [T4a T4b].
  destruct (frame_ob _ _ _ _ F5 T3') as [T5a T5b].
  rewrite T5a, T5b, T4a, T4b, T3a, T3b. split; [|auto].
  unfold owning. now rewrite T5a, T5b, T4a, T4b, T3a, T3b.
Qed.

Lemma bs_split w w3 w5 fuel :
  (vec_default size TDouble ;; vec_default temp TDouble ;; vec_default swapped TDouble) w = (Done tt, w3) ->
  (assign_scalar size (VI (length_fn w3 (AV TDouble (EVar arr)))) ;; assign_scalar swapped (VB true)) w3 = (Done tt, w5) ->
  bs lm arr size temp swapped col s fuel w =
  locals [swapped; temp; size]
    (do_while fuel (bs_round lm arr size temp swapped col s) (v <- to_scalar lm (EVar swapped) ;; ret (truth v))) w5.
Proof.
  intros E3 E5. unfold bs.
  assert (EB : forall (m : M world bool), (vec_default size TDouble ;; vec_default temp TDouble ;; vec_default swapped TDouble ;; m) w = m w3).
  { intros m. rewrite <- (bind_assoc _ _ _). 
    transitivity (((vec_default size TDouble ;; vec_default temp TDouble ;; vec_default swapped TDouble) ;; m) w).
    - rewrite !bind_assoc. reflexivity.
    - now rewrite (bind_done _ _ _ _ _ E3). }
  rewrite EB. unfold locals. rewrite bind_get.
  set (dw := do_while fuel (bs_round lm arr size temp swapped col s) (v <- to_scalar lm (EVar swapped) ;; ret (truth v))) in *.
  assert (EQ : (assign_scalar size (VI (length_fn w3 (AV TDouble (EVar arr)))) ;; assign_scalar swapped (VB true) ;; dw) w3 = dw w5).
  { transitivity (((assign_scalar size (VI (length_fn w3 (AV TDouble (EVar arr)))) ;; assign_scalar swapped (VB true)) ;; dw) w3).
    - now rewrite bind_assoc.
    - now rewrite (bind_done _ _ _ _ _ E5). }
  rewrite EQ. reflexivity.
Qed.

Lemma bs_rounds w l fuel : bs_pre w l -> (2 <= length l)%nat -> Z.of_nat (length l) < 2 ^ 31 ->
  exists w', frame w w' X5 /\ gone w' size /\ gone w' temp /\ gone w' swapped /\
  let r := bs lm arr size temp swapped col s fuel w in
  match rounds fuel l false with
  | Some (Some l') => r = (Done true, w') /\ owning w' arr /\ vholds w' arr (map VD l') /\ gone w' col
  | Some None => r = (Done false, w')
  | None => r = (Thrown (Ass "try to delete nullptr"), w')
  end.
Proof.
  intros P N1 N2. pose proof P as [WO [OA [HA [TA [G1 [G2 [G3 [G4 [U Ft]]]]]]]]].
  destruct (prologue w l P ltac:(unfold fits in *; lia) N2) as [w3 [w5 [E3 [E5 [F5 [OZ [HZ [OS [HS [YS [PS [OT_ [DT TT]]]]]]]]]]]]].
  assert (A5 : ~ In arr [size; temp; swapped]) by dst. assert (C5 : ~ In col [size; temp; swapped]) by dst.
  assert (S5 : ~ In s [size; temp; swapped]) by dst.
  destruct (frame_ob _ _ _ _ F5 A5) as [A5a A5b]. destruct (frame_ob _ _ _ _ F5 S5) as [S5a S5b].
  assert (L : LR w5 l false true).
  { split; [split|auto|exact (gone_frame _ _ _ _ F5 C5 G4)].
    - apply F5.
    - rewrite (fr_lim _ _ _ F5). exact Ft.
    - lia.
    - split; [eapply owning_frame; eauto|]. split; [eapply frame_holds; eauto|now rewrite A5a].
    - auto.
    - split; [exact OT_|]. rewrite DT, TT. repeat split.
    - eapply unborn_same; eauto. }
  destruct (loop_rounds fuel w5 l false true N1 L) as [w6 [F6 [CE R]]]. cbv zeta in R.
  destruct (ends_done w6 CE) as [w7 [E7 [F7 [G7 [G7' G7'']]]]].
  exists w7. split.
  { apply (frame_trans _ w5); [apply (frame_incl _ _ _ _ F5)|]; [unfold X5; intros y Hy; simpl in *; tauto|].
    apply (frame_trans _ w6); [apply (frame_incl _ _ _ _ F6)|apply (frame_incl _ _ _ _ F7)];
      unfold X5, X4; intros y Hy; simpl in *; tauto. }
  split; [exact G7|]. split; [exact G7'|]. split; [exact G7''|].
  cbv zeta.
  rewrite (bs_split w w3 w5 fuel E3 E5).
  set (dw := do_while fuel (bs_round lm arr size temp swapped col s) (v <- to_scalar lm (EVar swapped) ;; ret (truth v))) in *.
  destruct (rounds fuel l false) as [[l'|]|].
  - destruct R as [R [OA6 [HA6 [U6 U6']]]]. unfold locals. rewrite R, (bind_done _ _ _ _ _ E7). split; [reflexivity|].
    split; [eapply owning_frame; [exact F7|dst|exact OA6]|].
    split; [eapply frame_holds; [exact F7|dst|exact HA6]|].
    eapply gone_frame; [exact F7|dst|]. split; auto.
  - unfold locals. rewrite R, (bind_done _ _ _ _ _ E7). reflexivity.
  - unfold locals. rewrite R, (bind_done _ _ _ _ _ E7). reflexivity.
Qed.

(* ------------------------------------------- vectors of less than two elements *)

Lemma colon_short w n : world_ok w -> vholds w size [VD (i2f n)] ->
  unborn w (OD col) -> unborn w (OT col) -> 0 <= n <= 1 -> fits w 3 ->
  exists w' d us, colon_fn lm col (AS (VI 1)) (AV TDouble (EBin OMinus (EVar size) (ESca (VI 1)))) w = (Done tt, w') /\
    frame w w' [col] /\ owning w' col /\ vholds w' col (VD d :: us) /\ gridf 0 d 1.
Proof.
  intros WO HS U1 U2 N Lim. pose proof (world_ok_shape _ WO) as W. unfold fits in Lim.
  pose proof (gridf_one 0 ltac:(lia)) as G1. change (2 ^ 0) with 1 in G1.
  assert (G2 : gridf 0 (fsub (i2f n) fone) (n - 1)).
  { apply gridf_sub; [lia|apply gridf_i2f; lia|exact G1|lia]. }
  destruct (colon_dbl_grid w col fone (fsub (i2f n) fone) 0 1 (n - 1)) as [w' [us [E [M [LU EU]]]]]; auto;
    change (2 ^ 0) with 1; rewrite ?Z.div_1_r; try lia.
  { unfold fits. lia. }
  change (2 ^ 0) with 1 in LU. rewrite Z.div_1_r in LU.
  destruct us as [|u us]; [simpl in LU; lia|].
  destruct (EU 0%nat ltac:(simpl; lia)) as [d [Ed [Vd [Fd Rd]]]]. cbn [nth] in Ed. subst u.
  exists w', d, us. split.
  { unfold colon_fn. cbn [arg_ty ty_of arg_first]. rewrite bind_ret.
    change (common TInt TDouble) with TDouble. cbn [cast v2f]. change (i2f 1) with fone.
    rewrite bind_lift_done, (bind_done _ _ _ _ _ (size_minus w _ W HS)). cbn [cast v2f].
    rewrite bind_lift_done. exact E. }
  split; [apply vstep_frame; [apply M|now apply M]|]. split; [apply M|]. split; [apply M|].
  split; [exact Vd|]. split; [exact Fd|]. rewrite Rd.
  destruct G1 as [_ [_ R1]]. rewrite R1. change (INR 0) with 0%R.
  match goal with |- (if ?b then _ else _) = _ => destruct b end; [apply Rplus_0_r|apply Rminus_0_r].
Qed.

Lemma calc_dbl w n f z : gridf 0 f z -> 1 <= z < 2 ^ 31 -> calc_ind_vector lm w n (IF f) = Done [z - 1].
Proof.
  intros [Vf [Ff Rf]] H. cbn [calc_ind_vector]. rewrite (convert_sub_ok f z); [|split; [exact Vf|split; [exact Ff|]]|exact H].
  - cbn [obind]. rewrite wrap64_small by lia. apply store_ind_ok; [discriminate|simpl; lia].
  - rewrite Rf, grid_trunc by lia. change (2 ^ 0) with 1. now rewrite Z.div_1_r.
Qed.

Lemma at_i_z w f z : gridf 0 f z -> 1 <= z < 2 ^ 31 ->
  at_i lm arr f w = (Done (ESub (EVar arr) [z - 1] mp_none), w).
Proof. intros G H. unfold at_i, subset_vec. rewrite bind_get, (calc_dbl _ _ f z G H). reflexivity. Qed.

Lemma body_single w a f : world_shape w -> vholds w arr [VD a] -> gridf 0 f 1 ->
  bs_body lm arr temp swapped s f w = (Thrown msg_oob, w).
Proof.
  intros W H G.
  assert (G1 : gridf 0 (fadd f fone) 2).
  { replace 2 with (1 + 2 ^ 0) by lia. apply gridf_add; [lia|exact G|apply gridf_one; lia|lia]. }
  unfold bs_body. rewrite (bind_done _ _ _ _ _ (at_i_z w f 1 G ltac:(lia))).
  rewrite (bind_done _ _ _ _ _ (at_i_z w _ 2 G1 ltac:(lia))).
  apply bind_thrown.
  assert (Y : yields lm w (EVar arr) [VD a]) by (now apply vholds_yields).
  pose proof (elem_sub_at lm w (EVar arr) [VD a] [1 - 1] mp_none 0 Y ltac:(discriminate) ltac:(simpl; lia)) as E1.
  pose proof (proj2 Y 0%nat ltac:(simpl; lia)) as Y0.
  pose proof (sub_out lm w arr [VD a] [2 - 1] mp_none 0 W H ltac:(discriminate) ltac:(simpl; lia) ltac:(simpl; lia)
     ltac:(simpl; lia)) as E2.
  change (nth (0 mod List.length [VD a]) [1 - 1] 0) with (Z.of_nat 0) in E1. unfold bind in E1. rewrite Y0 in E1.
  change (Z.of_nat 0) with 0 in *. unfold to_scalar, vat. apply bind_thrown.
  change (elem lm (EBin OGt (ESub (EVar arr) [1 - 1] mp_none) (ESub (EVar arr) [2 - 1] mp_none)) 0 w) with
    ((w0 <- get ;; x <- (k <- lift (modz 0 1) ;; elem lm (ESub (EVar arr) [1 - 1] mp_none) k) ;;
      y <- (k <- lift (modz 0 1) ;; elem lm (ESub (EVar arr) [2 - 1] mp_none) k) ;; lift (bin_f lm OGt x y)) w).
  change (modz 0 1) with (@Done Z 0). rewrite bind_get, bind_assoc, bind_lift_done.
  rewrite (bind_done _ _ _ _ _ E1), bind_assoc, bind_lift_done. now apply bind_thrown.
Qed.

Lemma body_empty w f : world_shape w -> vholds w arr [] -> gridf 0 f 1 ->
  exists u, bs_body lm arr temp swapped s f w = (Undef u, w).
Proof.
  intros W H G.
  assert (G1 : gridf 0 (fadd f fone) 2).
  { replace 2 with (1 + 2 ^ 0) by lia. apply gridf_add; [lia|exact G|apply gridf_one; lia|lia]. }
  unfold bs_body. rewrite (bind_done _ _ _ _ _ (at_i_z w f 1 G ltac:(lia))).
  rewrite (bind_done _ _ _ _ _ (at_i_z w _ 2 G1 ltac:(lia))).
  eexists. eapply bind_undef. unfold to_scalar, vat. eapply bind_undef.
  change (elem lm (EBin OGt (ESub (EVar arr) [1 - 1] mp_none) (ESub (EVar arr) [2 - 1] mp_none)) 0 w) with
    ((w0 <- get ;; x <- (k <- lift (modz 0 1) ;; elem lm (ESub (EVar arr) [1 - 1] mp_none) k) ;;
      y <- (k <- lift (modz 0 1) ;; elem lm (ESub (EVar arr) [2 - 1] mp_none) k) ;; lift (bin_f lm OGt x y)) w).
  change (modz 0 1) with (@Done Z 0). rewrite bind_get, bind_assoc, bind_lift_done.
  eapply bind_undef. cbn [elem]. rewrite bind_get. cbn [esize]. rewrite (proj1 H). reflexivity.
Qed.

Lemma bs_single w a fuel : bs_pre w [a] -> fits w 3 ->
  exists w', bs lm arr size temp swapped col s (S fuel) w = (Thrown msg_oob, w') /\ frame w w' X5 /\
    gone w' size /\ gone w' temp /\ gone w' swapped.
Proof.
  intros P Ft. pose proof P as [WO [OA [HA [TA [G1 [G2 [G3 [G4 [U _]]]]]]]]].
  destruct (prologue w [a] P ltac:(unfold fits in *; lia) ltac:(simpl; lia))
    as [w3 [w5 [E3 [E5 [F5 [OZ [HZ [OS [HS [YS [PS [OT_ [DT TT]]]]]]]]]]]]].
  rewrite (bs_split w w3 w5 (S fuel) E3 E5).
  assert (A5 : ~ In arr [size; temp; swapped]) by dst. assert (C5 : ~ In col [size; temp; swapped]) by dst.
  assert (S5 : ~ In s [size; temp; swapped]) by dst.
  destruct (frame_ob _ _ _ _ F5 A5) as [A5a A5b]. destruct (frame_ob _ _ _ _ F5 S5) as [S5a S5b].
  assert (L : LS w5 [a] false true).
  { split.
    - apply F5.
    - rewrite (fr_lim _ _ _ F5). unfold fits in Ft. simpl. lia.
    - simpl. lia.
    - split; [eapply owning_frame; eauto|]. split; [eapply frame_holds; eauto|now rewrite A5a].
    - auto.
    - split; [exact OT_|]. rewrite DT, TT. repeat split.
    - eapply unborn_same; eauto. }
  destruct (LS_swapped w5 [a] false true false L) as [w6 [E6 [L6 F6]]].
  destruct (colon_short w6 1) as [w7 [d [us [E7 [F7 [O7 [H7 Gd]]]]]]].
  { apply L6. }
  { eapply frame_holds; [exact F6|dst|exact HZ]. }
  { eapply (gone_frame w5); [exact F6|dst|]. eapply gone_frame; eauto. }
  { eapply (gone_frame w5); [exact F6|dst|]. eapply gone_frame; eauto. }
  { lia. }
  { unfold fits in *. rewrite (fr_lim _ _ _ F6), (fr_lim _ _ _ F5). exact Ft. }
  pose proof (LS_frame _ _ _ _ _ F7 L6) as L7.
  destruct (vec_end_done w7 col (fr_ok _ _ _ F7) O7) as [w8 [E8 [V8 [WO8 _]]]].
  pose proof (vstep_frame _ _ _ V8 WO8) as F8. pose proof (LS_frame _ _ _ _ _ F8 L7) as L8.
  assert (CE : can_end w8).
  { split; [exact WO8|]. split; [|split; apply L8].
    eapply owning_frame; [exact F8|dst|]. eapply owning_frame; [exact F7|dst|]. eapply owning_frame; [exact F6|dst|exact OZ]. }
  destruct (ends_done w8 CE) as [w9 [E9 [F9 [G9 [G9' G9'']]]]].
  exists w9. split.
  - unfold locals at 1. cbn [do_while].
    assert (ER : bs_round lm arr size temp swapped col s w5 = (Thrown msg_oob, w8)).
    { unfold bs_round. rewrite (bind_done _ _ _ _ _ E6), (bind_done _ _ _ _ _ E7). unfold locals.
      rewrite (bind_done _ _ _ _ _ (iterate_vec_holds w7 col _ (world_ok_shape _ (fr_ok _ _ _ F7)) H7)).
      cbn [for_each v2f].
      rewrite (bind_thrown _ _ _ _ _ (body_single w7 a d (world_ok_shape _ (fr_ok _ _ _ F7)) (proj1 (proj2 (ls_arr _ _ _ _ L7))) Gd)).
      cbn [ends]. now rewrite bind_assoc, (bind_done _ _ _ _ _ E8). }
    rewrite (bind_thrown _ _ _ _ _ ER), (bind_done _ _ _ _ _ E9). reflexivity.
  - split; [|auto].
    apply (frame_trans _ w5); [apply (frame_incl _ _ _ _ F5)|]; [unfold X5; intros y Hy; simpl in *; tauto|].
    apply (frame_trans _ w6); [apply (frame_incl _ _ _ _ F6)|]; [unfold X5; intros y Hy; simpl in *; tauto|].
    apply (frame_trans _ w7); [apply (frame_incl _ _ _ _ F7)|]; [unfold X5; intros y Hy; simpl in *; tauto|].
    apply (frame_trans _ w8); [apply (frame_incl _ _ _ _ F8)|apply (frame_incl _ _ _ _ F9)];
      unfold X5; intros y Hy; simpl in *; tauto.
Qed.

Lemma bs_empty w fuel : bs_pre w [] -> fits w 3 ->
  exists u, fst (bs lm arr size temp swapped col s (S fuel) w) = Undef u.
Proof.
  intros P Ft. pose proof P as [WO [OA [HA [TA [G1 [G2 [G3 [G4 [U _]]]]]]]]].
  destruct (prologue w [] P ltac:(unfold fits in *; lia) ltac:(simpl; lia))
    as [w3 [w5 [E3 [E5 [F5 [OZ [HZ [OS [HS [YS [PS [OT_ [DT TT]]]]]]]]]]]]].
  rewrite (bs_split w w3 w5 (S fuel) E3 E5).
  destruct (assign_scalar_done w5 swapped (VB false) (b2v false)) as [w6 [E6 [S6 [H6 [K6 [Q6 [T6 _]]]]]]]; auto.
  { apply world_ok_shape, F5. }
  { unfold fits in *. rewrite (fr_lim _ _ _ F5). lia. }
  { rewrite YS. reflexivity. }
  assert (V6 : vstep w5 w6 swapped) by (eapply step1_vstep; [left; reflexivity|exact S6]).
  assert (WO6 : world_ok w6).
  { eapply step1_ok; [exact S6|apply F5|]. eapply inited_buffer; [apply S6|exact K6|exact H6]. }
  pose proof (vstep_frame _ _ _ V6 WO6) as F6.
  assert (C5 : ~ In col [size; temp; swapped]) by dst.
  destruct (colon_short w6 0) as [w7 [d [us [E7 [F7 [O7 [H7 Gd]]]]]]]; auto.
  { eapply frame_holds; [exact F6|dst|exact HZ]. }
  { eapply (gone_frame w5); [exact F6|dst|]. eapply gone_frame; eauto. }
  { eapply (gone_frame w5); [exact F6|dst|]. eapply gone_frame; eauto. }
  { lia. }
  { unfold fits in *. rewrite (fr_lim _ _ _ F6), (fr_lim _ _ _ F5). exact Ft. }
  assert (H0 : vholds w7 arr []).
  { eapply frame_holds; [exact F7|dst|]. eapply frame_holds; [exact F6|dst|]. eapply frame_holds; [exact F5|dst|exact HA]. }
  destruct (body_empty w7 d (world_ok_shape _ (fr_ok _ _ _ F7)) H0 Gd) as [u EU].
  exists u. unfold locals at 1. cbn [do_while].
  assert (ER : bs_round lm arr size temp swapped col s w5 = (Undef u, w7)).
  { unfold bs_round. rewrite (bind_done _ _ _ _ _ E6), (bind_done _ _ _ _ _ E7). unfold locals.
    rewrite (bind_done _ _ _ _ _ (iterate_vec_holds w7 col _ (world_ok_shape _ (fr_ok _ _ _ F7)) H7)).
    cbn [for_each v2f]. now rewrite (bind_undef _ _ _ u _ EU). }
  now rewrite (bind_undef _ _ _ u _ ER).
Qed.
End Loop.
