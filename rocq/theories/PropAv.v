(** Property C78: loading the variables of an AllVars object. *)
From Coq Require Import ZArith List String Bool Lia Arith.
From Verif Require Import Base Num StoreModel VecModel ForeignModel Spec SpecExpr SpecHist StoreProofs StoreThms StoreHist
  FillProofs DerivModel SpecDeriv AvModel SpecAv AvProofs Examples PropVec PropDeriv.
Import ListNotations.
Open Scope Z_scope.
Local Notation length := List.length (only parsing).

(** initBuffer and initBorrowSEXP with at most as many arguments as there are
    variables: variable i gets the elements of argument i as doubles, the
    arguments, all other objects and foreign memory keep theirs, and the copies
    are given back.
    Missing to the full property: initBorrow, the shape of matrices, and more
    arguments than variables (see the refutations), vectors of more than
    max_len elements (C54) and arguments that borrow their elements. *)
Theorem c78_load_partial : forall lm k n tmp ys uss w, k = KBuffer \/ k = KBorrowSEXP ->
  world_shape w -> Forall2 (argument w) ys uss -> (length ys <= n)%nat -> empty_slots k w n ->
  outside k n tmp -> Forall (fun y => y <> tmp /\ outside k n y) ys -> unborn w (OD tmp) -> unborn w (OT tmp) ->
  exists w', init_args lm k n tmp 0 ys w = (Done tt, w') /\ world_shape w' /\ (no_leak w -> no_leak w') /\
    (forall i us, nth_error uss i = Some us -> vholds w' (vslot (DV k i)) us) /\
    (forall y, In y ys -> same_obj w w' (OD y)) /\
    (forall o, (forall i, (i < length ys)%nat -> o <> OD (vslot (DV k i)) /\ o <> OT (vslot (DV k i))) ->
      o <> OD tmp -> o <> OT tmp -> same_obj w w' o) /\
    (forall b own cs, own <> OwnCpp -> hblk (hp w) b = Live own cs -> hblk (hp w') b = Live own cs).
Proof.
  intros lm k n tmp ys uss w K W F Hn Em Ot Fo U1 U2.
  destruct (init_args_done lm k n tmp K Ot ys uss 0%nat w) as [w' [E [W' [_ [H [NL [_ [_ [S B]]]]]]]]]; auto.
  { intros i Hi. apply Em. lia. }
  exists w'. split; [exact E|]. split; [exact W'|]. split; [exact NL|].
  split; [intros i us Hi; now apply (H i us)|]. split; [|split; [exact S|exact B]].
  intros y Hy. rewrite Forall_forall in Fo. destruct (Fo y Hy) as [Ny Oy]. apply S; [|congruence|congruence].
  intros i Hi. assert (y <> vslot (DV k i)) by (apply Oy; lia). cbn [Nat.add]; split; congruence.
Qed.
Print Assumptions c78_load_partial.

(** Two arguments: the doubles 1, 2, 3 and the ints 4, 5. *)
Definition av_ops : list sop :=
  [ SNew (OD 701) TDouble 3; SSet (OD 701) 0 d1; SSet (OD 701) 1 d2; SSet (OD 701) 2 d3; SDefault (OT 701) TDouble;
    SNew (OD 702) TInt 2; SSet (OD 702) 0 (VI 4); SSet (OD 702) 1 (VI 5); SDefault (OT 702) TInt ].
Definition av_w : world := snd (exec av_ops (empty_world 1000)).
Lemma av_ok : world_ok av_w.
Proof.
  assert (A : allowed av_ops (empty_world 1000)) by show_allowed.
  pose proof (exec_final 1000 av_ops ltac:(lia) A) as B.
  rewrite (exec_run av_ops (empty_world 1000)) in B by (vm_compute; reflexivity). apply B.
Qed.
Definition av_uss : list (list val) := [[d1; d2; d3]; [VD (i2f 4); VD (i2f 5)]].
Lemma av_arg0 : argument av_w 701 [d1; d2; d3].
Proof.
  split; [split; vm_compute; reflexivity|vm_compute; congruence|vm_compute; congruence| | |].
  - exists [d1; d2; d3]. split; [show_holds|repeat constructor].
  - exists []. show_holds.
  - split; [discriminate|]. split; vm_compute; congruence.
Qed.
Lemma av_args : Forall2 (argument av_w) [701%nat; 702%nat] av_uss.
Proof.
  constructor; [|constructor; [|constructor]].
  - exact av_arg0.
  - split; [split; vm_compute; reflexivity|vm_compute; congruence|vm_compute; congruence| | |].
    + exists [VI 4; VI 5]. split; [show_holds|repeat constructor].
    + exists []. show_holds.
    + split; [discriminate|]. split; vm_compute; congruence.
Qed.
Example c78_ex : world_shape av_w /\ Forall2 (argument av_w) [701%nat; 702%nat] av_uss /\
  empty_slots KBuffer av_w 2 /\ outside KBuffer 2 703 /\
  Forall (fun y => y <> 703%nat /\ outside KBuffer 2 y) [701%nat; 702%nat] /\
  unborn av_w (OD 703) /\ unborn av_w (OT 703).
Proof.
  split; [exact (proj1 av_ok)|]. split; [exact av_args|]. split.
  { intros i Hi. destruct i as [|[|i]]; [split; vm_compute; reflexivity..|lia]. }
  assert (O : forall y, (700 < y)%nat -> outside KBuffer 2 y) by (intros y Hy i Hi; cbn [vslot]; lia).
  split; [apply O; lia|]. split; [repeat constructor; try discriminate; apply O; lia|].
  split; apply unborn_ptr; vm_compute; reflexivity.
Qed.
(** Wrappers of R objects. *)
Definition av_rw : world := snd ((sexp_default (OD 5) TDouble ;; sexp_default (OD 12) TDouble) av_w).
Example c78_sexp_ex : world_shape av_rw /\ Forall2 (argument av_rw) [701%nat; 702%nat] av_uss /\
  empty_slots KBorrowSEXP av_rw 2 /\ outside KBorrowSEXP 2 703 /\
  Forall (fun y => y <> 703%nat /\ outside KBorrowSEXP 2 y) [701%nat; 702%nat] /\
  unborn av_rw (OD 703) /\ unborn av_rw (OT 703).
Proof.
  split.
  { apply set_shape; [apply set_shape; [exact (proj1 av_ok)|..]|..]; try (intros b [X _]; discriminate X);
      repeat split; cbn; lia. }
  split.
  { pose proof av_args as A. inversion A as [|? ? ? ? A1 A' Q1 Q2]. inversion A' as [|? ? ? ? A2 _ Q3 Q4].
    constructor; [|constructor; [|constructor]]; (eapply argument_same; [eassumption|..]); try reflexivity;
      (split; [vm_compute; reflexivity|intros; reflexivity]). }
  split.
  { intros i Hi. destruct i as [|[|i]]; [split; vm_compute; reflexivity..|lia]. }
  assert (O : forall y, (700 < y)%nat -> outside KBorrowSEXP 2 y) by (intros y Hy i Hi; cbn [vslot]; lia).
  split; [apply O; lia|]. split; [repeat constructor; try discriminate; apply O; lia|].
  split; apply unborn_ptr; vm_compute; reflexivity.
Qed.

(** initBorrow throws for every argument: the default-constructed Borrow
    variable has capacity 0.  Nothing is loaded. *)
Theorem c78_borrow_refuted : forall lm n tmp y ys us w, world_shape w -> argument w y us -> (0 < n)%nat ->
  empty_slots KBorrow w n -> outside KBorrow n tmp -> tmp <> y -> unborn w (OD tmp) -> unborn w (OT tmp) ->
  exists w', init_args lm KBorrow n tmp 0 (y :: ys) w =
      (Thrown (Ass "number of items to replace is not a multiple of replacement length"), w') /\
    forall i, (i < n)%nat -> sz (ob w' (OD (vslot (DV KBorrow i)))) = 0.
Proof.
  intros lm n tmp y ys us w W A Hn Em Ot Nt U1 U2.
  destruct (init_borrow_thrown lm n tmp 0 y us w W A Hn Nt U1 U2) as [w' [E [_ [_ S]]]].
  { intros X. symmetry in X. revert X. now apply Ot. }
  { now apply Em. }
  exists w'. split.
  { cbn [init_args]. unfold bind. now rewrite E. }
  intros i Hi. rewrite (proj1 (S (OD (vslot (DV KBorrow i))) ltac:(intros X; injection X as X; symmetry in X; revert X; now apply Ot) ltac:(discriminate))).
  now rewrite (proj1 (Em i Hi)).
Qed.
Print Assumptions c78_borrow_refuted.
Definition av_bw : world := snd (upd (OD 3) (fun _ => store_default KBorrow TDouble) av_w).
Example c78_borrow_ex : world_shape av_bw /\ argument av_bw 701 [d1; d2; d3] /\ empty_slots KBorrow av_bw 1.
Proof.
  split.
  { apply set_shape; [exact (proj1 av_ok)|..]; [intros b [X _]; discriminate X|]. repeat split; cbn; lia. }
  split.
  { eapply argument_same; [exact av_arg0|..]; try reflexivity; (split; [vm_compute; reflexivity|intros; reflexivity]). }
  intros i Hi. destruct i as [|i]; [split; vm_compute; reflexivity|lia].
Qed.

(** An argument more than there are variables is written behind the array. *)
Theorem c78_too_many_refuted : forall lm k n tmp ys y us w, k = KBuffer \/ k = KBorrowSEXP ->
  forall uss, world_shape w -> Forall2 (argument w) (ys ++ [y]) (uss ++ [us]) -> length ys = n -> length uss = n ->
  empty_slots k w n -> outside k n tmp -> Forall (fun z => z <> tmp /\ outside k n z) (ys ++ [y]) ->
  unborn w (OD tmp) -> unborn w (OT tmp) ->
  fst (init_args lm k n tmp 0 (ys ++ [y]) w) = Undef UB_oob.
Proof.
  intros lm k n tmp ys y us w K uss W F Ly Lu Em Ot Fo U1 U2.
  assert (App : forall zs idx v v1, init_args lm k n tmp idx zs v = (Done tt, v1) ->
    init_args lm k n tmp idx (zs ++ [y]) v = init_one lm k n tmp (idx + length zs) y v1 ).
  { induction zs as [|z zs IH]; intros idx v v1; cbn [init_args app length].
    - unfold ret. intros X. injection X as <-. rewrite Nat.add_0_r. unfold bind, ret.
      destruct (init_one lm k n tmp idx y v) as [[[]| |] ?]; reflexivity.
    - unfold bind. destruct (init_one lm k n tmp idx z v) as [[[]| |] v2]; try discriminate.
      intros X. rewrite (IH _ _ _ X). now rewrite Nat.add_succ_r. }
  apply Forall2_app_inv_l in F. destruct F as [u1 [u2 [F1 [F2 Q]]]].
  inversion F2 as [|? v ? ? Ay F3 Q1 Q2]. subst. inversion F3. subst.
  apply Forall_app in Fo. destruct Fo as [Fo1 Fo2]. inversion Fo2 as [|? ? [Ny Oy] _ Q3]. subst.
  destruct (init_args_done lm k (length ys) tmp K Ot ys u1 0%nat w) as [w' [E [W' [HL [H [NL [X1 [X2 [S _]]]]]]]]]; auto.
  { intros i Hi. apply Em. lia. }
  rewrite (App _ _ _ _ E). cbn [Nat.add].
  apply (init_oob lm k (length ys) tmp (length ys) y v w' W'); auto.
  assert (So : forall o, o = OD y \/ o = OT y -> same_obj w w' o).
  { intros o Ho. apply S; [|destruct Ho; congruence..]. intros i Hi.
    assert (y <> vslot (DV k i)) by (apply Oy; lia). cbn [Nat.add]; destruct Ho; split; congruence. }
  apply (argument_same w); auto.
Qed.
Print Assumptions c78_too_many_refuted.

(** The loaded variables have no shape, also when the arguments are matrices:
    the copy made for [auto arg] loses it (C06). *)
Theorem c78_shape_refuted : forall lm k n tmp ys uss w, k = KBuffer \/ k = KBorrowSEXP ->
  world_shape w -> Forall2 (argument w) ys uss -> (length ys <= n)%nat -> empty_slots k w n ->
  outside k n tmp -> Forall (fun y => y <> tmp /\ outside k n y) ys -> unborn w (OD tmp) -> unborn w (OT tmp) ->
  exists w', init_args lm k n tmp 0 ys w = (Done tt, w') /\
    forall i, (i < length ys)%nat -> ismat (mp (ob w' (OD (vslot (DV k i))))) = false.
Proof.
  intros lm k n tmp ys uss w K W F Hn Em Ot Fo U1 U2.
  destruct (init_args_done lm k n tmp K Ot ys uss 0%nat w) as [w' [E [_ [_ [H _]]]]]; auto.
  { intros i Hi. apply Em. lia. }
  exists w'. split; [exact E|]. intros i Hi. rewrite (Forall2_len _ _ _ F) in Hi.
  destruct (nth_error uss i) as [us|] eqn:Q; [|now apply nth_error_None in Q; lia].
  destruct (H i us Q) as [_ M]. cbn [Nat.add] in M. now rewrite M.
Qed.
Print Assumptions c78_shape_refuted.
(** A matrix as the argument. *)
Definition av_mw : world := snd (upd (OD 701) (with_mp (mkMP true 3 1)) av_w).
Example c78_shape_ex : world_shape av_mw /\ argument av_mw 701 [d1; d2; d3] /\ ismat (mp (ob av_mw (OD 701))) = true.
Proof.
  pose proof (proj1 av_ok) as W. pose proof (VecProofs.step1_mp av_w (OD 701) (mkMP true 3 1) W) as S.
  split; [apply S|]. split; [|reflexivity].
  destruct av_arg0 as [A1 A2 A3 [l [A4 A4']] [t A5] A6].
  split; [exact A1|exact A2|exact A3| | |exact A6].
  - exists l. split; [|exact A4']. now apply ForeignProofs4.with_mp_holds.
  - exists t. eapply holds_same; [apply (s1_other _ _ _ S); discriminate|exact A5].
Qed.

(** The independent variable loaded by initBuffer: after b = a * a the
    derivative of b is 2 a; after a = a * a the derivatives of a are 0 instead of
    2 a, because the array of the derivatives is made, with zeros, before the
    derivatives of the old a are asked for (AssignmentOperator.hpp 203-206). *)
Definition av_loaded : dworld :=
  mkDw (snd ((init_args ex_lm KBuffer 2 703 0 [701%nat] ;; declare (bv 0) ;; declare (bv 1)) av_w)) false.
Theorem c78_derivative_refuted :
  let sq := DTimes (DVar (bv 0)) (DVar (bv 0)) in
  let rb := dexec ex_lm (mkAv 0 2) (DAssign (bv 1) sq) av_loaded in
  let ra := dexec ex_lm (mkAv 0 2) (DAssign (bv 0) sq) av_loaded in
  fst (get_vals (bv 0) av_loaded) = Done (map VD (nums [1; 2; 3])) /\
  fst rb = Done tt /\ fst (get_vals (bv 1) (snd rb)) = Done (map VD (nums [1; 4; 9])) /\
  fst (get_derivs (mkAv 0 2) (bv 1) (snd rb)) = Done (map VD (nums [2; 4; 6])) /\
  fst ra = Done tt /\ fst (get_vals (bv 0) (snd ra)) = Done (map VD (nums [1; 4; 9])) /\
  fst (get_derivs (mkAv 0 2) (bv 0) (snd ra)) = Done (map VD (nums [0; 0; 0])).
Proof. repeat split; vm_compute; reflexivity. Qed.
Print Assumptions c78_derivative_refuted.
