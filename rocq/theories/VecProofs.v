From Coq Require Import ZArith List String Bool Lia.
From Verif Require Import Base Num StoreModel VecModel Spec SpecExpr CapProofs StoreProofs StoreOps.
Import ListNotations.
Open Scope Z_scope.

(* --------------------------------------------------- reading is pure *)

Lemma bind_pure {A B} (m : M world A) (f : A -> M world B) w :
  snd (m w) = w -> (forall a, snd (f a w) = w) -> snd (bind m f w) = w.
Proof. unfold bind. intros H G. destruct (m w) as [[a|e|u] w1]; simpl in *; subst; auto. Qed.

Lemma elem_pure lm e : forall i w, snd (elem lm e i w) = w.
Proof.
  induction e; intros i w; cbn [elem].
  - apply at_rd_pure.
  - destruct (i <? _); reflexivity.
  - reflexivity.
  - repeat (apply bind_pure; [reflexivity|intros]). apply bind_pure; [apply IHe|reflexivity].
  - apply bind_pure; [reflexivity|intros].
    apply bind_pure.
    { destruct (is_sca e1); auto. apply bind_pure; [reflexivity|auto]. }
    intros. apply bind_pure; [|reflexivity].
    destruct (is_sca e2); auto. apply bind_pure; [reflexivity|auto].
  - apply bind_pure; [reflexivity|intros].
    apply bind_pure; [|reflexivity].
    destruct (is_sca e); auto. apply bind_pure; [reflexivity|auto].
Qed.

(** Evaluation only depends on the objects of its variables. *)
Lemma esize_same w w' e : (forall x, In x (vars e) -> same_obj w w' (OD x)) -> esize w' e = esize w e.
Proof.
  induction e; intros H; cbn [esize vars] in *; auto.
  - destruct (H x) as [E _]; [now left|]. now rewrite E.
  - rewrite IHe1, IHe2; auto; intros; apply H; apply in_or_app; auto.
Qed.

Lemma bind_same {A B} (m : M world A) (f : A -> M world B) w w' :
  snd (m w) = w -> snd (m w') = w' ->
  fst (m w') = fst (m w) -> (forall a, fst (f a w') = fst (f a w)) ->
  fst (bind m f w') = fst (bind m f w).
Proof.
  unfold bind. intros P P' H G. destruct (m w) as [[a|e|u] w1], (m w') as [[a'|e'|u'] w1'];
    simpl in *; subst; try discriminate; auto; try congruence; injection H as ->; apply G.
Qed.

Lemma stored_own e : stored e = own_type e. Proof. now destruct e. Qed.
Lemma vat_read lm e i w : vat lm e i w = (v <- elem lm e i ;; ret (read e v)) w.
Proof. unfold vat, as_ret. now rewrite stored_own. Qed.
Lemma vat_done lm e i w v : elem lm e i w = (Done v, w) -> vat lm e i w = (Done (read e v), w).
Proof. intros H. rewrite vat_read. unfold bind. now rewrite H. Qed.

Lemma elem_same lm w w' e : (forall x, In x (vars e) -> same_obj w w' (OD x)) ->
  forall i, fst (elem lm e i w') = fst (elem lm e i w).
Proof.
  induction e; intros H i; cbn [elem vars] in *.
  - apply at_rd_same. apply H. now left.
  - destruct (i <? _); reflexivity.
  - reflexivity.
  - rewrite !bind_get. rewrite (esize_same w w' e H).
    repeat (apply bind_same; [reflexivity|reflexivity|reflexivity|intros]).
    apply bind_same; [apply elem_pure|apply elem_pure|now apply IHe|reflexivity].
  - rewrite !bind_get.
    assert (H1 : forall x, In x (vars e1) -> same_obj w w' (OD x)) by (intros; apply H; apply in_or_app; auto).
    assert (H2 : forall x, In x (vars e2) -> same_obj w w' (OD x)) by (intros; apply H; apply in_or_app; auto).
    rewrite (esize_same w w' e1 H1), (esize_same w w' e2 H2).
    apply bind_same.
    + destruct (is_sca e1); [apply elem_pure|]. apply bind_pure; [reflexivity|intros; apply elem_pure].
    + destruct (is_sca e1); [apply elem_pure|]. apply bind_pure; [reflexivity|intros; apply elem_pure].
    + destruct (is_sca e1); auto. apply bind_same; auto.
    + intros a. apply bind_same; [| | |reflexivity].
      * destruct (is_sca e2); [apply elem_pure|]. apply bind_pure; [reflexivity|intros; apply elem_pure].
      * destruct (is_sca e2); [apply elem_pure|]. apply bind_pure; [reflexivity|intros; apply elem_pure].
      * destruct (is_sca e2); auto. apply bind_same; auto.
  - rewrite !bind_get. rewrite (esize_same w w' e H).
    apply bind_same; [| | |reflexivity].
    + destruct (is_sca e); [apply elem_pure|]. apply bind_pure; [reflexivity|intros; apply elem_pure].
    + destruct (is_sca e); [apply elem_pure|]. apply bind_pure; [reflexivity|intros; apply elem_pure].
    + destruct (is_sca e); auto. apply bind_same; auto.
Qed.

(* -------------------------------------- evaluation meets the list meaning *)

Lemma esize_xsize w rho e : env_of w rho e -> wf_expr rho e -> esize w e = xsize rho e.
Proof.
  induction e; intros H F; cbn [esize xsize] in *; auto.
  - destruct (H x) as [A _]; [now left|]. exact A.
  - destruct F as [F1 [F2 [F3 F4]]].
    assert (E1 : env_of w rho e1) by (intros x Hx; apply H; apply in_or_app; auto).
    assert (E2 : env_of w rho e2) by (intros x Hx; apply H; apply in_or_app; auto).
    rewrite IHe1, IHe2; auto.
    destruct e1; cbn [is_sca andb]; cbn [xsize] in *;
    (destruct e2; cbn [is_sca andb]; cbn [xsize] in *; try lia;
     match goal with |- context [?a <? ?b] => destruct (Z.ltb_spec a b); lia | _ => lia end).
  - destruct F as [F1 F2]. auto.
Qed.

Lemma xsize_sca rho e : is_sca e = true -> xsize rho e = 1.
Proof. destruct e; simpl; congruence. Qed.
Lemma xval_sca lm rho e i j : is_sca e = true -> xval lm rho e i = xval lm rho e j.
Proof. destruct e; simpl; congruence. Qed.

Lemma pick_val_in l i : 0 <= i < Z.of_nat (List.length l) -> pick_val l i = Done (nth (Z.to_nat i) l (VB false)).
Proof.
  intros H. unfold pick_val. rewrite (nth_error_nth' l (VB false)) by lia. reflexivity.
Qed.
Lemma pick_val_out l i : Z.of_nat (List.length l) <= i ->
  pick_val l i = Thrown (Ass "Error: out of boundaries --> value beyond size of vector").
Proof.
  intros H. unfold pick_val. replace (nth_error l (Z.to_nat i)) with (@None val); auto.
  symmetry. apply nth_error_None. lia.
Qed.

Lemma at_rd_pick w o l i : world_shape w -> holds w o l -> 0 <= i -> l <> [] ->
  at_rd o i w = (pick_val l i, w).
Proof.
  intros W H Hi Ne.
  destruct (at_rd_bounds w o l i W H Hi) as [A _].
  destruct (Z.ltb_spec i (Z.of_nat (List.length l))) as [L|L].
  - rewrite pick_val_in by lia. now apply A.
  - rewrite pick_val_out by lia.
    pose proof (proj1 H) as E.
    destruct (shape_ptr w o W) as [a P].
    { destruct l; [congruence|]. simpl in E. lia. }
    pose proof (shape_alloc _ _ _ W P) as Al.
    assert (X : (i <? sz (ob w o)) = false) by (apply Z.ltb_ge; lia).
    unfold at_rd, sexp_get_at, get_at. rewrite bind_st.
    destruct (kd (ob w o)); rewrite bind_st; rewrite ?Al, ?P, ?bind_ass_true, X; reflexivity.
Qed.

Lemma modz_pos i n : 0 < n -> modz i n = Done (i mod n).
Proof. intros H. unfold modz. replace (n =? 0) with false; auto. symmetry. apply Z.eqb_neq. lia. Qed.

Lemma elem_xval lm w rho e : world_shape w -> env_of w rho e -> wf_expr rho e ->
  forall i, 0 <= i -> (i < xsize rho e \/ (plain e = true /\ 1 <= xsize rho e)) ->
  elem lm e i w = (xval lm rho e i, w).
Proof.
  intros W. induction e; intros H F i Hi Hl; cbn [elem xval] in *.
  - apply at_rd_pick; auto.
    + apply H. now left.
    + cbn [xsize] in Hl. destruct (rho x); [simpl in *; lia|congruence].
  - cbn [xsize] in *. destruct (Z.ltb_spec i (Z.of_nat (List.length l))).
    + rewrite pick_val_in by lia. reflexivity.
    + rewrite pick_val_out by lia. reflexivity.
  - reflexivity.
  - destruct F as [F1 [F2 [F3 F4]]]. cbn [xsize plain] in Hl.
    assert (Hl' : i < Z.of_nat (List.length ind)) by (destruct Hl as [?|[? _]]; [lia|discriminate]).
    rewrite bind_get. rewrite (esize_xsize w rho e H F1).
    rewrite modz_pos by lia. rewrite bind_lift_done. rewrite Z.mod_small by lia.
    unfold ind_at. replace (i <? Z.of_nat (List.length ind)) with true by (symmetry; apply Z.ltb_lt; lia).
    rewrite bind_lift_done.
    assert (In (nth (Z.to_nat i) ind 0) ind) by (apply nth_In; lia).
    unfold bind. rewrite IHe; auto.
    + destruct (xval lm rho e (nth (Z.to_nat i) ind 0)); reflexivity.
    + destruct (plain e) eqn:P; [right; split; [auto|lia]|left; now apply F4].
  - destruct F as [F1 [F2 [F3 F4]]].
    assert (E1 : env_of w rho e1) by (intros x Hx; apply H; apply in_or_app; auto).
    assert (E2 : env_of w rho e2) by (intros x Hx; apply H; apply in_or_app; auto).
    rewrite bind_get. rewrite (esize_xsize w rho e1 E1 F1), (esize_xsize w rho e2 E2 F2).
    assert (A1 : (if is_sca e1 then elem lm e1 0
            else k <- lift (modz i (xsize rho e1)) ;; elem lm e1 k) w = (xval lm rho e1 (i mod xsize rho e1), w)).
    { destruct (is_sca e1) eqn:S.
      - rewrite IHe1; auto; [|lia|left; lia]. f_equal. now apply xval_sca.
      - rewrite modz_pos, bind_lift_done by lia. apply IHe1; auto.
        + apply Z.mod_pos_bound. lia.
        + left. apply Z.mod_pos_bound. lia. }
    assert (A2 : (if is_sca e2 then elem lm e2 0
            else k <- lift (modz i (xsize rho e2)) ;; elem lm e2 k) w = (xval lm rho e2 (i mod xsize rho e2), w)).
    { destruct (is_sca e2) eqn:S.
      - rewrite IHe2; auto; [|lia|left; lia]. f_equal. now apply xval_sca.
      - rewrite modz_pos, bind_lift_done by lia. apply IHe2; auto.
        + apply Z.mod_pos_bound. lia.
        + left. apply Z.mod_pos_bound. lia. }
    unfold bind at 1. rewrite A1. destruct (xval lm rho e1 (i mod xsize rho e1)); simpl; auto.
    unfold bind at 1. rewrite A2. destruct (xval lm rho e2 (i mod xsize rho e2)); simpl; auto.
  - destruct F as [F1 F2]. cbn [xsize] in Hl.
    assert (Hl' : i < xsize rho e) by (destruct Hl as [?|[? _]]; [lia|discriminate]).
    rewrite bind_get. rewrite (esize_xsize w rho e H F1).
    assert (A1 : (if is_sca e then elem lm e 0
            else k <- lift (modz i (xsize rho e)) ;; elem lm e k) w = (xval lm rho e i, w)).
    { destruct (is_sca e) eqn:S.
      - rewrite IHe; auto; [|lia|left; lia]. f_equal. now apply xval_sca.
      - rewrite modz_pos, bind_lift_done by lia. rewrite Z.mod_small by lia. apply IHe; auto. }
    unfold bind at 1. rewrite A1. destruct (xval lm rho e i); simpl; auto.
Qed.

(* --------------------------------------------------------------- vstep *)

Lemma vstep_refl w x : world_shape w -> vstep w w x.
Proof.
  intros W. split; auto.
  - intros. apply same_obj_refl.
  - intros b cs H. destruct (owns_dec (ob w (OD x)) b), (owns_dec (ob w (OT x)) b); auto.
Qed.

Lemma vstep_trans w w1 w2 x : vstep w w1 x -> vstep w1 w2 x -> vstep w w2 x.
Proof.
  intros A B. split.
  - apply B.
  - rewrite (vs_lim _ _ _ B). apply A.
  - intros o N1 N2. eapply same_obj_trans; [apply A|apply B]; auto.
  - intros b cs H. destruct (vs_leak _ _ _ B b cs H) as [|[H1 [N1 N2]]]; auto.
    destruct (vs_leak _ _ _ A b cs H1) as [[|]|[H2 [M1 M2]]]; [contradiction|contradiction|auto].
  - intros b own cs Ne H. apply (vs_ext _ _ _ B); auto. apply (vs_ext _ _ _ A); auto.
Qed.

Lemma step1_vstep w w' o x : o = OD x \/ o = OT x -> step1 w w' o -> vstep w w' x.
Proof.
  intros Ho S. split.
  - apply S.
  - apply S.
  - intros o' N1 N2. apply (s1_other _ _ _ S). destruct Ho; congruence.
  - intros b cs H. destruct (s1_leak _ _ _ S b cs H) as [O|[H1 N1]].
    + left. destruct Ho; subst; auto.
    + destruct Ho; subst o.
      * destruct (owns_dec (ob w (OT x)) b) as [O|O]; auto. left. right.
        destruct (s1_other _ _ _ S (OT x)) as [E _]; [congruence|]. now rewrite E.
      * destruct (owns_dec (ob w (OD x)) b) as [O|O]; auto. left. left.
        destruct (s1_other _ _ _ S (OD x)) as [E _]; [congruence|]. now rewrite E.
  - apply S.
Qed.

Lemma vstep_no_leak w w' x : vstep w w' x -> no_leak w -> no_leak w'.
Proof.
  intros S N b cs H. destruct (vs_leak _ _ _ S b cs H) as [[|]|[H1 [N1 N2]]]; eauto.
  destruct (N b cs H1) as [o' O']. exists o'.
  destruct (vs_other _ _ _ S o') as [E _]; [congruence|congruence|]. now rewrite E.
Qed.

Lemma vstep_ok w w' x : vstep w w' x -> world_ok w -> inited w' (OD x) -> inited w' (OT x) -> world_ok w'.
Proof.
  intros S [W I] J1 J2. split; [apply S|].
  intros o. destruct (oid_dec o (OD x)) as [->|N1]; auto.
  destruct (oid_dec o (OT x)) as [->|N2]; auto.
  eapply inited_same; [apply (vs_other _ _ _ S); auto|auto].
Qed.

(* ------------------------------------------------------ moving the result *)

(** The exchange of two objects, for any two objects. *)
Record swapped (w w' : world) (o other : oid) : Prop := {
  sw_shape : world_shape w';
  sw_hp : hp w' = hp w;
  sw_d : ob w' o = with_alloc true (with_cap (cap (ob w other)) (with_sz (sz (ob w other))
                      (with_ptr (ptr (ob w other)) (ob w o))));
  sw_t : ob w' other = with_cap (cap (ob w o)) (with_sz (sz (ob w o))
                      (with_ptr (ptr (ob w o)) (ob w other)));
  sw_other : forall o', o' <> o -> o' <> other -> ob w' o' = ob w o';
  sw_owns1 : forall b, owns (ob w' o) b <-> owns (ob w other) b;
  sw_owns2 : forall b, owns (ob w' other) b <-> owns (ob w o) b }.

Lemma moveit_gen w o other : world_shape w -> o <> other ->
  kd (ob w o) = KBuffer -> kd (ob w other) = KBuffer ->
  cap (ob w other) < 2 ^ 31 -> sz (ob w other) < 2 ^ 31 ->
  alloc (ob w other) = true ->
  exists w', moveit o other w = (Done tt, w') /\ swapped w w' o other.
Proof.
  intros W NE K1 K2 HC HS A.
  pose proof (ws_store _ W o) as S1. pose proof (ws_store _ W other) as S2.
  unfold store_shape in S1, S2.
  assert (BT : 0 <= cap (ob w other) < 2 ^ 31 /\ 0 <= sz (ob w other) < 2 ^ 31) by lia.
  unfold moveit. rewrite !bind_st, bind_upd.
  rewrite (to_int_id (cap _)), (to_int_id (sz _)) by lia.
  rewrite (wrap64_id (cap _)), (wrap64_id (sz _)) by lia.
  eexists. split; [reflexivity|].
  match goal with |- swapped w ?W' _ _ => set (w' := W') end.
  assert (E1 : ob w' o = with_alloc true (with_cap (cap (ob w other)) (with_sz (sz (ob w other))
                      (with_ptr (ptr (ob w other)) (ob w o))))).
  { unfold w'. rewrite ob_set_same. rewrite ob_set_other by congruence. reflexivity. }
  assert (E2 : ob w' other = with_cap (cap (ob w o)) (with_sz (sz (ob w o))
                      (with_ptr (ptr (ob w o)) (ob w other)))).
  { unfold w'. rewrite ob_set_other by congruence. now rewrite ob_set_same. }
  assert (E3 : forall o', o' <> o -> o' <> other -> ob w' o' = ob w o').
  { intros o' N1 N2. unfold w'. now rewrite !ob_set_other by auto. }
  assert (O1 : forall b, owns (ob w' o) b <-> owns (ob w other) b).
  { intros b. rewrite E1. unfold owns, owner_of. simpl. rewrite K1, K2. tauto. }
  assert (O2 : forall b, owns (ob w' other) b <-> owns (ob w o) b).
  { intros b. rewrite E2. unfold owns, owner_of. simpl. rewrite K1, K2. tauto. }
  split; auto.
  assert (SW : forall o' b, owns (ob w' o') b ->
      owns (ob w (if oid_eqb o' o then other else if oid_eqb o' other then o else o')) b).
  { intros o' b Ho. destruct (oid_eqb_spec o' o) as [->|N1]; [now apply O1|].
    destruct (oid_eqb_spec o' other) as [->|N2]; [now apply O2|]. now rewrite E3 in Ho. }
  split.
  + apply (ws_fresh _ W).
  + intros o'. change (hp w') with (hp w).
    destruct (oid_dec o' o) as [->|N1]; [|destruct (oid_dec o' other) as [->|N2]].
    * rewrite E1. unfold store_shape, owner_of in *. simpl. rewrite K1. rewrite K2 in S2.
      destruct (ptr (ob w other)); tauto.
    * rewrite E2. unfold store_shape, owner_of in *. simpl. rewrite K2. rewrite K1 in S1.
      destruct (ptr (ob w o)); tauto.
    * rewrite E3 by auto. apply (ws_store _ W).
  + intros o1 o2 a H1 H2. apply SW in H1. apply SW in H2.
    pose proof (ws_sep _ W _ _ _ H1 H2) as E.
    destruct (oid_eqb_spec o1 o), (oid_eqb_spec o2 o),
             (oid_eqb_spec o1 other), (oid_eqb_spec o2 other); subst; congruence.
  + apply (ws_lim _ W).
  + apply (ws_len _ W).
Qed.

Lemma moveit_done w x : world_shape w -> owning w x ->
  cap (ob w (OT x)) < 2 ^ 31 -> sz (ob w (OT x)) < 2 ^ 31 ->
  alloc (ob w (OT x)) = true ->
  exists w', moveit (OD x) (OT x) w = (Done tt, w') /\ vstep w w' x /\ hp w' = hp w /\
    ob w' (OD x) = with_alloc true (with_cap (cap (ob w (OT x))) (with_sz (sz (ob w (OT x)))
                      (with_ptr (ptr (ob w (OT x))) (ob w (OD x))))) /\
    ob w' (OT x) = with_cap (cap (ob w (OD x))) (with_sz (sz (ob w (OD x)))
                      (with_ptr (ptr (ob w (OD x))) (ob w (OT x)))) /\
    (forall o, o <> OD x -> o <> OT x -> ob w' o = ob w o).
Proof.
  intros W [K1 K2] HC HS A.
  destruct (moveit_gen w (OD x) (OT x)) as [w' [E S]]; auto; [congruence|].
  exists w'. split; [exact E|]. destruct S as [S1 S2 S3 S4 S5 S6 S7].
  split; [|auto]. split; auto.
  - now rewrite S2.
  - intros o N1 N2. split; auto. intros a _. now rewrite S2.
  - intros b cs H. rewrite S2 in H.
    destruct (owns_dec (ob w (OD x)) b) as [O|O]; [left; right; now apply S7|].
    destruct (owns_dec (ob w (OT x)) b) as [O'|O']; [left; left; now apply S6|]. auto.
  - intros. now rewrite S2.
Qed.

(* ----------------------------------------------------------- shape of e *)

Lemma edim_done pick w e : eim w e = true -> exists d, edim pick w e = Done d.
Proof.
  induction e; cbn [eim edim]; intros H; eauto.
  - destruct (is_sca e1); auto. destruct (is_sca e2); auto.
    destruct (eim w e1), (eim w e2); simpl in *; try discriminate; auto.
    destruct IHe1 as [a ->]; auto. destruct IHe2 as [b ->]; auto. simpl. eauto.
  - discriminate.
Qed.

Lemma eim_mp w w' e : (forall x, In x (vars e) -> mp (ob w' (OD x)) = mp (ob w (OD x))) ->
  eim w' e = eim w e.
Proof.
  induction e; cbn [eim vars]; intros H; auto.
  - now rewrite H by now left.
  - rewrite IHe1, IHe2; auto; intros; apply H; apply in_or_app; auto.
Qed.
Lemma edim_mp pick w w' e : (forall x, In x (vars e) -> mp (ob w' (OD x)) = mp (ob w (OD x))) ->
  edim pick w' e = edim pick w e.
Proof.
  induction e; cbn [edim vars]; intros H; auto.
  - now rewrite H by now left.
  - assert (H1 : forall x, In x (vars e1) -> mp (ob w' (OD x)) = mp (ob w (OD x))) by (intros; apply H; apply in_or_app; auto).
    assert (H2 : forall x, In x (vars e2) -> mp (ob w' (OD x)) = mp (ob w (OD x))) by (intros; apply H; apply in_or_app; auto).
    rewrite IHe1, IHe2, (eim_mp w w' e1), (eim_mp w w' e2); auto.
Qed.

(** Shape given to the target. *)
Definition shape_of (w : world) (e : expr) (old : matpar) : matpar :=
  if eim w e then
    match edim rows w e, edim cols w e with
    | Done r, Done c => mkMP true r c
    | _, _ => old
    end
  else old.

Lemma take_shape_done w o e :
  take_shape o e w = (Done tt, if eim w e then set_ob w o (with_mp (shape_of w e (mp (ob w o))) (ob w o)) else w).
Proof.
  unfold take_shape, shape_of. rewrite bind_get. destruct (eim w e) eqn:E; [|reflexivity].
  destruct (edim_done rows w e E) as [r Hr]. destruct (edim_done cols w e E) as [c Hc].
  rewrite Hr, Hc. reflexivity.
Qed.

(** Changing only the shape. *)
Lemma step1_mp w o m : world_shape w -> step1 w (set_ob w o (with_mp m (ob w o))) o.
Proof.
  intros W. apply (step1_upd w o (with_mp m)); auto.
  apply (ws_store _ W o).
Qed.
Lemma holds_mp w o m o' l : holds w o' l -> holds (set_ob w o (with_mp m (ob w o))) o' l.
Proof.
  intros [A B]. destruct (oid_dec o' o) as [->|N].
  - split.
    + rewrite ob_set_same. exact A.
    + intros i Hi. apply pair_eta; [|apply at_rd_pure].
      specialize (B i Hi). revert B.
      unfold at_rd, sexp_get_at, get_at, bind, st, ass.
      rewrite !ob_set_same. cbn [kd alloc sz ptr with_mp].
      assert (R : forall p j, fst (rd p j (set_ob w o (with_mp m (ob w o)))) = fst (rd p j w)).
      { intros p j. unfold rd. destruct p; auto. simpl. destruct (hblk (hp w) n); auto.
        destruct (_ && _); auto. destruct (nth _ _ _); auto. }
      destruct (kd (ob w o)); rewrite ?ob_set_same; cbn [kd alloc sz ptr with_mp];
        repeat match goal with |- context [if ?b then _ else _] => destruct b; simpl; try discriminate end;
        rewrite ?ob_set_same; cbn [kd alloc sz ptr with_mp];
        repeat match goal with |- context [if ?b then _ else _] => destruct b; simpl; try discriminate end;
        rewrite ?R; intros ->; reflexivity.
  - eapply holds_same; [|split; eauto].
    split; [now apply ob_set_other|auto].
Qed.
