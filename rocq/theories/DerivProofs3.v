(** Derivative mode: assignments and programs. *)
From Coq Require Import ZArith List String Bool Lia Arith.
From Verif Require Import Base Num StoreModel VecModel Spec CapProofs StoreProofs StoreOps SpecExpr
  VecProofs VecAssign StoreThms FloatBridge DerivModel SpecDeriv DerivProofs DerivProofs2 DerivPrime.
Import ListNotations.
Open Scope Z_scope.
Local Notation length := List.length (only parsing).

Local Opaque vslot dslot kslot.

Lemma seq2 {A} (m1 m2 : M dworld unit) (f : unit -> M dworld A) d d' :
  (_ <- m1 ;; m2) d = (Done tt, d') -> (_ <- m1 ;; u <- m2 ;; f u) d = f tt d'.
Proof. intros E. rewrite <- dbind_assoc. now rewrite (bind_done _ _ _ _ _ E). Qed.

Lemma inw_pure {A} (m : M world A) d a : m (dw d) = (Done a, dw d) -> inw m d = (Done a, d).
Proof. intros E. unfold inw. rewrite E. now destruct d. Qed.

Lemma part_same o us k d d1 o' : part o us k d d1 -> o' <> o -> same_obj (dw d) (dw d1) o'.
Proof. intros P N. apply (s1_other _ _ _ (pt_step _ _ _ _ _ P)). exact N. Qed.

Definition e_slot (e : dexpr) (o : oid) : Prop :=
  (exists x, In x (dvars e) /\ o = OD (vslot x)) \/ con_slot e o.

Lemma reads_same w w' env e : reads w env e -> (forall o, e_slot e o -> same_obj w w' o) -> reads w' env e.
Proof.
  intros [A B] S. split.
  - intros x Hx. destruct (A x Hx) as [Ne H]. split; auto. eapply holds_same; [|exact H].
    apply S. left. eauto.
  - intros k l Hk. destruct (B k l Hk) as [Ne H]. split; auto. eapply holds_same; [|exact H].
    apply S. right. exists k, l. auto.
Qed.

Lemma e_slot_d e o x : e_slot e o -> o <> OD (dslot x).
Proof.
  intros [[y [_ ->]]|[k [l [_ ->]]]] E; apply od_inj in E.
  - now apply slots_vd in E.
  - symmetry in E. now apply slots_dk in E.
Qed.
Lemma e_slot_t e o x : e_slot e o -> o <> OT x.
Proof. intros [[y [_ ->]]|[k [l [_ ->]]]]; discriminate. Qed.

Lemma any_resize_d d o n : good o (ob (dw d) o) -> ~ inp o -> inw (any_resize o n) d = inw (resize o n) d.
Proof. intros [_ [_ G]] NI. destruct (G NI) as [K _]. unfold inw, any_resize. rewrite bind_st, K. reflexivity. Qed.

Lemma buffer_var x : knd x = KBuffer -> DV KBuffer (num x) = x.
Proof. destruct x. cbn. now intros ->. Qed.

Lemma buf_wr_d c x i f d : sane d -> knd x = KBuffer -> (num x < nbuf c)%nat ->
  buf_wr c (num x) i (VD f) d = inw (set_at (OD (vslot x)) i (VD f)) d.
Proof.
  intros [W G] Kx Hx. unfold buf_wr. apply Nat.ltb_lt in Hx. rewrite Hx, (buffer_var x Kx).
  destruct (G (OD (vslot x))) as [T [_ Ow]]. destruct (Ow (inp_v x Kx)) as [K _].
  rewrite (bind_done _ _ d (ob (dw d) (OD (vslot x))) d) by (now apply inw_pure).
  rewrite T. cbn [cast v2f]. rewrite dbind_lift. unfold inw, at_wr. rewrite bind_st, K. reflexivity.
Qed.

Lemma der_wr_d x i f d : der_wr x i (VD f) d = inw (set_at (OD (dslot x)) i (VD f)) d.
Proof. reflexivity. Qed.

Lemma get_at_holds w o l i : world_shape w -> holds w o l -> (i < length l)%nat ->
  get_at o (Z.of_nat i) w = (Done (nth i l (VB false)), w).
Proof.
  intros W H Hi. pose proof (proj1 H). apply get_at_cells; auto; [lia|].
  rewrite Nat2Z.id. now apply holds_in.
Qed.

(** Variable y has the elements and the derivatives of the environment; the
    derivatives of an input may still have to be made. *)
Definition var_ok (c : avconf) (env : senv) (d : dworld) (y : dvar) : Prop :=
  vals env y <> [] /\ length (ders env y) = length (vals env y) /\
  holds (dw d) (OD (vslot y)) (map VD (vals env y)) /\ (has env d y \/ fresh c env d y).
Definition one_input (c : avconf) (env : senv) : Prop :=
  forall y z, env y <> None -> env z <> None -> knd y <> KBuffer -> knd z <> KBuffer ->
    indep c = Z.of_nat (num y) -> num z = num y -> y = z.
(** The state shows an environment... *)
Definition rep (c : avconf) (d : dworld) (env : senv) : Prop :=
  sane d /\ one_input c env /\ forall y, env y <> None -> var_ok c env d y.
(** ... except for one variable. *)
Definition keeps (c : avconf) (env : senv) (x : dvar) (d : dworld) : Prop :=
  sane d /\ forall y, y <> x -> env y <> None -> var_ok c env d y.

Lemma rep_keeps c d env x : rep c d env -> keeps c env x d.
Proof. intros [S [_ R]]. split; auto. Qed.

Lemma fresh_chg P c env d d' y : chg P d d' -> ~ P (OD (dslot y)) -> ~ P (OD (vslot y)) ->
  fresh c env d y -> fresh c env d' y.
Proof.
  intros C N1 N2 [F1 [F2 [F3 [F4 [F5 [F6 F7]]]]]]. unfold fresh.
  rewrite (chg_ob _ _ _ _ C N1), (chg_ob _ _ _ _ C N2), (ch_lim _ _ _ C), (ch_init _ _ _ C). auto 10.
Qed.
Lemma var_chg P c env d d' y : chg P d d' -> ~ P (OD (dslot y)) -> ~ P (OD (vslot y)) ->
  var_ok c env d y -> var_ok c env d' y.
Proof.
  intros C N1 N2 [V1 [V2 [V3 V4]]]. split; [exact V1|]. split; [exact V2|].
  split; [now apply (chg_holds _ _ _ _ _ C)|].
  destruct V4 as [V4|V4]; [left; now apply (chg_holds _ _ _ _ _ C)|right; now apply (fresh_chg P c env d)].
Qed.

(** Change of the objects of one variable (value, derivative, scratch). *)
Definition of_var (x : dvar) (o : oid) : Prop :=
  o = OD (vslot x) \/ o = OD (dslot x) \/ o = OT (vslot x).
Lemma of_var_v x y : y <> x -> ~ of_var x (OD (vslot y)).
Proof.
  intros N [X|[X|X]]; try discriminate; apply od_inj in X; [now apply slots_v in X|now apply slots_vd in X].
Qed.
Lemma of_var_d x y : y <> x -> ~ of_var x (OD (dslot y)).
Proof.
  intros N [X|[X|X]]; try discriminate; apply od_inj in X;
    [symmetry in X; now apply slots_vd in X|now apply slots_d in X].
Qed.

Lemma keeps_chg c env x d d' : chg (of_var x) d d' -> keeps c env x d -> keeps c env x d'.
Proof.
  intros C [_ K]. split; [apply C|]. intros y Ny Hy.
  apply (var_chg (of_var x) c env d); auto; [now apply of_var_d|now apply of_var_v].
Qed.
Lemma keeps_to c env n V x d d' : to c env n V d d' -> (forall y, y <> x -> env y <> None -> V y) ->
  keeps c env x d -> keeps c env x d'.
Proof.
  intros [M [S [_ T]]] HV [_ K]. split; [apply S|]. intros y Ny Hy.
  destruct (K y Ny Hy) as [V1 [V2 [V3 V4]]]. split; [exact V1|]. split; [exact V2|]. split.
  - apply (holds_same (dw d)); [now apply mild_v|exact V3].
  - apply T; auto.
Qed.

Definition upd_env (env : senv) (x : dvar) (r : list flt * list flt) : senv :=
  fun y => if dvar_dec y x then Some r else env y.
Lemma keeps_set c env x d vs ds : keeps c env x d -> one_input c env -> knd x = KBuffer ->
  vs <> [] -> length ds = length vs ->
  holds (dw d) (OD (vslot x)) (map VD vs) -> holds (dw d) (OD (dslot x)) (map VD ds) ->
  rep c d (upd_env env x (vs, ds)).
Proof.
  intros [S K] O Kx Ne L H1 H2. split; [exact S|]. split.
  - intros y z Hy Hz Ky Kz I E. unfold upd_env in Hy, Hz.
    destruct (dvar_dec y x) as [->|]; [congruence|]. destruct (dvar_dec z x) as [->|]; [congruence|].
    now apply O.
  - intros y Hy. unfold upd_env in Hy. destruct (dvar_dec y x) as [->|N].
    + unfold var_ok, has, vals, ders, upd_env. destruct (dvar_dec x x); [|congruence]. auto.
    + specialize (K y N Hy). unfold var_ok, has, fresh, vals, ders, upd_env in *.
      destruct (dvar_dec y x); [congruence|]. exact K.
Qed.

Lemma rep_cons c d d' env e : rep c d env -> chg (con_slot e) d d' -> rep c d' env.
Proof.
  intros [S [O R]] C. split; [apply C|]. split; [exact O|]. intros y Hy.
  apply (var_chg (con_slot e) c env d); auto; intros [k [l [_ X]]]; apply od_inj in X.
  - now apply slots_dk in X.
  - now apply slots_vk in X.
Qed.

(** All derivatives are there. *)
Lemma has_made w env y i : world_shape w -> vals env y <> [] -> length (ders env y) = length (vals env y) ->
  holds w (OD (vslot y)) (map VD (vals env y)) -> holds w (OD (dslot y)) (map VD (ders env y)) ->
  reads_der w env i y.
Proof.
  intros W Ne L Hv Hd. assert (Pos : (0 < length (vals env y))%nat) by (destruct (vals env y); [congruence|simpl; lia]).
  assert (ML : (i mod length (vals env y) < length (vals env y))%nat) by (apply Nat.mod_upper_bound; lia).
  unfold reads_der. split; [exact L|]. split; [exact Pos|].
  split; [rewrite (proj1 Hd), map_length; lia|]. split; [rewrite (proj1 Hv), map_length; reflexivity|].
  rewrite (holds_in _ _ _ _ W Hd) by (rewrite map_length; lia).
  rewrite nth_vd by lia. unfold lane. rewrite L. reflexivity.
Qed.
Lemma var_made c env d y n : sane d -> var_ok c env d y -> made env n d y \/ fresh c env d y.
Proof.
  intros [W _] [V1 [V2 [V3 [V4|V4]]]]; [left|now right]. intros i _. now apply has_made.
Qed.

Lemma map_seq_nth (f : nat -> flt) n k : (k < n)%nat ->
  nth k (map VD (map f (seq 0 n))) (VB false) = VD (f k).
Proof.
  intros H. rewrite nth_vd by now rewrite map_length, seq_length.
  rewrite (nth_indep _ _ (f 0%nat)) by now rewrite map_length, seq_length.
  rewrite map_nth, seq_nth by exact H. reflexivity.
Qed.

(** v = expression *)
Lemma dassign_exp_done lm c d env x e :
  rep c d env -> knd x = KBuffer -> (num x < nbuf c)%nat -> plainx e -> reads (dw d) env e ->
  (forall y, In y (dvars e) -> env y <> None) ->
  (1 <= dlen env e)%nat -> aligned env (dlen env e) e ->
  (In x (dvars e) -> length (vals env x) = dlen env e) ->
  2 * Z.of_nat (dlen env e) <= hlim (hp (dw d)) ->
  exists d', dassign_exp lm c x e d = (Done tt, d') /\ keeps c env x d' /\
    hlim (hp (dw d')) = hlim (hp (dw d)) /\
    holds (dw d') (OD (vslot x)) (map VD (map (fun i => lval lm i env e) (seq 0 (dlen env e)))) /\
    holds (dw d') (OD (dslot x)) (map VD (map (fun i => lder lm i env e) (seq 0 (dlen env e)))).
Proof.
  intros R Kx Hx P Rd As Hn Al Own HL. pose proof R as [S [One RV]].
  set (n := dlen env e) in *.
  set (us := map VD (map (fun i => lval lm i env e) (seq 0 n))).
  set (us' := map VD (map (fun i => lder lm i env e) (seq 0 n))).
  assert (Lu : length us = n) by (unfold us; now rewrite !map_length, seq_length).
  assert (Lu' : length us' = n) by (unfold us'; now rewrite !map_length, seq_length).
  assert (Nu : us <> []) by (intros X; rewrite X in Lu; simpl in Lu; lia).
  assert (Nu' : us' <> []) by (intros X; rewrite X in Lu'; simpl in Lu'; lia).
  unfold dassign_exp. rewrite dbind_get.
  destruct (esize_dlen _ _ _ P Rd) as [-> _]. fold n.
  (* the scratch buffer *)
  destruct (write_all d (OT (vslot x)) us
    (fun i => v <- inw (elem lm (to_expr e) i) ;; v' <- lift (cast TDouble v) ;;
              inw (set_at (OT (vslot x)) i v'))) as [d1 [E1 [C1 H1]]]; auto.
  { rewrite Lu. exact HL. }
  { intros d0 _ C0 k d2 Hk Pt. rewrite Lu in Hk.
    assert (Rd2 : reads (dw d2) env e).
    { apply (reads_same (dw d)); auto. intros o Ho. eapply same_obj_trans.
      - apply (ch_same _ _ _ C0). intros <-. exact (e_slot_t e _ (vslot x) Ho eq_refl).
      - apply (part_same _ _ _ _ _ _ Pt). now apply (e_slot_t e). }
    pose proof (elem_done lm (dw d2) env n e (Z.to_nat k) Hn P Rd2 Al) as El. fold n in El.
    rewrite Nat.mod_small in El by lia. rewrite Z2Nat.id in El by lia.
    rewrite (bind_done _ _ _ _ _ (inw_pure _ _ _ El)). rewrite dv_cast, dbind_lift.
    unfold us. rewrite map_seq_nth by lia. reflexivity. }
  rewrite Lu in E1. rewrite (seq2 _ _ _ _ _ E1).
  (* derivatives *)
  assert (HL1 : 2 * Z.of_nat n <= hlim (hp (dw d1))) by (now rewrite (ch_lim _ _ _ C1)).
  destruct (resize_d d1 (OD (dslot x)) (Z.of_nat n) (ch_sane _ _ _ C1) (inp_d x)) as [d2 [E2 [C2 [Z2 [P2 [Keep _]]]]]]; [lia|exact HL1|].
  rewrite (bind_done _ _ _ _ _ E2). rewrite dbind_get.
  assert (Rd2 : reads (dw d2) env e).
  { apply (reads_same (dw d)); auto. intros o Ho. eapply same_obj_trans.
    - apply (ch_same _ _ _ C1). intros <-. exact (e_slot_t e _ (vslot x) Ho eq_refl).
    - apply (ch_same _ _ _ C2). intros <-. exact (e_slot_d e _ x Ho eq_refl). }
  destruct (esize_dlen _ _ _ P Rd2) as [_ ->]. fold n.
  (* reading the derivatives of inputs for the first time *)
  assert (Kp2 : keeps c env x d2).
  { apply (keeps_chg _ _ _ d1); [eapply chg_weak; [|exact C2]; intros o <-; unfold of_var; auto|].
    apply (keeps_chg _ _ _ d); [eapply chg_weak; [|exact C1]; intros o <-; unfold of_var; auto|].
    now apply rep_keeps. }
  assert (HasX : In x (dvars e) -> has env d x).
  { intros Hy. destruct (RV x (As x Hy)) as [_ [_ [_ [V4|V4]]]]; [exact V4|].
    destruct V4 as [V4 _]. congruence. }
  assert (MX : forall d4 k, part (OD (dslot x)) us' (Z.of_nat k) d2 d4 -> (k < n)%nat -> In x (dvars e) ->
    forall j, (k <= j < n)%nat -> reads_der (dw d4) env j x).
  { intros d4 k Pt Hk Hy j Hj. specialize (Own Hy). destruct (RV x (As x Hy)) as [V1 [V2 [V3 _]]].
    assert (K1 : holds (dw d1) (OD (dslot x)) (map VD (ders env x))).
    { apply (chg_holds _ _ _ _ _ C1); [discriminate|now apply HasX]. }
    assert (SZ1 : sz (ob (dw d1) (OD (dslot x))) = Z.of_nat n).
    { rewrite (proj1 K1), map_length. lia. }
    unfold reads_der. rewrite V2, Own. split; [reflexivity|]. split; [lia|].
    rewrite (pt_ob _ _ _ _ _ Pt). split; [exact Z2|]. split.
    { rewrite (chg_ob _ _ _ _ C2), (chg_ob _ _ _ _ C1).
      - rewrite (proj1 V3), map_length. lia.
      - discriminate.
      - intros X. apply od_inj in X. symmetry in X. now apply slots_vd in X. }
    rewrite Nat.mod_small by lia. rewrite (pt_old _ _ _ _ _ Pt) by lia. rewrite (Keep SZ1).
    rewrite (holds_in _ _ _ _ (proj1 (ch_sane _ _ _ C1)) K1) by (rewrite map_length; lia).
    rewrite nth_vd by lia. unfold lane. rewrite V2, Own, Nat.mod_small by lia. reflexivity. }
  set (V := fun y => env y <> None /\ (y = x -> In x (dvars e))).
  assert (St2 : St c env n V d2).
  { split; [apply C2|]. intros y [Hy Hyx]. destruct (dvar_dec y x) as [->|Ny].
    - left. intros i Hi. apply (MX d2 O); auto; [|lia].
      split; auto; [apply step1_refl; apply C2|intros; lia].
    - apply var_made; [apply C2|]. now apply Kp2. }
  destruct (dder_to lm c env n V) with (e := e) (d := d2) as [dp [Ep [Tp Mp]]]; auto.
  { intros y z [Hy _] [Hz _]. now apply One. }
  { intros y Hy. split; auto. now intros ->. }
  pose proof (keeps_to _ _ _ _ x _ _ Tp (fun y Ny Hy => conj Hy (fun E => False_ind _ (Ny E))) Kp2) as Kpp.
  destruct Tp as [Ml [Stp [Mono _]]].
  assert (Rdp : reads (dw dp) env e) by (now apply (mild_reads d2)).
  assert (Sxp : same_obj (dw d2) (dw dp) (OD (dslot x))).
  { apply (ml_same _ _ Ml). intros y Ky X. apply od_inj in X. apply slots_d in X. congruence. }
  destruct (dloop dp (OD (dslot x)) us' (fun i => v <- dder lm c e i ;; der_wr x i v))
    as [d3 [E3 [C3 [O3 H3]]]]; auto.
  { apply Ml. }
  { rewrite (proj1 Sxp). now rewrite Lu'. }
  { intros k d4 Hk Pt. rewrite Lu' in Hk.
    assert (Rd4 : reads (dw d4) env e).
    { apply (reads_same (dw dp)); auto. intros o Ho. apply (part_same _ _ _ _ _ _ Pt).
      now apply (e_slot_d e). }
    pose proof (part_sane _ _ _ _ _ (ml_sane _ _ Ml) Pt) as [W4 G4].
    assert (D4 : forall y, In y (dlv e) -> reads_der (dw d4) env (Z.to_nat k) y).
    { intros y Hy. destruct (dvar_dec y x) as [->|Ny].
      - pose proof (Mp x Hy (Z.to_nat k) ltac:(lia)) as [A1 [A2 [A3 [A4 A5]]]].
        unfold reads_der. rewrite (pt_ob _ _ _ _ _ Pt). split; [exact A1|]. split; [exact A2|].
        split; [exact A3|]. split; [exact A4|]. specialize (Own (dlv_vars _ _ Hy)).
        rewrite Own in A5 |- *. rewrite Nat.mod_small in A5 |- * by lia.
        rewrite (pt_old _ _ _ _ _ Pt) by lia. exact A5.
      - apply (reads_der_same (dw dp)).
        + apply (part_same _ _ _ _ _ _ Pt). intros X. apply od_inj in X. now apply slots_d in X.
        + apply (part_same _ _ _ _ _ _ Pt). intros X. apply od_inj in X. now apply slots_vd in X.
        + apply (Mp y Hy). lia. }
    pose proof (dder_done lm c env e (Z.to_nat k) d4 W4 P Rd4 D4) as Ed.
    rewrite Z2Nat.id in Ed by lia. rewrite (bind_done _ _ _ _ _ Ed), der_wr_d.
    unfold us'. rewrite map_seq_nth by lia. reflexivity. }
  rewrite Lu' in E3.
  assert (E3' : dfor (Z.of_nat n) (fun i => v <- dder lm c e i ;; der_wr x i v) d2 = (Done tt, d3)).
  { rewrite <- E3. apply dfor_first; [lia|].
    pose proof (Ep O ltac:(lia)) as Q. cbn [Z.of_nat] in Q. rewrite (bind_done _ _ _ _ _ Q).
    pose proof (dder_done lm c env e O dp (proj1 (ml_sane _ _ Ml)) P Rdp (fun y Hy => Mp y Hy O ltac:(lia))) as Q'.
    cbn [Z.of_nat] in Q'. rewrite (bind_done _ _ _ _ _ Q'). reflexivity. }
  rewrite (bind_done _ _ _ _ _ E3').
  (* the value *)
  assert (H3t : holds (dw d3) (OT (vslot x)) us).
  { apply (chg_holds _ _ _ _ _ C3); [discriminate|]. apply (holds_same (dw d2)); [now apply mild_t|].
    apply (chg_holds _ _ _ _ _ C2); [discriminate|exact H1]. }
  assert (L3 : hlim (hp (dw d3)) = hlim (hp (dw d))).
  { now rewrite (ch_lim _ _ _ C3), (ml_lim _ _ Ml), (ch_lim _ _ _ C2), (ch_lim _ _ _ C1). }
  destruct (write_all d3 (OD (vslot x)) us
    (fun i => v <- inw (get_at (OT (vslot x)) i) ;; buf_wr c (num x) i v)) as [d5 [E5 [C5 H5]]]; auto.
  { apply C3. }
  { now rewrite Lu, L3. }
  { intros d0 _ C0 k d6 Hk Pt. rewrite Lu in Hk.
    pose proof (part_sane _ _ _ _ _ (ch_sane _ _ _ C0) Pt) as S6.
    assert (H6 : holds (dw d6) (OT (vslot x)) us).
    { eapply holds_same; [apply (part_same _ _ _ _ _ _ Pt); discriminate|].
      apply (chg_holds _ _ _ _ _ C0); [discriminate|exact H3t]. }
    pose proof (get_at_holds _ _ _ (Z.to_nat k) (proj1 S6) H6) as G6.
    rewrite Z2Nat.id in G6 by lia. specialize (G6 ltac:(lia)).
    rewrite (bind_done _ _ _ _ _ (inw_pure _ _ _ G6)).
    unfold us. rewrite map_seq_nth by lia. now apply buf_wr_d. }
  rewrite Lu in E5. rewrite <- (dbind_assoc (inw (any_resize (OD (vslot x)) (Z.of_nat n)))).
  assert (E5' : (_ <- inw (any_resize (OD (vslot x)) (Z.of_nat n)) ;;
    dfor (Z.of_nat n) (fun i => v <- inw (get_at (OT (vslot x)) i) ;; buf_wr c (num x) i v)) d3 = (Done tt, d5)).
  { rewrite <- E5. unfold bind at 1 3. rewrite any_resize_d by (auto; apply C3). reflexivity. }
  rewrite (bind_done _ _ _ _ _ E5').
  (* the shape *)
  exists d5. split.
  - unfold dshape, inw. rewrite take_shape_done, eim_good by (apply C5). now destruct d5.
  - split; [|split; [|split]].
    + apply (keeps_chg _ _ _ d3); [eapply chg_weak; [|exact C5]; intros o <-; unfold of_var; auto|].
      apply (keeps_chg _ _ _ dp); [eapply chg_weak; [|exact C3]; intros o <-; unfold of_var; auto|exact Kpp].
    + now rewrite (ch_lim _ _ _ C5).
    + exact H5.
    + apply (chg_holds _ _ _ _ _ C5); [|exact H3].
      intros X. apply od_inj in X. now apply slots_vd in X.
Qed.

(** v = constant *)
Lemma nth_repeat_vd f n k : (k < n)%nat -> nth k (map VD (repeat f n)) (VB false) = VD f.
Proof.
  intros H. rewrite nth_vd by now rewrite repeat_length. f_equal. apply (repeat_spec n f).
  apply nth_In. now rewrite repeat_length.
Qed.

Lemma dassign_con_done c d env x k l :
  rep c d env -> knd x = KBuffer -> (num x < nbuf c)%nat -> l <> [] -> holds (dw d) (OD (kslot k)) (map VD l) ->
  2 * Z.of_nat (length l) <= hlim (hp (dw d)) ->
  exists d', dassign_con c x k d = (Done tt, d') /\ keeps c env x d' /\
    hlim (hp (dw d')) = hlim (hp (dw d)) /\
    holds (dw d') (OD (vslot x)) (map VD l) /\
    holds (dw d') (OD (dslot x)) (map VD (repeat (seed c x) (length l))).
Proof.
  intros R Kx Hx Ne Hk HL. pose proof R as [S _]. unfold dassign_con. rewrite dbind_get.
  pose proof (proj1 Hk) as Sz. rewrite map_length in Sz. rewrite Sz.
  assert (KV : OD (vslot x) <> OD (kslot k)) by (intros X; apply od_inj in X; now apply slots_vk in X).
  assert (KD : OD (dslot x) <> OD (kslot k)) by (intros X; apply od_inj in X; now apply slots_dk in X).
  assert (DV' : OD (dslot x) <> OD (vslot x)) by (intros X; apply od_inj in X; symmetry in X; now apply slots_vd in X).
  destruct (write_all d (OD (vslot x)) (map VD l)
    (fun i => v <- inw (at_rd (OD (kslot k)) i) ;; buf_wr c (num x) i v)) as [d1 [E1 [C1 H1]]]; auto.
  { now destruct l. }
  { now rewrite map_length. }
  { intros d0 _ C0 i d2 Hi Pt. rewrite map_length in Hi.
    pose proof (part_sane _ _ _ _ _ (ch_sane _ _ _ C0) Pt) as S2.
    assert (H2 : holds (dw d2) (OD (kslot k)) (map VD l)).
    { eapply holds_same; [apply (part_same _ _ _ _ _ _ Pt); auto|].
      apply (chg_holds _ _ _ _ _ C0); auto. }
    destruct H2 as [_ H2]. specialize (H2 (Z.to_nat i)). rewrite map_length, Z2Nat.id in H2 by lia.
    rewrite (bind_done _ _ _ _ _ (inw_pure _ _ _ (H2 ltac:(lia)))).
    rewrite nth_vd by lia. now apply buf_wr_d. }
  rewrite map_length in E1.
  assert (E1' : (_ <- inw (any_resize (OD (vslot x)) (Z.of_nat (length l))) ;;
    dfor (Z.of_nat (length l)) (fun i => v <- inw (at_rd (OD (kslot k)) i) ;; buf_wr c (num x) i v)) d = (Done tt, d1)).
  { rewrite <- E1. unfold bind at 1 3. rewrite any_resize_d by (auto; apply S). reflexivity. }
  rewrite (seq2 _ _ _ _ _ E1').
  destruct (write_all d1 (OD (dslot x)) (map VD (repeat (seed c x) (length l)))
    (fun i => der_wr x i (VD (if indep c =? Z.of_nat (num x) then fone else fzero)))) as [d3 [E3 [C3 H3]]]; auto.
  { apply C1. }
  { destruct l; [congruence|discriminate]. }
  { rewrite map_length, repeat_length, (ch_lim _ _ _ C1). exact HL. }
  { intros d0 _ C0 i d2 Hi Pt. rewrite map_length, repeat_length in Hi.
    rewrite nth_repeat_vd by lia. reflexivity. }
  rewrite map_length, repeat_length in E3. rewrite (seq2 _ _ _ _ _ E3). rewrite dbind_get.
  destruct (proj2 (ch_sane _ _ _ C3) (OD (kslot k))) as [_ [-> _]].
  exists d3. split; [reflexivity|]. split; [|split; [|split]].
  - apply (keeps_chg _ _ _ d1); [eapply chg_weak; [|exact C3]; intros o <-; unfold of_var; auto|].
    apply (keeps_chg _ _ _ d); [eapply chg_weak; [|exact C1]; intros o <-; unfold of_var; auto|].
    now apply rep_keeps.
  - now rewrite (ch_lim _ _ _ C3), (ch_lim _ _ _ C1).
  - apply (chg_holds _ _ _ _ _ C3); auto.
  - exact H3.
Qed.

(** v = another variable *)
Lemma dassign_var_done c d env x y :
  rep c d env -> knd x = KBuffer -> (num x < nbuf c)%nat -> y <> x -> env y <> None ->
  2 * Z.of_nat (length (vals env y)) <= hlim (hp (dw d)) ->
  exists d', dassign_var c x y d = (Done tt, d') /\ keeps c env x d' /\
    hlim (hp (dw d')) = hlim (hp (dw d)) /\
    holds (dw d') (OD (vslot x)) (map VD (vals env y)) /\
    holds (dw d') (OD (dslot x)) (map VD (ders env y)).
Proof.
  intros R Kx Hx Nxy As HL. pose proof R as [S [One RV]].
  destruct (RV y As) as [V1 [V2 [V3 V4]]].
  unfold dassign_var. rewrite dbind_get.
  pose proof (proj1 V3) as Sz. rewrite map_length in Sz. rewrite Sz.
  set (n := length (vals env y)) in *.
  assert (Pos : (0 < n)%nat) by (unfold n; destruct (vals env y); [congruence|simpl; lia]).
  assert (XV : OD (vslot x) <> OD (vslot y)) by (intros X; apply od_inj in X; apply slots_v in X; congruence).
  assert (XD : OD (dslot x) <> OD (dslot y)) by (intros X; apply od_inj in X; apply slots_d in X; congruence).
  assert (DV' : forall a b, OD (dslot a) <> OD (vslot b)) by (intros a b X; apply od_inj in X; symmetry in X; now apply slots_vd in X).
  destruct (resize_d d (OD (vslot x)) (Z.of_nat n) S (inp_v x Kx)) as [d1 [E1 [C1 [Z1 [P1 _]]]]]; [lia|exact HL|].
  rewrite <- (any_resize_d d) in E1 by (auto; apply S).
  rewrite (bind_done _ _ _ _ _ E1), dbind_get, Z1.
  destruct (dloop d1 (OD (vslot x)) (map VD (vals env y))
    (fun i => v <- leaf_val (vslot y) i ;; inw (at_wr (OD (vslot x)) i v))) as [d2 [E2 [C2 [O2 H2]]]]; auto.
  { apply C1. }
  { now rewrite map_length. }
  { unfold n in Pos. destruct (vals env y); [simpl in Pos; lia|discriminate]. }
  { intros k d0 Hk Pt. rewrite map_length in Hk. fold n in Hk.
    pose proof (part_sane _ _ _ _ _ (ch_sane _ _ _ C1) Pt) as [W0 G0].
    assert (H0 : holds (dw d0) (OD (vslot y)) (map VD (vals env y))).
    { eapply holds_same; [apply (part_same _ _ _ _ _ _ Pt); auto|].
      apply (chg_holds _ _ _ _ _ C1); auto. }
    pose proof (leaf_val_done d0 _ _ (Z.to_nat k) H0 V1) as E0. rewrite Z2Nat.id in E0 by lia.
    rewrite (bind_done _ _ _ _ _ E0). rewrite nth_vd by (fold n; lia).
    unfold lane. fold n. rewrite Nat.mod_small by lia.
    destruct (G0 (OD (vslot x))) as [_ [_ Ow]]. destruct (Ow (inp_v x Kx)) as [K _].
    unfold inw, at_wr. rewrite bind_st, K. reflexivity. }
  rewrite map_length in E2. fold n in E2. rewrite (bind_done _ _ _ _ _ E2).
  assert (Ld : length (map VD (ders env y)) = n) by (now rewrite map_length).
  assert (L2 : hlim (hp (dw d2)) = hlim (hp (dw d))) by now rewrite (ch_lim _ _ _ C2), (ch_lim _ _ _ C1).
  destruct (resize_d d2 (OD (dslot x)) (Z.of_nat n) (ch_sane _ _ _ C2) (inp_d x)) as [d3 [E3 [C3 [Z3 [P3 _]]]]];
    [lia|now rewrite L2|].
  rewrite (bind_done _ _ _ _ _ E3).
  assert (Kp3 : keeps c env x d3).
  { apply (keeps_chg _ _ _ d2); [eapply chg_weak; [|exact C3]; intros o <-; unfold of_var; auto|].
    apply (keeps_chg _ _ _ d1); [eapply chg_weak; [|exact C2]; intros o <-; unfold of_var; auto|].
    apply (keeps_chg _ _ _ d); [eapply chg_weak; [|exact C1]; intros o <-; unfold of_var; auto|].
    now apply rep_keeps. }
  set (V := fun z => env z <> None /\ z <> x).
  assert (St3 : St c env n V d3).
  { split; [apply C3|]. intros z [Hz Nz]. apply var_made; [apply C3|]. now apply Kp3. }
  destruct (leaf_to c env n V) with (d := d3) (y := y) as [dp [Ep [Tp Mp]]]; auto.
  { intros a b [Ha _] [Hb _]. now apply One. }
  { now split. }
  pose proof (keeps_to _ _ _ _ x _ _ Tp (fun z Nz Hz => conj Hz Nz) Kp3) as Kpp.
  destruct Tp as [Ml _].
  assert (Sxp : same_obj (dw d3) (dw dp) (OD (dslot x))).
  { apply (ml_same _ _ Ml). intros z Kz X. apply od_inj in X. apply slots_d in X. congruence. }
  destruct (dloop dp (OD (dslot x)) (map VD (ders env y))
    (fun i => v <- leaf_der c y i ;; der_wr x i v)) as [d4 [E4 [C4 [O4 H4]]]]; auto.
  { apply Ml. }
  { rewrite (proj1 Sxp), Ld. exact Z3. }
  { intros X. rewrite X in Ld. simpl in Ld. lia. }
  { intros k d0 Hk Pt. rewrite Ld in Hk.
    pose proof (part_sane _ _ _ _ _ (ml_sane _ _ Ml) Pt) as [W0 G0].
    assert (RD : reads_der (dw d0) env (Z.to_nat k) y).
    { apply (reads_der_same (dw dp)).
      - apply (part_same _ _ _ _ _ _ Pt). auto.
      - apply (part_same _ _ _ _ _ _ Pt). intros X. symmetry in X. now apply DV' in X.
      - apply Mp. lia. }
    pose proof (leaf_der_done c env d0 (Z.to_nat k) y W0 RD) as E0. rewrite Z2Nat.id in E0 by lia.
    rewrite (bind_done _ _ _ _ _ E0), der_wr_d. rewrite nth_vd by lia.
    unfold lane. rewrite V2. fold n. now rewrite Nat.mod_small by lia. }
  rewrite Ld in E4.
  assert (E4' : dfor (Z.of_nat n) (fun i => v <- leaf_der c y i ;; der_wr x i v) d3 = (Done tt, d4)).
  { rewrite <- E4. apply dfor_first; [lia|].
    pose proof (Ep O ltac:(lia)) as Q. cbn [Z.of_nat] in Q. rewrite (bind_done _ _ _ _ _ Q).
    pose proof (leaf_der_done c env dp O y (proj1 (ml_sane _ _ Ml)) (Mp O ltac:(lia))) as Q'.
    cbn [Z.of_nat] in Q'. rewrite (bind_done _ _ _ _ _ Q'). reflexivity. }
  rewrite (bind_done _ _ _ _ _ E4').
  exists d4. split.
  - unfold dshape, inw. rewrite take_shape_done.
    destruct (proj2 (ch_sane _ _ _ C4) (OD (vslot y))) as [_ [M _]].
    cbn [eim]. rewrite M. cbn [ismat mp_none]. now destruct d4.
  - split; [|split; [|split]].
    + apply (keeps_chg _ _ _ dp); [eapply chg_weak; [|exact C4]; intros o <-; unfold of_var; auto|exact Kpp].
    + now rewrite (ch_lim _ _ _ C4), (ml_lim _ _ Ml), (ch_lim _ _ _ C3).
    + apply (chg_holds _ _ _ _ _ C4); auto. apply (holds_same (dw d3)); [now apply mild_v|].
      apply (chg_holds _ _ _ _ _ C3); auto.
    + exact H4.
Qed.

(** A statement. *)
Lemma dexec_done lm c d env s : rep c d env -> wf_stmt c (hlim (hp (dw d))) env s ->
  exists d', dexec lm c s d = (Done tt, d') /\ rep c d' (sexec (lder lm) lm c env s) /\
    hlim (hp (dw d')) = hlim (hp (dw d)).
Proof.
  destruct s as [x e]. cbn [wf_stmt dexec]. intros R [Kx [Hx [P [As [ND [Hn [Al [Own [Self HL]]]]]]]]].
  assert (Kl : forall k l, In (k, l) (dcons e) -> l <> [] /\ 2 * Z.of_nat (length l) <= hlim (hp (dw d))).
  { intros k l Hk. destruct (proj2 Al k l Hk) as [E|E].
    - split; [now destruct l|]. rewrite E. lia.
    - split; [intros ->; simpl in E; lia|]. rewrite E. exact HL. }
  destruct (mk_cons_done e d (proj1 R) Kl ND) as [d1 [E1 [C1 H1]]].
  pose proof (rep_cons _ _ _ _ _ R C1) as R1. pose proof R1 as [_ [One RV]].
  assert (Rd : reads (dw d1) env e).
  { split.
    - intros y Hy. destruct (RV y (As y Hy)) as [V1 [_ [V3 _]]]. auto.
    - intros k l Hk. split; [now apply (Kl k)|now apply H1]. }
  assert (HL1 : 2 * Z.of_nat (dlen env e) <= hlim (hp (dw d1))) by (now rewrite (ch_lim _ _ _ C1)).
  rewrite (bind_done _ _ _ _ _ E1).
  assert (Ex : (forall z, e <> DVar z) -> (forall ct k l, e <> DCon ct k l) ->
    exists d', dassign_exp lm c x e d1 = (Done tt, d') /\
      rep c d' (fun y => if dvar_dec y x then
        Some (map (fun i => lval lm i env e) (seq 0 (dlen env e)), map (fun i => lder lm i env e) (seq 0 (dlen env e)))
        else env y) /\ hlim (hp (dw d')) = hlim (hp (dw d))).
  { intros _ _.
    destruct (dassign_exp_done lm c d1 env x e R1 Kx Hx P Rd As Hn Al Own HL1) as [d2 [E2 [K2 [L2 [A2 B2]]]]].
    exists d2. split; [exact E2|]. split.
    - apply keeps_set; auto; [|now rewrite !map_length, !seq_length].
      intros X. apply (f_equal (@List.length flt)) in X. rewrite map_length, seq_length in X. simpl in X. lia.
    - rewrite L2. apply C1. }
  destruct e; cbn [sexec]; try (apply Ex; congruence).
  - (* variable *)
    assert (Ny : x0 <> x) by (intros ->; now apply Self).
    assert (Ay : env x0 <> None) by (apply As; now left).
    destruct (dassign_var_done c d1 env x x0 R1 Kx Hx Ny Ay HL1) as [d2 [E2 [K2 [L2 [A2 B2]]]]].
    exists d2. split; [exact E2|]. split.
    + destruct (RV x0 Ay) as [V1 [V2 _]].
      pose proof (keeps_set _ _ _ _ _ _ K2 One Kx V1 V2 A2 B2) as RR. unfold upd_env in RR.
      assert (Ee : Some (vals env x0, ders env x0) = env x0).
      { unfold vals, ders. destruct (env x0) as [[? ?]|]; [reflexivity|congruence]. }
      rewrite Ee in RR. exact RR.
    + rewrite L2. apply C1.
  - (* constant *)
    destruct (Kl k l) as [Nl _]; [now left|].
    destruct (dassign_con_done c d1 env x k l R1 Kx Hx Nl) as [d2 [E2 [K2 [L2 [A2 B2]]]]]; auto.
    { apply H1. now left. }
    exists d2. split; [exact E2|]. split.
    + apply keeps_set; auto. now rewrite repeat_length.
    + rewrite L2. apply C1.
Qed.

(** A program. *)
Lemma drun_done lm c p : forall d env, rep c d env -> wf_prog (lder lm) lm c (hlim (hp (dw d))) env p ->
  exists d', drun lm c p d = (Done tt, d') /\ rep c d' (srun (lder lm) lm c env p) /\
    hlim (hp (dw d')) = hlim (hp (dw d)).
Proof.
  induction p as [|s p IH]; cbn [wf_prog drun srun]; intros d env R W.
  - exists d. auto.
  - destruct W as [W1 W2].
    destruct (dexec_done lm c d env s R W1) as [d1 [E1 [R1 L1]]].
    rewrite (bind_done _ _ _ _ _ E1).
    rewrite <- L1 in W2. destruct (IH d1 _ R1 W2) as [d2 [E2 [R2 L2]]].
    exists d2. split; [exact E2|]. split; [exact R2|]. congruence.
Qed.

(** What the user sees. *)
Lemma walk_holds w o l : world_shape w -> holds w o l -> l <> [] ->
  walk (ptr (ob w o)) 0 (length l) w = (Done l, w).
Proof.
  intros W H Ne. pose proof (proj1 H) as Sz.
  destruct (shape_ptr w o W) as [a P]. { destruct l; [congruence|]. simpl in Sz. lia. }
  destruct (ptr_live _ _ _ W P) as [cs [B _]]. rewrite P.
  assert (G : forall m i, (i + m = length l)%nat -> walk (Some a) (Z.of_nat i) m w = (Done (skipn i l), w)).
  { induction m as [|m IH]; intros i Hi; cbn [walk].
    - rewrite skipn_all2 by lia. reflexivity.
    - assert (Ri : rd (Some a) (Z.of_nat i) w = (Done (nth i l (VB false)), w)).
      { eapply rd_ok; [exact B|lia|]. rewrite Nat2Z.id.
        rewrite <- (holds_in w o l i W H) by lia. now rewrite (cells_of_ptr w o a _ cs P B). }
      rewrite (bind_done _ _ _ _ _ Ri). replace (Z.of_nat i + 1) with (Z.of_nat (S i)) by lia.
      rewrite (bind_done _ _ _ _ _ (IH (S i) ltac:(lia))). unfold ret. f_equal. f_equal.
      clear - Hi. revert i Hi. induction l as [|b l IHl]; intros i Hi; simpl in Hi; [lia|].
      destruct i; [reflexivity|]. cbn [nth skipn]. apply IHl. lia. }
  apply (G (length l) 0%nat). lia.
Qed.

Lemma get_der_list_done c env d x : world_shape (dw d) -> length (ders env x) = length (vals env x) ->
  (forall i, (i < length (vals env x))%nat -> reads_der (dw d) env i x) ->
  forall m i, (i + m = length (vals env x))%nat ->
  get_der_list c x (Z.of_nat i) m d = (Done (skipn i (map VD (ders env x))), d).
Proof.
  intros W Ln D. induction m as [|m IH]; intros i Hi; cbn [get_der_list].
  - rewrite skipn_all2; [reflexivity|]. rewrite map_length. lia.
  - rewrite (bind_done _ _ _ _ _ (leaf_der_done c env d i x W (D i ltac:(lia)))).
    replace (Z.of_nat i + 1) with (Z.of_nat (S i)) by lia.
    rewrite (bind_done _ _ _ _ _ (IH (S i) ltac:(lia))). unfold ret. f_equal. f_equal.
    unfold lane. rewrite Nat.mod_small by lia.
    assert (Hd : (i < length (ders env x))%nat) by lia. clear - Hd.
    revert i Hd. induction (ders env x) as [|b l IHl]; intros i Hd; simpl in Hd; [lia|].
    destruct i; [reflexivity|]. cbn [map skipn nth]. apply IHl. lia.
Qed.

Lemma rep_vals c d env x vs ds : rep c d env -> env x = Some (vs, ds) -> get_vals x d = (Done (map VD vs), d).
Proof.
  intros [[W G] [_ RV]] E. assert (N : env x <> None) by congruence.
  destruct (RV x N) as [Ne [_ [Hv _]]]. assert (Ev : vals env x = vs) by (unfold vals; now rewrite E).
  rewrite Ev in *. pose proof (proj1 Hv) as Sz. rewrite map_length in Sz.
  unfold get_vals. apply inw_pure. unfold iterate_vec. rewrite bind_st, Sz, Nat2Z.id.
  rewrite <- (map_length VD vs). apply walk_holds; auto. now destruct vs.
Qed.

Lemma rep_ders c d env x vs ds : rep c d env -> env x = Some (vs, ds) ->
  exists d', get_derivs c x d = (Done (map VD ds), d') /\ (knd x = KBuffer -> d' = d) /\ rep c d' env.
Proof.
  intros R E. pose proof R as [S [One RV]]. assert (N : env x <> None) by congruence.
  destruct (RV x N) as [Ne [Ln [Hv Hd]]].
  assert (Ed : ders env x = ds) by (unfold ders; now rewrite E).
  set (n := length (vals env x)) in *.
  assert (Pos : (0 < n)%nat) by (unfold n; destruct (vals env x); [congruence|simpl; lia]).
  pose proof (proj1 Hv) as Sz. rewrite map_length in Sz. fold n in Sz.
  assert (St0 : St c env n (fun y => env y <> None) d).
  { split; [exact S|]. intros y Hy. apply var_made; auto. }
  destruct (leaf_to c env n (fun y => env y <> None)) with (d := d) (y := x) as [d' [Ep [[Ml [Sd [_ T]]] Mp]]]; auto.
  exists d'. unfold get_derivs. rewrite dbind_get, Sz.
  replace (1 <=? Z.of_nat n) with true by (symmetry; apply Z.leb_le; lia).
  split; [|split].
  - unfold ass, bind at 1. cbn [ret]. rewrite Nat2Z.id. rewrite <- Ed.
    pose proof (get_der_list_done c env d' x (proj1 (ml_sane _ _ Ml)) Ln Mp n O eq_refl) as Q.
    destruct n as [|m] eqn:En; [lia|]. cbn [get_der_list Z.of_nat] in Q |- *.
    pose proof (Ep O ltac:(lia)) as Q1. cbn [Z.of_nat] in Q1. rewrite (bind_done _ _ _ _ _ Q1).
    pose proof (leaf_der_done c env d' O x (proj1 (ml_sane _ _ Ml)) (Mp O ltac:(lia))) as Q2. cbn [Z.of_nat] in Q2.
    rewrite (bind_done _ _ _ _ _ Q2) in Q. exact Q.
  - intros Kx. destruct Hd as [Hd|[F _]]; [|congruence].
    assert (M0 : made env n d x) by (intros i _; apply has_made; auto; apply S).
    pose proof (Ep O ltac:(lia)) as Q1.
    rewrite (leaf_der_done c env d O x (proj1 S) (M0 O Pos)) in Q1. congruence.
  - split; [apply Ml|]. split; [exact One|]. intros y Hy. destruct (RV y Hy) as [Y1 [Y2 [Y3 Y4]]].
    split; [exact Y1|]. split; [exact Y2|]. split; [|now apply T].
    apply (holds_same (dw d)); [now apply mild_v|exact Y3].
Qed.

Lemma rep_shows c env xs : forall d, rep c d env -> shows c env xs d.
Proof.
  induction xs as [|x xs IH]; intros d R; cbn [shows]; auto.
  destruct (env x) as [[vs ds]|] eqn:E; [|now apply IH].
  split; [now apply (rep_vals c d env x vs ds)|].
  destruct (rep_ders c d env x vs ds R E) as [d' [G [K R']]].
  exists d'. split; [exact G|]. split; [exact K|]. now apply IH.
Qed.

Lemma start_rep c ins d : started c ins d -> rep c d (env0 c ins).
Proof.
  intros [W F I Rs O].
  assert (Vs : forall y vs, ins y = Some vs -> vals (env0 c ins) y = vs /\
    ders (env0 c ins) y = repeat (seed c y) (length vs)).
  { intros y vs E. unfold vals, ders, env0. now rewrite E. }
  assert (Nn : forall y, env0 c ins y <> None -> ins y <> None).
  { intros y. unfold env0. destruct (ins y); congruence. }
  assert (Dn : forall o, (forall x, ins x <> None -> o <> OD (vslot x)) -> ob (dw d) o = store_default KBuffer TDouble).
  { exact Rs. }
  split; [split; [exact W|]|split].
  - intros o.
    destruct o as [o|o].
    2:{ rewrite Dn by discriminate. cbn. unfold good, own. cbn. repeat split; try discriminate; lia. }
    assert (Dec : (exists x, ins x <> None /\ o = vslot x) \/ (forall x, ins x <> None -> OD o <> OD (vslot x))).
    { assert (Fd : exists x, forall y, o = vslot y -> y = x).
      { pose proof (slot_var o) as Q.
        destruct Q as [[y Ey]|Q]; [exists y|exists (DV KBuffer 0)]; intros z Ez; [apply slots_v; congruence|].
        now apply Q in Ez. }
      destruct Fd as [x Hx]. destruct (ins x) as [vs|] eqn:E.
      - destruct (Nat.eq_dec o (vslot x)) as [->|No]; [left; exists x; split; [congruence|reflexivity]|].
        right. intros y Hy X. apply od_inj in X. pose proof (Hx y X). subst y. congruence.
      - right. intros y Hy X. apply od_inj in X. pose proof (Hx y X). subst y. congruence. }
    destruct Dec as [[x [Hx ->]]|Nx].
    + destruct (ins x) as [vs|] eqn:E; [|congruence].
      destruct (I x vs E) as [Kx [_ [_ [T [Mp _]]]]]. split; [exact T|]. split; [exact Mp|].
      intros NI. exfalso. apply NI. exists x. auto.
    + rewrite (Dn _ Nx). unfold good, own. cbn. repeat split; try discriminate; lia.
  - intros y z Hy Hz _ _ E1 E2. apply O; auto.
  - intros y Hy. destruct (ins y) as [vs|] eqn:E; [|now apply Nn in Hy].
    destruct (Vs y vs E) as [Ev Ed]. destruct (I y vs E) as [Kx [Ne [Hl [T [Mp Hv]]]]].
    unfold var_ok, has. rewrite Ev, Ed, repeat_length. split; [exact Ne|]. split; [reflexivity|]. split; [exact Hv|].
    right. unfold fresh. rewrite Ev, Ed. split; [exact Kx|]. split.
    + apply Dn. intros x _ X. apply od_inj in X. symmetry in X. now apply slots_vd in X.
    + pose proof (proj1 Hv) as Sz. rewrite map_length in Sz. split; [exact Sz|].
      split; [destruct vs; [congruence|simpl; lia]|]. auto.
Qed.

Lemma start_empty c lim : 0 <= lim <= 2 ^ 60 -> started c (fun _ => None) (dstart lim).
Proof.
  intros HL. split; try discriminate; auto.
  - exact (proj1 (empty_world_ok lim HL)).
  - congruence.
Qed.

(** For sums, differences, products and quotients by constants the code follows
    the rules of calculus. *)
Lemma ring_sexec lm c env s : ringp [s] -> sexec (lder lm) lm c env s = sexec (fwd lm) lm c env s.
Proof.
  destruct s as [x e]. intros [R _]. cbn [sexec].
  assert (E : map (fun i => lder lm i env e) (seq 0 (dlen env e)) = map (fun i => fwd lm i env e) (seq 0 (dlen env e)))
    by (apply map_ext; intros; now apply ring_lder).
  now rewrite E.
Qed.
Lemma ring_srun lm c p : forall env, ringp p -> srun (lder lm) lm c env p = srun (fwd lm) lm c env p.
Proof.
  induction p as [|s p IH]; intros env R; [reflexivity|]. cbn [srun].
  destruct s as [x e]. destruct R as [R1 R2]. rewrite ring_sexec by (now split). now apply IH.
Qed.
Lemma ring_wf lm c lim p : forall env, ringp p -> wf_prog (fwd lm) lm c lim env p -> wf_prog (lder lm) lm c lim env p.
Proof.
  induction p as [|s p IH]; intros env R W; [exact I|].
  destruct s as [x e]. destruct R as [R1 R2], W as [W1 W2].
  split; [exact W1|]. rewrite ring_sexec by (now split). now apply IH.
Qed.
