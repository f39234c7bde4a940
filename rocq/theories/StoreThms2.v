(** Copy construction, construction from a temporary, failing allocations and
    large sizes (C06, C52, C53, C54). *)
From Coq Require Import ZArith List String Bool Lia.
From Verif Require Import Base Num StoreModel VecModel Spec SpecExpr SpecHist CapProofs StoreProofs StoreOps VecProofs VecAssign StoreThms StoreHist.
Import ListNotations.
Open Scope Z_scope.
Arguments Z.mul : simpl never.

(* ------------------------------------------------------------------ copy *)

Lemma vec_copy_done w x y l :
  world_ok w -> owning w y -> x <> y -> unborn w (OD x) -> unborn w (OT x) ->
  sz (ob w (OD y)) <= cap (ob w (OD y)) -> sz (ob w (OT y)) <= cap (ob w (OT y)) ->
  vholds w y l ->
  exists w', vec_copy x y w = (Done tt, w') /\ vstep w w' x /\ world_ok w' /\
    vholds w' x l /\ vholds w' y l /\ owning w' x /\ mp (ob w' (OD x)) = mp_none /\
    sty (ob w' (OD x)) = sty (ob w (OD y)).
Proof.
  intros WO [K1 K2] Ne D1 D2 C1 C2 H. pose proof (world_ok_shape _ WO) as W.
  assert (HA : forall o, alloc (ob w o) = true -> cap (ob w o) = 0 \/ ptr (ob w o) <> None).
  { intros o _. pose proof (ws_store _ W o) as Sh. unfold store_shape in Sh.
    destruct (ptr (ob w o)); [right; congruence|left; lia]. }
  destruct (ctor_copy_done w (OD x) (OD y) W D1) as [w1 [E1 [S1 [Z1 [Cp1 [T1 [M1 [Kd1 H1]]]]]]]]; auto; try congruence.
  { now apply cap_le_lim. }
  specialize (H1 l H).
  assert (SOy : forall o, o <> OD x -> same_obj w w1 o) by apply (s1_other _ _ _ S1).
  assert (EOT : ob w1 (OT y) = ob w (OT y)) by (apply SOy; congruence).
  assert (EOX : ob w1 (OT x) = ob w (OT x)) by (apply SOy; congruence).
  destruct (ctor_copy_done w1 (OT x) (OT y)) as [w2 [E2 [S2 [Z2 [Cp2 [T2 [M2 [Kd2 H2]]]]]]]].
  { apply S1. }
  { intros a Ha. rewrite EOX in Ha. now apply (D2 a). }
  { congruence. }
  { congruence. }
  { rewrite EOT. exact C2. }
  { apply cap_le_lim; [apply S1|congruence]. }
  { rewrite EOT. apply HA. }
  assert (WO1 : world_ok w1).
  { eapply step1_ok; eauto. eapply inited_buffer; eauto. apply S1. }
  destruct (inited_ex w1 (OT y) WO1) as [lt Ht]. specialize (H2 lt Ht).
  exists w2. unfold vec_copy. rewrite (bind_done _ _ _ _ _ E1). split; [exact E2|].
  assert (V : vstep w w2 x).
  { eapply vstep_trans; eapply step1_vstep; [left; reflexivity|exact S1|right; reflexivity|exact S2]. }
  assert (EX : same_obj w1 w2 (OD x)) by (apply (s1_other _ _ _ S2); congruence).
  split; [exact V|]. split.
  { eapply step1_ok; eauto. eapply inited_buffer; eauto. apply S2. }
  split; [eapply holds_same; eauto|]. split.
  { eapply holds_same; [|exact H]. apply (vs_other _ _ _ V); congruence. }
  destruct EX as [EX _]. unfold owning. rewrite EX. auto.
Qed.

(* ------------------------------------------- construction from a temporary *)

(** Handing the memory of [src] over to [o]. *)
Lemma handover w w' o src : world_shape w -> o <> src -> unborn w o ->
  kd (ob w src) = KBuffer -> hp w' = hp w ->
  kd (ob w' o) = KBuffer -> ptr (ob w' o) = ptr (ob w src) -> store_shape (hp w) (ob w' o) ->
  ptr (ob w' src) = None -> sz (ob w' src) = 0 -> cap (ob w' src) = 0 ->
  (forall o', o' <> o -> o' <> src -> ob w' o' = ob w o') ->
  world_shape w' /\ (no_leak w -> no_leak w') /\
  (forall b, owns (ob w' o) b <-> owns (ob w src) b) /\ unborn w' src.
Proof.
  intros W Ne D K Hp Ko Po Sh Ps Zs Cs Ex.
  assert (Oo : forall b, owns (ob w' o) b <-> owns (ob w src) b).
  { intros b. unfold owns, owner_of. rewrite Ko, K, Po. tauto. }
  assert (Os : unborn w' src) by (intros b [P _]; congruence).
  split; [|split; [|auto]].
  - split.
    + rewrite Hp. apply (ws_fresh _ W).
    + intros o'. rewrite Hp. destruct (oid_dec o' o) as [->|N1]; [exact Sh|].
      destruct (oid_dec o' src) as [->|N2].
      * unfold store_shape. rewrite Ps, Zs, Cs. lia.
      * rewrite Ex by auto. apply (ws_store _ W).
    + assert (SW : forall o' b, owns (ob w' o') b -> o' <> src /\ owns (ob w (if oid_eqb o' o then src else o')) b).
      { intros o' b Ho. destruct (oid_dec o' src) as [->|N2]; [exfalso; now apply (Os b)|].
        split; auto. destruct (oid_eqb_spec o' o) as [->|N1]; [now apply Oo|]. now rewrite Ex in Ho. }
      intros o1 o2 a H1 H2. apply SW in H1. apply SW in H2. destruct H1 as [N1 H1], H2 as [N2 H2].
      pose proof (ws_sep _ W _ _ _ H1 H2) as E.
      destruct (oid_eqb_spec o1 o), (oid_eqb_spec o2 o); subst; congruence.
    + rewrite Hp. apply (ws_lim _ W).
    + rewrite Hp. apply (ws_len _ W).
  - intros NL a cs B. rewrite Hp in B. destruct (NL a cs B) as [o' O].
    destruct (oid_dec o' src) as [->|N2].
    + exists o. now apply Oo.
    + exists o'. assert (o' <> o) by (intros ->; now apply (D a)). rewrite Ex; auto.
Qed.

Definition mat_or_none (m : matpar) : matpar := if ismat m then mkMP true (rows m) (cols m) else mp_none.

Lemma rvec_done w s t l m : world_ok w -> unborn w (OD s) -> unborn w (OT s) ->
  l <> [] -> fits w (Z.of_nat (List.length l)) ->
  exists w', rvec s t l m w = (Done tt, w') /\ vstep w w' s /\ world_ok w' /\ vholds w' s l /\
    owning w' s /\ mp (ob w' (OD s)) = m /\ ob w' (OT s) = store_default KBuffer t /\
    alloc (ob w' (OD s)) = true /\ sty (ob w' (OD s)) = t /\
    sz (ob w' (OD s)) <= cap (ob w' (OD s)).
Proof.
  intros WO D1 D2 NE Ft.
  assert (Hn : 1 <= Z.of_nat (List.length l)) by (destruct l; [congruence|simpl; lia]).
  destruct (vec_sized_done w s t (Z.of_nat (List.length l)) WO D1 D2 Hn Ft)
    as [w1 [E1 [V1 [WO1 [H1 [M1 [[K1 K1'] [[P1 _] [T1 [C1 O1]]]]]]]]]].
  unfold rvec. rewrite (bind_done _ _ _ _ _ E1).
  rewrite Nat2Z.id in H1.
  pose proof (world_ok_shape _ WO1) as W1. pose proof (proj1 H1) as Sz. rewrite repeat_length in Sz.
  destruct (ptr (ob w1 (OD s))) as [a|] eqn:P; [clear P1|congruence].
  pose proof (shape_alloc _ _ _ W1 P) as A.
  destruct (ptr_live _ _ _ W1 P) as [cs [B [L1 L2]]].
  assert (Ow : owner_of (ob w1 (OD s)) = OwnCpp) by (unfold owner_of; now rewrite K1). rewrite Ow in B.
  destruct (for_wr_gen (fun i => Some (nth (Z.to_nat i) l (VB false)))
     (fun i => set_at (OD s) i (nth (Z.to_nat i) l (VB false))) w1 a OwnCpp cs 0 (List.length l) B)
    as [w2 [cs2 [E2 [U [Len Nth]]]]]; [lia|lia| |].
  { intros k w' cs' Hk U' _. destruct U' as [U' _]. apply set_at_in; rewrite U'; auto. lia. }
  unfold for_. rewrite Nat2Z.id. rewrite (bind_done _ _ _ _ _ E2).
  assert (ST : step1 w1 w2 (OD s)) by (eapply step1_cells; eauto; split; auto).
  destruct U as [U1 [U2 [U3 [U4 U5]]]].
  eexists. split; [reflexivity|].
  assert (H2 : vholds w2 s l).
  { apply holds_cells; [apply ST|]. rewrite U1. split; [exact Sz|].
    intros i Hi. rewrite (cells_of_ptr w2 (OD s) a OwnCpp cs2); [|now rewrite U1|exact U4].
    rewrite Nth, Nat2Z.id.
    replace ((0 <=? Z.of_nat i) && (Z.of_nat i <? 0 + Z.of_nat (List.length l))) with true; auto.
    symmetry; apply andb_true_intro; split; [apply Z.leb_le|apply Z.ltb_lt]; lia. }
  assert (ST3 : step1 w2 (set_ob w2 (OD s) (with_mp m (ob w2 (OD s)))) (OD s)) by (apply step1_mp; apply ST).
  assert (H3 : vholds (set_ob w2 (OD s) (with_mp m (ob w2 (OD s)))) s l) by (now apply holds_mp).
  assert (STT : step1 w1 (set_ob w2 (OD s) (with_mp m (ob w2 (OD s)))) (OD s)) by (eapply step1_trans; eauto).
  split; [eapply vstep_trans; [exact V1|]; eapply step1_vstep; [left; reflexivity|exact STT]|].
  split. { eapply step1_ok; eauto. eapply inited_buffer; eauto; [apply STT|]. rewrite ob_set_same. simpl. now rewrite U1. }
  split; [exact H3|]. unfold owning.
  rewrite ob_set_same, ob_set_other by congruence. simpl. rewrite U1, O1.
  repeat split; auto. lia.
Qed.

Lemma vec_of_rvec_done w x s t l m :
  world_ok w -> x <> s ->
  unborn w (OD x) -> unborn w (OT x) -> unborn w (OD s) -> unborn w (OT s) ->
  l <> [] -> fits w (Z.of_nat (List.length l)) ->
  exists w', vec_of_rvec x s t l m w = (Done tt, w') /\ world_ok w' /\
    vholds w' x l /\ mp (ob w' (OD x)) = mat_or_none m /\ owning w' x /\ ready w' x /\
    cap (ob w' (OD x)) = 0 /\ unborn w' (OD s) /\ unborn w' (OT s) /\
    (no_leak w -> no_leak w') /\
    (forall o, o <> OD x -> o <> OT x -> o <> OD s -> o <> OT s -> same_obj w w' o).
Proof.
  intros WO Ne D1 D2 D3 D4 NE Ft.
  destruct (rvec_done w s t l m WO D3 D4 NE Ft) as [w1 [E1 [V1 [WO1 [H1 [[K1 K1'] [M1 [O1 [A1 [T1 _]]]]]]]]]].
  unfold vec_of_rvec. rewrite (bind_done _ _ _ _ _ E1).
  pose proof (world_ok_shape _ WO1) as W1.
  set (s1 := ob w1 (OD s)) in *.
  assert (D1' : unborn w1 (OD x)).
  { intros a Ha. destruct (vs_other _ _ _ V1 (OD x)) as [E _]; try congruence. rewrite E in Ha. now apply (D1 a). }
  assert (D2' : unborn w1 (OT x)).
  { intros a Ha. destruct (vs_other _ _ _ V1 (OT x)) as [E _]; try congruence. rewrite E in Ha. now apply (D2 a). }
  (* the final state *)
  assert (F : exists w2, bind (vec_steal x s t) (fun _ => vec_end s) w1 = (Done tt, w2) /\
     hp w2 = hp w1 /\
     ob w2 (OD x) = mkStore KBuffer t (ptr s1) (sz s1) 0 true (mat_or_none m) false /\
     ob w2 (OT x) = store_default KBuffer t /\
     ob w2 (OD s) = store_default KBuffer t /\ ob w2 (OT s) = store_default KBuffer t /\
     forall o, o <> OD x -> o <> OT x -> o <> OD s -> o <> OT s -> ob w2 o = ob w1 o).
  { unfold vec_steal, ctor_steal. rewrite bind_assoc, bind_assoc, bind_upd, bind_assoc, bind_st.
    rewrite ob_set_other by congruence. fold s1.
    rewrite bind_assoc, bind_upd, bind_assoc, bind_upd, bind_assoc, bind_upd, bind_assoc, bind_upd, bind_assoc, bind_upd.
    rewrite M1, A1.
    set (wa := set_ob _ (OD x) _).
    assert (Hwa : hp wa = hp w1) by reflexivity.
    assert (Nx : (x =? s)%nat = false) by (now apply Nat.eqb_neq).
    assert (Ns : (s =? x)%nat = false) by (apply Nat.eqb_neq; congruence).
    assert (Ox : ob wa (OD x) = mkStore KBuffer t (ptr s1) (sz s1) 0 true mp_none false).
    { unfold wa. simpl. rewrite ?Nx, ?Ns, ?Nat.eqb_refl, ?Ns. reflexivity. }
    assert (Os : ob wa (OD s) = with_ptr None (with_sz 0 s1)).
    { unfold wa. simpl. rewrite ?Nx, ?Ns, ?Nat.eqb_refl, ?Ns. reflexivity. }
    assert (Oo : forall o, o <> OD x -> o <> OD s -> ob wa o = ob w1 o).
    { intros o N1 N2. unfold wa. now rewrite !ob_set_other by auto. }
    clearbody wa.
    assert (G : exists wb, (if ismat m then upd (OD x) (with_mp (mkMP true (rows m) (cols m))) else ret tt) wa = (Done tt, wb) /\
       hp wb = hp wa /\ ob wb (OD x) = mkStore KBuffer t (ptr s1) (sz s1) 0 true (mat_or_none m) false /\
       forall o, o <> OD x -> ob wb o = ob wa o).
    { unfold mat_or_none. destruct (ismat m).
      - eexists. split; [reflexivity|]. split; [reflexivity|]. rewrite ob_set_same, Ox. split; [reflexivity|].
        intros o N. now rewrite ob_set_other.
      - exists wa. auto. }
    destruct G as [wb [Eb [Hb [Oxb Ob]]]]. rewrite (bind_done _ _ _ _ _ Eb).
    unfold ctor_default. rewrite bind_upd.
    unfold vec_end, vec_destroy. set (wc := set_ob wb (OT x) (store_default KBuffer t)).
    assert (Oc : forall o, o <> OT x -> ob wc o = ob wb o) by (intros; unfold wc; now rewrite ob_set_other).
    assert (X1 : any_destroy (OT s) wc = (Done tt, wc)).
    { unfold any_destroy. rewrite bind_st, Oc, Ob, Oo, O1 by congruence. simpl.
      unfold destroy. rewrite bind_st, Oc, Ob, Oo, O1 by congruence. reflexivity. }
    assert (X2 : any_destroy (OD s) wc = (Done tt, wc)).
    { unfold any_destroy. rewrite bind_st, Oc, Ob, Os by congruence. simpl. rewrite K1.
      unfold destroy. rewrite bind_st, Oc, Ob, Os by congruence. reflexivity. }
    rewrite bind_assoc, (bind_done _ _ _ _ _ X1), (bind_done _ _ _ _ _ X2), bind_upd.
    eexists. split; [reflexivity|].
    split; [simpl; now rewrite Hb|].
    rewrite ob_set_other, ob_set_other, Oc, Oxb by congruence. split; [reflexivity|].
    rewrite ob_set_other, ob_set_other by congruence. unfold wc at 1. rewrite ob_set_same. split; [reflexivity|].
    rewrite ob_set_other, ob_set_same, Oc, Ob, Os by congruence. simpl. rewrite T1. split; [reflexivity|].
    rewrite Nat.eqb_refl. replace (s =? x)%nat with false by (symmetry; apply Nat.eqb_neq; congruence).
    rewrite Ob, Oo, O1 by congruence. split; [reflexivity|].
    intros o N1 N2 N3 N4. rewrite !oid_eqb_neq by auto. rewrite Ob, Oo; auto. }
  destruct F as [w2 [E2 [Hp [Ox [Otx [Os [Ots Oth]]]]]]].
  exists w2. split; [exact E2|].
  (* w1 with the scratch buffer of x made empty *)
  set (w1a := set_ob w1 (OT x) (store_default KBuffer t)).
  assert (ST : step1 w1 w1a (OT x)) by (apply step1_empty; auto).
  assert (Oa : forall o, o <> OT x -> ob w1a o = ob w1 o) by (intros; unfold w1a; now rewrite ob_set_other).
  assert (Sh1 : store_shape (hp w1) (mkStore KBuffer t (ptr s1) (sz s1) 0 true (mat_or_none m) false)).
  { pose proof (ws_store _ W1 (OD s)) as Sh. fold s1 in Sh.
    unfold store_shape, owner_of in *. simpl. rewrite K1 in Sh.
    destruct (ptr s1); [|lia]. destruct Sh as [T2 [T3 [T4 [cs [T5 T6]]]]].
    split; [auto|]. split; [lia|]. split; [auto|]. exists cs. split; auto. lia. }
  destruct (handover w1a w2 (OD x) (OD s)) as [W2 [NL2 [Ow2 Us2]]].
  { apply ST. }
  { congruence. }
  { intros a Ha. rewrite Oa in Ha by congruence. now apply (D1' a). }
  { rewrite Oa by congruence. exact K1. }
  { exact Hp. }
  { now rewrite Ox. }
  { rewrite Ox, Oa by congruence. reflexivity. }
  { rewrite Ox. exact Sh1. }
  { now rewrite Os. } { now rewrite Os. } { now rewrite Os. }
  { intros o N1 N2. destruct (oid_dec o (OT x)) as [->|N3].
    - rewrite Otx. unfold w1a. now rewrite ob_set_same.
    - rewrite Oa by auto. destruct (oid_dec o (OT s)) as [->|N4]; [now rewrite Ots, O1|]. now apply Oth. }
  assert (H2 : vholds w2 x l).
  { apply holds_cells; [exact W2|]. apply holds_cells in H1; [|exact W1]. destruct H1 as [Sz1 C1].
    rewrite Ox. simpl. split; [exact Sz1|]. intros i Hi. rewrite <- (C1 i Hi).
    unfold cells_of. rewrite Ox, Hp. simpl. reflexivity. }
  assert (WO2 : world_ok w2).
  { split; [exact W2|]. intros o.
    destruct (oid_dec o (OD x)) as [->|N1]; [eapply inited_buffer; eauto; now rewrite Ox|].
    assert (Em : forall o', ob w2 o' = store_default KBuffer t -> inited w2 o').
    { intros o' Eo. split; rewrite Eo; simpl; [|congruence]. intros a own cs P. discriminate. }
    destruct (oid_dec o (OT x)) as [->|N2]; auto.
    destruct (oid_dec o (OD s)) as [->|N3]; auto.
    destruct (oid_dec o (OT s)) as [->|N4]; auto.
    apply (inited_same w1 w2 o); [|apply WO1]. split; [now apply Oth|]. intros; now rewrite Hp. }
  split; [exact WO2|]. split; [exact H2|].
  assert (Pt : ptr s1 <> None).
  { destruct (shape_ptr w1 (OD s) W1) as [a P].
    - rewrite (proj1 H1). destruct l; [congruence|simpl; lia].
    - unfold s1. congruence. }
  unfold owning, ready, can_assign. rewrite Ox, Otx. simpl.
  split; [reflexivity|]. split; [auto|]. split; [auto|]. split; [reflexivity|].
  split; [exact Us2|]. split; [intros a [P _]; rewrite Ots in P; discriminate|].
  split.
  - intros NL. apply NL2. eapply step1_no_leak; [exact ST|]. eapply vstep_no_leak; eauto.
  - intros o N1 N2 N3 N4. eapply same_obj_trans; [apply (vs_other _ _ _ V1); auto|].
    split; [now apply Oth|]. intros; now rewrite Hp.
Qed.

(* ----------------------------------------------------- failing allocation *)

(** Computations that never throw. *)
Definition no_throw {A} (m : M world A) : Prop := forall w e w', m w <> (Thrown e, w').

Lemma nt_ret {A} (x : A) : no_throw (ret x).
Proof. intros w e w' E. discriminate. Qed.
Lemma nt_upd o f : no_throw (upd o f).
Proof. intros w e w' E. discriminate. Qed.
Lemma nt_st o : no_throw (st o).
Proof. intros w e w' E. discriminate. Qed.
Lemma nt_bind {A B} (m : M world A) (k : A -> M world B) :
  no_throw m -> (forall x, no_throw (k x)) -> no_throw (bind m k).
Proof.
  intros H1 H2 w e w' E. unfold bind in E. destruct (m w) as [[x|e1|u] w1] eqn:Em.
  - now apply (H2 x) in E.
  - now apply H1 in Em.
  - discriminate.
Qed.
Lemma nt_rd p i : no_throw (rd p i).
Proof.
  intros w e w' E. unfold rd in E. destruct p; [|discriminate]. destruct (hblk _ _); try discriminate.
  destruct (_ && _); [|discriminate]. destruct (nth _ _ _); discriminate.
Qed.
Lemma nt_wr p i v : no_throw (wr p i v).
Proof.
  intros w e w' E. unfold wr, wrc in E. destruct p; [|discriminate]. destruct (hblk _ _); try discriminate.
  destruct (_ && _); discriminate.
Qed.
Lemma nt_del p : no_throw (del p).
Proof.
  intros w e w' E. unfold del in E. destruct p; [|discriminate].
  destruct (hblk _ _) as [|[| |] ?|]; discriminate.
Qed.
Lemma nt_forN (body : Z -> M world unit) n : (forall i, no_throw (body i)) -> forall i, no_throw (forN n i body).
Proof.
  intros H. induction n as [|n IH]; intros i; cbn [forN]; [apply nt_ret|]. apply nt_bind; auto.
Qed.

Lemma realloc_fail o n w e w' : realloc o n w = (Thrown e, w') ->
  exists c, w' = set_ob w o (with_cap c (ob w o)).
Proof.
  unfold realloc. rewrite bind_st. intros E.
  unfold bind at 1 in E. unfold lift in E.
  destruct (cap115_int n) as [c|e1|u] eqn:C.
  - rewrite bind_upd in E. unfold bind at 1 in E. unfold new_ in E. cbn [hp set_ob] in E.
    destruct (c <=? hlim (hp w)).
    + exfalso. revert E.
      match goal with |- ?m ?x = _ -> _ => cut (no_throw m); [intros H E; now apply H in E|] end.
      apply nt_bind; [apply nt_forN; intros; apply nt_bind; [apply nt_rd|intros; apply nt_wr]|intros _].
      apply nt_bind; [apply nt_forN; intros; apply nt_wr|intros _].
      apply nt_bind; [apply nt_del|intros _].
      apply nt_bind; [apply nt_upd|intros _]. apply nt_bind; [apply nt_upd|intros _]. apply nt_upd.
    + injection E as <- <-. eauto.
  - exfalso. unfold cap115_int in C. destruct (f2int _) as [z|e2|u] eqn:F; try discriminate.
    unfold f2int in F. destruct (ftrunc _); [destruct (in_int z)|]; discriminate.
  - discriminate.
Qed.

Lemma push_fail o v w e w' : push_back o v w = (Thrown e, w') ->
  exists c, w' = set_ob w o (with_cap c (ob w o)).
Proof.
  unfold push_back. rewrite bind_st. destruct (sz (ob w o) =? cap (ob w o)).
  - intros E. unfold bind at 1 in E.
    assert (R : forall n w1 e1, realloc o n w = (Thrown e1, w1) -> exists c, w1 = set_ob w o (with_cap c (ob w o)))
      by (intros; eapply realloc_fail; eauto).
    destruct (sz (ob w o) =? 0);
    match type of E with context [realloc o ?n w] =>
      specialize (R n); destruct (realloc o n w) as [[[]|e1|u] w1] end; try discriminate;
    try (injection E as <- <-; eauto; fail); exfalso; revert E;
    match goal with |- ?m ?x = _ -> _ => cut (no_throw m); [intros H E; now apply H in E|] end;
    (apply nt_bind; [apply nt_upd|intros _]); (apply nt_bind; [apply nt_st|intros ?]);
    (apply nt_bind; [apply nt_wr|intros _]); apply nt_upd.
  - intros E. exfalso. revert E. destruct (sz (ob w o) <? cap (ob w o)); [|discriminate].
    match goal with |- ?m ?x = _ -> _ => cut (no_throw m); [intros H E; now apply H in E|] end.
    apply nt_bind; [apply nt_wr|intros _]. apply nt_upd.
Qed.

Lemma holds_cap w o c l : holds w o l -> holds (set_ob w o (with_cap c (ob w o))) o l.
Proof.
  intros [A B]. split.
  - rewrite ob_set_same. exact A.
  - intros i Hi. apply pair_eta; [|apply at_rd_pure].
    specialize (B i Hi). revert B.
    unfold at_rd, sexp_get_at, get_at, bind, st, ass.
    rewrite !ob_set_same. cbn [kd alloc sz ptr with_cap].
    assert (R : forall p j, fst (rd p j (set_ob w o (with_cap c (ob w o)))) = fst (rd p j w)).
    { intros p j. unfold rd. destruct p; auto. simpl. destruct (hblk (hp w) n); auto.
      destruct (_ && _); auto. destruct (nth _ _ _); auto. }
    destruct (kd (ob w o)); rewrite ?ob_set_same; cbn [kd alloc sz ptr with_cap];
      repeat match goal with |- context [if ?b then _ else _] => destruct b; simpl; try discriminate end;
      rewrite ?ob_set_same; cbn [kd alloc sz ptr with_cap];
      repeat match goal with |- context [if ?b then _ else _] => destruct b; simpl; try discriminate end;
      rewrite ?R; intros ->; reflexivity.
Qed.

(** A push_back for which no memory is available loses nothing: the vector
    keeps its contents and can be destroyed, and no other is touched. *)
Lemma push_fail_destroy w o v e w' : world_ok w -> kd (ob w o) = KBuffer ->
  push_back o v w = (Thrown e, w') ->
  (forall o', o' <> o -> same_obj w w' o') /\
  (forall l, holds w o l -> holds w' o l) /\
  exists w'', destroy o w' = (Done tt, w'') /\ (forall o', o' <> o -> same_obj w w'' o') /\
    unborn w'' o /\ (no_leak w -> no_leak w'').
Proof.
  intros WO K E. pose proof (world_ok_shape _ WO) as W.
  pose proof (push_fail _ _ _ _ _ E) as X. clear E.
  destruct X as [c ->].
  assert (SO : forall o', o' <> o -> same_obj w (set_ob w o (with_cap c (ob w o))) o').
  { intros o' N. split; [now rewrite ob_set_other|auto]. }
  split; [exact SO|]. split.
  { intros l H. now apply holds_cap. }
  (* destroying *)
  pose proof (ws_store _ W o) as Sh. unfold store_shape in Sh.
  unfold destroy. rewrite bind_st, ob_set_same. simpl.
  destruct (ptr (ob w o)) as [a|] eqn:P.
  - destruct Sh as [T2 [T3 [T4 [cs [T5 T6]]]]]. rewrite T4.
    assert (Ow : owner_of (ob w o) = OwnCpp) by (unfold owner_of; now rewrite K). rewrite Ow in T5.
    rewrite (bind_done _ _ _ _ _ (del_own (set_ob w o (with_cap c (ob w o))) a cs T5)).
    eexists. split; [reflexivity|].
    assert (OA : owns (ob w o) a) by (split; auto).
    split; [|split].
    + intros o' N. split; [simpl; now rewrite !oid_eqb_neq|].
      intros b Pb. simpl. destruct (Nat.eqb_spec b a); auto. subst b.
      exfalso. now apply (other_ptr w o o' a W OA N).
    + intros b [Pb _]. rewrite ob_set_same in Pb. simpl in Pb. discriminate.
    + intros NL b cs' B. simpl in B. destruct (Nat.eqb_spec b a); [discriminate|].
      destruct (NL b cs' B) as [o' O]. exists o'.
      assert (o' <> o) by (intros ->; destruct O; congruence).
      simpl. now rewrite !oid_eqb_neq.
  - eexists. split; [reflexivity|]. split; [exact SO|]. split.
    + intros b [Pb _]. rewrite ob_set_same in Pb. simpl in Pb. congruence.
    + intros NL b cs' B. destruct (NL b cs' B) as [o' O]. exists o'.
      assert (o' <> o) by (intros ->; destruct O; congruence).
      now rewrite ob_set_other.
Qed.

(** A failing constructor leaves no trace. *)
Lemma ctor_fail_unchanged w op w' : is_ctor op = true ->
  (forall o src, op = SCopy o src -> kd (ob w src) = KBuffer) ->
  run_op op w = (Thrown BadAlloc, w') -> world_ok w -> op_pre w op -> w' = w.
Proof.
  intros C KC E WO P. destruct op; try discriminate; cbn [run_op] in E.
  - destruct P as [D Hn]. pose proof (world_ok_shape _ WO) as W.
    destruct (ctor_size_cases w o t n W D) as [[_ [m X]]|[[_ [X _]]|[[_ [X Y]]|[N [c [w1 [Bc [X [S [O L]]]]]]]]]];
      [lia| | | |]; rewrite X in E; congruence.
  - destruct P as [D Hn]. pose proof (world_ok_shape _ WO) as W.
    destruct (Z.eq_dec n 0) as [->|N0]; [discriminate|].
    destruct (cap115_ok n) as [c [Cc Bc]]; [lia|].
    destruct (Z.leb_spec c (hlim (hp w))) as [L|L].
    + destruct (ctor_int_done w o t n c W D) as [w1 [E1 _]]; auto; try lia. congruence.
    + unfold ctor_int in E. unfold cap115 in Cc. rewrite Cc, bind_lift_done in E.
      replace (0 <? n) with true in E by (symmetry; apply Z.ltb_lt; lia). rewrite bind_ass_true in E.
      rewrite (bind_thrown _ _ _ _ _ (new_fail w c L)) in E. congruence.
  - destruct P as [D [Ne SC]]. pose proof (world_ok_shape _ WO) as W.
    destruct (ctor_copy_done w o src W D Ne (KC _ _ eq_refl) SC) as [w1 [E1 _]]; [| |congruence].
    + apply cap_le_lim; eauto.
    + intros _. pose proof (ws_store _ W src) as Sh. unfold store_shape in Sh.
      destruct (ptr (ob w src)); [right; congruence|left; lia].
Qed.

(* ------------------------------------------------------------ large sizes *)

Lemma to_int_large n : 2 ^ 31 <= n <= 2 ^ 60 -> wrap64 (to_int n) <> n.
Proof.
  intros H E. unfold wrap64, to_int in E.
  pose proof (Z.mod_pos_bound n (2 ^ 32)) as B.
  destruct (n mod 2 ^ 32 <? 2 ^ 31) eqn:L.
  - apply Z.ltb_lt in L. rewrite Z.mod_small in E by lia. lia.
  - apply Z.ltb_ge in L.
    replace (n mod 2 ^ 32 - 2 ^ 32) with (n mod 2 ^ 32 - 2 ^ 32 + 2 ^ 64 + (-1) * 2 ^ 64) in E by ring.
    rewrite Z.mod_add in E by lia. rewrite Z.mod_small in E by lia. lia.
Qed.

(** Assigning 2^31 or more elements completes, but the target has another
    length. *)
Lemma assign_large lm w x e rho us :
  world_ok w -> owning w x -> can_assign w x -> env_of w rho e -> wf_expr rho e ->
  2 ^ 31 <= xsize rho e -> fits w (xsize rho e) ->
  value_of lm rho (sty (ob w (OD x))) e us ->
  exists w', assign lm x e w = (Done tt, w') /\ sz (ob w' (OD x)) <> xsize rho e.
Proof.
  intros WO OW CA EN WF N Ft V. pose proof (ws_lim _ (world_ok_shape _ WO)) as Lim. unfold fits in Ft.
  destruct (assign_stage lm w x e rho us (world_ok_shape _ WO) (proj2 OW)) as [w1 [w2 [c [ES [E1 [E2 [C [ST12 [OD2 [S2 [Ct [At [Kt [Pt H2]]]]]]]]]]]]]]; auto.
  { lia. }
  destruct OW as [K1 K2]. unfold assign. rewrite bind_st, K1. unfold assign_buffer. rewrite bind_get, ES.
  rewrite (bind_done _ _ _ _ _ E1), (bind_done _ _ _ _ _ E2).
  unfold moveit. rewrite bind_assoc, bind_st, bind_assoc, bind_st, bind_assoc, !bind_upd.
  rewrite take_shape_done. rewrite S2.
  match goal with |- context [if eim ?w3 e then _ else _] => set (w3' := w3) end.
  assert (SZ : sz (ob w3' (OD x)) = wrap64 (to_int (xsize rho e))).
  { unfold w3'. rewrite ob_set_same. reflexivity. }
  eexists. split; [reflexivity|].
  pose proof (to_int_large (xsize rho e)). destruct (eim w3' e).
  - rewrite ob_set_same. cbn [sz with_mp]. rewrite SZ. apply H. lia.
  - rewrite SZ. apply H. lia.
Qed.

Lemma assign_large_any lm n : 2 ^ 31 <= n -> 2 * n <= 2 ^ 60 ->
  exists w x y w', world_ok w /\ sz (ob w (OD y)) = n /\
  assign lm x (EVar y) w = (Done tt, w') /\ sz (ob w' (OD x)) <> sz (ob w (OD y)).
Proof.
  intros L1 L2.
  assert (WO : world_ok (empty_world (2 ^ 60))) by (apply empty_world_ok; lia).
  destruct (vec_sized_done (empty_world (2 ^ 60)) 0 TDouble n WO) as
    [w1 [E1 [V1 [WO1 [H1 [M1 [OW1 [R1 [T1 [C1 O1]]]]]]]]]]; try apply empty_world_unborn.
  { lia. } { unfold fits. simpl. lia. }
  assert (Un : forall o, o <> OD 0 -> o <> OT 0 -> ob w1 o = store_default KBuffer TDouble).
  { intros o N1 N2. destruct (vs_other _ _ _ V1 o N1 N2) as [E _]. exact E. }
  remember (repeat (zero_of TDouble) (Z.to_nat n)) as l eqn:El.
  assert (Ll : Z.of_nat (List.length l) = n) by (rewrite El, repeat_length, Z2Nat.id; lia).
  assert (Nl : forall i, (i < List.length l)%nat -> nth i l (VB false) = zero_of TDouble).
  { intros i Hi. apply (repeat_spec (Z.to_nat n)). rewrite <- El. now apply nth_In. }
  destruct (assign_large lm w1 1 (EVar 0) (fun _ => l) l) as [w2 [E2 N2]]; auto.
  - split; (rewrite Un; [reflexivity|congruence|congruence]).
  - left. rewrite Un; [reflexivity|congruence|congruence].
  - intros y [<-|[]]. exact H1.
  - exact I.
  - cbn [xsize]. lia.
  - unfold fits. cbn [xsize]. rewrite (vs_lim _ _ _ V1), Ll. simpl. lia.
  - split; [reflexivity|]. intros i Hi. exists (nth i l (VB false)). cbn [xval]. rewrite pick_val_in by lia.
    rewrite Nat2Z.id. split; [reflexivity|]. rewrite Un by congruence. rewrite Nl by auto. reflexivity.
  - exists w1, 1%nat, 0%nat, w2. cbn [xsize] in N2. rewrite Ll in N2.
    assert (S : sz (ob w1 (OD 0)) = n) by (rewrite (proj1 H1); exact Ll).
    split; [exact WO1|]. rewrite S. auto.
Qed.

(* ------------------------------------------------- creation, all outcomes *)

Lemma vec_sized_all w x t n : world_ok w -> unborn w (OD x) -> unborn w (OT x) -> 0 <= n <= 2 ^ 60 ->
  (n = 0 /\ exists m, vec_sized x t n w = (Thrown (Ass m), w)) \/
  (1 <= n /\ hlim (hp w) < 2 * n /\ vec_sized x t n w = (Thrown BadAlloc, w)) \/
  (1 <= n /\ exists w', vec_sized x t n w = (Done tt, w') /\ vstep w w' x /\ world_ok w' /\
     vholds w' x (repeat (zero_of t) (Z.to_nat n)) /\ mp (ob w' (OD x)) = mp_none /\
     exists a, owns (ob w' (OD x)) a /\ forall o, owns (ob w' o) a -> o = OD x).
Proof.
  intros WO D1 D2 Hn. pose proof (world_ok_shape _ WO) as W.
  assert (R : 0 <= n < 2 ^ 64) by lia.
  destruct (ctor_size_cases w (OD x) t n W D1 R) as [[-> [m X]]|[[N [X L]]|[[_ [_ Y]]|[N [c [w1 [Bc [X [S [O H]]]]]]]]]].
  - left. split; auto. exists m. unfold vec_sized. now rewrite (bind_thrown _ _ _ _ _ X).
  - right. left. split; auto. split; auto. unfold vec_sized. now rewrite (bind_thrown _ _ _ _ _ X).
  - lia.
  - right. right. split; auto.
    assert (D2' : unborn w1 (OT x)).
    { intros a Ha. destruct (s1_other _ _ _ S (OT x)) as [E _]; [congruence|]. rewrite E in Ha. now apply (D2 a). }
    destruct (ctor_default_done w1 (OT x) t (s1_shape _ _ _ S) D2') as [w2 [E2 [S2 [O2 H2]]]].
    exists w2. unfold vec_sized. rewrite (bind_done _ _ _ _ _ X). split; [exact E2|].
    assert (V : vstep w w2 x).
    { eapply vstep_trans; eapply step1_vstep; [left; reflexivity|exact S|right; reflexivity|exact S2]. }
    assert (SO : same_obj w1 w2 (OD x)) by (apply (s1_other _ _ _ S2); congruence).
    assert (HX : vholds w2 x (repeat (zero_of t) (Z.to_nat n))) by (eapply holds_same; eauto).
    destruct SO as [SO _].
    split; [exact V|]. split.
    { eapply vstep_ok; eauto.
      - eapply inited_buffer; [apply V|now rewrite SO, O|exact HX].
      - eapply inited_buffer; [apply V|now rewrite O2|exact H2]. }
    split; [exact HX|]. rewrite SO, O. split; [reflexivity|].
    exists (hnext (hp w)). split; [split; reflexivity|].
    intros o Ho. apply (ws_sep _ (vs_shape _ _ _ V) o (OD x) (hnext (hp w))); auto.
    rewrite SO, O. split; reflexivity.
Qed.

(* -------------------------------------------------------------- writes *)

(** A sequence of element writes o[i] = v. *)
Fixpoint writes (o : oid) (ws : list (Z * val)) : M world unit :=
  match ws with
  | [] => ret tt
  | (i, v) :: r => bind (at_wr o i v) (fun _ => writes o r)
  end.

Lemma writes_done ws : forall w o l, world_shape w -> kd (ob w o) = KBuffer -> holds w o l ->
  (forall i v, In (i, v) ws -> 0 <= i < Z.of_nat (List.length l)) ->
  exists w', writes o ws w = (Done tt, w') /\ step1 w w' o /\ ob w' = ob w /\
    holds w' o (fold_left (fun l p => list_set l (Z.to_nat (fst p)) (snd p)) ws l).
Proof.
  induction ws as [|[i v] ws IH]; intros w o l W K H B; cbn [writes fold_left].
  - exists w. split; [reflexivity|]. split; [now apply step1_refl|]. auto.
  - destruct (at_wr_own w o l i v W K H) as [w1 [E1 [S1 [O1 H1]]]]; [eapply B; left; reflexivity|].
    destruct (IH w1 o (list_set l (Z.to_nat i) v)) as [w2 [E2 [S2 [O2 H2]]]]; auto.
    { apply S1. } { now rewrite O1. }
    { intros j u Hj. rewrite list_set_length. eapply B. right. exact Hj. }
    exists w2. rewrite (bind_done _ _ _ _ _ E1). split; [exact E2|].
    split; [eapply step1_trans; eauto|]. split; [congruence|exact H2].
Qed.

(** Writes to either of two vectors do not show in the other. *)
Lemma writes_other w x y lx ly ws : world_ok w -> x <> y -> owning w x -> vholds w x lx -> vholds w y ly ->
  (forall i v, In (i, v) ws -> 0 <= i < Z.of_nat (List.length lx)) ->
  exists w', writes (OD x) ws w = (Done tt, w') /\ vholds w' y ly /\
    mp (ob w' (OD y)) = mp (ob w (OD y)) /\
    vholds w' x (fold_left (fun l p => list_set l (Z.to_nat (fst p)) (snd p)) ws lx).
Proof.
  intros WO Ne [K _] Hx Hy B.
  destruct (writes_done ws w (OD x) lx (world_ok_shape _ WO) K Hx B) as [w' [E [S [O H]]]].
  exists w'. split; [exact E|]. split; [|split; [now rewrite O|exact H]].
  eapply holds_same; [|exact Hy]. apply (s1_other _ _ _ S). congruence.
Qed.

(* ----------------------------------------------------------- resize again *)

(** All results of resize on an owning vector, as far as they are defined. *)
Lemma resize_ok w o n l : world_ok w -> kd (ob w o) = KBuffer -> holds w o l ->
  1 <= n -> fits w n -> (alloc (ob w o) = true -> ptr (ob w o) <> None) ->
  (n <= sz (ob w o) \/ cap (ob w o) < n) ->
  exists w', resize o n w = (Done tt, w') /\ step1 w w' o /\ world_ok w' /\
    holds w' o (if cap (ob w o) <? n then repeat (zero_of (sty (ob w o))) (Z.to_nat n)
                else firstn (Z.to_nat n) l).
Proof.
  intros WO K H Hn Ft HA HC. destruct (Z.ltb_spec (cap (ob w o)) n) as [L|L].
  - now apply resize_grow.
  - apply resize_within; auto; lia.
Qed.
Lemma resize_zero w o : exists m, resize o 0 w = (Thrown (Ass m), w).
Proof. eexists. reflexivity. Qed.
