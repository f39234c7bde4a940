(** Derivative mode: storage steps and evaluation of right-hand sides. *)
From Coq Require Import ZArith List String Bool Lia Arith.
From Verif Require Import Base Num StoreModel VecModel Spec CapProofs StoreProofs StoreOps SpecExpr
  VecProofs VecAssign FloatBridge DerivModel SpecDeriv.
Import ListNotations.
Open Scope Z_scope.
Local Notation length := List.length (only parsing).

Lemma inw_done {A} (m : M world A) d a w : m (dw d) = (Done a, w) -> inw m d = (Done a, mkDw w (dinit d)).
Proof. intros E. unfold inw. now rewrite E. Qed.

Lemma dbind_get {A} (f : dworld -> M dworld A) d : bind get f d = f d d.
Proof. reflexivity. Qed.
Lemma dbind_lift {A B} (a : A) (f : A -> M dworld B) d : bind (lift (Done a)) f d = f a d.
Proof. reflexivity. Qed.
Lemma dbind_assoc {A B C} (m : M dworld A) (f : A -> M dworld B) (g : B -> M dworld C) d :
  bind (bind m f) g d = bind m (fun a => bind (f a) g) d.
Proof. unfold bind. destruct (m d) as [[a|e|u] d1]; reflexivity. Qed.

(** The values of Borrow and BorrowSEXP variables. *)
Definition inp (o : oid) : Prop := exists x, knd x <> KBuffer /\ o = OD (vslot x).

(** A storage object of an AllVars object. *)
Definition own (s : store) : Prop :=
  kd s = KBuffer /\ sz s <= cap s /\ (alloc s = true -> ptr s <> None).
Definition good (o : oid) (s : store) : Prop :=
  sty s = TDouble /\ mp s = mp_none /\ (~ inp o -> own s).
Definition sane (d : dworld) : Prop := world_shape (dw d) /\ forall o, good o (ob (dw d) o).

(** Only objects with P changed. *)
Record chg (P : oid -> Prop) (d d' : dworld) : Prop := {
  ch_sane : sane d';
  ch_init : dinit d' = dinit d;
  ch_lim : hlim (hp (dw d')) = hlim (hp (dw d));
  ch_same : forall o, ~ P o -> same_obj (dw d) (dw d') o }.

Lemma chg_refl P d : sane d -> chg P d d.
Proof. intros S. split; auto. intros. apply same_obj_refl. Qed.
Lemma chg_trans P d d1 d2 : chg P d d1 -> chg P d1 d2 -> chg P d d2.
Proof.
  intros A B. split.
  - apply B.
  - rewrite (ch_init _ _ _ B). apply A.
  - rewrite (ch_lim _ _ _ B). apply A.
  - intros o N. eapply same_obj_trans; [apply A|apply B]; auto.
Qed.
Lemma chg_weak (P Q : oid -> Prop) d d' : (forall o, P o -> Q o) -> chg P d d' -> chg Q d d'.
Proof. intros H A. split; try apply A. intros o N. apply (ch_same _ _ _ A). auto. Qed.

Lemma chg_holds P d d' o l : chg P d d' -> ~ P o -> holds (dw d) o l -> holds (dw d') o l.
Proof. intros C N. apply holds_same. now apply (ch_same _ _ _ C). Qed.
Lemma chg_ob P d d' o : chg P d d' -> ~ P o -> ob (dw d') o = ob (dw d) o.
Proof. intros C N. apply (ch_same _ _ _ C). auto. Qed.

Lemma sane_step d d' o : sane d -> step1 (dw d) (dw d') o -> good o (ob (dw d') o) -> sane d'.
Proof.
  intros [W G] S K. split; [apply S|]. intros o'.
  destruct (oid_dec o' o) as [->|N]; auto.
  destruct (s1_other _ _ _ S o' N) as [E _]. now rewrite E.
Qed.

(** resize *)
Lemma resize_d d o n : sane d -> ~ inp o -> 1 <= n -> 2 * n <= hlim (hp (dw d)) ->
  exists d', inw (resize o n) d = (Done tt, d') /\ chg (eq o) d d' /\
    sz (ob (dw d') o) = n /\ ptr (ob (dw d') o) <> None /\
    (sz (ob (dw d) o) = n -> cells_of (dw d') o = cells_of (dw d) o) /\
    (cap (ob (dw d) o) < n -> holds (dw d') o (map VD (repeat fzero (Z.to_nat n)))).
Proof.
  intros [W G] NI Hn HL. destruct (G o) as [T [Mp Ow]]. destruct (Ow NI) as [K [Sc Al]].
  pose proof (ws_lim _ W) as Lim.
  destruct (cap115_ok n) as [c [C Bc]]; [lia|].
  destruct (resize_done (dw d) o n c W K) as [w' [E R]]; auto; try lia.
  destruct R as [ST [K' [T' [Mp' [Td' [Sz' [Al' [P' [C' R]]]]]]]]].
  exists (mkDw w' (dinit d)). split; [now apply inw_done|].
  split.
  - split; cbn [dw dinit]; auto.
    + apply (sane_step d (mkDw w' (dinit d)) o); [split; auto|exact ST|].
      cbn [dw]. unfold good, own. rewrite K', T', Mp', T, Mp. repeat split; auto. lia.
    + apply ST.
    + intros o' N. apply (s1_other _ _ _ ST). congruence.
  - cbn [dw]. split; [exact Sz'|]. split; [exact P'|].
    split; intros Es; (destruct (Z.ltb_spec (cap (ob (dw d) o)) n) as [L|L]; [|try lia]); [lia|apply R|].
    apply holds_cells; [apply ST|]. rewrite map_length, repeat_length. split; [lia|].
    intros i Hi. destruct R as [_ R]. rewrite R by lia. rewrite T. f_equal.
    symmetry. rewrite (nth_indep _ _ (VD fzero)) by (rewrite map_length, repeat_length; lia).
    rewrite map_nth. f_equal. clear. revert i. generalize (Z.to_nat n) as m. induction m; intros [|i]; cbn; auto.
Qed.

(** A loop writing all elements of one object, while it may read what is not
    yet overwritten. *)
Record part (o : oid) (us : list val) (k : Z) (d d1 : dworld) : Prop := {
  pt_ob : ob (dw d1) = ob (dw d);
  pt_init : dinit d1 = dinit d;
  pt_step : step1 (dw d) (dw d1) o;
  pt_new : forall j, (Z.of_nat j < k) -> (j < length us)%nat ->
    nth j (cells_of (dw d1) o) None = Some (nth j us (VB false));
  pt_old : forall j, k <= Z.of_nat j -> nth j (cells_of (dw d1) o) None = nth j (cells_of (dw d) o) None }.

Lemma part_sane o us k d d1 : sane d -> part o us k d d1 -> sane d1.
Proof.
  intros [W G] P. split; [apply (pt_step _ _ _ _ _ P)|]. intros o'. rewrite (pt_ob _ _ _ _ _ P). apply G.
Qed.

Lemma dloop d o us body : sane d -> ~ inp o -> sz (ob (dw d) o) = Z.of_nat (length us) -> us <> [] ->
  (forall k d1, 0 <= k < Z.of_nat (length us) -> part o us k d d1 ->
     body k d1 = inw (set_at o k (nth (Z.to_nat k) us (VB false))) d1) ->
  exists d', dfor (Z.of_nat (length us)) body d = (Done tt, d') /\ chg (eq o) d d' /\
    ob (dw d') = ob (dw d) /\ holds (dw d') o us.
Proof.
  intros S NI Sz Ne Hb. pose proof S as [W G]. destruct (G o) as [T [Mp Own]].
  destruct (Own NI) as [K [Sc Al]].
  destruct (shape_ptr (dw d) o W) as [a P]. { destruct us; [congruence|]. simpl in Sz. lia. }
  pose proof (shape_alloc _ _ _ W P) as A.
  destruct (ptr_live _ _ _ W P) as [cs [B [L1 L2]]].
  assert (Ow : owner_of (ob (dw d) o) = OwnCpp) by (unfold owner_of; now rewrite K).
  rewrite Ow in B. assert (OO : owns (ob (dw d) o) a) by (split; auto).
  unfold dfor. rewrite Nat2Z.id.
  destruct (forN_inv (fun k d1 => part o us k d d1) body (length us) 0 d) as [d' [E P']].
  - split; auto; [now apply step1_refl|]. intros; lia.
  - intros k d1 Hk P1. rewrite (Hb k d1) by (auto; lia).
    pose proof (part_sane _ _ _ _ _ S P1) as [W1 G1].
    assert (Pa : ptr (ob (dw d1) o) = Some a) by now rewrite (pt_ob _ _ _ _ _ P1).
    destruct (ptr_live _ _ _ W1 Pa) as [cs1 [B1 [L3 L4]]].
    rewrite (pt_ob _ _ _ _ _ P1) in B1, L3, L4. rewrite Ow in B1.
    unfold inw. rewrite (set_at_in (dw d1) o a); [|exact Pa|now rewrite (pt_ob _ _ _ _ _ P1)|rewrite (pt_ob _ _ _ _ _ P1); lia].
    destruct (wrc_ok (dw d1) a k (Some (nth (Z.to_nat k) us (VB false))) OwnCpp cs1 B1) as [w2 [E2 U2]]; [lia|].
    rewrite E2. exists (mkDw w2 (dinit d1)). split; [reflexivity|].
    assert (S2 : step1 (dw d1) w2 o).
    { eapply step1_cells; [exact W1| |exact B1|exact U2|apply list_set_length].
      unfold owns. rewrite (pt_ob _ _ _ _ _ P1). exact OO. }
    destruct U2 as [U1 [U2 [U3 [U4 U5]]]].
    assert (C1 : cells_of (dw d1) o = cs1) by (eapply cells_of_ptr; eauto).
    assert (C2 : cells_of w2 o = list_set cs1 (Z.to_nat k) (Some (nth (Z.to_nat k) us (VB false)))).
    { eapply cells_of_ptr; [rewrite U1; exact Pa|exact U4]. }
    split; cbn [dw dinit].
    + rewrite U1. apply P1.
    + apply P1.
    + eapply step1_trans; [apply P1|exact S2].
    + intros j Hj Hl. rewrite C2, list_set_nth.
      destruct (Nat.eqb_spec j (Z.to_nat k)) as [->|Nj].
      * replace (Z.to_nat k <? length cs1)%nat with true by (symmetry; apply Nat.ltb_lt; lia). reflexivity.
      * cbn [andb]. rewrite <- C1. apply (pt_new _ _ _ _ _ P1); lia.
    + intros j Hj. rewrite C2, list_set_nth.
      replace (j =? Z.to_nat k)%nat with false by (symmetry; apply Nat.eqb_neq; lia). cbn [andb].
      rewrite <- C1. apply (pt_old _ _ _ _ _ P1). lia.
  - exists d'. split; [exact E|]. split.
    + split.
      * eapply part_sane; eauto.
      * apply P'.
      * apply (pt_step _ _ _ _ _ P').
      * intros o' N. apply (s1_other _ _ _ (pt_step _ _ _ _ _ P')). congruence.
    + split; [apply P'|]. apply holds_cells; [apply (pt_step _ _ _ _ _ P')|].
      rewrite (pt_ob _ _ _ _ _ P'). split; [exact Sz|].
      intros j Hj. apply (pt_new _ _ _ _ _ P'); lia.
Qed.

(** resize, then write all elements. *)
Lemma write_all d o us body : sane d -> ~ inp o -> us <> [] -> 2 * Z.of_nat (length us) <= hlim (hp (dw d)) ->
  (forall d0, inw (resize o (Z.of_nat (length us))) d = (Done tt, d0) -> chg (eq o) d d0 ->
     forall k d1, 0 <= k < Z.of_nat (length us) -> part o us k d0 d1 ->
     body k d1 = inw (set_at o k (nth (Z.to_nat k) us (VB false))) d1) ->
  exists d', (_ <- inw (resize o (Z.of_nat (length us))) ;; dfor (Z.of_nat (length us)) body) d = (Done tt, d') /\
    chg (eq o) d d' /\ holds (dw d') o us.
Proof.
  intros S NI Ne HL Hb.
  destruct (resize_d d o (Z.of_nat (length us)) S NI) as [d0 [E0 [C0 [Z0 [P0 _]]]]]; auto.
  { destruct us; [congruence|]. simpl. lia. }
  destruct (dloop d0 o us body (ch_sane _ _ _ C0) NI Z0 Ne) as [d' [E' [C' [_ H']]]]; [now apply Hb|].
  exists d'. split; [|split; auto; eapply chg_trans; eauto].
  rewrite (bind_done _ _ _ _ _ E0). exact E'.
Qed.

Lemma od_inj x y : OD x = OD y -> x = y.
Proof. now intros [=]. Qed.

(** Constants. *)
Lemma slots_vd x y : vslot x <> dslot y.
Proof. unfold vslot, dslot, vslot. destruct x as [[] n], y as [[] m]; lia. Qed.
Lemma slots_vk x k : vslot x <> kslot k.
Proof. unfold vslot, kslot. destruct x as [[] n]; lia. Qed.
Lemma slots_dk x k : dslot x <> kslot k.
Proof. unfold dslot, vslot, kslot. destruct x as [[] n]; lia. Qed.
Lemma slots_v x y : vslot x = vslot y -> x = y.
Proof. unfold vslot. destruct x as [[] n], y as [[] m]; intros H; f_equal; lia. Qed.
Lemma slots_d x y : dslot x = dslot y -> x = y.
Proof. intros H. apply slots_v. unfold dslot in H. lia. Qed.
Lemma slots_k x y : kslot x = kslot y -> x = y.
Proof. unfold kslot. lia. Qed.

Lemma slot_var o : {y | o = vslot y} + {forall y, o <> vslot y}.
Proof.
  pose proof (Nat.div_mod_eq o 7) as D.
  destruct (Nat.eq_dec (o mod 7) 0) as [A|A]; [left; exists (DV KBuffer (o / 7)); cbn [vslot]; lia|].
  destruct (Nat.eq_dec (o mod 7) 3) as [B|B]; [left; exists (DV KBorrow (o / 7)); cbn [vslot]; lia|].
  destruct (Nat.eq_dec (o mod 7) 5) as [C|C]; [left; exists (DV KBorrowSEXP (o / 7)); cbn [vslot]; lia|].
  right. intros [[] m] E; cbn [vslot] in E; subst o.
  - apply A. rewrite (Nat.mul_comm 7 m). apply Nat.mod_mul. lia.
  - apply B. rewrite (Nat.add_comm _ 3), (Nat.mul_comm 7 m). now rewrite Nat.mod_add by lia.
  - apply C. rewrite (Nat.add_comm _ 5), (Nat.mul_comm 7 m). now rewrite Nat.mod_add by lia.
Qed.

Lemma inp_k k : ~ inp (OD (kslot k)).
Proof. intros [x [_ E]]. injection E as E. symmetry in E. now apply slots_vk in E. Qed.
Lemma inp_d x : ~ inp (OD (dslot x)).
Proof. intros [y [_ E]]. injection E as E. symmetry in E. now apply slots_vd in E. Qed.
Lemma inp_t x : ~ inp (OT x).
Proof. intros [y [_ E]]. discriminate. Qed.
Lemma inp_v x : knd x = KBuffer -> ~ inp (OD (vslot x)).
Proof. intros K [y [N E]]. injection E as E. apply slots_v in E. congruence. Qed.
Global Hint Resolve inp_k inp_d inp_t inp_v : core.

Lemma nth_vd i l : (i < length l)%nat -> nth i (map VD l) (VB false) = VD (nth i l fzero).
Proof. intros H. rewrite (nth_indep _ _ (VD fzero)) by now rewrite map_length. apply map_nth. Qed.

Lemma mk_con_done d k l : sane d -> l <> [] -> 2 * Z.of_nat (length l) <= hlim (hp (dw d)) ->
  exists d', mk_con k l d = (Done tt, d') /\ chg (eq (OD (kslot k))) d d' /\
    holds (dw d') (OD (kslot k)) (map VD l).
Proof.
  intros S Ne HL.
  destruct (write_all d (OD (kslot k)) (map VD l)
     (fun i => inw (set_at (OD (kslot k)) i (VD (nth (Z.to_nat i) l fzero))))) as [d' H]; auto.
  - now destruct l.
  - now rewrite map_length.
  - intros d0 _ _ i d1 Hi _. rewrite map_length in Hi. rewrite nth_vd by lia. reflexivity.
  - exists d'. rewrite map_length in H. exact H.
Qed.

Lemma NoDup_parts {A} (l r : list A) : NoDup (l ++ r) -> NoDup l /\ NoDup r.
Proof.
  induction l as [|a l IH]; simpl; intros H; [split; auto; constructor|].
  inversion H as [|? ? N1 N2]; subst. destruct (IH N2) as [A1 A2]. split; auto.
  constructor; auto. intros I. apply N1. apply in_or_app. auto.
Qed.

Definition con_slot (e : dexpr) (o : oid) : Prop := exists k l, In (k, l) (dcons e) /\ o = OD (kslot k).

Lemma mk_cons_done e : forall d, sane d ->
  (forall k l, In (k, l) (dcons e) -> l <> [] /\ 2 * Z.of_nat (length l) <= hlim (hp (dw d))) ->
  NoDup (map fst (dcons e)) ->
  exists d', mk_cons e d = (Done tt, d') /\ chg (con_slot e) d d' /\
    forall k l, In (k, l) (dcons e) -> holds (dw d') (OD (kslot k)) (map VD l).
Proof.
  assert (Two : forall l r,
    (forall d, sane d ->
      (forall k c, In (k, c) (dcons l) -> c <> [] /\ 2 * Z.of_nat (length c) <= hlim (hp (dw d))) ->
      NoDup (map fst (dcons l)) ->
      exists d', mk_cons l d = (Done tt, d') /\ chg (con_slot l) d d' /\
        forall k c, In (k, c) (dcons l) -> holds (dw d') (OD (kslot k)) (map VD c)) ->
    (forall d, sane d ->
      (forall k c, In (k, c) (dcons r) -> c <> [] /\ 2 * Z.of_nat (length c) <= hlim (hp (dw d))) ->
      NoDup (map fst (dcons r)) ->
      exists d', mk_cons r d = (Done tt, d') /\ chg (con_slot r) d d' /\
        forall k c, In (k, c) (dcons r) -> holds (dw d') (OD (kslot k)) (map VD c)) ->
    forall d, sane d ->
      (forall k c, In (k, c) (dcons l ++ dcons r) -> c <> [] /\ 2 * Z.of_nat (length c) <= hlim (hp (dw d))) ->
      NoDup (map fst (dcons l ++ dcons r)) ->
      exists d', (_ <- mk_cons l ;; mk_cons r) d = (Done tt, d') /\
        chg (fun o => exists k c, In (k, c) (dcons l ++ dcons r) /\ o = OD (kslot k)) d d' /\
        forall k c, In (k, c) (dcons l ++ dcons r) -> holds (dw d') (OD (kslot k)) (map VD c)).
  { intros l r IHl IHr d S HL ND. rewrite map_app in ND.
    pose proof (proj1 (NoDup_parts _ _ ND)) as NDl.
    pose proof (proj2 (NoDup_parts _ _ ND)) as NDr.
    destruct (IHl d S) as [d1 [E1 [C1 H1]]]; auto.
    { intros k c Hk. apply (HL k c). apply in_or_app. auto. }
    destruct (IHr d1 (ch_sane _ _ _ C1)) as [d2 [E2 [C2 H2]]]; auto.
    { intros k c Hk. rewrite (ch_lim _ _ _ C1). apply (HL k c). apply in_or_app. auto. }
    exists d2. split; [rewrite (bind_done _ _ _ _ _ E1); exact E2|]. split.
    - eapply chg_trans; eapply chg_weak; [|exact C1| |exact C2];
        intros o [k [c [Hk ->]]]; exists k, c; split; auto; apply in_or_app; auto.
    - intros k c Hk. apply in_app_or in Hk. destruct Hk as [Hk|Hk]; [|now apply H2].
      apply (chg_holds _ _ _ _ _ C2); [|now apply H1].
      intros [k' [c' [Hk' E]]]. injection E as E. apply slots_k in E. subst k'.
      revert ND. assert (I1 := in_map fst _ _ Hk). assert (I2 := in_map fst _ _ Hk'). simpl in I1, I2.
      intros ND. clear - ND I1 I2. induction (map fst (dcons l)) as [|a m IH]; [easy|].
      simpl in ND. inversion ND as [|? ? N1 N2]; subst. destruct I1 as [->|I1]; [|auto].
      apply N1. apply in_or_app. auto. }
  induction e; cbn [mk_cons dcons]; intros d S HL ND;
    try (now apply (Two e1 e2 IHe1 IHe2)).
  - exists d. split; [reflexivity|]. split; [now apply chg_refl|]. intros k l [].
  - destruct (HL k l) as [Ne H2]; [now left|].
    destruct (mk_con_done d k l S Ne H2) as [d' [E [C H]]].
    exists d'. split; [exact E|]. split.
    + eapply chg_weak; [|exact C]. intros o <-. exists k, l. split; [now left|reflexivity].
    + intros k' l' [X|[]]. injection X as <- <-. exact H.
  - now apply IHe.
Qed.
