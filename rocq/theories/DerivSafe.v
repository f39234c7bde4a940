(** Derivative programs are memory safe. *)
From Coq Require Import ZArith List Bool Lia String.
From Verif Require Import Base Num StoreModel VecModel Spec SpecVec SpecDeriv DerivModel SpecDerivSafe
  CapProofs StoreProofs StoreOps VecProofs VecAssign DerivProofs.
Import ListNotations.
Open Scope Z_scope.
Local Notation length := List.length (only parsing).

(** Doubles and bools. *)
Definition numb (v : val) : Prop := (exists f, v = VD f) \/ (exists b, v = VB b).
Definition dbl (v : val) : Prop := exists f, v = VD f.
Definition fine (r : outcome val) : Prop := exists v, r = Done v /\ numb v.

Lemma numb_d f : numb (VD f). Proof. left. eauto. Qed.
Lemma numb_b b : numb (VB b). Proof. right. eauto. Qed.
Lemma dbl_numb v : dbl v -> numb v. Proof. intros [f ->]. apply numb_d. Qed.
Lemma fine_d f : fine (Done (VD f)). Proof. eexists. split; [reflexivity|apply numb_d]. Qed.
Lemma fine_b b : fine (Done (VB b)). Proof. eexists. split; [reflexivity|apply numb_b]. Qed.
Local Ltac nd := first [apply fine_d | apply fine_b].

Lemma fine_bin lm op a b : numb a -> numb b -> fine (bin_f lm op a b).
Proof. intros [[f ->]|[f ->]] [[g ->]|[g ->]]; destruct op; try nd; destruct f, g; nd. Qed.
Lemma fine_sin lm f a : numb a -> fine (sin_trait lm f a).
Proof. intros [[x ->]|[x ->]]; nd. Qed.
Lemma fine_plus a b : numb a -> numb b -> fine (plus_der a b).
Proof. intros [[f ->]|[f ->]] [[g ->]|[g ->]]; try nd; destruct f, g; nd. Qed.
Lemma fine_minus a b : numb a -> numb b -> fine (minus_der a b).
Proof. intros [[f ->]|[f ->]] [[g ->]|[g ->]]; try nd; destruct f, g; nd. Qed.
Lemma fine_cmp a b : numb a -> numb b -> fine (cmp_der a b).
Proof. intros [[f ->]|[f ->]] [[g ->]|[g ->]]; nd. Qed.
Lemma fine_times l r a b : numb l -> numb r -> numb a -> numb b -> fine (times_der l r a b).
Proof.
  intros [[f ->]|[f ->]] [[g ->]|[g ->]] [[h ->]|[h ->]] [[k ->]|[k ->]]; try nd;
    try (destruct f); try (destruct g); try (destruct h); try (destruct k); nd.
Qed.
Lemma fine_divide lm l r a b : numb l -> numb r -> numb a -> numb b -> fine (divide_der lm l r a b).
Proof.
  intros [[f ->]|[f ->]] [[g ->]|[g ->]] [[h ->]|[h ->]] [[k ->]|[k ->]]; try nd;
    try (destruct f); try (destruct g); try (destruct h); try (destruct k); nd.
Qed.
Lemma fine_divc l r a b : numb l -> numb r -> numb a -> numb b -> fine (divide_const_der l r a b).
Proof. intros [[f ->]|[f ->]] [[g ->]|[g ->]] [[h ->]|[h ->]] [[k ->]|[k ->]]; nd. Qed.
Lemma cast_dbl v : numb v -> exists f, cast TDouble v = Done (VD f).
Proof. intros [[f ->]|[f ->]]; eexists; reflexivity. Qed.

Section From.
Variable d0 : dworld.
(** May an empty vector be read? *)
Variable z : Prop.

(** What holds after every step that does not run out of memory. *)
Record base (d : dworld) : Prop := {
  ba_shape : world_shape (dw d);
  ba_leak : kept_blocks (dw d0) (dw d);
  ba_ty : forall o, sty (ob (dw d) o) = TDouble;
  ba_own : forall o, ~ inp o -> own (ob (dw d) o);
  ba_kept : forall o, inp o -> same_obj (dw d0) (dw d) o }.

Definition safe {A} (r : outcome A * dworld) (Q : A -> dworld -> Prop) : Prop :=
  match r with
  | (Done a, d) => Q a d
  | (Thrown (Ass _), d) => base d
  | (Thrown BadAlloc, d) => forall o, inp o -> same_obj (dw d0) (dw d) o
  | (Undef u, d) => z /\ u = UB_div0 /\ forall o, inp o -> same_obj (dw d0) (dw d) o
  end.

Lemma safe_bind {A B} (m : M dworld A) (f : A -> M dworld B) d Q R :
  safe (m d) Q -> (forall a d', Q a d' -> safe (f a d') R) -> safe (bind m f d) R.
Proof.
  unfold bind. destruct (m d) as [[a|[s|]|u] d']; cbn [safe]; auto.
Qed.
Lemma safe_weak {A} (r : outcome A * dworld) (Q R : A -> dworld -> Prop) :
  safe r Q -> (forall a d, Q a d -> R a d) -> safe r R.
Proof. destruct r as [[a|[s|]|u] d']; cbn [safe]; auto. Qed.
Lemma safe_get {A} (f : dworld -> M dworld A) d R : safe (f d d) R -> safe (bind get f d) R.
Proof. intros H. exact H. Qed.
Lemma safe_lift {A} (r : outcome val) (f : val -> M dworld A) d R :
  fine r -> (forall v, numb v -> safe (f v d) R) -> safe (bind (lift r) f d) R.
Proof. intros [v [-> N]] H. exact (H v N). Qed.

Lemma for_safe (P : Z -> dworld -> Prop) body k : forall i d, P i d ->
  (forall j d, i <= j < i + Z.of_nat k -> P j d -> safe (body j d) (fun _ => P (j + 1))) ->
  safe (forN k i body d) (fun _ => P (i + Z.of_nat k)).
Proof.
  induction k as [|k IH]; intros i d Pi H.
  - cbn [forN ret safe]. now replace (i + Z.of_nat 0) with i by lia.
  - cbn [forN]. eapply safe_bind; [apply H; [lia|exact Pi]|]. intros [] d' Q.
    replace (i + Z.of_nat (S k)) with ((i + 1) + Z.of_nat k) by lia. apply IH; auto.
    intros j d1 Hj. apply H. lia.
Qed.
Lemma dfor_safe (P : Z -> dworld -> Prop) n body d : 0 <= n -> P 0 d ->
  (forall j d, 0 <= j < n -> P j d -> safe (body j d) (fun _ => P (j + 1))) ->
  safe (dfor n body d) (fun _ => P n).
Proof.
  intros Hn P0 H. unfold dfor. pose proof (for_safe P body (Z.to_nat n) 0 d P0) as Q.
  rewrite Z2Nat.id in Q by lia. apply Q. exact H.
Qed.

(** Cells 0..n-1 hold doubles. *)
Definition filled (d : dworld) (o : oid) (n : Z) : Prop :=
  forall i, Z.of_nat i < n -> exists f, nth i (cells_of (dw d) o) None = Some (VD f).
Definition full (d : dworld) (o : oid) : Prop := filled d o (sz (ob (dw d) o)).
Definition others (o : oid) (d d' : dworld) : Prop := forall o', o' <> o -> same_obj (dw d) (dw d') o'.

Lemma others_refl o d : others o d d. Proof. intros o' _. apply same_obj_refl. Qed.
Lemma others_trans o d d1 d2 : others o d d1 -> others o d1 d2 -> others o d d2.
Proof. intros A B o' N. eapply same_obj_trans; [apply A|apply B]; auto. Qed.
Lemma cells_same w w' o : same_obj w w' o -> cells_of w' o = cells_of w o.
Proof.
  intros [E H]. unfold cells_of. rewrite E. destruct (ptr (ob w o)) as [a|]; auto. now rewrite H.
Qed.
Lemma filled_same d d' o n : same_obj (dw d) (dw d') o -> filled d o n -> filled d' o n.
Proof. intros S F i Hi. rewrite (cells_same _ _ _ S). now apply F. Qed.
Lemma full_same d d' o : same_obj (dw d) (dw d') o -> full d o -> full d' o.
Proof. intros S F. unfold full. destruct S as [E S]. rewrite E. eapply filled_same; [split; eauto|exact F]. Qed.
Lemma filled_le d o m n : m <= n -> filled d o n -> filled d o m.
Proof. intros L F i Hi. apply F. lia. Qed.
Lemma sz_same d d' o : same_obj (dw d) (dw d') o -> sz (ob (dw d') o) = sz (ob (dw d) o).
Proof. intros [E _]. now rewrite E. Qed.

(** One object changed. *)
Lemma base_step d w' o b : base d -> ~ inp o -> step1 (dw d) w' o -> sty (ob w' o) = TDouble -> own (ob w' o) ->
  base (mkDw w' b) /\ others o d (mkDw w' b).
Proof.
  intros [W L T Ow Kp] NI S Ty Oo.
  assert (Ot : others o d (mkDw w' b)) by (intros o' N; apply (s1_other _ _ _ S); exact N).
  split; [|exact Ot]. split; cbn [dw].
  - apply S.
  - intros N. eapply step1_no_leak; [exact S|]. now apply L.
  - intros o'. destruct (oid_dec o' o) as [->|N]; auto. destruct (Ot o' N) as [E _]. cbn [dw] in E. now rewrite E.
  - intros o' NI'. destruct (oid_dec o' o) as [->|N]; auto. destruct (Ot o' N) as [E _]. cbn [dw] in E. rewrite E. auto.
  - intros o' I. assert (N : o' <> o) by congruence. eapply same_obj_trans; [now apply Kp|]. now apply (Ot o' N).
Qed.

Lemma sz_bound d o : base d -> 0 <= sz (ob (dw d) o) <= 2 ^ 60.
Proof.
  intros [W _ _ _ _]. pose proof (ws_store _ W o) as S. unfold store_shape in S.
  destruct (ptr (ob (dw d) o)) as [a|]; [|lia].
  destruct S as [S1 [S2 [S3 [cs [S4 [S5 S6]]]]]]. pose proof (proj1 (ws_len _ W _ _ _ S4)). lia.
Qed.

(** resize of a vector of the AllVars object *)
Lemma resize_safe d o n : base d -> ~ inp o -> n < 2 ^ 63 ->
  safe (inw (resize o n) d) (fun _ d' => base d' /\ others o d d' /\ 1 <= n /\ sz (ob (dw d') o) = n /\
    (cap (ob (dw d) o) < n -> filled d' o n) /\
    (n <= cap (ob (dw d) o) -> cells_of (dw d') o = cells_of (dw d) o)).
Proof.
  intros B NI Hn. pose proof B as [W L T Ow Kp]. destruct (Ow o NI) as [K [Sc Al]].
  unfold inw.
  destruct (resize_cases (dw d) o n W K) as [c w1 E1 N C Bc R|m E1 _|m E1 _ _ _|w1 E1 _ _ Oth Pq Kq Aq Fr|w1 E1 X];
    [lia| | | | |]; rewrite E1; cbn [safe]; [|now destruct d|now destruct d| |lia].
  - destruct R as [ST [Kt [Tt [Mt [Dt [St [At [Pt [Ct Rest]]]]]]]]].
    destruct (base_step d w1 o (dinit d) B NI ST) as [B1 O1].
    { now rewrite Tt, T. }
    { split; [exact Kt|]. split; [lia|]. intros _. exact Pt. }
    split; [exact B1|]. split; [exact O1|]. split; [exact N|]. split; [exact St|]. cbn [dw].
    split; intros H; destruct (Z.ltb_spec (cap (ob (dw d) o)) n); try lia.
    + intros i Hi. destruct Rest as [_ Rest]. rewrite Rest by exact Hi. rewrite T. eexists; reflexivity.
    + tauto.
  - intros o' I. cbn [dw]. eapply same_obj_trans; [now apply Kp|]. apply Oth. congruence.
Qed.

(** A checked write *)
Definition wrote (o : oid) (i : Z) (d d' : dworld) : Prop :=
  base d' /\ others o d d' /\ ob (dw d') = ob (dw d) /\ i < sz (ob (dw d) o) /\
  exists f, forall k, nth k (cells_of (dw d') o) None =
    if Z.of_nat k =? i then Some (VD f) else nth k (cells_of (dw d) o) None.

Lemma set_safe d o i v : base d -> ~ inp o -> 0 <= i -> dbl v ->
  safe (inw (set_at o i v) d) (fun _ d' => wrote o i d d').
Proof.
  intros B NI Hi [f ->]. pose proof B as [W L T Ow Kp]. destruct (Ow o NI) as [K [Sc Al]].
  unfold inw. destruct (Z.ltb_spec i (sz (ob (dw d) o))) as [Lt|Ge].
  - destruct (shape_ptr (dw d) o W) as [a P]; [lia|].
    pose proof (shape_alloc _ _ _ W P) as A. destruct (ptr_live _ _ _ W P) as [cs [Bl [L1 L2]]].
    assert (Oc : owner_of (ob (dw d) o) = OwnCpp) by (unfold owner_of; now rewrite K). rewrite Oc in Bl.
    rewrite (set_at_in (dw d) o a i (VD f) P A Lt).
    destruct (wrc_ok (dw d) a i (Some (VD f)) OwnCpp cs Bl) as [w2 [E2 U2]]; [lia|]. rewrite E2. cbn [safe].
    assert (S2 : step1 (dw d) w2 o).
    { eapply step1_cells; [exact W| |exact Bl|exact U2|apply list_set_length]. split; auto. }
    pose proof U2 as [U1 [_ [_ [U4 U5]]]].
    destruct (base_step d w2 o (dinit d) B NI S2) as [B1 O1]; [now rewrite U1|rewrite U1; now apply Ow|].
    split; [exact B1|]. split; [exact O1|]. split; [exact U1|]. split; [exact Lt|]. exists f. intros k. cbn [dw].
    rewrite (cells_of_ptr w2 o a OwnCpp _ ltac:(rewrite U1; exact P) U4), (cells_of_ptr _ _ _ _ _ P Bl), list_set_nth.
    destruct (Z.eqb_spec (Z.of_nat k) i) as [<-|N].
    + rewrite Nat2Z.id, Nat.eqb_refl. replace (k <? length cs)%nat with true by (symmetry; apply Nat.ltb_lt; lia). reflexivity.
    + replace (k =? Z.to_nat i)%nat with false by (symmetry; apply Nat.eqb_neq; lia). reflexivity.
  - assert (E : set_at o i (VD f) (dw d) = at_wr o i (VD f) (dw d)) by (unfold at_wr; now rewrite bind_st, K).
    destruct (at_wr_out (dw d) o i (VD f) Ge) as [m E']. rewrite E, E'. cbn [safe]. now destruct d.
Qed.

Lemma wrote_filled o i d d' n : wrote o i d d' -> filled d o n -> filled d' o n.
Proof.
  intros [_ [_ [_ [_ [f H]]]]] F k Hk. rewrite H. destruct (Z.of_nat k =? i); [eauto|now apply F].
Qed.
Lemma wrote_next o i d d' : wrote o i d d' -> filled d o i -> filled d' o (i + 1).
Proof.
  intros [_ [_ [_ [_ [f H]]]]] F k Hk. rewrite H. destruct (Z.eqb_spec (Z.of_nat k) i) as [E|E]; [eauto|]. apply F. lia.
Qed.

(** Writing all elements of one object *)
Lemma fill_loop d1 o n body : base d1 -> sz (ob (dw d1) o) = n -> 0 <= n ->
  (forall i d, 0 <= i < n -> base d -> ob (dw d) = ob (dw d1) -> others o d1 d ->
     safe (body i d) (fun _ d' => wrote o i d d')) ->
  safe (dfor n body d1) (fun _ d' => base d' /\ others o d1 d' /\ ob (dw d') = ob (dw d1) /\ full d' o).
Proof.
  intros B Sz Hn H.
  eapply safe_weak.
  - apply (dfor_safe (fun i d => base d /\ others o d1 d /\ ob (dw d) = ob (dw d1) /\ filled d o i)); auto.
    + split; [exact B|]. split; [apply others_refl|]. split; [reflexivity|]. intros i Hi. lia.
    + intros i d Hi [B1 [O1 [E1 F1]]]. eapply safe_weak; [now apply H|]. intros ? d' Wr.
      pose proof Wr as [B2 [O2 [E2 ?]]]. split; [exact B2|]. split; [eapply others_trans; eauto|].
      split; [congruence|]. eapply wrote_next; [exact Wr|exact F1].
  - intros ? d [B1 [O1 [E1 F1]]]. split; [exact B1|]. split; [exact O1|]. split; [exact E1|].
    unfold full. rewrite E1, Sz. exact F1.
Qed.

(** Reading *)
Lemma rd_full d o i : base d -> full d o -> 0 <= i ->
  (exists f, i < sz (ob (dw d) o) /\ at_rd o i (dw d) = (Done (VD f), dw d)) \/
  (sz (ob (dw d) o) <= i /\ exists m, at_rd o i (dw d) = (Thrown (Ass m), dw d)).
Proof.
  intros B F Hi. pose proof (ba_shape _ B) as W.
  destruct (Z.ltb_spec i (sz (ob (dw d) o))) as [L|L].
  - left. destruct (F (Z.to_nat i)) as [f E]; [rewrite Z2Nat.id; lia|]. exists f. split; [exact L|].
    apply at_rd_cells; auto.
  - right. split; [exact L|]. unfold at_rd, sexp_get_at, get_at. rewrite bind_st.
    assert (Q : (i <? sz (ob (dw d) o)) = false) by (apply Z.ltb_ge; lia).
    destruct (kd (ob (dw d) o)); rewrite bind_st;
    match goal with |- context [ass ?b] => destruct b end;
    rewrite ?bind_ass_true, ?bind_ass_false, ?Q, ?bind_ass_false; eauto.
Qed.

(** A computation that only reads. *)
Definition reads (r : outcome val * dworld) (d : dworld) : Prop :=
  exists o, r = (o, d) /\ ((exists v, o = Done v /\ numb v) \/ (exists m, o = Thrown (Ass m)) \/ (z /\ o = Undef UB_div0)).

Lemma reads_bind {A} (m : M dworld val) (f : val -> M dworld A) d R : base d -> reads (m d) d ->
  (forall v, numb v -> safe (f v d) R) -> safe (bind m f d) R.
Proof.
  intros B [o [E C]] H. unfold bind. rewrite E. destruct C as [[v [-> N]]|[[s ->]|[Z ->]]]; cbn [safe]; auto.
  split; [exact Z|]. split; [reflexivity|]. apply B.
Qed.
Lemma reads_then (m : M dworld val) (f : val -> M dworld val) d : reads (m d) d ->
  (forall v, numb v -> reads (f v d) d) -> reads (bind m f d) d.
Proof.
  intros [o [E C]] H. unfold bind. rewrite E. destruct C as [[v [-> N]]|[[s ->]|[Z ->]]]; auto; eexists; (split; [reflexivity|]); eauto.
Qed.
Lemma reads_fine r d : fine r -> reads (lift r d) d.
Proof. intros [v [-> N]]. exists (Done v). split; [reflexivity|]. eauto. Qed.

(** The operands: what is read has doubles, and elements unless [z]. *)
Record ops (d : dworld) (e : dexpr) : Prop := {
  op_var : forall y, In y (dvars e) -> full d (OD (vslot y)) /\ (z \/ 1 <= sz (ob (dw d) (OD (vslot y))));
  op_con : forall k l, In (k, l) (dcons e) -> full d (OD (kslot k)) /\ 1 <= sz (ob (dw d) (OD (kslot k))) }.

Lemma ops_two d (e l r : dexpr) : ops d e -> dvars e = dvars l ++ dvars r -> dcons e = dcons l ++ dcons r -> ops d l /\ ops d r.
Proof.
  intros [V C] E1 E2. rewrite E1 in V. rewrite E2 in C.
  split; split; intros; [apply V|eapply C|apply V|eapply C]; try (apply in_or_app; (now left) || (now right));
    apply in_or_app; [left|right]; eassumption.
Qed.

Lemma leaf_val_reads d s i : base d -> full d (OD s) -> (z \/ 1 <= sz (ob (dw d) (OD s))) -> 0 <= i -> reads (leaf_val s i d) d.
Proof.
  intros B F Z Hi. unfold leaf_val. rewrite dbind_get. unfold modz.
  destruct (Z.eqb_spec (sz (ob (dw d) (OD s))) 0) as [E|N].
  - exists (Undef UB_div0). split; [reflexivity|]. right. right. split; [|reflexivity]. destruct Z; [assumption|lia].
  - unfold bind at 1. cbn [lift]. unfold inw. pose proof (sz_bound d (OD s) B) as Sb.
    assert (M : 0 <= i mod sz (ob (dw d) (OD s)) < sz (ob (dw d) (OD s))) by (apply Z.mod_pos_bound; lia).
    destruct (rd_full d (OD s) (i mod sz (ob (dw d) (OD s))) B F) as [[f [_ E]]|[X _]]; [lia| |lia].
    rewrite E. exists (Done (VD f)). split; [now destruct d|]. left. eexists. split; [reflexivity|]. apply numb_d.
Qed.

Lemma dval_reads lm e : forall d i, base d -> ops d e -> 0 <= i -> reads (dval lm e i d) d.
Proof.
  induction e as [x|ct k l|l IHl r IHr|l IHl r IHr|l IHl r IHr|l IHl r IHr|op l IHl r IHr|e IH]; intros d i B O Hi; cbn [dval];
    try (destruct (ops_two d _ l r O eq_refl eq_refl) as [Ol Or];
         apply reads_then; [now apply IHl|]; intros a Na; apply reads_then; [now apply IHr|]; intros b Nb;
         apply reads_fine; now apply fine_bin).
  - destruct (op_var _ _ O x) as [F Z]; [now left|]. now apply leaf_val_reads.
  - destruct (op_con _ _ O k l) as [F Z]; [now left|]. apply leaf_val_reads; auto.
  - apply reads_then; [apply IH; auto; split; apply O|]. intros a Na. apply reads_fine. now apply fine_sin.
Qed.

Lemma esize_to_expr w e : esize w (to_expr e) = dsize w e.
Proof.
  induction e; cbn [to_expr esize dsize]; auto;
    rewrite IHe1, IHe2; destruct e1, e2; cbn [to_expr is_sca andb]; reflexivity.
Qed.
Lemma to_expr_sca e : is_sca (to_expr e) = false.
Proof. destruct e; reflexivity. Qed.
Lemma dsize_pos d e : base d -> ops d e -> 0 <= dsize (dw d) e <= 2 ^ 60 /\ (z \/ 1 <= dsize (dw d) e).
Proof.
  intros B. induction e as [x|ct k l|l IHl r IHr|l IHl r IHr|l IHl r IHr|l IHl r IHr|op l IHl r IHr|e IH]; intros O; cbn [dsize];
    try (destruct (ops_two d _ l r O eq_refl eq_refl) as [Ol Or]; destruct (IHl Ol) as [L1 L2], (IHr Or) as [R1 R2];
         destruct (_ <? _); tauto).
  - split; [now apply sz_bound|]. apply (op_var _ _ O x). now left.
  - split; [now apply sz_bound|]. right. apply (op_con _ _ O k l). now left.
  - apply IH. split; apply O.
Qed.
Lemma dsize_var w y e : In y (dvars e) -> sz (ob w (OD (vslot y))) <= dsize w e.
Proof.
  induction e as [x|ct k l|l IHl r IHr|l IHl r IHr|l IHl r IHr|l IHl r IHr|op l IHl r IHr|e IH]; cbn [dvars dsize]; intros I;
    try (apply in_app_or in I; destruct (Z.ltb_spec (dsize w r) (dsize w l)); destruct I as [I|I]; [apply IHl in I|apply IHr in I|apply IHl in I|apply IHr in I]; lia).
  - destruct I as [->|[]]. lia.
  - destruct I.
  - now apply IH.
Qed.
Lemma dsize_same w w' e : (forall y, In y (dvars e) -> sz (ob w' (OD (vslot y))) = sz (ob w (OD (vslot y)))) ->
  (forall k l, In (k, l) (dcons e) -> sz (ob w' (OD (kslot k))) = sz (ob w (OD (kslot k)))) -> dsize w' e = dsize w e.
Proof.
  induction e as [x|ct k l|l IHl r IHr|l IHl r IHr|l IHl r IHr|l IHl r IHr|op l IHl r IHr|e IH]; cbn [dvars dcons dsize]; intros V C;
    try (rewrite IHl, IHr; [reflexivity|intros; apply V|intros; eapply C|intros; apply V|intros; eapply C]; apply in_or_app; first [right; eassumption|left; eassumption]).
  - apply V. now left.
  - apply (C k l). now left.
  - now apply IH.
Qed.

Lemma elem_reads lm e : forall d i, base d -> ops d e -> 0 <= i -> reads (inw (elem lm (to_expr e) i) d) d.
Proof.
  assert (Leaf : forall d s i, base d -> full d (OD s) -> 0 <= i -> reads (inw (at_rd (OD s) i) d) d).
  { intros d s i B F Hi. unfold inw. destruct (rd_full d (OD s) i B F Hi) as [[f [_ E]]|[_ [m E]]]; rewrite E;
      eexists; (split; [destruct d; reflexivity|]); [left|right; left]; eauto. eexists. split; [reflexivity|]. apply numb_d. }
  assert (Sub : forall l d i, (forall d i, base d -> ops d l -> 0 <= i -> reads (inw (elem lm (to_expr l) i) d) d) ->
    base d -> ops d l -> 0 <= i ->
    reads (inw (k <- lift (modz i (esize (dw d) (to_expr l))) ;; elem lm (to_expr l) k) d) d).
  { intros l d i IH B O Hi. rewrite esize_to_expr. destruct (dsize_pos d l B O) as [Sb Z]. unfold modz.
    destruct (Z.eqb_spec (dsize (dw d) l) 0) as [E|N].
    - exists (Undef UB_div0). split; [unfold inw, bind; cbn [lift]; now destruct d|]. right. right. split; [|reflexivity]. destruct Z; [assumption|lia].
    - apply IH; auto. apply Z.mod_pos_bound. lia. }
  assert (Inw : forall (m : M world val) (f : val -> M world val) d, inw (bind m f) d = bind (inw m) (fun v => inw (f v)) d).
  { intros m f d. unfold inw, bind. destruct (m (dw d)) as [[a|x|u] w]; reflexivity. }
  assert (Two : forall op l r d i, (forall d i, base d -> ops d l -> 0 <= i -> reads (inw (elem lm (to_expr l) i) d) d) ->
    (forall d i, base d -> ops d r -> 0 <= i -> reads (inw (elem lm (to_expr r) i) d) d) ->
    base d -> ops d l -> ops d r -> 0 <= i ->
    reads (inw (elem lm (EBin op (to_expr l) (to_expr r)) i) d) d).
  { intros op l r d i IHl IHr B Ol Or Hi. cbn [elem]. rewrite !to_expr_sca.
    match goal with |- reads (inw (bind get ?f) d) d => change (reads (inw (f (dw d)) d) d) end. cbv beta.
    rewrite Inw. apply reads_then; [now apply Sub|]. intros a Na.
    rewrite Inw. apply reads_then; [now apply Sub|]. intros b Nb.
    destruct (fine_bin lm op a b Na Nb) as [v [-> Nv]]. exists (Done v). split; [destruct d; reflexivity|]. eauto. }
  induction e as [x|ct k l|l IHl r IHr|l IHl r IHr|l IHl r IHr|l IHl r IHr|op l IHl r IHr|e IH]; intros d i B O Hi; cbn [to_expr];
    try (destruct (ops_two d _ l r O eq_refl eq_refl) as [Ol Or]; now apply Two).
  - cbn [elem]. apply Leaf; auto. apply (op_var _ _ O x). now left.
  - cbn [elem]. apply Leaf; auto. apply (op_con _ _ O k l). now left.
  - assert (O' : ops d e) by (split; apply O). cbn [elem]. rewrite !to_expr_sca.
    match goal with |- reads (inw (bind get ?f) d) d => change (reads (inw (f (dw d)) d) d) end. cbv beta.
    rewrite Inw. apply reads_then; [now apply Sub|]. intros a Na.
    exists (Done (VD (lm_un lm FSin (v2f a)))). split; [destruct d; reflexivity|]. left. eexists. split; [reflexivity|]. apply numb_d.
Qed.

Lemma fill_safe d o f : base d -> ~ inp o -> 1 <= sz (ob (dw d) o) ->
  safe (inw (fill o (VD f)) d) (fun _ d' => base d' /\ others o d d' /\ ob (dw d') = ob (dw d) /\
    forall n, filled d o n -> filled d' o n).
Proof.
  intros B NI Hs. pose proof B as [W L T Ow Kp]. destruct (Ow o NI) as [K [Sc Al]].
  destruct (shape_ptr (dw d) o W) as [a P]; [lia|]. destruct (ptr_live _ _ _ W P) as [cs [Bl [L1 L2]]].
  assert (Oc : owner_of (ob (dw d) o) = OwnCpp) by (unfold owner_of; now rewrite K). rewrite Oc in Bl.
  unfold inw. destruct (fill_ok (dw d) o (VD f) a _ cs P Bl) with (v' := VD f) as [w' [cs' [E [U [Len Nth]]]]]; [lia|now rewrite T|].
  rewrite E. cbn [safe]. pose proof U as [U1 [_ [_ [U4 _]]]].
  assert (S2 : step1 (dw d) w' o) by (eapply step1_cells; [exact W| |exact Bl|exact U|exact Len]; split; auto).
  destruct (base_step d w' o (dinit d) B NI S2) as [B1 O1]; [now rewrite U1|rewrite U1; now apply Ow|].
  split; [exact B1|]. split; [exact O1|]. split; [exact U1|]. intros n F k Hk. cbn [dw].
  rewrite (cells_of_ptr w' o a OwnCpp _ ltac:(rewrite U1; exact P) U4), Nth.
  destruct (_ <? _); [eauto|]. destruct (F k Hk) as [g G]. rewrite (cells_of_ptr _ _ _ _ _ P Bl) in G. eauto.
Qed.

(** Derivatives that can be asked for: enough of them, or none yet. *)
Definition askable (d : dworld) (y : dvar) : Prop :=
  (sz (ob (dw d) (OD (vslot y))) <= sz (ob (dw d) (OD (dslot y))) /\ filled d (OD (dslot y)) (sz (ob (dw d) (OD (vslot y))))) \/
  cap (ob (dw d) (OD (dslot y))) = 0.
Record asked (y : dvar) (d d' : dworld) : Prop := {
  as_base : base d';
  as_others : others (OD (dslot y)) d d';
  as_size : sz (ob (dw d') (OD (dslot y))) = sz (ob (dw d) (OD (vslot y)));
  as_full : filled d' (OD (dslot y)) (sz (ob (dw d) (OD (vslot y))));
  as_keep : sz (ob (dw d) (OD (vslot y))) <= sz (ob (dw d) (OD (dslot y))) ->
    forall k, filled d (OD (dslot y)) k -> filled d' (OD (dslot y)) k }.

Lemma dslot_v y : OD (vslot y) <> OD (dslot y).
Proof. intros E. apply od_inj in E. now apply slots_vd in E. Qed.

Lemma der_init_safe c y d : base d -> askable d y ->
  safe (der_init c y d) (fun _ d' => asked y d d').
Proof.
  intros B A. unfold der_init. apply safe_get. unfold askable in A.
  set (v := OD (vslot y)) in *. set (s := OD (dslot y)) in *.
  pose proof (sz_bound d v B) as Sv. pose proof (sz_bound d s B) as Ss.
  destruct (Z.eqb_spec (sz (ob (dw d) s)) (sz (ob (dw d) v))) as [E|N].
  - cbn [ret safe]. split; auto.
    + apply others_refl.
    + fold v s. destruct A as [[_ F]|C]; [exact F|]. destruct (ba_own _ B s (inp_d y)) as [_ [Sc _]]. intros i Hi. lia.
  - eapply safe_bind; [apply resize_safe; [exact B|apply inp_d|lia]|].
    intros [] d1 [B1 [O1 [Pos [Sz1 [G1 G2]]]]].
    assert (Asd : asked y d d1).
    { split; auto; fold v s.
      - destruct A as [[Le F]|C]; [|apply G1; lia].
        destruct (ba_own _ B s (inp_d y)) as [_ [Sc _]]. intros i Hi. rewrite G2 by lia. now apply F.
      - intros Le k F i Hi. destruct (ba_own _ B s (inp_d y)) as [_ [Sc _]]. rewrite G2 by lia. now apply F. }
    apply safe_get. destruct (_ && _); [|exact Asd].
    eapply safe_bind; [apply fill_safe; [exact B1|apply inp_d|fold s; lia]|].
    intros [] d2 [B2 [O2 [E2 F2]]]. cbn [safe].
    destruct Asd as [X1 X2 X3 X4 X5]. fold v in X3, X4, X5. fold s in X2, X3, X4, X5.
    split; cbn [dw]; fold v s; auto.
    + destruct B2; split; auto.
    + intros o' No. cbn [dw]. eapply same_obj_trans; [now apply X2|now apply O2].
    + now rewrite E2.
    + exact (F2 _ X4).
    + intros Le k F. exact (F2 _ (X5 Le k F)).
Qed.

Lemma leaf_der_safe c y i d : base d -> askable d y -> (z \/ 1 <= sz (ob (dw d) (OD (vslot y)))) -> 0 <= i ->
  safe (leaf_der c y i d) (fun v d' => numb v /\ asked y d d').
Proof.
  intros B A Z Hi. unfold leaf_der. eapply safe_bind; [apply der_init_safe; auto|].
  intros [] d1 Asd. pose proof Asd as [B1 O1 Sz F _]. apply safe_get.
  pose proof (sz_bound d (OD (vslot y)) B) as Sv. rewrite Sz. unfold modz.
  destruct (Z.eqb_spec (sz (ob (dw d) (OD (vslot y)))) 0) as [E|N].
  - cbn. split; [destruct Z; [assumption|lia]|]. split; [reflexivity|]. apply B1.
  - unfold bind. cbn [lift]. unfold inw.
    destruct (ba_own _ B1 (OD (dslot y)) (inp_d y)) as [K _].
    rewrite <- get_at_rd by congruence.
    assert (M : 0 <= i mod sz (ob (dw d) (OD (vslot y))) < sz (ob (dw d) (OD (vslot y)))) by (apply Z.mod_pos_bound; lia).
    assert (Fu : full d1 (OD (dslot y))) by (unfold full; now rewrite Sz).
    destruct (rd_full d1 (OD (dslot y)) (i mod sz (ob (dw d) (OD (vslot y)))) B1 Fu) as [[f [_ E]]|[X _]]; [lia| |lia].
    rewrite E. cbn [safe]. destruct d1. split; [apply numb_d|exact Asd].
Qed.

(** All derivatives of the variables can be asked for; the values stay. *)
Definition link (d : dworld) (y : dvar) : Prop :=
  sz (ob (dw d) (OD (dslot y))) = sz (ob (dw d) (OD (vslot y))) \/ cap (ob (dw d) (OD (dslot y))) = 0.

(** While the derivatives of x are written: i of n are. *)
Record half (e : dexpr) (x : dvar) (n i : Z) (d1 d : dworld) : Prop := {
  ha_base : base d;
  ha_keep : forall o, (forall y, o <> OD (dslot y)) -> same_obj (dw d1) (dw d) o;
  ha_full : forall o, o <> OD (dslot x) -> full d o;
  ha_link : forall y, y <> x -> link d y;
  ha_done : filled d (OD (dslot x)) i;
  ha_size : sz (ob (dw d) (OD (dslot x))) = n \/
    (In x (dvars e) /\ sz (ob (dw d) (OD (dslot x))) = sz (ob (dw d) (OD (vslot x))));
  ha_old : In x (dvars e) -> sz (ob (dw d) (OD (vslot x))) <= n /\ filled d (OD (dslot x)) (sz (ob (dw d) (OD (vslot x)))) }.

Lemma vslot_not_d x y : OD (vslot x) <> OD (dslot y).
Proof. intros E. apply od_inj in E. now apply slots_vd in E. Qed.
Lemma kslot_not_d k y : OD (kslot k) <> OD (dslot y).
Proof. intros E. apply od_inj in E. symmetry in E. now apply slots_dk in E. Qed.
Lemma dslot_inj x y : x <> y -> OD (dslot x) <> OD (dslot y).
Proof. intros N E. apply od_inj in E. apply slots_d in E. auto. Qed.

Lemma half_ops e' e x n i d1 d : half e x n i d1 d -> ops d1 e' -> ops d e'.
Proof.
  intros H [V C]. split.
  - intros y I. destruct (V y I) as [F Z]. assert (S : same_obj (dw d1) (dw d) (OD (vslot y))) by (apply H; intros; apply vslot_not_d).
    split; [eapply full_same; eauto|]. now rewrite (sz_same d1 d _ S).
  - intros k l I. destruct (C k l I) as [F Z]. assert (S : same_obj (dw d1) (dw d) (OD (kslot k))) by (apply H; intros; apply kslot_not_d).
    split; [eapply full_same; eauto|]. now rewrite (sz_same d1 d _ S).
Qed.

Lemma half_askable e x n i d1 d y : half e x n i d1 d -> In y (dvars e) -> askable d y.
Proof.
  intros H I. destruct (dvar_dec y x) as [->|N].
  - left. destruct (ha_old _ _ _ _ _ _ H I) as [L F]. split; [|exact F]. destruct (ha_size _ _ _ _ _ _ H) as [E|[_ E]]; lia.
  - destruct (ha_link _ _ _ _ _ _ H y N) as [E|E]; [left|now right]. split; [lia|]. rewrite <- E.
    apply (ha_full _ _ _ _ _ _ H). now apply dslot_inj.
Qed.

Lemma half_asked e x n i d1 d d' y : half e x n i d1 d -> In y (dvars e) -> asked y d d' -> half e x n i d1 d'.
Proof.
  intros H I A. pose proof (half_askable _ _ _ _ _ _ _ H I) as Ak.
  pose proof A as [B O Sz F Kp]. pose proof H as [HB HK HF HL HD HS HO].
  assert (Sv : forall x', sz (ob (dw d') (OD (vslot x'))) = sz (ob (dw d) (OD (vslot x')))).
  { intros x'. apply sz_same. apply O. apply vslot_not_d. }
  split; auto.
  - intros o No. eapply same_obj_trans; [now apply HK|]. apply O. apply No.
  - intros o No. destruct (oid_dec o (OD (dslot y))) as [->|Ny]; [unfold full; now rewrite Sz|].
    eapply full_same; [now apply O|now apply HF].
  - intros x' Nx. unfold link. rewrite Sv. destruct (dvar_dec x' y) as [->|Ny]; [now left|].
    assert (Sm : same_obj (dw d) (dw d') (OD (dslot x'))) by (apply O; now apply dslot_inj).
    rewrite (sz_same d d' _ Sm). destruct Sm as [-> _]. now apply HL.
  - destruct (dvar_dec x y) as [->|Ny].
    + apply Kp; auto. destruct (HO I) as [L1 _]. destruct HS as [E|[_ E]]; lia.
    + eapply filled_same; [apply O; now apply dslot_inj|exact HD].
  - rewrite Sv. destruct (dvar_dec x y) as [->|Ny]; [right; now split|].
    rewrite (sz_same d d' _ (O _ (dslot_inj _ _ Ny))). exact HS.
  - intros Ix. rewrite Sv. destruct (HO Ix) as [L1 L2]. split; [exact L1|].
    destruct (dvar_dec x y) as [->|Ny]; [exact F|]. eapply filled_same; [apply O; now apply dslot_inj|exact L2].
Qed.

Lemma dder_safe lm c e' e x n i d1 j : (forall y, In y (dvars e') -> In y (dvars e)) -> ops d1 e' -> 0 <= j ->
  forall d, half e x n i d1 d -> safe (dder lm c e' j d) (fun v d' => numb v /\ half e x n i d1 d').
Proof.
  intros Sub O Hj. revert Sub O.
  induction e' as [y|ct k l|l IHl r IHr|l IHl r IHr|l IHl r IHr|l IHl r IHr|op l IHl r IHr|e' IH]; intros Sub O d H; cbn [dder].
  all: try (destruct (ops_two d1 _ l r O eq_refl eq_refl) as [Ol Or];
    assert (Sl : forall y, In y (dvars l) -> In y (dvars e)) by (intros y Iy; apply Sub; cbn [dvars]; apply in_or_app; now left);
    assert (Sr : forall y, In y (dvars r) -> In y (dvars e)) by (intros y Iy; apply Sub; cbn [dvars]; apply in_or_app; now right);
    specialize (IHl Sl Ol); specialize (IHr Sr Or)).
  - assert (I : In y (dvars e)) by (apply Sub; now left).
    pose proof (op_var _ _ (half_ops _ _ _ _ _ _ _ H O) y ltac:(now left)) as [_ Z].
    eapply safe_weak; [apply leaf_der_safe; [apply H|eapply half_askable; eauto|exact Z|exact Hj]|].
    intros v d' [Nv A]. split; [exact Nv|]. eapply half_asked; eauto.
  - split; [apply numb_d|exact H].
  - eapply safe_bind; [now apply IHl|]. intros a d2 [Na H2]. eapply safe_bind; [now apply IHr|]. intros b d3 [Nb H3].
    destruct (fine_plus a b Na Nb) as [v [-> Nv]]. now split.
  - eapply safe_bind; [now apply IHl|]. intros a d2 [Na H2]. eapply safe_bind; [now apply IHr|]. intros b d3 [Nb H3].
    destruct (fine_minus a b Na Nb) as [v [-> Nv]]. now split.
  - eapply reads_bind; [apply H|apply dval_reads; [apply H|eapply half_ops; eauto|exact Hj]|]. intros u Nu.
    eapply reads_bind; [apply H|apply dval_reads; [apply H|eapply half_ops; eauto|exact Hj]|]. intros w Nw.
    eapply safe_bind; [now apply IHl|]. intros a d2 [Na H2]. eapply safe_bind; [now apply IHr|]. intros b d3 [Nb H3].
    destruct (fine_times u w a b Nu Nw Na Nb) as [v [-> Nv]]. now split.
  - eapply reads_bind; [apply H|apply dval_reads; [apply H|eapply half_ops; eauto|exact Hj]|]. intros u Nu.
    eapply reads_bind; [apply H|apply dval_reads; [apply H|eapply half_ops; eauto|exact Hj]|]. intros w Nw.
    eapply safe_bind; [now apply IHl|]. intros a d2 [Na H2]. eapply safe_bind; [now apply IHr|]. intros b d3 [Nb H3].
    destruct (is_const_type r).
    + destruct (fine_divc u w a b Nu Nw Na Nb) as [v [-> Nv]]. now split.
    + destruct (fine_divide lm u w a b Nu Nw Na Nb) as [v [-> Nv]]. now split.
  - eapply safe_bind; [now apply IHl|]. intros a d2 [Na H2]. eapply safe_bind; [now apply IHr|]. intros b d3 [Nb H3].
    destruct (fine_cmp a b Na Nb) as [v [-> Nv]]. now split.
  - assert (O' : ops d1 e') by (split; apply O). destruct (is_leaf e').
    + eapply reads_bind; [apply H|apply dval_reads; [apply H|eapply half_ops; eauto|exact Hj]|]. intros u Nu.
      destruct (fine_sin lm FCos u Nu) as [v [-> Nv]]. now split.
    + eapply safe_bind; [apply IH; auto|]. intros a d2 [Na H2].
      destruct (fine_sin lm FCos a Na) as [v [-> Nv]]. now split.
Qed.

(** Writing derivative i of x *)
Lemma half_write e x n i d1 d v : 0 <= i -> numb v -> half e x n i d1 d ->
  safe (der_wr x i v d) (fun _ d' => half e x n (i + 1) d1 d' /\ i + 1 <= sz (ob (dw d') (OD (dslot x)))).
Proof.
  intros Hi Nv H. unfold der_wr. destruct (cast_dbl v Nv) as [f ->]. unfold bind at 1. cbn [lift].
  eapply safe_weak; [apply set_safe; [apply H|apply inp_d|exact Hi|eexists; reflexivity]|].
  intros ? d' Wr. pose proof Wr as [B [O [E [Lt ?]]]]. pose proof H as [HB HK HF HL HD HS HO].
  split; [|rewrite E; lia].
  assert (Fl : forall k, filled d (OD (dslot x)) k -> filled d' (OD (dslot x)) k) by (intros k; eapply wrote_filled; exact Wr).
  split; auto.
  - intros o No. eapply same_obj_trans; [now apply HK|]. apply O. apply No.
  - intros o No. eapply full_same; [now apply O|now apply HF].
  - intros y Ny. unfold link. rewrite E. now apply HL.
  - eapply wrote_next; [exact Wr|exact HD].
  - rewrite E. exact HS.
  - rewrite E. intros I. destruct (HO I) as [L1 L2]. split; [exact L1|]. now apply Fl.
Qed.

Lemma der_loop e x n d1 body : 1 <= n ->
  (forall i d, 0 <= i -> half e x n i d1 d -> safe (body i d) (fun v d' => numb v /\ half e x n i d1 d')) ->
  half e x n 0 d1 d1 ->
  safe (dfor n (fun i => v <- body i ;; der_wr x i v) d1) (fun _ d' => half e x n n d1 d' /\ sz (ob (dw d') (OD (dslot x))) = n).
Proof.
  intros Hn Hb H1. eapply safe_weak.
  - apply (dfor_safe (fun i d => half e x n i d1 d /\ (i = 0 \/ i <= sz (ob (dw d) (OD (dslot x)))))); [lia| |].
    + split; [exact H1|now left].
    + intros i d Hi [H _]. eapply safe_bind; [apply Hb; [lia|exact H]|]. intros v d2 [Nv H2].
      eapply safe_weak; [apply half_write; [lia|exact Nv|exact H2]|]. intros ? d3 [H3 L]. split; [exact H3|now right].
  - intros ? d [H L]. split; [exact H|]. destruct L as [L|L]; [lia|].
    destruct (ha_size _ _ _ _ _ _ H) as [E|[I E]]; [exact E|]. destruct (ha_old _ _ _ _ _ _ H I). lia.
Qed.

(** Between statements *)
Record inv (d : dworld) : Prop := {
  in_base : base d;
  in_full : forall o, full d o;
  in_link : forall x, link d x }.

Lemma half_start e x n d d1 : base d -> (forall o, full d o) -> (forall y, y <> x \/ In x (dvars e) -> link d y) -> base d1 -> others (OD (dslot x)) d d1 -> sz (ob (dw d1) (OD (dslot x))) = n ->
  (n <= cap (ob (dw d) (OD (dslot x))) -> cells_of (dw d1) (OD (dslot x)) = cells_of (dw d) (OD (dslot x))) ->
  (cap (ob (dw d) (OD (dslot x))) < n -> filled d1 (OD (dslot x)) n) ->
  (In x (dvars e) -> sz (ob (dw d) (OD (vslot x))) <= n) ->
  half e x n 0 d1 d1.
Proof.
  intros B F L B1 O Sz C1 C2 Le. split; auto.
  - intros. apply same_obj_refl.
  - intros o No. eapply full_same; [now apply O|apply F].
  - intros y Ny. unfold link. rewrite (sz_same d d1 _ (O _ (vslot_not_d y x))).
    assert (S : same_obj (dw d) (dw d1) (OD (dslot y))) by (apply O; now apply dslot_inj).
    rewrite (sz_same d d1 _ S). destruct S as [-> _]. apply L. now left.
  - intros i Hi. lia.
  - intros I. rewrite (sz_same d d1 _ (O _ (vslot_not_d x x))). specialize (Le I). split; [exact Le|].
    destruct (Z.ltb_spec (cap (ob (dw d) (OD (dslot x)))) n) as [Lc|Lc].
    + eapply filled_le; [exact Le|now apply C2].
    + intros i Hi. rewrite (C1 Lc). apply (F (OD (dslot x))). destruct (L x (or_intror I)) as [E|E]; [lia|].
      destruct (ba_own _ B (OD (dslot x)) (inp_d x)) as [_ [Sc _]]. pose proof (sz_bound d (OD (vslot x)) B).
      lia.
Qed.

(** Another object than values and derivatives was changed and is full again. *)
Lemma inv_other o d d' : inv d -> base d' -> others o d d' -> full d' o ->
  (forall y, o <> OD (vslot y)) -> (forall y, o <> OD (dslot y)) -> inv d'.
Proof.
  intros [B F L] B' O Fo Nv Nd. split; [exact B'| |].
  - intros o'. destruct (oid_dec o' o) as [->|N]; [exact Fo|]. eapply full_same; [now apply O|apply F].
  - intros x. unfold link. rewrite (sz_same d d' (OD (vslot x))) by (apply O; congruence).
    assert (S : same_obj (dw d) (dw d') (OD (dslot x))) by (apply O; congruence).
    rewrite (sz_same d d' _ S). destruct S as [-> _]. apply L.
Qed.

Lemma kslot_not_v k y : OD (kslot k) <> OD (vslot y).
Proof. intros E. apply od_inj in E. symmetry in E. now apply slots_vk in E. Qed.

Lemma mk_con_safe k l d : inv d -> Z.of_nat (length l) < 2 ^ 63 ->
  safe (mk_con k l d) (fun _ d' => inv d' /\ others (OD (kslot k)) d d' /\ 1 <= sz (ob (dw d') (OD (kslot k)))).
Proof.
  intros I Hl. unfold mk_con.
  eapply safe_bind; [apply resize_safe; [apply I|apply inp_k|exact Hl]|].
  intros [] d1 [B1 [O1 [Pos [Sz1 _]]]].
  eapply safe_weak; [apply (fill_loop d1 (OD (kslot k))); [exact B1|exact Sz1|lia|]|].
  - intros i d2 Hi B2 E2 O2. apply set_safe; [exact B2|apply inp_k|lia|eexists; reflexivity].
  - intros ? d2 [B2 [O2 [E2 F2]]]. pose proof (others_trans _ _ _ _ O1 O2) as O3.
    split; [|split; [exact O3|rewrite E2; lia]].
    eapply inv_other; [exact I|exact B2|exact O3|exact F2|apply kslot_not_v|apply kslot_not_d].
Qed.

Definition only_k (d d' : dworld) : Prop := forall o, (forall k, o <> OD (kslot k)) -> same_obj (dw d) (dw d') o.
Lemma mk_cons_safe e : forall d, inv d -> (forall k l, In (k, l) (dcons e) -> Z.of_nat (length l) < 2 ^ 63) ->
  safe (mk_cons e d) (fun _ d' => inv d' /\ only_k d d' /\
    (forall k, 1 <= sz (ob (dw d) (OD (kslot k))) -> 1 <= sz (ob (dw d') (OD (kslot k)))) /\
    (forall k l, In (k, l) (dcons e) -> 1 <= sz (ob (dw d') (OD (kslot k))))).
Proof.
  assert (Two : forall l r d,
    (forall d, inv d -> (forall k v, In (k, v) (dcons l) -> Z.of_nat (length v) < 2 ^ 63) ->
       safe (mk_cons l d) (fun _ d' => inv d' /\ only_k d d' /\
         (forall k, 1 <= sz (ob (dw d) (OD (kslot k))) -> 1 <= sz (ob (dw d') (OD (kslot k)))) /\
         (forall k v, In (k, v) (dcons l) -> 1 <= sz (ob (dw d') (OD (kslot k)))))) ->
    (forall d, inv d -> (forall k v, In (k, v) (dcons r) -> Z.of_nat (length v) < 2 ^ 63) ->
       safe (mk_cons r d) (fun _ d' => inv d' /\ only_k d d' /\
         (forall k, 1 <= sz (ob (dw d) (OD (kslot k))) -> 1 <= sz (ob (dw d') (OD (kslot k)))) /\
         (forall k v, In (k, v) (dcons r) -> 1 <= sz (ob (dw d') (OD (kslot k)))))) ->
    inv d -> (forall k v, In (k, v) (dcons l ++ dcons r) -> Z.of_nat (length v) < 2 ^ 63) ->
    safe ((mk_cons l ;; mk_cons r) d) (fun _ d' => inv d' /\ only_k d d' /\
         (forall k, 1 <= sz (ob (dw d) (OD (kslot k))) -> 1 <= sz (ob (dw d') (OD (kslot k)))) /\
         (forall k v, In (k, v) (dcons l ++ dcons r) -> 1 <= sz (ob (dw d') (OD (kslot k)))))).
  { intros l r d IHl IHr I Hl.
    eapply safe_bind; [apply IHl; [exact I|intros; eapply Hl; apply in_or_app; left; eassumption]|].
    intros [] d1 [I1 [O1 [P1 C1]]].
    eapply safe_weak; [apply IHr; [exact I1|intros; eapply Hl; apply in_or_app; right; eassumption]|].
    intros ? d2 [I2 [O2 [P2 C2]]]. split; [exact I2|]. split.
    { intros o N. eapply same_obj_trans; [now apply O1|now apply O2]. }
    split; [intros k Hk; auto|]. intros k v Ik. apply in_app_or in Ik. destruct Ik as [Ik|Ik]; [apply P2|]; eauto. }
  induction e as [x|ct k l|l IHl r IHr|l IHl r IHr|l IHl r IHr|l IHl r IHr|op l IHl r IHr|e IH]; intros d I Hl; cbn [mk_cons dcons] in *;
    try (now apply Two).
  - cbn [ret safe]. split; [exact I|]. split; [intros o _; apply same_obj_refl|]. split; [auto|]. intros k l [].
  - eapply safe_weak; [apply mk_con_safe; [exact I|apply (Hl k l); now left]|].
    intros ? d1 [I1 [O1 P1]]. split; [exact I1|]. split; [intros o N; apply O1; apply N|]. split.
    + intros k' Hk. destruct (Nat.eq_dec k' k) as [->|N]; [exact P1|].
      rewrite (sz_same d d1); [exact Hk|]. apply O1. intros E. apply od_inj in E. apply slots_k in E. auto.
    + intros k' l' [E|[]]. injection E as <- <-. exact P1.
  - now apply IH.
Qed.

(** Assignment to a Buffer variable. *)
Lemma buf_wr_safe c x i v d : knd x = KBuffer -> (num x < nbuf c)%nat -> base d -> numb v -> 0 <= i ->
  safe (buf_wr c (num x) i v d) (fun _ d' => wrote (OD (vslot x)) i d d').
Proof.
  intros K N B Nv Hi. unfold buf_wr. replace (num x <? nbuf c)%nat with true by (symmetry; now apply Nat.ltb_lt).
  assert (E : DV KBuffer (num x) = x) by (destruct x; cbn in *; congruence). rewrite E.
  match goal with |- safe (bind (inw (st ?o)) ?f d) _ => replace (bind (inw (st o)) f d) with (f (ob (dw d) o) d) by (destruct d; reflexivity) end.
  cbv beta. rewrite (ba_ty _ B). destruct (cast_dbl v Nv) as [f ->]. unfold bind. cbn [lift].
  assert (NI : ~ inp (OD (vslot x))) by (now apply inp_v).
  replace (inw (at_wr (OD (vslot x)) i (VD f)) d) with (inw (set_at (OD (vslot x)) i (VD f)) d).
  - apply set_safe; auto. eexists; reflexivity.
  - unfold inw, at_wr. rewrite bind_st. destruct (ba_own _ B _ NI) as [-> _]. reflexivity.
Qed.
Lemma any_resize_own d o n : base d -> ~ inp o -> inw (any_resize o n) d = inw (resize o n) d.
Proof. intros B NI. unfold inw, any_resize. rewrite bind_st. destruct (ba_own _ B _ NI) as [-> _]. reflexivity. Qed.

(** After an assignment: x has n elements and n derivatives. *)
Record assigned (x : dvar) (d d' : dworld) : Prop := {
  an_inv : inv d';
  an_vals : forall y, y <> x -> sz (ob (dw d') (OD (vslot y))) = sz (ob (dw d) (OD (vslot y)));
  an_size : 1 <= sz (ob (dw d') (OD (vslot x))) }.

(** The values of x are resized and overwritten *)
Lemma values_safe x n body d :
  base d -> ~ inp (OD (vslot x)) -> n < 2 ^ 63 ->
  (forall i d2, 0 <= i -> base d2 -> others (OD (vslot x)) d d2 -> sz (ob (dw d2) (OD (vslot x))) = n ->
     safe (body i d2) (fun _ d' => wrote (OD (vslot x)) i d2 d')) ->
  safe ((inw (any_resize (OD (vslot x)) n) ;; dfor n body) d)
    (fun _ d' => base d' /\ others (OD (vslot x)) d d' /\ full d' (OD (vslot x)) /\ sz (ob (dw d') (OD (vslot x))) = n /\ 1 <= n).
Proof.
  intros B NI Hn Hb. unfold bind at 1. rewrite any_resize_own by assumption.
  match goal with |- safe (match ?r with _ => _ end) _ => pose proof (resize_safe d (OD (vslot x)) n B NI Hn) as R end.
  destruct (inw (resize (OD (vslot x)) n) d) as [[[]|[m|]|u] d1]; cbn [safe] in R |- *; auto.
  destruct R as [B1 [O1 [Pos [Sz1 _]]]].
  eapply safe_weak; [apply (fill_loop d1 (OD (vslot x))); [exact B1|exact Sz1|lia|]|].
  - intros i d2 Hi B2 E2 O2. apply Hb; [lia|exact B2|eapply others_trans; eauto|now rewrite E2].
  - intros ? d2 [B2 [O2 [E2 F2]]]. split; [exact B2|]. split; [eapply others_trans; eauto|]. split; [exact F2|].
    split; [now rewrite E2|exact Pos].
Qed.

Lemma bind_assoc3 {A B C} (m : M dworld A) (f : A -> M dworld B) (g : B -> M dworld C) d R :
  safe (bind (bind m f) g d) R -> safe (bind m (fun a => bind (f a) g) d) R.
Proof. now rewrite dbind_assoc. Qed.

Lemma shape_safe x e d : base d -> (forall o, full d o) -> (forall y, link d y) -> knd x = KBuffer ->
  safe (dshape x e d) (fun _ d' => inv d' /\ forall y, sz (ob (dw d') (OD (vslot y))) = sz (ob (dw d) (OD (vslot y)))).
Proof.
  intros B F L K. unfold dshape, inw. rewrite take_shape_done.
  destruct (eim (dw d) e); cbn [safe].
  2:{ split; [split; [destruct B; split; auto|exact F|exact L]|reflexivity]. }
  set (m := shape_of _ _ _).
  assert (NI : ~ inp (OD (vslot x))) by now apply inp_v.
  destruct (base_step d _ (OD (vslot x)) (dinit d) B NI (step1_mp (dw d) (OD (vslot x)) m (ba_shape _ B))) as [B1 O1].
  { rewrite ob_set_same. apply (ba_ty _ B). }
  { rewrite ob_set_same. exact (ba_own _ B _ NI). }
  assert (Sv : forall o, sz (ob (set_ob (dw d) (OD (vslot x)) (with_mp m (ob (dw d) (OD (vslot x))))) o) = sz (ob (dw d) o)).
  { intros o. destruct (oid_dec o (OD (vslot x))) as [->|N]; [now rewrite ob_set_same|]. now rewrite ob_set_other. }
  split; [split; [exact B1| |]|].
  - intros o. unfold full. cbn [dw]. rewrite Sv. destruct (oid_dec o (OD (vslot x))) as [->|N].
    + intros i Hi. unfold cells_of. cbn [dw hp]. rewrite ob_set_same. exact (F _ i Hi).
    + eapply filled_same; [now apply (O1 o N)|]. apply F.
  - intros y. unfold link. cbn [dw]. rewrite !Sv, ob_set_other by (intros E; symmetry in E; now apply vslot_not_d in E). apply L.
  - intros y. cbn [dw]. apply Sv.
Qed.

Lemma get_temp x i d : base d -> full d (OT x) -> 0 <= i -> reads (inw (get_at (OT x) i) d) d.
Proof.
  intros B F Hi. unfold inw. destruct (ba_own _ B (OT x) (inp_t x)) as [K _]. rewrite <- get_at_rd by congruence.
  destruct (rd_full d (OT x) i B F Hi) as [[f [_ E]]|[_ [m E]]]; rewrite E; eexists; (split; [destruct d; reflexivity|]).
  - left. eexists. split; [reflexivity|apply numb_d].
  - right. left. eauto.
Qed.
Lemma get_at_slot s i d : base d -> full d (OD s) -> 0 <= i -> reads (inw (at_rd (OD s) i) d) d.
Proof.
  intros B F Hi. unfold inw.
  destruct (rd_full d (OD s) i B F Hi) as [[f [_ E]]|[_ [m E]]]; rewrite E; eexists; (split; [destruct d; reflexivity|]).
  - left. eexists. split; [reflexivity|apply numb_d].
  - right. left. eauto.
Qed.

Lemma dassign_con_safe c x k d : knd x = KBuffer -> (num x < nbuf c)%nat -> inv d ->
  safe (dassign_con c x k d) (fun _ d' => assigned x d d').
Proof.
  intros K N I. pose proof I as [B F L]. assert (NI : ~ inp (OD (vslot x))) by now apply inp_v.
  unfold dassign_con. apply safe_get. set (n := sz (ob (dw d) (OD (kslot k)))).
  pose proof (sz_bound d (OD (kslot k)) B) as Hn. fold n in Hn. cbv zeta.
  apply bind_assoc3. eapply safe_bind; [apply values_safe; [exact B|exact NI|lia|]|].
  { intros i d2 Hi B2 O2 _. eapply reads_bind; [exact B2|apply get_at_slot; [exact B2| |exact Hi]|].
    - eapply full_same; [apply O2; apply kslot_not_v|apply F].
    - intros v Nv. now apply buf_wr_safe. }
  intros [] d1 [B1 [O1 [F1 [Sz1 Pos]]]].
  eapply safe_bind; [apply resize_safe; [exact B1|apply inp_d|lia]|].
  intros [] d2 [B2 [O2 [_ [Sz2 _]]]].
  eapply safe_bind; [apply (fill_loop d2 (OD (dslot x))); [exact B2|exact Sz2|lia|]|].
  { intros i d3 Hi B3 _ _. unfold der_wr. unfold bind. cbn [lift cast].
    apply set_safe; [exact B3|apply inp_d|lia|]. destruct (_ =? _); eexists; reflexivity. }
  intros [] d3 [B3 [O3 [E3 F3]]]. pose proof (others_trans _ _ _ _ O2 O3) as O4.
  assert (Sv : sz (ob (dw d3) (OD (vslot x))) = n) by (rewrite (sz_same d1 d3); [exact Sz1|apply O4; apply vslot_not_d]).
  assert (Sd : sz (ob (dw d3) (OD (dslot x))) = n) by now rewrite E3.
  assert (Sm : forall o, o <> OD (vslot x) -> o <> OD (dslot x) -> same_obj (dw d) (dw d3) o).
  { intros o N1 N2. eapply same_obj_trans; [now apply O1|now apply O4]. }
  assert (A : assigned x d d3).
  { split; [split; [exact B3| |]| |lia].
    - intros o. destruct (oid_dec o (OD (dslot x))) as [->|N1]; [exact F3|].
      eapply full_same; [now apply O4|]. destruct (oid_dec o (OD (vslot x))) as [->|N2]; [exact F1|].
      eapply full_same; [now apply O1|apply F].
    - intros y. destruct (dvar_dec y x) as [->|Ny]; [left; congruence|].
      assert (Nv : OD (vslot y) <> OD (vslot x)) by (intros E; apply od_inj, slots_v in E; congruence).
      assert (S1 : same_obj (dw d) (dw d3) (OD (vslot y))) by (apply Sm; [exact Nv|apply vslot_not_d]).
      assert (S2 : same_obj (dw d) (dw d3) (OD (dslot y))).
      { apply Sm; [intros E; symmetry in E; now apply vslot_not_d in E|now apply dslot_inj]. }
      unfold link. rewrite (sz_same d d3 _ S1), (sz_same d d3 _ S2). destruct S2 as [-> _]. apply L.
    - intros y Ny. apply sz_same, Sm; [intros E; apply od_inj, slots_v in E; congruence|apply vslot_not_d]. }
  apply safe_get. unfold ass. destruct (negb _); cbn; [exact A|exact B3].
Qed.

(** The values come last; then everything holds again. *)
Lemma finish_safe e x n d1 d body tail : knd x = KBuffer -> half e x n n d1 d -> sz (ob (dw d) (OD (dslot x))) = n -> n < 2 ^ 63 ->
  (forall i d2, 0 <= i -> base d2 -> others (OD (vslot x)) d d2 -> sz (ob (dw d2) (OD (vslot x))) = n ->
     safe (body i d2) (fun _ d' => wrote (OD (vslot x)) i d2 d')) ->
  safe ((inw (any_resize (OD (vslot x)) n) ;; dfor n body ;; dshape x tail) d) (fun _ d' => assigned x d d').
Proof.
  intros K H Sd Hn Hb. assert (NI : ~ inp (OD (vslot x))) by now apply inp_v.
  apply bind_assoc3. eapply safe_bind; [apply values_safe; [apply H|exact NI|exact Hn|exact Hb]|].
  intros [] d2 [B2 [O2 [F2 [Sz2 Pos]]]].
  assert (Nd : forall y, OD (dslot y) <> OD (vslot x)) by (intros y E; symmetry in E; now apply vslot_not_d in E).
  eapply safe_weak; [apply shape_safe; [exact B2| | |exact K]|].
  - intros o. destruct (oid_dec o (OD (vslot x))) as [->|N]; [exact F2|]. eapply full_same; [now apply O2|].
    destruct (oid_dec o (OD (dslot x))) as [->|N2]; [|now apply (ha_full _ _ _ _ _ _ H)].
    unfold full. rewrite Sd. apply H.
  - intros y. unfold link. rewrite (sz_same d d2 (OD (dslot y))) by (apply O2, Nd).
    destruct (dvar_dec y x) as [->|Ny]; [left; congruence|].
    assert (Nv : OD (vslot y) <> OD (vslot x)) by (intros E; apply od_inj, slots_v in E; congruence).
    rewrite (sz_same d d2 (OD (vslot y))) by now apply O2. destruct (O2 _ (Nd y)) as [-> _].
    now apply (ha_link _ _ _ _ _ _ H).
  - intros ? d3 [I3 Sv]. split; [exact I3| |rewrite Sv, Sz2; exact Pos].
    intros y Ny. rewrite Sv. apply sz_same, O2. intros E; apply od_inj, slots_v in E; congruence.
Qed.

Lemma assigned_after e x n d d1 d' : (forall o, (forall y, o <> OD (dslot y)) -> o <> OT (vslot x) -> same_obj (dw d) (dw d1) o) ->
  forall d2, half e x n n d1 d2 -> assigned x d2 d' -> assigned x d d'.
Proof.
  intros Sm d2 H [I V S]. split; auto. intros y Ny. rewrite (V y Ny).
  rewrite (sz_same d1 d2) by (apply H; intros; apply vslot_not_d). apply sz_same, Sm; [intros; apply vslot_not_d|discriminate].
Qed.

Lemma ops_keep e d d' : (forall y, In y (dvars e) -> same_obj (dw d) (dw d') (OD (vslot y))) ->
  (forall k l, In (k, l) (dcons e) -> same_obj (dw d) (dw d') (OD (kslot k))) -> ops d e -> ops d' e.
Proof.
  intros Hv Hk [V C]. split.
  - intros y I. destruct (V y I) as [F Z]. split; [eapply full_same; eauto|]. now rewrite (sz_same d d' _ (Hv y I)).
  - intros k l I. destruct (C k l I) as [F Z]. split; [eapply full_same; eauto|]. now rewrite (sz_same d d' _ (Hk k l I)).
Qed.

Lemma dassign_exp_safe lm c x e d : knd x = KBuffer -> (num x < nbuf c)%nat -> inv d -> ops d e ->
  safe (dassign_exp lm c x e d) (fun _ d' => assigned x d d').
Proof.
  intros K N I O. pose proof I as [B F L]. unfold dassign_exp. apply safe_get. rewrite esize_to_expr.
  set (n := dsize (dw d) e). destruct (dsize_pos d e B O) as [Hn _]. fold n in Hn. cbv zeta.
  eapply safe_bind; [apply resize_safe; [exact B|apply inp_t|lia]|].
  intros [] d1 [B1 [O1 [Pos [Sz1 _]]]].
  assert (Op1 : forall d2, others (OT (vslot x)) d d2 -> ops d2 e).
  { intros d2 O2. eapply ops_keep; [| |exact O]; intros; apply O2; discriminate. }
  eapply safe_bind; [apply (fill_loop d1 (OT (vslot x))); [exact B1|exact Sz1|lia|]|].
  { intros i d2 Hi B2 E2 O2. eapply reads_bind; [exact B2|apply elem_reads; [exact B2| |lia]|].
    - apply Op1. eapply others_trans; eauto.
    - intros v Nv. destruct (cast_dbl v Nv) as [f ->]. unfold bind. cbn [lift].
      apply set_safe; [exact B2|apply inp_t|lia|eexists; reflexivity]. }
  intros [] d2 [B2 [O2 [E2 F2]]]. pose proof (others_trans _ _ _ _ O1 O2) as O3.
  assert (I2 : inv d2) by (eapply inv_other; [exact I|exact B2|exact O3|exact F2|discriminate|discriminate]).
  eapply safe_bind; [apply resize_safe; [exact B2|apply inp_d|lia]|].
  intros [] d3 [B3 [O4 [_ [Sz3 [G1 G2]]]]].
  assert (Sn : dsize (dw d2) e = n).
  { apply dsize_same; intros; apply sz_same, O3; discriminate. }
  assert (Sn3 : dsize (dw d3) e = n).
  { rewrite <- Sn. apply dsize_same; intros; apply sz_same, O4; [apply vslot_not_d|apply kslot_not_d]. }
  assert (H3 : half e x n 0 d3 d3).
  { apply (half_start e x n d2 d3); auto; try apply I2. - intros y _. apply I2. - intros Ix. rewrite <- Sn. now apply dsize_var. }
  apply safe_get. rewrite Sn3.
  eapply safe_bind; [apply (der_loop e x n d3 (dder lm c e)); [lia| |exact H3]|].
  { intros i d4 Hi H4. apply dder_safe; auto. eapply ops_keep; [| |exact (Op1 d2 O3)]; intros; apply O4; [apply vslot_not_d|apply kslot_not_d]. }
  intros [] d4 [H4 Sz4].
  assert (Ft : full d4 (OT (vslot x))).
  { apply (ha_full _ _ _ _ _ _ H4). discriminate. }
  eapply safe_weak; [apply (finish_safe e x n d3); [exact K|exact H4|exact Sz4|lia|]|].
  - intros i d5 Hi B5 O5 _. eapply reads_bind; [exact B5|apply get_temp; [exact B5| |exact Hi]|].
    + eapply full_same; [apply O5; discriminate|exact Ft].
    + intros v Nv. now apply buf_wr_safe.
  - intros ? d5 A. eapply assigned_after; [|exact H4|exact A].
    intros o Nd Nt. eapply same_obj_trans; [now apply O3|now apply O4].
Qed.

Lemma dassign_var_safe c x y d : knd x = KBuffer -> x <> y -> inv d -> ops d (DVar y) ->
  safe (dassign_var c x y d) (fun _ d' => assigned x d d').
Proof.
  intros K Ne I O. pose proof I as [B F L]. assert (NI : ~ inp (OD (vslot x))) by now apply inp_v.
  destruct (op_var _ _ O y ltac:(now left)) as [Fy Zy].
  assert (Nv : forall y, y <> x -> OD (vslot y) <> OD (vslot x)) by (intros y' N E; apply od_inj, slots_v in E; congruence).
  unfold dassign_var. apply safe_get. set (n := sz (ob (dw d) (OD (vslot y)))).
  pose proof (sz_bound d (OD (vslot y)) B) as Hn. fold n in Hn. cbv zeta.
  eapply safe_bind; [rewrite any_resize_own by assumption; apply resize_safe; [exact B|exact NI|lia]|].
  intros [] d1 [B1 [O1 [Pos [Sz1 _]]]]. apply safe_get. rewrite Sz1.
  eapply safe_bind; [apply (fill_loop d1 (OD (vslot x))); [exact B1|exact Sz1|lia|]|].
  { intros i d2 Hi B2 E2 O2. pose proof (others_trans _ _ _ _ O1 O2) as O3.
    assert (Sy : same_obj (dw d) (dw d2) (OD (vslot y))) by (apply O3, Nv; congruence).
    assert (Rd : exists o, leaf_val (vslot y) i d2 = (o, d2) /\ ((exists v, o = Done v /\ dbl v) \/ (z /\ o = Undef UB_div0))).
    { unfold leaf_val. rewrite dbind_get, (sz_same d d2 _ Sy). fold n. unfold modz.
      replace (n =? 0) with false by (symmetry; apply Z.eqb_neq; lia).
      unfold bind, inw. cbn [lift]. assert (M : 0 <= i mod n < n) by (apply Z.mod_pos_bound; lia).
      destruct (rd_full d2 (OD (vslot y)) (i mod n) B2) as [[f [_ E]]|[X _]]; [eapply full_same; eauto|lia| |].
      - rewrite E. exists (Done (VD f)). split; [now destruct d2|]. left. eexists. split; [reflexivity|]. eexists; reflexivity.
      - rewrite (sz_same d d2 _ Sy) in X. fold n in X. lia. }
    destruct Rd as [o [E [[v [-> Dv]]|[Z ->]]]]; unfold bind; rewrite E; [|split; [exact Z|split; [reflexivity|apply B2]]].
    replace (inw (at_wr (OD (vslot x)) i v) d2) with (inw (set_at (OD (vslot x)) i v) d2).
    - apply set_safe; auto. lia.
    - unfold inw, at_wr. rewrite bind_st. destruct (ba_own _ B2 _ NI) as [-> _]. reflexivity. }
  intros [] d2 [B2 [O2 [E2 F2]]]. pose proof (others_trans _ _ _ _ O1 O2) as O3.
  assert (Fa : forall o, full d2 o).
  { intros o. destruct (oid_dec o (OD (vslot x))) as [->|N]; [exact F2|]. eapply full_same; [now apply O3|apply F]. }
  assert (Nd : forall y, OD (dslot y) <> OD (vslot x)) by (intros y' E; symmetry in E; now apply vslot_not_d in E).
  assert (Lk : forall y, y <> x -> link d2 y).
  { intros y' N. unfold link. rewrite (sz_same d d2 (OD (vslot y'))) by now apply O3, Nv.
    rewrite (sz_same d d2 (OD (dslot y'))) by apply O3, Nd. destruct (O3 _ (Nd y')) as [-> _]. apply L. }
  eapply safe_bind; [apply resize_safe; [exact B2|apply inp_d|lia]|].
  intros [] d3 [B3 [O4 [_ [Sz3 [G1 G2]]]]].
  assert (Nx : ~ In x (dvars (DVar y))) by (intros [E|[]]; congruence).
  assert (H3 : half (DVar y) x n 0 d3 d3).
  { apply (half_start (DVar y) x n d2 d3); auto; [intros y' [N|Ix]; [now apply Lk|contradiction]|contradiction]. }
  eapply safe_bind; [apply (der_loop (DVar y) x n d3 (leaf_der c y)); [lia| |exact H3]|].
  { intros i d4 Hi H4. apply (dder_safe (Build_libm (fun _ f => f) (fun f _ => f)) c (DVar y)); auto.
    eapply ops_keep; [| |exact O]; [|intros k l []]. intros y' [<-|[]].
    eapply same_obj_trans; [apply O3, Nv; congruence|apply O4, vslot_not_d]. }
  intros [] d4 [H4 Sz4].
  assert (Sv : forall y', sz (ob (dw d4) (OD (vslot y'))) = sz (ob (dw d2) (OD (vslot y')))).
  { intros y'. rewrite (sz_same d3 d4) by (apply H4; intros; apply vslot_not_d). apply sz_same, O4, vslot_not_d. }
  eapply safe_weak; [apply shape_safe; [apply H4| | |exact K]|].
  - intros o. destruct (oid_dec o (OD (dslot x))) as [->|N2]; [|now apply (ha_full _ _ _ _ _ _ H4)].
    unfold full. rewrite Sz4. apply H4.
  - intros y'. destruct (dvar_dec y' x) as [->|Ny]; [left; rewrite Sv, E2; congruence|]. now apply (ha_link _ _ _ _ _ _ H4).
  - intros ? d5 [I5 S5]. split; [exact I5| |rewrite S5, Sv, E2, Sz1; exact Pos].
    intros y' Ny. rewrite S5, Sv. apply sz_same, O3. now apply Nv.
Qed.

Lemma dexec_safe lm c s d : assigns c s -> inv d ->
  (match s with DAssign x e => forall y, In y (dvars e) -> z \/ 1 <= sz (ob (dw d) (OD (vslot y))) end) ->
  safe (dexec lm c s d) (fun _ d' => assigned (target s) d d').
Proof.
  destruct s as [x e]. intros [K [N [Nx Hl]]] I Hz. cbn [dexec target].
  eapply safe_bind; [apply mk_cons_safe; [exact I|exact Hl]|].
  intros [] d1 [I1 [O1 [_ C1]]].
  assert (Sv : forall y, sz (ob (dw d1) (OD (vslot y))) = sz (ob (dw d) (OD (vslot y)))).
  { intros y. apply sz_same, O1. intros k E. symmetry in E. now apply kslot_not_v in E. }
  assert (O : ops d1 e).
  { split.
    - intros y Iy. split; [apply I1|]. rewrite Sv. now apply Hz.
    - intros k l Ik. split; [apply I1|]. eapply C1; eauto. }
  assert (Fin : forall r, safe r (fun _ d' => assigned x d1 d') -> safe r (fun (_ : unit) d' => assigned x d d')).
  { intros r H. eapply safe_weak; [exact H|]. intros ? d' [A1 A2 A3]. split; auto. intros y Ny. rewrite A2 by auto. apply Sv. }
  destruct e; apply Fin; try (now apply dassign_exp_safe).
  - apply dassign_var_safe; auto. intros ->. now apply Nx.
  - now apply dassign_con_safe.
Qed.

Lemma drun_safe lm c p : forall (V : dvar -> Prop) d, Forall (assigns c) p -> (z \/ reads_known V p) ->
  (forall y, V y -> 1 <= sz (ob (dw d) (OD (vslot y)))) -> inv d ->
  safe (drun lm c p d) (fun _ d' => inv d' /\
    forall y, V y \/ In y (map target p) -> 1 <= sz (ob (dw d') (OD (vslot y)))).
Proof.
  induction p as [|s p IH]; intros V d Fa Rk Vd I; cbn [drun].
  - cbn [ret safe]. split; [exact I|]. intros y [Hy|[]]. now apply Vd.
  - inversion Fa as [|? ? As Fa']; subst.
    eapply safe_bind; [apply dexec_safe; [exact As|exact I|]|].
    { destruct s as [x e]. intros y Iy. destruct Rk as [Z|[R _]]; [now left|]. right. apply Vd. now apply R. }
    intros [] d1 [I1 V1 S1].
    eapply safe_weak; [apply (IH (fun y => y = target s \/ V y)); auto|].
    + destruct s as [x e]. destruct Rk as [Z|[_ R]]; [now left|now right].
    + intros y [->|Hy]; [exact S1|]. destruct (dvar_dec y (target s)) as [->|N]; [exact S1|]. rewrite V1; auto.
    + intros ? d2 [I2 V2]. split; [exact I2|]. intros y [Hy|[<-|Hy]]; apply V2; auto.
Qed.
End From.

(** The start *)
Lemma begun_inv ins d : begun ins d -> inv d d.
Proof.
  intros [W In Rs].
  assert (Dec : forall o, (exists x vs, ins x = Some vs /\ o = OD (vslot x)) \/ ob (dw d) o = store_default KBuffer TDouble).
  { intros [s|s]; [|right; apply Rs; discriminate].
    destruct (slot_var s) as [[y Ey]|Ns].
    - destruct (ins y) as [vs|] eqn:E; [left; exists y, vs; split; [exact E|now rewrite Ey]|].
      right. apply Rs. intros x Hx X. apply od_inj in X. subst s. apply slots_v in X. congruence.
    - right. apply Rs. intros x _ X. apply od_inj in X. now apply (Ns x). }
  split; [split|  |].
  - exact W.
  - intros N. exact N.
  - intros o. destruct (Dec o) as [[x [vs [E ->]]]| ->]; [|reflexivity]. now apply (In x vs E).
  - intros o NI. destruct (Dec o) as [[x [vs [E ->]]]| ->].
    + exfalso. apply NI. exists x. split; [now apply (In x vs E)|reflexivity].
    + split; [reflexivity|]. cbn. split; [lia|discriminate].
  - intros o _. apply same_obj_refl.
  - intros o. unfold full. destruct (Dec o) as [[x [vs [E ->]]]|E].
    + destruct (In x vs E) as [_ [_ H]]. apply holds_cells in H; [|exact W]. destruct H as [Sz H]. rewrite map_length in *.
      intros i Hi. exists (nth i vs fzero). rewrite H by lia. f_equal. now apply nth_vd; lia.
    + rewrite E. intros i Hi. cbn in Hi. lia.
  - intros x. right. destruct (Dec (OD (dslot x))) as [[y [vs [_ E]]]| ->]; [|reflexivity].
    symmetry in E. now apply vslot_not_d in E.
Qed.

Lemma full_list d0 d o : inv d0 d -> exists l, holds (dw d) o (map VD l).
Proof.
  intros [B F _]. pose proof (sz_bound d0 d o B) as Sb. specialize (F o). unfold full, filled in F.
  assert (G : exists l, Z.of_nat (length l) = sz (ob (dw d) o) /\
    forall i, (i < length l)%nat -> nth i (cells_of (dw d) o) None = Some (VD (nth i l fzero))).
  { assert (Q : forall n : nat, Z.of_nat n <= sz (ob (dw d) o) -> exists l, length l = n /\
      forall i, (i < length l)%nat -> nth i (cells_of (dw d) o) None = Some (VD (nth i l fzero))).
    { induction n as [|n IH]; intros Hn.
      - exists []. split; [reflexivity|]. intros i Hi. cbn in Hi. lia.
      - destruct IH as [l [L H]]; [lia|]. destruct (F n) as [f Ef]; [lia|]. exists (l ++ [f])%list. rewrite app_length. cbn [List.length].
        split; [lia|]. intros i Hi. destruct (Nat.eq_dec i n) as [->|N].
        + rewrite app_nth2 by lia. rewrite L, Nat.sub_diag. exact Ef.
        + rewrite app_nth1 by lia. apply H. lia. }
    destruct (Q (Z.to_nat (sz (ob (dw d) o)))) as [l [L H]]; [lia|]. exists l. split; [lia|exact H]. }
  destruct G as [l [L H]]. exists l. apply holds_cells; [apply B|]. rewrite map_length. split; [now rewrite L|].
  intros i Hi. rewrite H by exact Hi. f_equal. symmetry. now apply nth_vd.
Qed.

Lemma inv_asked d0 y d d' : inv d0 d -> asked d0 y d d' -> inv d0 d'.
Proof.
  intros [B F L] [B' O Sz Fu _]. split; [exact B'| |].
  - intros o. destruct (oid_dec o (OD (dslot y))) as [->|N]; [unfold full; now rewrite Sz|]. eapply full_same; [now apply O|apply F].
  - intros x. unfold link. rewrite (sz_same d d' (OD (vslot x))) by apply O, vslot_not_d.
    destruct (dvar_dec x y) as [->|N]; [now left|].
    assert (S : same_obj (dw d) (dw d') (OD (dslot x))) by (apply O; now apply dslot_inj).
    rewrite (sz_same d d' _ S). destruct S as [-> _]. apply L.
Qed.
Lemma inv_askable d0 d y : inv d0 d -> askable d y.
Proof.
  intros [B F L]. destruct (L y) as [E|E]; [left|now right]. split; [lia|]. rewrite <- E. apply F.
Qed.

Lemma get_der_list_safe d0 c x n : forall i d, 0 <= i -> inv d0 d -> 1 <= sz (ob (dw d) (OD (vslot x))) ->
  safe d0 False (get_der_list c x i n d) (fun l d' => inv d0 d' /\ List.length l = n).
Proof.
  induction n as [|n IH]; intros i d Hi I Hs; cbn [get_der_list].
  - split; [exact I|reflexivity].
  - eapply safe_bind; [apply leaf_der_safe; [apply I|now apply (inv_askable d0)|now right|exact Hi]|].
    intros v d1 [_ A]. pose proof (inv_asked _ _ _ _ I A) as I1.
    eapply safe_bind; [apply IH; [lia|exact I1|]|].
    { rewrite (sz_same d d1); [exact Hs|]. apply (as_others _ _ _ _ A), vslot_not_d. }
    intros l d2 [I2 L]. cbn [ret safe]. split; [exact I2|]. cbn [List.length]. now rewrite L.
Qed.
Lemma get_derivs_safe d0 c x d : inv d0 d ->
  safe d0 False (get_derivs c x d) (fun l d' => inv d0 d' /\ Z.of_nat (List.length l) = sz (ob (dw d) (OD (vslot x)))).
Proof.
  intros I. unfold get_derivs. apply safe_get. unfold ass. destruct (Z.leb_spec 1 (sz (ob (dw d) (OD (vslot x))))) as [L|L].
  - unfold bind at 1. cbn [ret]. eapply safe_weak; [apply get_der_list_safe; [lia|exact I|exact L]|].
    intros l d' [I' E]. split; [exact I'|]. rewrite E, Z2Nat.id; lia.
  - cbn. apply I.
Qed.
